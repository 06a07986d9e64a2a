(** Model of the utilities of extrapolation.py for many extrapolations: [_safe_format] (1055-1076), the four status
    functions (1079-1130), [FindPossibleExtrapolationsToRun] (1132-1168), [RunExtrapolation] (1171-1236) with its files;
    and of [pick_Ch_mass] (7-23). *)
From Coq Require Import String Ascii Reals ZArith List Bool.
From Verif Require Import Common Times_Model Extrap_Model.
Import ListNotations.
Open Scope string_scope.

(** * Templates *)
(** Lines 1070-1076: [Default(keys)], whose missing keys give the key in braces. *)
Fixpoint find_key (keys : list (string * string)) (name : string) : option string :=
  match keys with [] => None | (k, v) :: ks => if k =? name then Some v else find_key ks name end.
Definition is_digit (c : ascii) : bool := (48 <=? nat_of_ascii c)%nat && (nat_of_ascii c <=? 57)%nat.
Fixpoint all_digits (s : string) : bool := match s with EmptyString => true | String c s' => is_digit c && all_digits s' end.
(** [Formatter.get_value]: empty and numeric names are positions in the empty tuple of arguments. *)
Definition field_value (keys : list (string * string)) (name : string) : res string :=
  if all_digits name then Err IndexError
  else Ok match find_key keys name with Some v => v | None => "{" ++ name ++ "}" end.
(** Characters that start attributes, items, conversions, format specifications and nested fields *)
Definition special (c : ascii) : bool := existsb (Ascii.eqb c) ["."; "["; "]"; "!"; ":"; "{"]%char.
(** [Formatter().vformat(s, (), Default(keys))]: [fld] is the part of the field name read so far, or [None] outside of fields.
    Not modelled: fields with attributes, items, conversions, format specifications or nested fields (here [NotImplementedError]). *)
Fixpoint format_from (keys : list (string * string)) (s : string) (fld : option string) : res string :=
  match s with
  | EmptyString => match fld with None => Ok "" | Some _ => Err ValueError end
  | String c s' =>
    match fld with
    | None =>
      if (c =? "{")%char then
        match s' with
        | EmptyString => Err ValueError
        | String d s'' => if (d =? "{")%char then rmap (String "{") (format_from keys s'' None) else format_from keys s' (Some "")
        end
      else if (c =? "}")%char then
        match s' with
        | EmptyString => Err ValueError
        | String d s'' => if (d =? "}")%char then rmap (String "}") (format_from keys s'' None) else Err ValueError
        end
      else rmap (String c) (format_from keys s' None)
    | Some name =>
      if (c =? "}")%char then
        let? v := field_value keys name in
        let? r := format_from keys s' None in Ok (v ++ r)
      else if special c then Err NotImplementedError
      else format_from keys s' (Some (name ++ String c ""))
    end
  end.
Definition safe_format (s : string) (keys : list (string * string)) : res string := format_from keys s None.

(** * Finding the data *)
(** A directory: its files and its subdirectories in the order in which the system lists them (links followed). *)
Inductive tree := Dir (fs : list string) (subs : list (string * tree)).
(** [os.path.join(top, name)] for a name without slash *)
Fixpoint ends_with_slash (s : string) : bool :=
  match s with EmptyString => false | String c EmptyString => (c =? "/")%char | String _ s' => ends_with_slash s' end.
Definition join (top name : string) : string := if ends_with_slash top || (top =? "") then top ++ name else top ++ "/" ++ name.
(** [os.walk], top down: directory and names of its files *)
Fixpoint walk (path : string) (t : tree) : list (string * list string) :=
  match t with Dir fs subs => (path, fs) :: flat_map (fun x => let '(n, s) := x in walk (join path n) s) subs end.
(** Lines 1138, 1142: [search] of [/Lev[0-9]*$]; [$] also matches before a final newline. *)
Fixpoint digits_end (s : string) : bool :=
  match s with EmptyString => true | String c s' => (is_digit c && digits_end s') || ((c =? ascii_of_nat 10)%char && (s' =? "")) end.
Fixpoint lev (s : string) : bool :=
  match s with EmptyString => false | String c s' => (prefix "/Lev" s && digits_end (substring 4 (String.length s - 4) s)) || lev s' end.
(** [s.replace(old, "")]: every occurrence from the left, not overlapping; [skip] counts characters still to be dropped. *)
Fixpoint remove_from (old s : string) (skip : nat) : string :=
  match s with
  | EmptyString => ""
  | String c s' =>
    match skip with
    | S k => remove_from old s' k
    | O => if prefix old s then remove_from old s' (String.length old - 1) else String c (remove_from old s' 0)
    end
  end.
Definition remove_all (old s : string) : string := remove_from old s 0.
(** Lines 1145-1167: the six files, in this order *)
Definition data_files : list string :=
  ["rh_FiniteRadii_CodeUnits.h5"; "rPsi4_FiniteRadii_CodeUnits.h5"; "r2Psi3_FiniteRadii_CodeUnits.h5";
   "r3Psi2_FiniteRadii_CodeUnits.h5"; "r4Psi1_FiniteRadii_CodeUnits.h5"; "r5Psi0_FiniteRadii_CodeUnits.h5"].
Definition listed (name : string) (l : list string) : bool := existsb (String.eqb name) l.
(** Lines 1132-1168 *)
Definition find_possible (top : string) (t : tree) : list (string * string) :=
  flat_map (fun step => if lev (fst step) && listed "metadata.txt" (snd step)
                        then map (fun f => (remove_all (top ++ "/") (fst step), f)) (filter (fun f => listed f (snd step)) data_files) else [])
           (walk top t).

(** * Files of the runs *)
(** Files with their times of modification, directories, and the current directory.  Links and names such as [..] are not modelled. *)
Record world := mkworld { files : string -> option R; dirs : string -> bool; cwd : string }.
Definition resolve (w : world) (p : string) : string := if prefix "/" p then p else cwd w ++ "/" ++ p.
Definition exists_file (w : world) (p : string) : bool := match files w (resolve w p) with Some _ => true | None => false end.
Definition getmtime (w : world) (p : string) : res R := match files w (resolve w p) with Some t => Ok t | None => Err OSError end.
Definition put (w : world) (p : string) (v : option R) : world :=
  mkworld (fun q => if q =? resolve w p then v else files w q) (dirs w) (cwd w).
(** The names of the marker files, e.g. line 1085 *)
Definition marker (kind out sub file : string) : string := out ++ "/" ++ sub ++ "/" ++ kind ++ file.

(** Lines 1079-1088 *)
Definition unstarted (w : world) (out : string) (l : list (string * string)) : list (string * string) :=
  filter (fun p => negb (exists_file w (marker ".started_" out (fst p) (snd p)))) l.
(** Lines 1108-1119 *)
Definition started_but_unfinished (w : world) (out : string) (l : list (string * string)) : list (string * string) :=
  filter (fun p => exists_file w (marker ".started_" out (fst p) (snd p)) && negb (exists_file w (marker ".error_" out (fst p) (snd p)))
                   && negb (exists_file w (marker ".finished_" out (fst p) (snd p)))) l.
(** Lines 1122-1130 *)
Definition errored (w : world) (out : string) (l : list (string * string)) : list (string * string) :=
  filter (fun p => exists_file w (marker ".error_" out (fst p) (snd p))) l.
(** Lines 1091-1105 *)
Fixpoint newer_data (w : world) (inp out : string) (l : list (string * string)) : res (list (string * string)) :=
  match l with
  | [] => Ok []
  | (sub, file) :: l' =>
    if exists_file w (marker ".finished_" out sub file) then
      let? tf := getmtime w (marker ".finished_" out sub file) in
      let? tm := getmtime w (inp ++ "/" ++ sub ++ "/metadata.txt") in
      let? td := getmtime w (inp ++ "/" ++ sub ++ "/" ++ file) in
      let? r := newer_data w inp out l' in
      Ok (if Rltb tf td || Rltb tf tm then (sub, file) :: r else r)
    else newer_data w inp out l'
  end.

(** Opening a file for writing: the directory must exist. *)
Definition write_in (w : world) (dir name : string) (t : R) : res world :=
  if dirs w (resolve w dir) then Ok (put w (dir ++ "/" ++ name) (Some t)) else Err OSError.
Definition remove_if (w : world) (p : string) : world := if exists_file w p then put w p None else w.
Definition chdir (w : world) (d : string) : world := mkworld (files w) (dirs w) (resolve w d).
Definition back (w : world) (d : string) : world := mkworld (files w) (dirs w) d.
(** [DataFile[:-3]] *)
Definition stem (file : string) : string := substring 0 (String.length file - 3) file.
(** Lines 1176-1188: directory and marker files before the script; at time [t].  [makedirs] creates the directory (its parents are not modelled). *)
Definition prepare (w : world) (out sub file : string) (t : R) : res world :=
  let od := out ++ "/" ++ sub in
  let w1 := if dirs w (resolve w od) then w else mkworld (files w) (fun d => (d =? resolve w od) || dirs w d) (cwd w) in
  let? w2 := write_in w1 od (".started_" ++ file) t in
  let w3 := remove_if w2 (od ++ "/" ++ ".error_" ++ file) in
  Ok (remove_if w3 (od ++ "/" ++ ".finished_" ++ file)).
(** Lines 1190-1236: the script is written at time [t1]; the command is any change of the world with its return value, [None] if [call] raises;
    the outcome is recorded at time [t2].  Returns the world afterwards and the value returned or raised.  Messages are assumed to be printed. *)
Definition run_extrapolation (w : world) (out sub file template : string) (t1 t2 : R) (child : world -> world * option Z) : world * res Z :=
  let od := out ++ "/" ++ sub in
  match prepare w out sub file t1 with
  | Err e => (w, Err e)
  | Ok w1 =>
    match write_in w1 od (script_name (stem file)) t1 with
    | Err e => (w1, Err e)
    | Ok w2 =>
      match safe_format template [("DataFile", file); ("Subdirectory", sub)] with
      | Err e => (w2, Err e)
      | Ok _ =>
        let orig := cwd w2 in
        let w3 := chdir w2 od in
        let (w4, code) := child w3 in
        let handler := fun w => match write_in w od (".error_" ++ file) t2 with Ok w' => (back w' orig, Ok 0%Z) | Err e => (back w orig, Err e) end in
        match code with
        | None => handler w4
        | Some code =>
          if (code =? 0)%Z then match write_in w4 od (".finished_" ++ file) t2 with Ok w5 => (back w5 orig, Ok 0%Z) | Err _ => handler w4 end
          else match write_in w4 od (".error_" ++ file) t2 with Ok w5 => (back w5 orig, Ok code) | Err _ => handler w4 end
        end
      end
    end
  end.

(** * The mass of the horizons *)
Open Scope R_scope.
(** Line 20: the sum of two columns, with numpy's rule for arrays of length one *)
Definition add_columns (a b : list R) : res (list R) :=
  if (List.length a =? List.length b)%nat then Ok (map (fun p => fst p + snd p) (combine a b))
  else match a, b with [x], _ => Ok (map (fun y => x + y) b) | _, [y] => Ok (map (fun x => x + y) a) | _, _ => Err ValueError end.
(** numpy.histogram with an integer number of bins: the edges, and the number of values in each bin; every bin but the last is open above. *)
Definition first_edge (xs : list R) : R := let lo := fold_right Rmin (hd 0 xs) xs in let hi := fold_right Rmax (hd 0 xs) xs in if Req_EM_T lo hi then lo - 1 / 2 else lo.
Definition last_edge (xs : list R) : R := let lo := fold_right Rmin (hd 0 xs) xs in let hi := fold_right Rmax (hd 0 xs) xs in if Req_EM_T lo hi then hi + 1 / 2 else hi.
Definition edge (xs : list R) (n k : nat) : R := first_edge xs + INR k * ((last_edge xs - first_edge xs) / INR n).
Definition in_bin (xs : list R) (n k : nat) (x : R) : bool := Rleb (edge xs n k) x && (Rltb x (edge xs n (S k)) || ((S k =? n)%nat && Rleb x (edge xs n n))).
Definition count (xs : list R) (n k : nat) : nat := List.length (filter (in_bin xs n k) xs).
(** numpy's [argmax]: the first position of the largest value *)
Fixpoint argmax_nat (l : list nat) : nat :=
  match l with
  | [] => 0%nat
  | x :: l' => if forallb (fun y => (y <=? x)%nat) l' then 0%nat else S (argmax_nat l')
  end.
(** Lines 20-23 *)
Definition pick_Ch_mass (a b : list R) : res R :=
  let? m := add_columns a b in
  let n := List.length m in
  if (n =? 0)%nat then Err ValueError else Ok (edge m n (argmax_nat (map (count m n) (seq 0 n)))).
