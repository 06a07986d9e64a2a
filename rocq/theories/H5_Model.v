(** * Waveform files in NRAR / SXS format: write_to_h5 and read_from_h5

    Sources: scri/SpEC/file_io/__init__.py 81-330 ([read_from_h5]) and 333-418 ([write_to_h5]);
    scri/waveform_base.py 487-516 ([descriptor_string]), 706-729 ([_append_history]).
    HDF5 itself is modelled by trees of named attributes and data sets whose numbers are stored
    exactly.  Compression filters, data-set attributes ("ell", "m"), the metadata file (lines 139-147)
    and warnings are not modelled. *)
From Coq Require Import String Ascii ZArith Reals List Bool DecimalString.
From Verif Require Import Common Cplx Quat Times_Model Modes_Model Tables_Model Validity_Model.
Import ListNotations.
Open Scope string_scope.

(** ** Strings *)
(** The rest of [s] after the prefix [p]. *)
Fixpoint strip (p s : string) : option string :=
  match p, s with
  | EmptyString, _ => Some s
  | String a p', String b s' => if Ascii.eqb a b then strip p' s' else None
  | _, _ => None
  end.
Fixpoint take_while (f : ascii -> bool) (s : string) : string * string :=
  match s with
  | String c s' => if f c then let (a, b) := take_while f s' in (String c a, b) else (EmptyString, s)
  | EmptyString => (EmptyString, EmptyString)
  end.
Definition is_empty (s : string) : bool := match s with EmptyString => true | _ => false end.
(** Text before and after the first occurrence of [p]. *)
Fixpoint cut (p s : string) : option (string * string) :=
  match strip p s with
  | Some r => Some (EmptyString, r)
  | None => match s with
            | EmptyString => None
            | String c s' => match cut p s' with Some (a, b) => Some (String c a, b) | None => None end
            end
  end.
(** Text before and after the last occurrence of [p]: [s.rsplit(p, 1)]. *)
Fixpoint rcut (p s : string) : option (string * string) :=
  match s with
  | EmptyString => match strip p s with Some r => Some (EmptyString, r) | None => None end
  | String c s' =>
      match rcut p s' with
      | Some (a, b) => Some (String c a, b)
      | None => match strip p s with Some r => Some (EmptyString, r) | None => None end
      end
  end.
Definition contains (p s : string) : bool := match cut p s with Some _ => true | None => false end.
Definition ends_with (p s : string) : bool :=
  match rcut p s with Some (_, EmptyString) => true | _ => false end.
(** Pieces between occurrences of the single character [d]: [s.split(d)]. *)
Fixpoint pieces (d : ascii) (s : string) : list string :=
  match s with
  | EmptyString => [EmptyString]
  | String c s' =>
      if Ascii.eqb c d then EmptyString :: pieces d s'
      else match pieces d s' with x :: r => String c x :: r | [] => [String c EmptyString] end
  end.
Definition newline : ascii := ascii_of_nat 10.
Definition lines (s : string) : list string := pieces newline s.
Definition nl : string := String newline EmptyString.
Definition slash : ascii := ascii_of_nat 47.
Fixpoint lower (s : string) : string :=
  match s with
  | EmptyString => EmptyString
  | String c s' =>
      let n := nat_of_ascii c in
      String (if (65 <=? n)%nat && (n <=? 90)%nat then ascii_of_nat (n + 32) else c) (lower s')
  end.
(** [e.encode("ascii", "ignore")] *)
Definition is_ascii (c : ascii) : bool := (nat_of_ascii c <? 128)%nat.
Fixpoint ascii_ignore (s : string) : string :=
  match s with
  | EmptyString => EmptyString
  | String c s' => if is_ascii c then String c (ascii_ignore s') else ascii_ignore s'
  end.
Fixpoint all_ascii (s : string) : bool :=
  match s with EmptyString => true | String c s' => is_ascii c && all_ascii s' end.

(** [str(z)] and [int(s)] for the strings matched by [[-+0-9]+]. *)
Definition dec (z : Z) : string := NilZero.string_of_int (Z.to_int z).
Definition plus_dec (z : Z) : string := if (z <? 0)%Z then dec z else "+" ++ dec z.
Definition nat_digits (s : string) : res Z :=
  match NilZero.uint_of_string s with Some u => Ok (Z.of_uint u) | None => Err ValueError end.
Definition py_int (s : string) : res Z :=
  match s with
  | String c r =>
      if Ascii.eqb c "+"%char then nat_digits r
      else if Ascii.eqb c "-"%char then rmap Z.opp (nat_digits r) else nat_digits s
  | EmptyString => Err ValueError
  end.

(** ** Names of data sets, lines 118 and 400 *)
Definition is_digit (c : ascii) : bool := (48 <=? nat_of_ascii c)%nat && (nat_of_ascii c <=? 57)%nat.
Definition is_signed (c : ascii) : bool := is_digit c || Ascii.eqb c "+"%char || Ascii.eqb c "-"%char.
(** [Y_l([0-9]+)_m([-+0-9]+)\.dat] at the beginning of [s]; the character classes are disjoint from
    what must follow them, so that no backtracking takes place. *)
Definition match_at (s : string) : option (string * string) :=
  match strip "Y_l" s with
  | None => None
  | Some s1 =>
      let (L, s2) := take_while is_digit s1 in
      if is_empty L then None
      else match strip "_m" s2 with
           | None => None
           | Some s3 =>
               let (M, s4) := take_while is_signed s3 in
               if is_empty M then None
               else match strip ".dat" s4 with Some _ => Some (L, M) | None => None end
           end
  end.
(** [pattern_Ylm.search] *)
Fixpoint search (s : string) : option (string * string) :=
  match match_at s with
  | Some r => Some r
  | None => match s with EmptyString => None | String _ s' => search s' end
  end.
Definition mode_name (lm : Z * Z) : string := "Y_l" ++ dec (fst lm) ++ "_m" ++ dec (snd lm) ++ ".dat".

(** ** Files *)
Inductive aval : Type := AInt (z : Z) | AStr (s : string) | AVec (v : list R).
Inductive node : Type :=
  | Text (s : string)
  | Pairs (l : list (string * string))
  | Table (rows : list (R * R * R))      (* time, real part, imaginary part *)
  | Quats (l : list quat)
  | NoData                               (* a scalar data set, [shape=()] *)
  | Times (l : list R)
  | Column (l : list C)
  | Grp (attrs : list (string * aval)) (kids : list (string * node)).
Record group := mkgroup { g_attrs : list (string * aval); g_kids : list (string * node) }.
Definition empty_group : group := mkgroup [] [].

Fixpoint assoc {A} (n : string) (l : list (string * A)) : option A :=
  match l with [] => None | (k, v) :: r => if String.eqb k n then Some v else assoc n r end.
(** [attrs[n] = v] *)
Fixpoint put {A} (n : string) (v : A) (l : list (string * A)) : list (string * A) :=
  match l with [] => [(n, v)] | (k, u) :: r => if String.eqb k n then (n, v) :: r else (k, u) :: put n v r end.
Fixpoint drop {A} (n : string) (l : list (string * A)) : list (string * A) :=
  match l with [] => [] | (k, u) :: r => if String.eqb k n then drop n r else (k, u) :: drop n r end.
(** [create_dataset(n, ...)]: an existing name is an error. *)
Definition create {A} (n : string) (v : A) (l : list (string * A)) : res (list (string * A)) :=
  match assoc n l with Some _ => Err ValueError | None => Ok (l ++ [(n, v)])%list end.

(** Components of a path inside a file; repeated slashes are ignored. *)
Definition components (s : string) : list string := filter (fun x => negb (is_empty x)) (pieces slash s).
(** [create_group(path)] followed by filling the new group with [g]; missing parents are created. *)
Fixpoint put_at (p : list string) (g : group) (kids : list (string * node)) : res (list (string * node)) :=
  match p with
  | [] => Err ValueError
  | [n] => create n (Grp (g_attrs g) (g_kids g)) kids
  | n :: r =>
      match assoc n kids with
      | None => let? k := put_at r g [] in Ok (kids ++ [(n, Grp [] k)])%list
      | Some (Grp a k) => let? k' := put_at r g k in Ok (put n (Grp a k') kids)
      | Some _ => Err ValueError
      end
  end.
(** [f_h5[path]]; a data set in place of a group is not distinguished from a missing one except by
    the error. *)
Fixpoint lookup (p : list string) (g : group) : res group :=
  match p with
  | [] => Ok g
  | n :: r =>
      match assoc n (g_kids g) with
      | None => Err KeyError
      | Some (Grp a k) => lookup r (mkgroup a k)
      | Some _ => Err TypeError
      end
  end.

(** Files by name. *)
Definition fs := list (string * group).

(** ** Waveforms *)
Record hwave := mkhwave {
  w_times : list R; w_rows : list (list C); w_n_modes : nat; w_ell_min : Z; w_ell_max : Z;
  w_dataType : Z; w_frameType : Z; w_r : bool; w_m : bool; w_quats : list quat;
  w_history : list string; w_versions : list (string * string);
  w_space : option (list R); w_boost : option (list R) }.

(** __init__.py 79 *)
Definition DataNames : list string :=
  ["UnknownDataType"; "Psi0"; "Psi1"; "Psi2"; "Psi3"; "Psi4"; "sigma"; "h"; "hdot"; "news"; "psin"].
Definition data_name (d : Z) : res string :=
  let? i := py_get DataType d in Ok (nth (Z.to_nat i) DataNames "").

(** waveform_base.py 487-516 *)
Definition descriptor_string (d : Z) (r m : bool) : res string :=
  let? name := data_name d in
  if (d =? UnknownDataType)%Z then Ok name
  else
    let? rs := py_get RScaling d in
    let? ms := py_get MScaling d in
    let descriptor := if r then (if (rs =? 1)%Z then "r" else if (1 <? rs)%Z then "r" ++ dec rs else "") else "" in
    if m then
      let e := (ms - (if r then rs else 0))%Z in
      Ok (if (e <? -1)%Z then descriptor ++ name ++ "OverM" ++ dec (- e)
          else if (e =? -1)%Z then descriptor ++ name ++ "OverM"
          else if (e =? 0)%Z then descriptor ++ name
          else if (e =? 1)%Z then descriptor ++ "M" ++ name
          else descriptor ++ "M" ++ dec e ++ name)
    else Ok (descriptor ++ name).

(** ** File names *)
(** [posixpath.split]: everything up to and including the last slash, and the rest. *)
Fixpoint split_last (s : string) : string * string :=
  match s with
  | EmptyString => (EmptyString, EmptyString)
  | String c s' =>
      let (a, b) := split_last s' in
      if is_empty a && negb (Ascii.eqb c slash) then (EmptyString, String c b) else (String c a, b)
  end.
Fixpoint all_slashes (s : string) : bool :=
  match s with EmptyString => true | String c s' => Ascii.eqb c slash && all_slashes s' end.
Fixpoint rstrip_slashes (s : string) : string :=
  match s with
  | EmptyString => EmptyString
  | String c s' => if all_slashes s then EmptyString else String c (rstrip_slashes s')
  end.
Definition dirname (s : string) : string :=
  let h := fst (split_last s) in if all_slashes h then h else rstrip_slashes h.
Definition basename (s : string) : string := snd (split_last s).
(** [os.path.join(d, b)] for relative [b] *)
Definition path_join (d b : string) : string :=
  if is_empty d then b
  else if all_slashes d then d ++ b else d ++ "/" ++ b.

(** Lines 352-361: file to be written and group within it. *)
Definition write_target (desc file_name : string) : res (string * string) :=
  let? (f, group) :=
    if contains ".h5" file_name && negb (ends_with ".h5" file_name) then
      match cut ".h5" file_name with
      | Some (a, b) => if contains ".h5" b then Err ValueError else Ok (a ++ ".h5", b)
      | None => Err ValueError
      end
    else Ok (file_name, "") in
  let base_name := desc ++ "_" ++ basename f in
  Ok (if is_empty (dirname f) then base_name else path_join (dirname f) base_name, group).
(** Lines 123-128 *)
Definition read_target (file_name : string) : string * string :=
  match rcut ".h5" file_name with
  | Some (a, b) => (a ++ ".h5", b)
  | None => (file_name, "")
  end.

(** ** Writing *)
(** [h5py.File(name, mode)] *)
Definition open_for_write (mode : string) (old : option group) : res group :=
  if String.eqb mode "w" then Ok empty_group
  else if String.eqb mode "a" then Ok (match old with Some g => g | None => empty_group end)
  else if String.eqb mode "r+" then match old with Some g => Ok g | None => Err OSError end
  else if String.eqb mode "w-" || String.eqb mode "x"
       then match old with Some _ => Err OSError | None => Ok empty_group end
  else if String.eqb mode "r" then match old with Some _ => Err ValueError | None => Err OSError end
  else Err ValueError.

Fixpoint join (sep : string) (l : list string) : string :=
  match l with [] => "" | [x] => x | x :: r => x ++ sep ++ join sep r end.

Definition column (i : nat) (rows : list (list C)) : list C := map (fun r => nth i r C0) rows.
(** Lines 398-402 *)
Definition table (ts : list R) (c : list C) : node := Table (map (fun p => (fst p, re (snd p), im (snd p))) (combine ts c)).
Fixpoint write_modes (mk : Z * Z -> string) (mkd : nat -> node) (LM : list (Z * Z)) (is : list nat)
    (kids : list (string * node)) : res (list (string * node)) :=
  match is with
  | [] => Ok kids
  | i :: r =>
      match nth_error LM i with
      | None => Err IndexError
      | Some lm => let? k := create (mk lm) (mkd i) kids in write_modes mk mkd LM r k
      end
  end.
Fixpoint put_all (l : list (string * aval)) (a : list (string * aval)) : list (string * aval) :=
  match l with [] => a | (k, v) :: r => put_all r (put k v a) end.

Section Files.
  (** [str(w)], and the first lines of a new waveform's history. *)
  Variable show : hwave -> string.
  Variable born : string -> list string.
  (** [list(f)] enumerates the names in an order of its own. *)
  Variable listing : list string -> list string.
  (** Array found by the pattern ['name': array(...)] in the history (lines 297-303, 307-313). *)
  Variable from_history : string -> string -> option (list R).
  (** The library calls left open in Validity_Model. *)
  Variable as_quat_array : arr -> option attr.
  Variable diff_nd : arr -> res bool.

  (** Lines 376-416: fill group [g]. *)
  Definition fill (w : hwave) (file : string) (attributes : list (string * aval)) (nrar : bool) (g : group) : res group :=
    let text := join nl (w_history w) ++ nl ++ nl ++ "write_to_h5(" ++ show w ++ ", " ++ file ++ ")" ++ nl in
    let a := put "OutputFormatVersion" (AStr "scri.SpEC") (g_attrs g) in
    let? k := create "History.txt" (Text text) (g_kids g) in
    let a := put "FrameType" (AInt (w_frameType w)) a in
    let? code := waveforms_to_GWFrames (w_dataType w) in
    let a := put "DataType" (AInt code) a in
    let a := put "RIsScaledOut" (AInt (if w_r w then 1 else 0)) a in
    let a := put "MIsScaledOut" (AInt (if w_m w then 1 else 0)) a in
    let? k := match w_versions w with
              | [] => Ok k
              | v => create "VersionHist.ver" (Pairs (map (fun hm => (ascii_ignore (fst hm), ascii_ignore (snd hm))) v)) k
              end in
    let a := put_all attributes a in
    let LM := LM_range (w_ell_min w) (w_ell_max w) in
    let? k :=
      if nrar then
        write_modes mode_name (fun i => table (w_times w) (column i (w_rows w))) LM (seq 0 (w_n_modes w)) k
      else
        let? k := create "Time" (Times (w_times w)) k in
        let? k := create "Frame" (match w_quats w with [] => NoData | q => Quats q end) k in
        let? d := write_modes (fun lm => "l" ++ dec (fst lm) ++ "_m" ++ plus_dec (snd lm))
                    (fun i => Column (column i (w_rows w))) LM (seq 0 (w_n_modes w)) [] in
        create "Data" (Grp [] d) k in
    Ok (mkgroup a k).

  (** Lines 333-418.  After an error the contents of the file are not described. *)
  Definition write_to_h5 (d : fs) (w : hwave) (file_name mode : string) (attributes : list (string * aval)) (nrar : bool) : res fs :=
    let? desc := descriptor_string (w_dataType w) (w_r w) (w_m w) in
    let? (file, group) := write_target desc file_name in
    let? f := open_for_write mode (assoc file d) in
    let? f' :=
      if is_empty group then fill w file attributes nrar f
      else
        let? g := fill w file attributes nrar empty_group in
        let? k := put_at (components group) g (g_kids f) in
        Ok (mkgroup (g_attrs f) k) in
    Ok (put file f' d).

  (** ** Reading *)
  Record kwargs := mkkwargs { k_frameType : option Z; k_dataType : option Z; k_r : option bool; k_m : option bool }.

  Definition as_int (a : aval) : res Z :=
    match a with AInt z => Ok z | AStr s => py_int s | AVec _ => Err TypeError end.
  Definition as_bool (a : aval) : res bool :=
    match a with AInt z => Ok (negb (z =? 0)%Z) | AStr s => Ok (negb (is_empty s)) | AVec _ => Err ValueError end.
  (** A value taken from an attribute, with [other] when the lookup or the conversion raises KeyError. *)
  Definition or_else {A} (x : res A) (other : res A) : res A :=
    match x with Err KeyError => other | _ => x end.
  Definition get_attr (n : string) (g : group) : res aval :=
    match assoc n (g_attrs g) with Some a => Ok a | None => Err KeyError end.

  (** Lines 195-213: guess of the data type from the file name. *)
  Definition guess_type (file : string) : Z :=
    match find (fun p => contains (lower (snd p)) (lower file)) (List.rev (combine DataType DataNames)) with
    | Some (i, _) => i
    | None => UnknownDataType
    end.

  Definition frame_type (g : group) (kw : kwargs) : res Z :=
    or_else (let? a := get_attr "FrameType" g in as_int a)
            (Ok (match k_frameType kw with Some z => z | None => 1%Z end)).
  Definition data_type (g : group) (kw : kwargs) (file : string) : res Z :=
    or_else (let? a := get_attr "DataType" g in let? c := as_int a in GWFrames_to_waveforms c)
            (Ok (match k_dataType kw with Some z => z | None => guess_type file end)).
  Definition scaled (n : string) (g : group) (k : option bool) : res bool :=
    or_else (let? a := get_attr n g in as_bool a) (Ok (match k with Some b => b | None => true end)).

  (** Lines 236-272: names of mode data sets in order of (ell, m). *)
  Definition key (n : string) : res (Z * Z) :=
    match search n with
    | None => Err ValueError
    | Some (L, M) => let? l := py_int L in let? m := py_int M in Ok (l, m)
    end.
  Definition lex_leb (a b : Z * Z) : bool := (fst a <? fst b)%Z || ((fst a =? fst b)%Z && (snd a <=? snd b)%Z).
  Fixpoint insert (x : (Z * Z) * string) (l : list ((Z * Z) * string)) : list ((Z * Z) * string) :=
    match l with
    | [] => [x]
    | y :: r => if lex_leb (fst x) (fst y) then x :: l else y :: insert x r
    end.
  Definition sort (l : list ((Z * Z) * string)) : list ((Z * Z) * string) := fold_right insert [] l.
  Fixpoint map_res {A B} (f : A -> res B) (l : list A) : res (list B) :=
    match l with [] => Ok [] | x :: r => let? y := f x in let? t := map_res f r in Ok (y :: t) end.
  Definition matched (n : string) : bool := match search n with Some _ => true | None => false end.

  Definition mode_sets (kids : list (string * node)) : res (list ((Z * Z) * string) * Z * Z) :=
    let names := filter matched (listing (map fst kids)) in
    match names with
    | [] => Err ValueError
    | _ =>
        let? keyed := map_res (fun n => let? k := key n in Ok (k, n)) names in
        let sorted := sort keyed in
        let LM := map fst sorted in
        let lo := fold_right Z.min (fst (hd (0, 0)%Z LM)) (map fst LM) in
        let hi := fold_right Z.max (fst (hd (0, 0)%Z LM)) (map fst LM) in
        if LM_eqb LM (LM_range lo hi) then Ok (sorted, lo, hi) else Err ValueError
    end.

  (** Rows of a mode data set.  A data set written from an empty list has no columns, so that
      [[:, 0]] fails; data sets with another number of columns are not modelled. *)
  Definition rows_of (kids : list (string * node)) (n : string) : res (list (R * R * R)) :=
    match assoc n kids with
    | Some (Table []) => Err ValueError
    | Some (Table r) => Ok r
    | Some _ => Err TypeError
    | None => Err KeyError
    end.

  (** Lines 274-289 *)
  Definition read_modes (kids : list (string * node)) (names : list string) : res (list R * list (list C)) :=
    match names with
    | [] => Err IndexError
    | n0 :: _ =>
        let? first := rows_of kids n0 in
        let T := map (fun p => fst (fst p)) first in
        let? mono := index_is_monotonic T in
        let t := mask_select mono T in
        let? cols := map_res (fun n =>
            let? rows := rows_of kids n in
            if Nat.eqb (length rows) (length t) then
              if Nat.eqb (length mono) (length rows)
              then Ok (mask_select mono (map (fun p => mkC (snd (fst p)) (snd p)) rows))
              else Err IndexError
            else Err ValueError) names in
        Ok (t, map (fun k => map (fun c => nth k c C0) cols) (seq 0 (length t)))
    end.

  (** Line 320: only the checks of the mode class count, see Validity_Model. *)
  Definition embed (w : hwave) : modes :=
    mkmodes
      (mkwave (Arr (mkarr DFloat [length (w_times w)] (map Fin (w_times w))))
              (Arr (mkarr DQuat [length (w_quats w)] (map (fun q => Fin (qw q)) (w_quats w))))
              (Arr (mkarr DComplex [length (w_rows w); w_n_modes w] (map (fun c => Fin (re c)) (concat (w_rows w)))))
              (HList (length (w_history w)) true) (PyInt (w_frameType w)) (PyInt (w_dataType w)) true true true)
      (true, true) (w_ell_min w) (w_ell_max w) (LM_range (w_ell_min w) (w_ell_max w)).

  (** Lines 292-313 *)
  Definition com_vector (n : string) (g : group) (old : option string) : option (list R) :=
    match assoc n (g_attrs g) with
    | Some (AVec v) => Some v
    | Some _ => None
    | None => match old with Some s => from_history n s | None => None end
    end.
  (** Lines 315-322: looked up in the file, not in the group; undecodable text is skipped. *)
  Definition versions (f : group) : list (string * string) :=
    match assoc "VersionHist.ver" (g_kids f) with
    | Some (Pairs l) => if forallb (fun hm => all_ascii (fst hm) && all_ascii (snd hm)) l then l else []
    | _ => []
    end.
  (** waveform_base.py 706-729 *)
  Definition depth (n : nat) (s : string) : string := Nat.iter n (fun x => "# " ++ x) s.

  (** Lines 81-330 *)
  Definition read_from_h5 (d : fs) (file_name : string) (kw : kwargs) : res hwave :=
    let (file, root) := read_target file_name in
    let? f := match assoc file d with Some g => Ok g | None => Err OSError end in
    let? g := if is_empty root then Ok f else lookup (components root) f in
    let? old := match assoc "History.txt" (g_kids g) with
                | None => Ok None
                | Some (Text s) => Ok (Some s)
                | Some _ => Err TypeError
                end in
    let history := (born file_name ++
      match old with
      | None => []
      | Some s => [""] ++ [depth 2 "<previous_history>"] ++ map (depth 1) (lines s) ++ [depth 2 "</previous_history>"]
      end)%list in
    let? quats := match assoc "Frame" (g_kids g) with
                  | None => Ok []
                  | Some (Quats q) => Ok q
                  | Some NoData => Err IndexError
                  | Some _ => Err ValueError
                  end in
    let? ft := frame_type g kw in
    let? dt := data_type g kw file in
    let? r := scaled "RIsScaledOut" g (k_r kw) in
    let? m := scaled "MIsScaledOut" g (k_m kw) in
    let? (sorted, lo, hi) := mode_sets (g_kids g) in
    let? (t, rows) := read_modes (g_kids g) (map snd sorted) in
    let w := mkhwave t rows (length sorted) lo hi dt ft r m quats history (versions f)
               (com_vector "space_translation" g old) (com_vector "boost_velocity" g old) in
    let? ok := rmap fst (modes_ensure_validity as_quat_array diff_nd true false (embed w)) in
    if ok then Ok w else Err ValueError.
End Files.
