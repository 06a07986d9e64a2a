(** * Selection, validation and common frame of finite-radius waveforms, and the output files

    Source: /repo/scri/extrapolation.py 126-245 (validation, data type), 281-323 (choice of the
    decoder), 418-507 ([read_finite_radius_data]), 509-523 ([set_common_time]) and the parts of
    [extrapolate] at 526-1046 that decide what is extrapolated and where it is written.  Printing,
    plots and the history text are not modelled. *)
From Coq Require Import String Ascii ZArith Reals List Bool.
From Verif Require Import Common Cplx Quat Times_Model Tables_Model Extrap_Model H5_Model Finite_Model.
Import ListNotations.
Open Scope string_scope.

(** ** Data type, lines 217-245 *)
Definition datatype_from_filename (filename : string) : res Z :=
  let base := basename filename in
  let part := lower (match cut "_" base with Some (a, _) => a | None => base end) in
  if contains "hdot" part then Ok hdot
  else if contains "h" part then Ok h
  else if contains "psi4" part then Ok psi4
  else if contains "psi3" part then Ok psi3
  else if contains "psi2" part then Ok psi2
  else if contains "psi1" part then Ok psi1
  else if contains "psi0" part then Ok psi0
  else Err ValueError.

(** ** Validation, lines 126-215 *)
(** An open file: its groups in the order in which [list(f)] gives them, each with its data sets and
    their shapes, in the order of [list(f[name])]. *)
Definition shapes := list (string * list nat).
Definition hfile := list (string * shapes).
Definition member (f : hfile) (name : string) : res shapes :=
  match assoc name f with Some g => Ok g | None => Err KeyError end.
Definition shape_of (g : shapes) (d : string) : res (list nat) :=
  match assoc d g with Some s => Ok s | None => Err KeyError end.
Definition shape_eqb (a b : list nat) : bool :=
  Nat.eqb (List.length a) (List.length b) && forallb (fun p => Nat.eqb (fst p) (snd p)) (combine a b).

(** Lines 190-195, [int(m.group("L")) in LModes] *)
Definition LModes (d : Z) : Z * Z :=
  if ((d =? psi3) || (d =? psi1))%Z then (1, 200)%Z
  else if (d =? psi2)%Z then (0, 200)%Z
  else (2, 200)%Z.
Definition counted (L : Z * Z) (dataset : string) : bool :=
  match search dataset with
  | Some (l, _) => match py_int l with
                   | Ok l => ((fst L <=? l) && (l <? snd L))%Z
                   | Err _ => false            (* not reached: the text consists of digits *)
                   end
  | None => false
  end.
Definition n_modes (L : Z * Z) (g : shapes) : nat := List.length (filter (counted L) (map fst g)).

(** Lines 126-181 *)
Definition validate_single (f : hfile) (name : string) (expected_modes expected_times : nat) (L : Z * Z) : res bool :=
  let? g := member f name in
  let? a := shape_of g "ArealRadius.dat" in
  let? b := shape_of g "AverageLapse.dat" in
  Ok (shape_eqb a [expected_times; 2] && shape_eqb b [expected_times; 2]
      && Nat.eqb (n_modes L g) expected_modes
      && forallb (fun d => negb (matched (fst d)) || shape_eqb (snd d) [expected_times; 3]) g)%nat.

(** Lines 184-215 *)
Definition validate_group (f : hfile) (filename : string) (names : list string) : res bool :=
  let? d := datatype_from_filename filename in
  let L := LModes d in
  match names with
  | [] => Err IndexError
  | n0 :: _ =>
      let? g0 := member f n0 in
      let? a := shape_of g0 "ArealRadius.dat" in
      let? expected_times := match a with [] => Err IndexError | n :: _ => Ok n end in
      let expected_modes := n_modes L g0 in
      let? v := map_res (fun n => validate_single f n expected_modes expected_times L) names in
      Ok (forallb (fun b => b) v)
  end.

(** ** Which decoder, lines 297-323: [fmt] is the "sxs_format" of the JSON file beside the data, [None] if
    there is no such file (a file without an entry for the group raises KeyError and is not modelled).  The
    second test repeats the first list. *)
Definition rpdmb_formats : list string := ["rotating_paired_diff_multishuffle_bzip2"; "rpdmb"; "RPDMB"].
Definition rpxmb_formats : list string := ["rotating_paired_xor_multishuffle_bzip2"; "rpxmb"; "rpxm"; "RPXMB"; "RPXM"].
Inductive decoder := Rpxmb | Rpdmb.
Definition mem (s : string) (l : list string) : bool := existsb (String.eqb s) l.
Definition choose_decoder (fmt : option string) : res decoder :=
  let '(read_rpxmb, read_rpdmb) :=
    match fmt with
    | None => (false, false)
    | Some s => if mem s rpdmb_formats then (false, true)
                else if mem s rpdmb_formats then (true, false) else (false, false)
    end in
  if read_rpxmb then Ok Rpxmb else if read_rpdmb then Ok Rpdmb else Err ValueError.

(** ** Selection, lines 418-476 *)
Inductive radii_arg := Strings (l : list string) | Indices (l : list Z).

(** Lines 438-443: file and group. *)
Definition split_file (filename : string) : res (string * option string) :=
  if contains ".h5" filename && negb (ends_with ".h5" filename) then
    match cut ".h5" filename with
    | Some (a, b) =>
        if contains ".h5" b then Err ValueError
        else Ok (a ++ ".h5", if String.eqb b "/" then None else Some b)
    | None => Err ValueError
    end
  else Ok (filename, None).

(** [re_compile(r"R(?P<r>.*?)\.dir").search(Name)] for names without line breaks: as the middle part is
    arbitrary, a match exists after the first "R" if it exists at all. *)
Definition radius_of (name : string) : option string :=
  match cut "R" name with
  | Some (_, rest) => match cut ".dir" rest with Some (r, _) => Some r | None => None end
  | None => None
  end.
Fixpoint filter_map {A B} (f : A -> option B) (l : list A) : list B :=
  match l with [] => [] | x :: r => match f x with Some y => y :: filter_map f r | None => filter_map f r end end.
(** [WaveformNames.remove("VersionHist.ver")] *)
Fixpoint remove_first (n : string) (l : list string) : list string :=
  match l with [] => [] | x :: r => if String.eqb x n then r else x :: remove_first n r end.
(** Python list indexing. *)
Definition list_get {A} (l : list A) (i : Z) : res A :=
  let n := Z.of_nat (List.length l) in
  let j := if (i <? 0)%Z then (i + n)%Z else i in
  if ((0 <=? j) && (j <? n))%Z
  then match nth_error l (Z.to_nat j) with Some x => Ok x | None => Err IndexError end
  else Err IndexError.

Section Select.
  (** [re_compile(pattern).search(text)] is not [None]. *)
  Variable re_search : string -> string -> bool.

  (** Lines 451-476: names of the waveforms to be read, and the list of radii returned with them.
      [listing] is [list(f)] or [list(f[groupname])]. *)
  Definition select (rotating : bool) (listing : list string) (CoordRadii : radii_arg) : res (list string * list string) :=
    let names := if rotating then listing else remove_first "VersionHist.ver" listing in
    match CoordRadii with
    | Strings [] | Indices [] => Ok (names, filter_map radius_of names)
    | Indices l =>
        let? _ := map_res (list_get names) l in
        Err TypeError                        (* 469-471: the pattern is searched in an integer *)
    | Strings l =>
        Ok (flat_map (fun n => flat_map (fun r => if re_search r n then [n] else []) l) names, l)
    end.
End Select.

(** Lines 418-507.  [read] is [read_finite_radius_waveform] (Finite_Model) by name. *)
Section ReadData.
  Context {W : Type}.
  Variable re_search : string -> string -> bool.
  Variable open_file : string -> option hfile.                         (* h5py.File(filename, "r") *)
  Variable sub_listing : string -> string -> res (list string).       (* list(f[groupname]) *)
  Variable read : string -> option string -> string -> R -> res W.
  Definition read_finite_radius_data (ChMass : R) (filename : string) (CoordRadii : radii_arg) : res (list W * list string) :=
    if Req_EM_T ChMass 0 then Err ValueError else
    let? (file, group) := split_file filename in
    match open_file file with
    | None => Err OSError
    | Some f =>
        let? listing := match group with None => Ok (map fst f) | Some g => sub_listing file g end in
        let? (names, radii) := select re_search (match group with None => false | _ => true end) listing CoordRadii in
        let? _ := match group with
                  | None => let? v := validate_group f file names in if v then Ok Datatypes.tt else Err ValueError
                  | Some _ => Ok Datatypes.tt
                  end in
        let? Ws := map_res (fun n => read file group n ChMass) names in
        Ok (Ws, radii)
    end.
End ReadData.

(** ** Common times, lines 509-518 *)
Open Scope R_scope.
Fixpoint common_times (fuel : nat) (T : list R) (rest : list (list R)) : res (list R) :=
  match rest with
  | [] => Ok T
  | t :: r => let? T' := intersection T t fuel None None None in common_times fuel T' r
  end.
Definition set_common_time (fuel : nat) (times : list (list R)) (min_step earliest latest : R) : res (list R) :=
  match times with
  | [] => Err IndexError
  | t0 :: rest =>
      let? T := intersection [earliest; latest] t0 fuel (Some min_step) (Some earliest) (Some latest) in
      common_times fuel T rest
  end.

(** ** The driver *)
(** Lines 698-705 *)
Definition order_checks (n : nat) (orders : list Z) : res unit :=
  match zmax orders, zmin orders with
  | Some mx, Some mn =>
      if ((Z.of_nat n <=? mx) && (-1 <? mx))%Z then Err ValueError
      else if (mn <? - Z.of_nat n)%Z then Err ValueError else Ok Datatypes.tt
  | _, _ => Err ValueError
  end.

(** Line 708: stable sort of the positions by [float(CoordRadii[k])]. *)
Fixpoint insert_by (key : nat -> R) (k : nat) (l : list nat) : list nat :=
  match l with
  | [] => [k]
  | j :: r => if Rleb (key k) (key j) then k :: l else j :: insert_by key k r
  end.
Definition sort_by (key : nat -> R) (l : list nat) : list nat := fold_right (insert_by key) [] l.

Section Driver.
  Variable to_float : string -> option R.
  (** Lines 707-709: positions in increasing order of radius. *)
  Definition sorted_indices (CoordRadii : list string) : res (list nat) :=
    let? keys := map_res (fun s => match to_float s with Some x => Ok x | None => Err ValueError end) CoordRadii in
    Ok (sort_by (fun k => nth k keys 0) (seq 0 (length CoordRadii))).

  (** Frames of the waveforms: [Inert], or the corotating frame of the waveform read at a position. *)
  Inductive frame_of := Inert | CorotatingWith (i : nat).
  (** Lines 707-715 and 779-786: frames of all waveforms before extrapolation. *)
  Definition rotate_all (CoordRadii : list string) (n : nat) : res (list frame_of) :=
    let? idx := sorted_indices CoordRadii in
    match rev idx with
    | [] => Err IndexError
    | i_outer :: inner =>
        if (i_outer <? n)%nat then
          if forallb (fun i => (i <? n)%nat) inner then
            Ok (map (fun i => if existsb (Nat.eqb i) idx then CorotatingWith i_outer else Inert) (seq 0 n))
          else Err IndexError
        else Err IndexError
    end.

  (** Lines 718-719; [None] is also what a zero is taken for. *)
  Definition alignment_time (given : option R) (t0 t1 : R) : R :=
    match given with
    | None => (t0 + t1) / 2
    | Some a => if Req_EM_T a 0 then (t0 + t1) / 2
                else if Rltb a t0 || Rleb t1 a then (t0 + t1) / 2 else a
    end.
End Driver.

(** ** Output, lines 812-861, for names that do not end in ".dat" and a non-empty directory.  [name N] is
    [OutputDirectory + ExtrapolatedFiles.format(N=N)]. *)
Section Output.
  Variable show : hwave -> string.
  Variable name : Z -> string.
  Fixpoint output (nrar : bool) (d : fs) (i : nat) (l : list (Z * hwave)) : res fs :=
    match l with
    | [] => Ok d
    | (N, w) :: r =>
        let mode := if (i =? 0)%nat then "w"%string else "a"%string in
        let? d' := write_to_h5 show d w (name N) mode [] nrar in
        output nrar d' (S i) r
    end.
End Output.

(** Lines 636-657: a keyword that is not among those taken raises ValueError. *)
Definition known_keywords : list string :=
  ["InputDirectory"; "OutputDirectory"; "DataFile"; "ChMass"; "HorizonsFile"; "CoordRadii"; "ExtrapolationOrders";
   "UseOmega"; "OutputFrame"; "ExtrapolatedFiles"; "DifferenceFiles"; "UseStupidNRARFormat"; "PlotFormat";
   "MinTimeStep"; "EarliestTime"; "LatestTime"; "AlignmentTime"; "NoiseFloor"; "return_finite_radius_waveforms"]%string.
Definition check_keywords (l : list string) : res unit :=
  if forallb (fun k => mem k known_keywords) l then Ok Datatypes.tt else Err ValueError.
