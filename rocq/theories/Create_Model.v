(** * Asymptotic data from waveform files: create_abd_from_h5

    Source: /repo/scri/SpEC/file_io/__init__.py 453-669; asymptotic_bondi_data/__init__.py 45-76 and
    110-131 (constructor, [sigma], [h]).  The readers of the individual files are parameters, except the
    SpECTRE format, which is read here.  The mass is not zero.  Warnings, and the interpolation and the
    frame fixing at the end, are not modelled (only which times are interpolated to). *)
From Coq Require Import String Ascii ZArith Reals List Bool.
From Verif Require Import Common Cplx Times_Model Modes_Model Tables_Model H5_Model Finite_Model Driver_Model.
Import ListNotations.
Open Scope R_scope.

(** A waveform as loaded: times, data, type and units, and its range of ell. *)
Record loaded := mkloaded { l_w : uwave; l_min : Z; l_max : Z }.
(** The result: times, ell_max, and six arrays with a row per time and a column per mode. *)
Record abd := mkabd { a_t : list R; a_L : Z; a_psi0 : list (list C); a_psi1 : list (list C); a_psi2 : list (list C);
  a_psi3 : list (list C); a_psi4 : list (list C); a_sigma : list (list C) }.

(** ** SpECTRE files, lines 527-565 *)
Definition dataset := list (list R).
Definition cce_file := list (string * list (string * dataset)).
(** Lines 534-543: name of the group, suffix of the names of the data sets, radius. *)
Definition spectre_key (keys : list string) (radius : option string) : res (string * string * option string) :=
  match keys with
  | [] => Err UnboundLocalError
  | _ =>
    match find (contains "Spectre") keys with
    | Some x =>
        match cut "R" x with
        | Some (_, b) => Ok (x, ""%string, Some (substring 0 4 (match cut "R" b with Some (c, _) => c | None => b end)))
        | None => Err IndexError
        end
    | None => Ok ("Cce"%string, ".dat"%string, radius)
    end
  end.
(** [row[1:].view(complex)]: consecutive pairs of real columns. *)
Fixpoint complex_view (r : list R) : res (list C) :=
  match r with
  | [] => Ok []
  | [_] => Err ValueError
  | x :: y :: t => let? c := complex_view t in Ok (mkC x y :: c)
  end.
Definition get_key {A} (k : string) (d : list (string * A)) : res A :=
  match assoc k d with Some v => Ok v | None => Err KeyError end.
Definition code_of (label : string) : Z :=
  if String.eqb label "Psi4" then psi4 else if String.eqb label "Psi3" then psi3 else if String.eqb label "Psi2" then psi2
  else if String.eqb label "Psi1" then psi1 else if String.eqb label "Psi0" then psi0 else h.
Definition spectre_labels : list string := ["Psi4"; "Psi3"; "Psi2"; "Psi1"; "Psi0"; "Strain"]%string.
(** Lines 545-565.  [ell_max] for at least three columns. *)
Definition read_spectre (cce : list (string * dataset)) (suffix : string) : res (list (string * loaded)) :=
  let? strain := get_key ("Strain" ++ suffix) cce in
  let time := map (fun r => nth 0 r 0) strain in
  let? idx := spec_monotonic_indices time in
  let? time := take time idx in
  let L := (Z.sqrt ((Z.of_nat (length (nth 0 strain [])) - 1) / 2) - 1)%Z in
  map_res (fun label =>
    let? d := get_key (label ++ suffix) cce in
    let? rows := take d idx in
    let? data := map_res (fun r => complex_view (tl r)) rows in
    if forallb (fun r => (length r =? length (LM_range 0 L))%nat) data
    then Ok (label, mkloaded (mkuwave time data (code_of label) true false) 0 L)
    else Err ValueError) spectre_labels.

(** ** Checks and units, lines 594-629 *)
(** [(a == b).all()] of two arrays; arrays of different lengths raise, except with one element. *)
Definition Reqb (x y : R) : bool := if Req_EM_T x y then true else false.
Definition times_eq (a b : list R) : res bool :=
  if (length a =? length b)%nat then Ok (forallb (fun p => Reqb (fst p) (snd p)) (combine a b))
  else match a, b with
       | [x], _ => Ok (forallb (Reqb x) b)
       | _, [y] => Ok (forallb (fun x => Reqb x y) a)
       | _, _ => Err ValueError
       end.
(** Lines 599-604: the message subscripts a list with a string. *)
Fixpoint check_times (ref : list R) (WMs : list (string * loaded)) : res unit :=
  match WMs with
  | [] => Ok Datatypes.tt
  | (_, x) :: r => let? e := times_eq ref (u_t (l_w x)) in if e then check_times ref r else Err TypeError
  end.
Section Create.
  (** Readers of lines 567-590: format, label and file name. *)
  Variable load : string -> string -> string -> res loaded.
  Variable to_float : string -> option R.

  Definition labels : list string := ["Psi4"; "Psi3"; "Psi2"; "Psi1"; "Psi0"; "h"]%string.
  Definition formats : list string := ["sxs"; "cce"; "rpxmb"; "rpxm"; "rpdmb"; "rpdm"]%string.
  Definition given_labels (kwargs : list (string * string)) : list string :=
    filter (fun l => match assoc l kwargs with Some _ => true | None => false end) labels.
  (** Lines 566-590 *)
  Definition load_all (fmt : string) (kwargs : list (string * string)) : res (list (string * loaded)) :=
    map_res (fun l => let? f := get_key l kwargs in
                      if mem fmt formats then let? x := load fmt l f in Ok (l, x) else Err ValueError)
            (given_labels kwargs).

  (** Lines 606-618 for one waveform; [radius] only in the SpECTRE format. *)
  Definition adjust (ch_mass : option R) (radius : option (option string)) (x : loaded) : res loaded :=
    let? w := match ch_mass with Some M => make_variable_dimensionless (l_w x) M | None => Ok (l_w x) end in
    let? t := match radius with
              | None => Ok (u_t w)
              | Some None => Err TypeError
              | Some (Some s) => match to_float s with Some r => Ok (map (fun t => t - r) (u_t w)) | None => Err ValueError end
              end in
    let? mask := index_is_monotonic t in
    if (length mask =? length (u_data w))%nat
    then Ok (mkloaded (mkuwave (mask_select mask t) (mask_select mask (u_data w)) (u_type w) (u_r w) (u_m w)) (l_min x) (l_max x))
    else Err IndexError.

  (** ** Filling, lines 621-667 *)
  (** Lines 628-632, for the fields psi0, ..., psi4 and the strain. *)
  Definition conversion_factor (convention : string) : res (list R) :=
    if String.eqb convention "moreschi-boyle" then Ok [1; 1; 1; 1; 1; 1]
    else if String.eqb convention "spec" then Ok [2; - sqrt 2; 1; -1 / sqrt 2; 1 / 2; 1 / 2]
    else Err KeyError.
  (** [a[:, k:] = rows] for a zero array [a] of [n] columns, with broadcasting. *)
  Definition fill_row (n k : nat) (row : list C) : res (list C) :=
    let width := (n - k)%nat in
    if (length row =? width)%nat then Ok (repeat C0 (Nat.min k n) ++ row)%list
    else match row with
         | [c] => Ok (repeat C0 (Nat.min k n) ++ repeat c width)%list
         | _ => Err ValueError
         end.
  Definition fill_rows (T n k : nat) (rows : list (list C)) : res (list (list C)) :=
    let? rows := if (length rows =? T)%nat then Ok rows
                 else match rows with [r] => Ok (repeat r T) | _ => Err ValueError end in
    map_res (fill_row n k) rows.
  Definition zeros2 (T n : nat) : list (list C) := repeat (repeat C0 n) T.
  Definition field (conv : list R) (i : nat) (T : nat) (L : Z) (o : option loaded) : res (list (list C)) :=
    let n := length (LM_range 0 L) in
    match o with
    | None => Ok (zeros2 T n)
    | Some x => fill_rows T n (Z.to_nat (LM_index (l_min x) (- l_min x) 0)) (map (map (Cscale (nth i conv 0))) (u_data (l_w x)))
    end.
  (** [Modes.bar] on a row of spin weight [s] with all modes from ell = 0. *)
  Definition bar_row (s L : Z) (row : list C) : list C :=
    map (fun lm => Cscale (sgn (s + snd lm)) (Conj (nth (Z.to_nat (LM_index (fst lm) (- snd lm) 0)) row C0))) (LM_range 0 L).

  (** Lines 592-667 *)
  Definition assemble (convention : string) (ch_mass : option R) (radius : option (option string))
      (WMs : list (string * loaded)) : res abd :=
    match WMs with
    | [] => Err ValueError
    | (_, ref) :: _ =>
        let? _ := check_times (u_t (l_w ref)) WMs in
        let? WMs := map_res (fun p => let? x := adjust ch_mass radius (snd p) in Ok (fst p, x)) WMs in
        match WMs with
        | [] => Err ValueError
        | (_, ref) :: _ =>
            let t := u_t (l_w ref) in
            let L := l_max ref in
            let? conv := conversion_factor convention in
            let get l := assoc l WMs in
            let? p4 := field conv 4 (length t) L (get "Psi4"%string) in
            let? p3 := field conv 3 (length t) L (get "Psi3"%string) in
            let? p2 := field conv 2 (length t) L (get "Psi2"%string) in
            let? p1 := field conv 1 (length t) L (get "Psi1"%string) in
            let? p0 := field conv 0 (length t) L (get "Psi0"%string) in
            let strain := match get "h"%string with Some x => Some x | None => get "Strain"%string end in
            let? s := field conv 5 (length t) L strain in
            Ok (mkabd t L p0 p1 p2 p3 p4 (match strain with None => s | Some _ => map (bar_row 2 L) s end))
        end
    end.

  (** Lines 521-667 for the formats that are not read here; [fmt] and [convention] are in lower case. *)
  Definition create (fmt convention : string) (ch_mass : option R) (kwargs : list (string * string)) : res abd :=
    let? WMs := load_all fmt kwargs in assemble convention ch_mass None WMs.
  (** ... and for the SpECTRE format. *)
  Definition create_spectre (convention : string) (ch_mass : option R) (radius : option string) (f : cce_file) : res abd :=
    let? (key, suffix, radius) := spectre_key (map fst f) radius in
    let? cce := get_key key f in
    let? WMs := read_spectre cce suffix in
    assemble convention ch_mass (Some radius) WMs.
End Create.

(** The strain of an object, asymptotic_bondi_data/__init__.py 120-131: 2 sigma-bar without ell < 2. *)
Definition strain_of (a : abd) : list (list C) := map (fun r => skipn 4 (map (Cscale 2) (bar_row 2 (a_L a) r))) (a_sigma a).

(** ** Times to interpolate to, lines 658-661 *)
(** [argmin]: position of the first least element. *)
Fixpoint argmin_from (best : R) (besti i : nat) (l : list R) : nat :=
  match l with [] => besti | x :: r => if Rltb x best then argmin_from x i (S i) r else argmin_from best besti (S i) r end.
Definition argmin (l : list R) : res nat := match l with [] => Err ValueError | x :: r => Ok (argmin_from x 0 1 r) end.
Definition interpolation_times (ti : list R) (t : list R) : res (list R) :=
  let? i := argmin (map (fun x => Rabs (x - nth 0 t 0)) ti) in
  let? j := argmin (map (fun x => Rabs (x - last t 0)) ti) in
  Ok (firstn (j - (i + 1)) (skipn (i + 1) ti)).
