(** * Conversion between waveforms of scri and of the sxs package: from_sxs, to_sxs

    Source: /repo/scri/waveform_modes.py 142-259; waveform_base.py 177-275 (constructor) and 278-411
    (validity); __init__.py 76-80 (names).  The other package's object is a record of the metadata given to
    it; its [frame] defaults to one unit rotor.  Arrays of rotors carry the shapes that occur.
    Construction with [override_exception_from_invalidity] is not modelled. *)
From Coq Require Import String Ascii ZArith Reals List Bool.
From Verif Require Import Common Cplx Quat Times_Model Modes_Model Tables_Model H5_Model.
Import ListNotations.
Open Scope R_scope.

(** __init__.py 77. *)
Definition FrameNames : list string :=
  ["UnknownFrameType"; "Inertial"; "Coprecessing"; "Coorbital"; "Corotating"]%string.

(** Arrays of floats holding rotors: shape (n, 4), or shape (1, n, 4). *)
Inductive farr := A2 (l : list quat) | A3 (l : list quat).
(** The [frame] of a waveform: a vector of rotors, a 0-dimensional array, or a bare rotor. *)
Inductive frm := F1 (l : list quat) | F0 (q : quat) | FS (q : quat).
(** History in the metadata of the other package: text, or a reference to a list. *)
Inductive mhist := HText (s : string) | HList (loc : nat).
Definition store := nat -> list string.
Definition sset (st : store) (k : nat) (v : list string) : store := fun j => if Nat.eqb j k then v else st j.

Inductive modification :=
| MExtrapolate (radii : list R)
| MTransform (space_translation boost_velocity : list R).
Record meta := mkmeta { x_t : list R; x_data : list (list C); x_dtype : string; x_ftype : string;
  x_hist : option mhist; x_vh : option (list (string * string)); x_r : option bool; x_m : option bool;
  x_min : Z; x_max : Z; x_frame : option farr; x_spin : option Z; x_mods : list modification }.
Record swave := mkswave { s_t : list R; s_frame : frm; s_data : list (list C); s_hist : nat;
  s_vh : list (string * string); s_ftype : Z; s_dtype : Z; s_r : bool; s_m : bool; s_min : Z; s_max : Z;
  s_radii : option (list R); s_trans : option (list R); s_boost : option (list R) }.

(** Python's [names[i]]. *)
Definition name_at (names : list string) (i : Z) : res string :=
  let n := Z.of_nat (length names) in
  if (0 <=? i)%Z && (i <? n)%Z then Ok (nth (Z.to_nat i) names ""%string)
  else if (- n <=? i)%Z && (i <? 0)%Z then Ok (nth (Z.to_nat (n + i)) names ""%string)
  else Err IndexError.
(** Lines 158-166: [[n.lower() for n in names].index(s.lower())], 0 when not found. *)
Fixpoint position (names : list string) (s : string) (k : Z) : option Z :=
  match names with
  | [] => None
  | n :: r => if String.eqb (lower n) (lower s) then Some k else position r s (k + 1)%Z
  end.
Definition type_code (names : list string) (s : string) : Z :=
  match position names s 0 with Some k => k | None => 0%Z end.

(** ** to_sxs, lines 205-259 *)
Definition frame_size (f : frm) : nat := match f with F1 l => length l | F0 _ | FS _ => 1 end.
Definition frame_floats (f : frm) : farr := match f with F1 l => A2 l | F0 q | FS q => A2 [q] end.
(** [quaternionic.array([as_float_array(frame)])] of a frame of size one: one more axis in front. *)
Definition frame_wrapped (f : frm) : farr := match f with F1 l => A3 l | F0 q | FS q => A2 [q] end.
Definition frame_out (f : frm) (n_times : nat) : res (option farr) :=
  if (frame_size f =? 1)%nat then Ok (Some (frame_wrapped f))
  else if (frame_size f =? n_times)%nat then Ok (Some (frame_floats f))
  else if (0 <? frame_size f)%nat then Err ValueError
  else Ok None.
Definition zeros3 : list R := [0; 0; 0].
Definition or_zeros (o : option (list R)) : list R := match o with Some v => v | None => zeros3 end.
Definition modifications (w : swave) : list modification :=
  ((match s_radii w with Some r => [MExtrapolate r] | None => [] end) ++
   (match s_trans w, s_boost w with
    | None, None => []
    | a, b => [MTransform (or_zeros a) (or_zeros b)]
    end))%list.
Definition to_sxs (w : swave) : res meta :=
  let? spin := spin_weight (s_dtype w) in
  let? d := name_at DataNames (s_dtype w) in
  let? f := name_at FrameNames (s_ftype w) in
  let? fr := frame_out (s_frame w) (length (s_t w)) in
  Ok (mkmeta (s_t w) (s_data w) (lower d) (lower f) (Some (HList (s_hist w))) (Some (s_vh w)) (Some (s_r w))
        (Some (s_m w)) (s_min w) (s_max w) fr (Some spin) (modifications w)).

(** ** from_sxs, lines 142-201 *)
Definition meta_frame (m : meta) : farr := match x_frame m with Some f => f | None => A2 [q1] end.
Definition quat_eqb (p q : quat) : bool :=
  (if Req_EM_T (qw p) (qw q) then true else false) && (if Req_EM_T (qx p) (qx q) then true else false) &&
  (if Req_EM_T (qy p) (qy q) then true else false) && (if Req_EM_T (qz p) (qz q) then true else false).
Definition shape0 (f : farr) : nat := match f with A2 l => length l | A3 _ => 1 end.
Fixpoint increasing (l : list R) : bool :=
  match l with a :: ((b :: _) as t) => Rltb a b && increasing t | _ => true end.
Definition is_vector_of_rotors (f : frm) : bool := match f with FS _ => false | _ => true end.
(** The tests of [ensure_validity] that depend on the values given here. *)
Definition valid (w : swave) : bool :=
  (0 <=? s_min w)%Z && (s_min w - 1 <=? s_max w)%Z &&
  forallb (fun r => (length r =? length (LM_range (s_min w) (s_max w)))%nat) (s_data w) &&
  increasing (s_t w) && is_vector_of_rotors (s_frame w) &&
  ((frame_size (s_frame w) <=? 1)%nat || (frame_size (s_frame w) =? length (s_t w))%nat) &&
  (length (s_data w) =? length (s_t w))%nat.

Section FromSxs.
  (** What [as_quat_array] makes of an array of shape (4,): a bare rotor, or a 0-dimensional array. *)
  Variable bare : bool.
  (** Lines that construction adds to the history, and a reference to a list not in use. *)
  Variable added : list string.
  Variable fresh : nat.

  (** Lines 186-199. *)
  Definition frame_in (f : farr) (n_times : nat) : res frm :=
    match f with
    | A2 [q] => if quat_eqb q q1 then Ok (F1 []) else Ok (if bare then FS q else F0 q)
    | A2 l => if (length l =? n_times)%nat then Ok (F1 l) else Err NameError
    | A3 l => Ok (F1 l)
    end.
  (** Lines 168-170 and the default of [get]. *)
  Definition history_in (m : meta) (st : store) : nat * store :=
    match x_hist m with
    | None => (fresh, sset st fresh [])
    | Some (HText s) => (fresh, sset st fresh (lines s))
    | Some (HList k) => (k, st)
    end.
  Definition get_default {A} (o : option A) (d : A) : A := match o with Some x => x | None => d end.
  (** Returns the waveform, and all lists afterwards: [self.history += ...] extends the list itself. *)
  Definition from_sxs (m : meta) (st : store) : res (swave * store) :=
    let ft := type_code FrameNames (x_ftype m) in
    let dt := type_code DataNames (x_dtype m) in
    let (h, st) := history_in m st in
    let? f := frame_in (meta_frame m) (length (x_t m)) in
    let w := mkswave (x_t m) f (x_data m) h (get_default (x_vh m) []) ft dt (get_default (x_r m) true)
               (get_default (x_m m) true) (x_min m) (x_max m) None None None in
    if valid w then Ok (w, sset st h (st h ++ added)%list) else Err AssertionError.
End FromSxs.
