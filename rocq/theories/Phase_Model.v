(** * Amplitude and phase of the data: abs, arg, arg_unwrapped

    Source: /repo/scri/waveform_base.py 523-533.  [np.angle] is arctan2 of imaginary and real part; signed zeros
    are not modelled.  [np.unwrap] is written out after numpy's implementation for period 2 pi. *)
From Coq Require Import Reals ZArith List Bool.
From Verif Require Import Common Cplx Times_Model Numeric_Model Align_Model.
Import ListNotations.
Open Scope R_scope.

(** np.abs and np.angle of one number *)
Definition modulus (z : C) : R := sqrt (re z * re z + im z * im z).
Definition angle (z : C) : R := atan2 (im z) (re z).
(** 523-529 *)
Definition abs_of (data : list (list C)) : list (list R) := map (map modulus) data.
Definition arg_of (data : list (list C)) : list (list R) := map (map angle) data.

(** numpy.mod(x, y) for positive y *)
Definition rmod (x y : R) : R := x - y * IZR (floorR (x / y)).
(** numpy.unwrap: the correction for a step [dd] *)
Definition correction (dd : R) : R :=
  let m := rmod (dd + PI) (2 * PI) - PI in
  let m := if (if Req_EM_T m (- PI) then true else false) && Rltb 0 dd then PI else m in
  if Rltb (Rabs dd) PI then 0 else m - dd.
(** Running sum of the corrections, added to all values but the first *)
Fixpoint unwrap_from (prev sum : R) (l : list R) : list R :=
  match l with
  | [] => []
  | x :: r => let s := sum + correction (x - prev) in (x + s) :: unwrap_from x s r
  end.
Definition unwrap (l : list R) : list R :=
  match l with [] => [] | x :: r => x :: unwrap_from x 0 r end.
(** 532-533: along the first axis, for [n] columns *)
Definition arg_unwrapped (data : list (list C)) (n : nat) : list (list R) :=
  let cols := map (fun j => unwrap (map (fun r => nth j r 0) (arg_of data))) (seq 0 n) in
  map (fun i => map (fun c => nth i c 0) cols) (seq 0 (length data)).
