(** * The angular velocity of a waveform, /repo/scri/mode_calculations.py 403-431

    The vector <Ldt> and the matrix <LL> at one time are those of [Ops_Model].  Rounding is not modelled. *)
From Coq Require Import ZArith Reals List Bool.
From Verif Require Import Common Cplx Quat Modes_Model Ops_Model Times_Model Kwargs_Model Transform_Model Pipeline_Model ABD_Model.
Import ListNotations.
Open Scope R_scope.

(** numpy.linalg.solve of three equations; a singular matrix raises LinAlgError, a ValueError *)
Definition det3 (m : axis -> axis -> R) : R :=
  m X X * (m Y Y * m Z3 Z3 - m Y Z3 * m Z3 Y) - m X Y * (m Y X * m Z3 Z3 - m Y Z3 * m Z3 X) + m X Z3 * (m Y X * m Z3 Y - m Y Y * m Z3 X).
(** [m] with the column [a] replaced by [v] *)
Definition with_column (m : axis -> axis -> R) (a : axis) (v : axis -> R) : axis -> axis -> R := fun i j => if axis_eqb j a then v i else m i j.
Definition solve3 (m : axis -> axis -> R) (v : axis -> R) : res vec3 :=
  if Req_EM_T (det3 m) 0 then Err ValueError
  else Ok (det3 (with_column m X v) / det3 m, det3 (with_column m Y v) / det3 m, det3 (with_column m Z3 v) / det3 m).
(** 418-423 at one time: the modes and their derivatives there *)
Definition velocity (lo hi : Z) (d d' : list C) : res vec3 :=
  let? l := LdtVector lo hi d d' in
  let? ll := LLMatrix lo hi d in
  let? w := solve3 ll l in Ok (v3scale (-1) w).

Section Waveform.
(** External: W.data_dot, the derivative of a cubic spline of every column, and quaternion.derivative, of the components of the frame *)
Variable data_dot : list R -> list (list C) -> list (list C).
Variable derivative : list quat -> list R -> list quat.

(** 428-429 at one time: the vector part of 2 * Rdot * R.conjugate() *)
Definition frame_velocity (r r' : quat) : vec3 := qvec (qmul (qscale 2 r') (qconj r)).
(** 403-431: solve takes all times at once, and raises if one matrix is singular. *)
Definition waveform_velocity (lo hi : Z) (t : list R) (data : list (list C)) (frame : list quat) (include : bool) : res (list vec3) :=
  let? w := each (fun i => velocity lo hi (nth i data []) (nth i (data_dot t data) [])) (seq 0 (length data)) in
  if include && Nat.eqb (length frame) (length data)
  then Ok (map (fun x => v3add (fst x) (frame_velocity (fst (snd x)) (snd (snd x)))) (combine w (combine frame (derivative frame t))))
  else Ok w.
End Waveform.
