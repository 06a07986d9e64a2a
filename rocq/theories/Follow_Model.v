(** * The rotation pass with a target strain
    /repo/scri/asymptotic_bondi_data/map_to_superrest_frame.py: rotation_from_vectors (422-438) and rotation_to_map_to_superrest_frame where a target strain is given
    (475-525).

    The loop is [Superrest_Model.rot_solver], the product of transformations [Passes_Model.compose], the angular velocities and the direction of the target are
    those of [Resterr_Model] (rel_err_for_abd_in_superrest repeats this code).  The angular velocities of the transformed data are computed where they are used instead of
    being kept in a variable.  Rounding is not modelled. *)
From Coq Require Import ZArith Reals List Bool.
From Verif Require Import Common Cplx Quat Modes_Model Times_Model Kwargs_Model Transform_Model Spin_Model Motion_Model Superrest_Model Pipeline_Model ABD_Model Abdpipe_Model
  Constraints_Model Charges_Model Rest_Model Passes_Model Velocity_Model Resterr_Model.
Import ListNotations.
Open Scope R_scope.

Section Follow.
Variable spline : list R -> list C -> res (R -> C).
Variable map2salm : Z -> Z -> list C -> Z -> Z -> list C.
Variable dspl : nat -> list R -> list C -> R -> C.
Variable integral : list R -> list R -> list R.
Variable undefined : res xf.
Variable svd : mat -> mat * (R * R) * mat.
Variable proj : Z -> (vec3 -> R) -> vec3 -> R.
Variable value : list C -> vec3 -> R.
Variable stored : supertr -> list C.
(** External quaternion.optimal_alignment_in_Euclidean_metric(avec, bvec, t=t); None is a vector of nans *)
Variable alignment : list (option vec3) -> list vec3 -> list R -> res quat.

(** 501-503, 514-516: omega / np.linalg.norm(omega, axis=-1)[:, None] of the news 2.0 * abd.sigma.bar.dot *)
Definition velocity_directions (a : adata) : res (list (option vec3)) :=
  let? n := news dspl a in
  let? w := angular_velocity dspl n in
  Ok (map direction w).
(** 422-438 *)
Definition rotation_from_vectors (vector : list (option vec3)) (target : list vec3) (t : list R) : res bms :=
  let? q := alignment vector target t in
  Ok (Superrest_Model.mkbms (repeat C0 169) (qinv q) (0, 0, 0)).
(** 506: rotation_from_vectors(omega, target_omega_spline(news.t), news.t); [s] is target_omega_spline *)
Definition follow_align (s : R -> vec3) (a : adata) : res bms :=
  let? d := velocity_directions a in
  rotation_from_vectors d (map s (bd_u (ad_data a))) (bd_u (ad_data a)).
(** 518-520 *)
Definition follow_error (s : R -> vec3) (a : adata) : res xf :=
  let? d := velocity_directions a in
  average_of integral undefined (map (fun x => option_map (fun d => norm3 (v3add d (v3scale (-1) (s (snd x))))) (fst x)) (combine d (bd_u (ad_data a)))) (bd_u (ad_data a)).
(** 512: abd.transform(frame_rotation=...) and what is computed from the result, 514-520 *)
Definition followed (s : R -> vec3) (a : adata) (b : bms) : res adata :=
  let? a' := ad_transform spline map2salm a (rotation_kwargs (rot b)) in
  let? _ := follow_error s a' in Ok a'.
(** 475-525 *)
Definition follow_pass (a : adata) (h : mts) (N_itr_max : Z) (rel_err_tol : xf) : res (bms * list xf) :=
  let? s := target_direction dspl h in
  rot_solver (compose svd proj value stored SRB) adata a (followed s a) (follow_align s)
    (fun a' => match follow_error s a' with Ok e => e | Err _ => NaN end) N_itr_max rel_err_tol.
End Follow.
