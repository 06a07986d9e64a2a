(** * The rotation and centre-of-mass passes on whole data
    /repo/scri/asymptotic_bondi_data/map_to_superrest_frame.py: com_transformation_to_map_to_superrest_frame (345-404), rotation_from_spin_charge (407-419),
    rotation_to_map_to_superrest_frame without a target strain (527-554).

    The loops are those of [Superrest_Model]; here the pieces left open there are filled in with the transformation of the data ([Constraints_Model.ad_transform]),
    the charges ([Charges_Model]), the fit ([Rest_Model.from_CoM_charge]) and the product of transformations ([Spin_Model.bms_mul]).
    The charges of the transformed data are computed where they are used instead of being kept in a variable.  A spin or an energy of zero (the code then divides
    zero by zero) is not modelled. *)
From Coq Require Import ZArith Reals List Bool.
From Verif Require Import Common Cplx Quat Modes_Model Times_Model Kwargs_Model Transform_Model Spin_Model Motion_Model Superrest_Model Pipeline_Model ABD_Model Abdpipe_Model
  Constraints_Model Charges_Model Rest_Model.
Import ListNotations.
Open Scope R_scope.

(** numpy division of two floats *)
Definition xdiv (x y : R) : xf :=
  if Req_EM_T y 0 then (if Req_EM_T x 0 then NaN else if Rltb 0 x then PInf else NInf) else Fin (x / y).
(** 531, 545: chi / np.linalg.norm(chi, axis=-1)[:, None] *)
Definition hat (v : vec3) : vec3 := scalev (/ norm3 v) v.

Section Passes.
(** CubicSpline and map2salm as in [Abdpipe_Model]; products of modes and splines with derivatives as in [Charges_Model] *)
Variable spline : list R -> list C -> res (R -> C).
Variable map2salm : Z -> Z -> list C -> Z -> Z -> list C.
Variable K : Z -> Z -> Z -> Z -> Z -> Z -> Z -> R.
Variable dspl : nat -> list R -> list C -> R -> C.
(** External quaternion.calculus.indefinite_integral(f, t): one value for each sample *)
Variable integral : list R -> list R -> list R.
(** numpy.polyfit(t, y, deg=1) of one component *)
Variable polyfit : list R -> list R -> R * R.
(** numpy's svd and the projection on a finite number of modes, as in [Spin_Model]; the function with the given modes and the array of modes of a function
    (bms_transformations.py 151-180) *)
Variable svd : mat -> mat * (R * R) * mat.
Variable proj : Z -> (vec3 -> R) -> vec3 -> R.
Variable value : list C -> vec3 -> R.
Variable stored : supertr -> list C.

(** The product of transformations as the passes use it: [(new * old).reorder(normal order)] (376-378, 536-538), [o] being the order of the new one, with the
    default ell_max of BMSTransformation.  Shorter arrays are padded with zeros (bms_transformations.py 285-287). *)
Definition as_bmst (o : list comp) (b : bms) : bmst := mkb (mks (value (sup b)) 12) (rot b) (boost b) o 12.
Definition compose (o : list comp) (new old : bms) : res bms :=
  let? c := bms_mul svd proj (as_bmst o new) (as_bmst SRB old) in
  let? n := reorder svd proj c SRB in
  Ok (Superrest_Model.mkbms (stored (b_sup n)) (b_rot n) (b_boost n)).

(** integrate(f, t)[-1] / (t[-1] - t[0]) *)
Definition average (f t : list R) : xf := xdiv (last (integral f t) 0) (last t 0 - nth 0 t 0).

(** ** The rotation, 439-567, target_strain=None *)
(** 530-531, 544-545 *)
Definition spin_directions (a : adata) : res (list vec3) := let? chi := ad_dimensionless_spin K dspl a in Ok (map hat chi).
(** 534 and 407-419 *)
Definition spin_align (a : adata) : res bms :=
  let? chi := spin_directions a in
  let? q := rotation_from_spin_charge chi (bd_u (ad_data a)) in
  Ok (Superrest_Model.mkbms (repeat C0 169) q (0, 0, 0)).
(** 542: abd.transform(frame_rotation=...) *)
Definition rotation_kwargs (q : quat) : kwargs := mkkw None None None None None None (Some [qw q; qx q; qy q; qz q]) None.
Definition rotated (a : adata) (b : bms) : res adata :=
  let? a' := ad_transform spline map2salm a (rotation_kwargs (rot b)) in
  let? _ := spin_directions a' in Ok a'.
(** 547-549 *)
Definition from_z (c : vec3) : R := norm3 (v3add c (0, 0, -1)).
Definition spin_error (a : adata) : xf :=
  match spin_directions a with Ok chi => average (map from_z chi) (bd_u (ad_data a)) | Err _ => NaN end.
Definition rotation_pass (a : adata) (N_itr_max : Z) (rel_err_tol : xf) : res (bms * list xf) :=
  rot_solver (compose SRB) adata a (rotated a) spin_align spin_error N_itr_max rel_err_tol.

(** ** The centre of mass, 345-404 *)
(** 372, 390: bondi_CoM_charge() / bondi_four_momentum()[:, 0, None] *)
Definition com_position (a : adata) : res (list vec3) :=
  let? G := ad_CoM_charge K a in
  let? P := ad_four_momentum K dspl a in
  Ok (map (fun x => scalev (/ fst (snd x)) (fst x)) (combine G P)).
(** 374 and 322-342 *)
Definition com_fit (a : adata) : res bms := let? G := com_position a in Ok (from_CoM_charge polyfit G (bd_u (ad_data a))).
(** 384-388: abd.transform(supertranslation=..., frame_rotation=..., boost_velocity=...) *)
Definition com_kwargs (b : bms) : kwargs :=
  let '(x, y, z) := boost b in
  mkkw (Some (sup b)) None None None None None (Some [qw (rot b); qx (rot b); qy (rot b); qz (rot b)]) (Some [x; y; z]).
Definition com_moved (a : adata) (b : bms) : res adata :=
  let? a' := ad_transform spline map2salm a (com_kwargs b) in
  let? _ := com_position a' in Ok a'.
(** 392 *)
Definition com_distance (a : adata) : xf :=
  match com_position a with Ok G => average (map norm3 G) (bd_u (ad_data a)) | Err _ => NaN end.
Definition com_pass (a : adata) (N_itr_max : Z) (rel_err_tol : xf) : res (bms * list xf) :=
  com_solver (compose SBR) adata a (com_moved a) com_fit com_distance N_itr_max rel_err_tol.
End Passes.
