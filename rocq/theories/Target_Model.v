(** * Mapping data to the frame of other data
    /repo/scri/asymptotic_bondi_data/map_to_abd_frame.py: rel_err_between_abds (21-57) and map_to_abd_frame (59-301), and the transformations that
    map_to_superrest_frame.py 766-907 multiplies together.

    The loop that keeps the best round is [Superrest_Model.map_to_abd]; here the rounds are filled in.  map_to_superrest_frame of one set of data is the parameter
    [superrest] (its loop is [Superrest_Model.map_to_superrest], used below with transformations as the product of bms_transformations.py gives them).
    The 2d alignment of two strains by sxs is the parameter [align].  Printing, the number of processes and the options handed on to map_to_superrest_frame are left out. *)
From Coq Require Import ZArith Reals List Bool String.
From Verif Require Import Common Cplx Quat Modes_Model Ops_Model Times_Model Kwargs_Model Transform_Model Spin_Model Motion_Model Corot_Model Superrest_Model Pipeline_Model
  ABD_Model Abdpipe_Model Constraints_Model Charges_Model Passes_Model.
Import ListNotations.
Open Scope R_scope.

(** 22, 175-179: t[np.argmin(abs(t - a)) : np.argmin(abs(t - b)) + 1] *)
Definition window (t : list R) (a b : R) : res (list R) :=
  let? i := nearest t a in
  let? j := nearest t b in
  Ok (firstn (Datatypes.S j - i) (skipn i t)).
(** Division of a float by 6 (55) *)
Definition xdiv6 (a : xf) : xf := match a with Fin x => Fin (x / 6) | _ => a end.

Section Between.
(** Splines with derivatives as in [Constraints_Model]; indefinite_integral as in [Passes_Model] *)
Variable dspl : nat -> list R -> list C -> R -> C.
Variable integral : list R -> list R -> list R.

(** integrate(f.norm(), t)[-1] *)
Definition total (f : mts) : R := last (integral (mts_norm f) (ms_u f)) 0.
(** 37-54, one field: the integrated difference over the integrated reference, or over the length of time if the reference integrates to zero *)
Definition field_error (f1 f2 : mts) : res xf :=
  let? d := mts_sub f1 f2 in
  let r := total f1 in
  Ok (xdiv (total d) (if Req_EM_T r 0 then last (ms_u f1) 0 - nth 0 (ms_u f1) 0 else r)).
(** 21-57.  The in-place differences of 27-33 need fields of the same size: other sizes are refused here (what spherical_functions does with them is not modelled).
    An empty window raises an exception in the interpolation or at t[-1]; it is IndexError here. *)
Definition rel_err_between_abds (a1 a2 : adata) (t1 t2 : R) : res xf :=
  let? t := window (bd_u (ad_data a1)) t1 t2 in
  let? i1 := ad_interpolate dspl a1 t in
  let? i2 := ad_interpolate dspl a2 t in
  if negb (bd_hi (ad_data a1) =? bd_hi (ad_data a2))%Z then Err ValueError
  else match t with
  | [] => Err IndexError
  | _ =>
    let? es := each (fun f => field_error (mts_of i1 f) (mts_of i2 f)) [5; 0; 1; 2; 3; 4]%nat in
    Ok (xdiv6 (fold_left xadd es (Fin 0)))
  end.
End Between.

Section Target.
Variable spline : list R -> list C -> res (R -> C).
Variable map2salm : Z -> Z -> list C -> Z -> Z -> list C.
Variable K : Z -> Z -> Z -> Z -> Z -> Z -> Z -> R.
Variable dspl : nat -> list R -> list C -> R -> C.
Variable integral : list R -> list R -> list R.
Variable svd : mat -> mat * (R * R) * mat.
Variable proj : Z -> (vec3 -> R) -> vec3 -> R.
(** The array of modes of a supertranslation, as in [Passes_Model] *)
Variable stored : supertr -> list C.

(** BMSTransformation() *)
Definition nothing : bmst := mkb (szero 12) q1 (0, 0, 0) SRB 12.
(** BMSTransformation(supertranslation=[sf.constant_as_ell_0_mode(dt)], frame_rotation=quaternion.from_rotation_vector(dphi * [0, 0, 1])): the supertranslation is the constant dt,
    the rotor is exp(dphi z / 2) (225-228, 260-263); without the second argument (166-172, superrest 789) the rotation is none *)
Definition time_phase (dt dphi : R) : res bmst := Spin_Model.mkbms (mks (fun _ => dt) 0) (mkq (cos (dphi / 2)) 0 0 (sin (dphi / 2))) (0, 0, 0) SRB 12.
Definition time_only (dt : R) : res bmst := Spin_Model.mkbms (mks (fun _ => dt) 0) q1 (0, 0, 0) SRB 12.
(** (new * old).reorder(["supertranslation", "frame_rotation", "boost_velocity"]) *)
Definition after (new old : bmst) : res bmst := let? c := bms_mul svd proj new old in reorder svd proj c SRB.

(** map_to_superrest_frame.py 787-907: the transformations.  The solvers, the alignment and the errors as in [Superrest_Model]; reorder binds more tightly than * in 790-792. *)
Definition superrest_transformation (solver : string -> bmst -> res bmst) (has_target : bool) (align2d : bmst -> res (xf * bmst)) (charges : bmst -> res (xf * xf * xf))
    (t0 : R) (N : Z) (t : tols) (order : list string) : res (bmst * relerr) :=
  let? tt := time_only t0 in
  map_to_superrest bmst after (fun b => inverse svd proj b None) solver has_target align2d charges N t order tt nothing.

(** abd.transform(supertranslation=b.supertranslation, frame_rotation=b.frame_rotation.components, boost_velocity=b.boost_velocity) *)
Definition transform_kwargs (b : bmst) : kwargs :=
  let '(x, y, z) := b_boost b in
  mkkw (Some (stored (b_sup b))) None None None None None (Some [qw (b_rot b); qx (b_rot b); qy (b_rot b); qz (b_rot b)]) (Some [x; y; z]).
Definition transformed (a : adata) (b : bmst) : res adata := ad_transform spline map2salm a (transform_kwargs b).

(** bondi_four_momentum()[:, 0] *)
Definition energies (a : adata) : res (list R) := let? P := ad_four_momentum K dspl a in Ok (map fst P).
(** 159-173: the time translation that brings the sample of [a] whose energy is nearest to the energy of the target at t_0 to t_0 *)
Definition start_shift (a target : adata) (t0 : R) : res R :=
  let? E := energies a in
  let? E' := energies target in
  let? i := nearest (bd_u (ad_data target)) t0 in
  match nth_error E' i with
  | None => Err IndexError
  | Some e =>
    let? k := nearest E e in
    match nth_error (bd_u (ad_data a)) k with None => Err IndexError | Some u => Ok (u - t0) end
  end.
Definition start (fix_time_phase : bool) (a target : adata) (t0 : R) : res bmst :=
  let? tt := (if fix_time_phase then let? dt := start_shift a target t0 in time_only dt else Ok nothing) in
  after tt nothing.

(** [superrest a]: abd.map_to_superrest_frame(t_0=t_0, padding_time=..., ...) *)
Variable superrest : adata -> res (adata * bmst).
(** [align a b t1 t2]: align2d of the strains of [a] and [b] between t1 and t2: the error, the time and the phase *)
Variable align : adata -> adata -> R -> R -> res (xf * R * R).

Section Round.
Variable fix_time_phase : bool.
Variables interp target : adata.        (* abd_interp, target_abd *)
Variable target_rest : adata.           (* target_abd_superrest *)
Variable back : bmst.                   (* transformation2 *)
Variables t0 padding : R.
(** 195-286.  The data transformed at the end of the previous round (or in 195-200) is transformed here instead. *)
Definition one_round (b : bmst) : res (bmst * xf) :=
  let? prime := transformed interp b in
  let? (rest, to_rest) := superrest prime in
  let? tp := (if fix_time_phase
              then let? (e, dt, dphi) := align rest target_rest (t0 - padding) (t0 + padding) in time_phase dt dphi
              else Ok nothing) in
  let? i := inverse svd proj back None in
  let? c1 := bms_mul svd proj to_rest b in
  let? c2 := bms_mul svd proj tp c1 in
  let? b' := after i c2 in
  let? prime' := transformed interp b' in
  if fix_time_phase then
    let? (e, dt, dphi) := align prime' target (t0 - padding) (t0 + padding) in
    let? tp' := time_phase dt dphi in
    let? b'' := after tp' b' in
    let? _ := transformed interp b'' in
    Ok (b'', e)
  else
    let? e := rel_err_between_abds dspl integral target prime' (t0 - padding) (t0 + padding) in
    Ok (b', e).
End Round.

(** 59-301 *)
Definition map_to_abd_frame (fix_time_phase : bool) (a target : adata) (t0 padding : R) (N : Z) : res (adata * bmst * xf) :=
  let? b0 := start fix_time_phase a target t0 in
  let? t := window (bd_u (ad_data a)) (t0 - 3 / 2 * padding) (t0 + 3 / 2 * padding) in
  let? interp := ad_interpolate dspl a t in
  let? (target_rest, back) := superrest target in
  let? (b, e) := map_to_abd bmst (one_round fix_time_phase interp target target_rest back t0 padding) N b0 in
  let? a' := transformed a b in
  Ok (a', b, e).
End Target.
