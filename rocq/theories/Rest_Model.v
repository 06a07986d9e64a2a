(** * The numerical content of one supertranslation pass
    /repo/scri/asymptotic_bondi_data/map_to_superrest_frame.py: compute_bondi_rest_mass_and_conformal_factor (108-152),
    compute_Moreschi_supermomentum (155-197), compute_alpha_perturbation (200-224) and, with the loop of Superrest_Model,
    supertranslation_to_map_to_superrest_frame without a target (227-319); transformation_from_CoM_charge (322-342).

    A real function on the n x n grid is the list of its values, row by row.  Harmonics are those of Sphere_Model,
    [charge_vector], [D_op] and [Dinverse] those of ABD_Model.  The square root of a negative number and a division by zero
    (nan and inf in numpy) are not modelled: what is proved assumes a timelike momentum. *)
From Coq Require Import ZArith Reals List Bool.
From Verif Require Import Common Cplx Quat Modes_Model Times_Model Tables_Model Kwargs_Model ABD_Model Transform_Model Superrest_Model Rotate_Model Wigner_Model Sphere_Model Pipeline_Model.
Import ListNotations.
Open Scope R_scope.

(** The indices (i, j) of an n x n grid and the rotor there (spinsfast's grid: Sphere_Model.grid_points). *)
Definition cells (n : Z) : list (Z * Z) := flat_map (fun i => map (pair i) (zrange 0 n)) (zrange 0 n).
Definition node (n : Z) (ij : Z * Z) : quat := from_spherical (theta_at n (fst ij)) (phi_at n (snd ij)).
(** spinsfast.salm2map(a, 0, L, n, n) of an array holding ell from 0 to L *)
Definition salm2map (a : list C) (L n : Z) : list C := map (fun ij => dotl a (SWSH 0 L (node n ij))) (cells n).

(** ** compute_bondi_rest_mass_and_conformal_factor, 108-152, for the modes at one time *)
(** 125: P; reading the fourth mode of a shorter array fails *)
Definition momentum (psi : list C) : res (R * vec3) :=
  if (length psi <? 4)%nat then Err IndexError
  else let '(e, p) := charge_vector (fun l m => nth (pos l m) psi C0) in Ok (- e, v3scale (-1) p).
(** 127-134: the array with a single 1, its values on the grid, and charge_vector_from_aspect of the four values *)
Definition unit_modes (L l m : Z) : list C := map (fun lm => if ((fst lm =? l) && (snd lm =? m))%Z then C1 else C0) (LM_range 0 L).
Definition r_vector (L : Z) (ij : Z * Z) : R * vec3 :=
  let '(e, p) := charge_vector (fun l m => dotl (unit_modes L l m) (SWSH 0 L (node (2 * L + 1) ij))) in (4 * PI * e, v3scale (4 * PI) p).
(** 136-152 *)
Definition rest_mass (P : R * vec3) : R := let '(e, p) := P in sqrt (e ^ 2 - v3dot p p).
Definition K_value (P r : R * vec3) : R := rest_mass P / (fst P * fst r - v3dot (snd P) (snd r)).
Definition rest_mass_K (psi : list C) (L : Z) : res (R * list R) :=
  let? P := momentum psi in
  if (L <? 1)%Z then Err IndexError else
  Ok (rest_mass P, map (fun ij => K_value P (r_vector L ij)) (cells (2 * L + 1))).

Section External.
(** scipy's CubicSpline(x, y) for real y, a function or an exception *)
Variable spline : list R -> list R -> res (R -> R).
(** spinsfast.map2salm of an n_theta x n_phi array of values, with spin weight and largest degree *)
Variable map2salm : Z -> Z -> list C -> Z -> Z -> list C.

(** ** compute_Moreschi_supermomentum, 155-197
    [rows] are the modes of the supermomentum at the times [t], ell from 0 to [hi].  PsiM.grid() (external) uses
    2 hi + 1 points each way whatever [L] is; the loops run over the grid of [L]. *)
Definition interpolated (t : list R) (rows : list (list C)) (Ks : list (list R)) (hi : Z) (ijka : (Z * Z) * (nat * R)) : res (R * R) :=
  let '(ij, (k, a)) := ijka in
  let n' := (2 * hi + 1)%Z in
  if ((n' <=? fst ij) || (n' <=? snd ij))%Z then Err IndexError else
  let? f := spline t (map (fun row => re (dotl row (SWSH 0 hi (node n' ij)))) rows) in
  let? g := spline t (map (fun K => nth k K 0) Ks) in
  Ok (f a, g a).
Definition moreschi (t : list R) (rows : list (list C)) (hi L : Z) (alpha : list R) : res (list C) :=
  let n := (2 * L + 1)%Z in
  let? mks := each (fun row => rest_mass_K row L) rows in
  let? pk := each (interpolated t rows (map snd mks) hi) (combine (cells n) (combine (seq 0 (length (cells n))) alpha)) in
  let D_alpha := salm2map (D_op (map2salm n n (map RtoC alpha) 0 L) L) L n in
  Ok (map2salm n n (map (fun x => let '(p, k, d) := x in Cscale (/ k ^ 3) (RtoC p - d)%C) (combine pk D_alpha)) 0 L).

(** ** compute_alpha_perturbation, 200-224; M_Grid and K_Grid as arrays on the grid *)
Definition alpha_perturbation (L : Z) (psi : list C) (M K : list R) : res (list R) :=
  let n := (2 * L + 1)%Z in
  let vals := map (fun x => let '(p, m, k) := x in (p + RtoC (m * k ^ 3))%C) (combine (combine (salm2map psi L n) M) K) in
  let a := Dinverse (map2salm n n vals 0 L) L in
  Ok (map re (salm2map a L n)).

(** ** supertranslation_to_map_to_superrest_frame with target_PsiM=None, 227-319 *)
(** M_Grid is a number here; broadcasting makes it the constant array. *)
Definition massK (L : Z) (psi : list C) : res (list R * list R) :=
  let? (m, K) := rest_mass_K psi L in Ok (map (fun _ => m) (cells (2 * L + 1)), K).
(** 298: numpy's norm of PsiM_interp[4:] *)
Definition norm_from_2 (psi : list C) (_ : list R) : xf := Fin (sqrt (fold_right Rplus 0 (map (fun c => norm2 c) (skipn 4 psi)))).
Fixpoint vadd (x y : list R) : list R := match x, y with a :: x, b :: y => (a + b) :: vadd x y | _, _ => [] end.
Definition supertranslation_to_superrest (t : list R) (rows : list (list C)) (hi L N_itr_max : Z) (tol : xf) : res (bms * list xf) :=
  let n := (2 * L + 1)%Z in
  supertranslation_solver (list R) (list C) (map (fun _ => 0) (cells n)) vadd (moreschi t rows hi L) (massK L) (alpha_perturbation L)
    None norm_from_2 (fun alpha => map2salm n n (map RtoC alpha) 0 L) N_itr_max tol.
End External.

(** ** transformation_from_CoM_charge, 322-342 *)
Section Fit.
(** numpy.polyfit(t, y, deg=1) of one component: slope and intercept *)
Variable polyfit : list R -> list R -> R * R.
Definition from_CoM_charge (G : list vec3) (t : list R) : bms :=
  let x := polyfit t (map (fun g => fst (fst g)) G) in
  let y := polyfit t (map (fun g => snd (fst g)) G) in
  let z := polyfit t (map (fun g => snd g) G) in
  mkbms (map (fun c => - c)%C (C0 :: vector_as_ell_1_modes (snd x, snd y, snd z))) q1 (fst x, fst y, fst z).
End Fit.
