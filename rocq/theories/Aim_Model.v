(** * The supertranslation pass with a target supermomentum
    /repo/scri/asymptotic_bondi_data/map_to_superrest_frame.py 227-319 where target_PsiM is given (268-277, 285-298).

    The pass without a target, the supermomentum, the conformal factor and the correction are those of [Rest_Model], the loop is that of
    [Superrest_Model].  The target is given by its times and, for each time, its modes of spin weight 0 and degrees 0 to [thi]. *)
From Coq Require Import ZArith Reals List Bool.
From Verif Require Import Common Cplx Quat Modes_Model Times_Model Tables_Model Kwargs_Model ABD_Model Transform_Model Superrest_Model Rotate_Model Wigner_Model Sphere_Model Pipeline_Model Rest_Model.
Import ListNotations.
Open Scope R_scope.

(** Division of a norm by a norm in numpy *)
Definition xquot (a b : R) : xf := if Req_EM_T b 0 then (if Req_EM_T a 0 then NaN else PInf) else Fin (a / b).
(** np.linalg.norm(x[4:]) *)
Definition norm_from_4 (x : list C) : R := sqrt (fold_right Rplus 0 (map (fun c => norm2 c) (skipn 4 x))).
(** x[4:] - y[4:], padded to keep the places *)
Definition minus (x y : list C) : list C := map (fun p => (fst p - snd p)%C) (combine x y).

Section Target.
Variable spline : list R -> list R -> res (R -> R).
Variable map2salm : Z -> Z -> list C -> Z -> Z -> list C.
Variables (tt : list R) (trows : list (list C)) (thi : Z).

(** 273-276, 290-293: the target at point (i, j) of its own grid, interpolated at the time alpha[i, j] of the other grid *)
Definition target_cell (L : Z) (alpha : list R) (ij : Z * Z) : res R :=
  let n := (2 * L + 1)%Z in
  if ((n <=? fst ij) || (n <=? snd ij))%Z then Err IndexError else
  let? f := spline tt (map (fun row => re (dotl row (SWSH 0 thi (node (2 * thi + 1) ij)))) trows) in
  Ok (f (nth (Z.to_nat (fst ij * n + snd ij)) alpha 0)).
(** 277, 294: M_Grid *)
Definition target_mass (L : Z) (alpha : list R) : res (list R) :=
  let? g := each (target_cell L alpha) (cells (2 * thi + 1)) in Ok (map Ropp g).
(** 219 in compute_alpha_perturbation: M_Grid * K_Grid**3 needs arrays of one shape, or M_Grid with a single entry *)
Definition perturbation (L : Z) (psi : list C) (M K : list R) : res (list R) :=
  if (length M =? length K)%nat then alpha_perturbation map2salm L psi M K
  else match M with [m] => alpha_perturbation map2salm L psi (map (fun _ => m) K) K | _ => Err ValueError end.
(** 296-298 *)
Definition target_error (L : Z) (psi : list C) (M : list R) : xf :=
  let T := map2salm (2 * thi + 1)%Z (2 * thi + 1)%Z (map (fun m => RtoC (- m)) M) 0%Z L in
  xquot (norm_from_4 (minus psi T)) (norm_from_4 T).
Definition supertranslation_to_target (t : list R) (rows : list (list C)) (hi L N_itr_max : Z) (tol : xf) : res (bms * list xf) :=
  let n := (2 * L + 1)%Z in
  supertranslation_solver (list R) (list C) (map (fun _ => 0) (cells n)) vadd (moreschi spline map2salm t rows hi L) (massK L) (perturbation L)
    (Some (target_mass L)) (target_error L) (fun alpha => map2salm n n (map RtoC alpha) 0%Z L) N_itr_max tol.
End Target.
