(** The charges of AsymptoticBondiData as methods of the whole object: /repo/scri/asymptotic_bondi_data/bms_charges.py.

    The computations at one time are those of [ABD_Model]; here they get their arguments from the stored arrays, with the time derivative of the
    shear taken by the spline of ModesTimeSeries.dot as in [Constraints_Model], at every time of the object.  The functions are for ell_max >= 1.
    Rounding is not modelled. *)
From Coq Require Import ZArith Reals List Bool.
From Verif Require Import Common Cplx Quat Modes_Model Times_Model Kwargs_Model Transform_Model Pipeline_Model ABD_Model Abdpipe_Model Constraints_Model.
Import ListNotations.
Open Scope R_scope.

(** The fields at one index of time (asymptotic_bondi_data/__init__.py 68-73, and the properties psi0 ... sigma) *)
Definition bondi_of (a : adata) (i : nat) : bondi :=
  mkbondi (ms_at (psi0 a) i) (ms_at (psi1 a) i) (ms_at (psi2 a) i) (ms_at (psi3 a) i) (ms_at (psi4 a) i) (ms_at (sigma a) i).
(** One entry for each time of the object *)
Definition at_times {A : Type} (a : adata) (f : nat -> A) : list A := map f (seq 0 (length (bd_u (ad_data a)))).
Definition time_at (a : adata) (i : nat) : R := nth i (bd_u (ad_data a)) 0.

Section Charges.
(** Coefficients of products (spherical_functions) *)
Variable K : Z -> Z -> Z -> Z -> Z -> Z -> Z -> R.
(** scipy.interpolate.CubicSpline, as in [Constraints_Model] *)
Variable dspl : nat -> list R -> list C -> R -> C.

(** self.sigma.bar.dot *)
Definition sigma_bar_dot (a : adata) : res mts := mts_dot dspl (mts_bar (sigma a)).
(** bms_charges.py 77-85; the truncator of the object does not enter *)
Definition four_momentum_at (a : adata) (d : mts) (i : nat) : R * vec3 := bondi_four_momentum K (bd_hi (ad_data a)) (bondi_of a i) (ms_at d i) 1%Z.
Definition ad_four_momentum (a : adata) : res (list (R * vec3)) := let? d := sigma_bar_dot a in Ok (at_times a (four_momentum_at a d)).
(** 70-74 *)
Definition ad_rest_mass (a : adata) : res (list R) :=
  let? d := sigma_bar_dot a in Ok (at_times a (fun i => bondi_rest_mass K (bd_hi (ad_data a)) (bondi_of a i) (ms_at d i) 1%Z)).
(** 88-101 *)
Definition ad_angular_momentum (a : adata) : res (list vec3) := Ok (at_times a (fun i => bondi_angular_momentum K (bd_hi (ad_data a)) (bondi_of a i))).
(** 154-172 *)
Definition ad_boost_charge (a : adata) : res (list vec3) :=
  let? d := sigma_bar_dot a in Ok (at_times a (fun i => bondi_boost_charge K (bd_hi (ad_data a)) (bondi_of a i) (ms_at d i) (time_at a i))).
(** 175-189 *)
Definition ad_CoM_charge (a : adata) : res (list vec3) := Ok (at_times a (fun i => bondi_CoM_charge K (bd_hi (ad_data a)) (bondi_of a i))).
(** 135-151 *)
Definition ad_dimensionless_spin (a : adata) : res (list vec3) :=
  let? N := ad_boost_charge a in
  let? J := ad_angular_momentum a in
  let? P := ad_four_momentum a in
  Ok (map (fun x => let '(n, (j, (e, p))) := x in dimensionless_spin n j e p) (combine N (combine J P))).

(** CWWY_angular_momentum, 104-133.  The potential at one time; D^-1 (map_to_superrest_frame.py 94-105) multiplies degree by degree ([ABD_Model.Dinv_value]). *)
Definition cwwy_potential (sg : modes) : modes :=
  fun l m => Cscale (Dinv_value l) (fadd (ethbar_GHP 1 (ethbar_GHP 2 sg)) (eth_GHP (-1) (eth_GHP (-2) (fbar 2 sg))) l m).
(** mass_aspect() has the default truncator `max`, so it is truncated at ell_max. *)
Definition cwwy_aspect (L : Z) (b : bondi) (sbd : modes) : modes :=
  fmuli (fadd (fadd (truncate_ell 1 (b_psi1 b)) (multiply K L 1 2 (-1) (b_sigma b) (eth_GHP (-2) (fbar 2 (b_sigma b)))))
              (multiply K L 1 0 1 (cwwy_potential (b_sigma b)) (eth_GHP 0 (mass_aspect K L b sbd L (TCall Z.max))))).
Definition ad_CWWY_angular_momentum (a : adata) : res (list vec3) :=
  let? d := sigma_bar_dot a in Ok (at_times a (fun i => snd (charge_vector (cwwy_aspect (bd_hi (ad_data a)) (bondi_of a i) (ms_at d i))))).
End Charges.
