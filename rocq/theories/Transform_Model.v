(** BMS transformation of fields on the grid: /repo/scri/asymptotic_bondi_data/transformations.py:100-431
    (AsymptoticBondiData.transform) and /repo/scri/waveform_grid.py:136-185, 446-573 (WaveformGrid.from_modes).

    Everything is done separately in each direction of the primed grid.  The evaluation of modes on rotors
    (spherical_functions / spinsfast) is external: its results at one direction are inputs here, namely
    [alpha] the (real) supertranslation, [eth_a] and [eth2_a] the NP-eth and eth^2 of it, [vr1] the spin-weight-1
    function with the ell=1 modes of the boost velocity, and the six fields at each time. *)
From Coq Require Import ZArith Reals List Bool.
From Verif Require Import Common Cplx Times_Model Tables_Model Quat Kwargs_Model.
Import ListNotations.
Open Scope R_scope.

(** ** Directions *)
(** Vector part of R z R^-1 (transformations.py:181, waveform_grid.py:470). *)
Definition qvec (q : quat) : vec3 := (qx q, qy q, qz q).
Definition direction (r : quat) : vec3 := qvec (qmul (qmul r qk) (qinv r)).
Definition dotv (u v : vec3) : R := let '(a, b, c) := u in let '(x, y, z) := v in a * x + b * y + c * z.
Definition crossv (u v : vec3) : vec3 :=
  let '(a, b, c) := u in let '(x, y, z) := v in (b * z - c * y, c * x - a * z, a * y - b * x).
Definition scalev (s : R) (v : vec3) : vec3 := let '(x, y, z) := v in (s * x, s * y, s * z).

(** [exp] of a quaternion (external): for a pure vector quaternion q it is cos|q| + q sin|q|/|q|. *)
Definition qexp_vec (v : vec3) : quat :=
  let n := norm3 v in
  if Req_EM_T n 0 then q1
  else let '(x, y, z) := v in let f := sin n / n in mkq (cos n) (f * x) (f * y) (f * z).

(** atanh (external), for |x| < 1. *)
Definition atanh (x : R) : R := / 2 * ln ((1 + x) / (1 - x)).

(** transformations.py:110-132 / waveform_grid.py:140-166: the rotor taking r' to r.  [as_spherical_coords]
    followed by lines 122-124 reconstructs the direction of the rotor, which is passed here as [rprm]. *)
Definition Bprm (v : vec3) (rprm : vec3) : quat :=
  let beta := norm3 v in
  let rapidity := atanh beta in
  if Rltb (3 / 10 ^ 14) beta then
    let vhat := scalev (/ beta) v in
    let Thetaprm := acos (dotv vhat rprm) in
    let Theta := 2 * atan (exp (- rapidity) * tan (Thetaprm / 2)) in
    let c := crossv rprm vhat in
    if Rltb (/ 10 ^ 200) (norm3 c)
    then qexp_vec (scalev ((Thetaprm - Theta) / 2) (scalev (/ norm3 c) c))
    else q1
  else q1.
(** transformations.py:146-147 / waveform_grid.py:179-180: rotor of one grid point; [r] is from_spherical_coords of it. *)
Definition grid_rotor (frame_rotation : quat) (v : vec3) (r : quat) : quat :=
  let rotated := qmul frame_rotation r in
  qmul (Bprm v (direction rotated)) rotated.

(** ** Conformal factor, transformations.py:175-196 and waveform_grid.py:471 *)
Definition gamma (v : vec3) : R := 1 / sqrt (1 - norm3 v ^ 2).
Definition one_over_k (v r : vec3) : R := gamma v * (1 - dotv v r).
Definition kfactor (v r : vec3) : R := 1 / one_over_k v r.
Definition ethk_over_k (v r : vec3) (vr1 : C) : C := Cscale (/ (1 - dotv v r)) vr1.

(** ** Weyl scalars and shear, AsymptoticBondiData (transformations.py:318-385) *)
Record fields := mkfields { f0 : C; f1 : C; f2 : C; f3 : C; f4 : C; fs : C }.
(** Everything known about one direction. *)
Record dir := mkdir { d_r : vec3; d_alpha : R; d_eth : C; d_eth2 : C; d_vr1 : C }.

(** transformations.py:317-318: eth u' / k, with the GHP eth = NP eth / sqrt 2 of line 306. *)
Definition abd_X (v : vec3) (d : dir) (u : R) : C :=
  (Cscale (u - d_alpha d) (ethk_over_k v (d_r d) (d_vr1 d)) - Cscale (/ sqrt 2) (d_eth d))%C.

(** transformations.py:341-385, in-place Horner form. *)
Definition horner (X : C) (p : fields) (ik3 ik : R) (eth2_half : C) : fields :=
  let mx a := (a * X)%C in
  mkfields
    (Cscale ik3 (mx (mx (mx (mx (f4 p) + Cscale (-4) (f3 p)) + Cscale 6 (f2 p)) + Cscale (-4) (f1 p)) + f0 p)%C)
    (Cscale ik3 (mx (mx (mx (- f4 p) + Cscale 3 (f3 p)) + Cscale (-3) (f2 p)) + f1 p)%C)
    (Cscale ik3 (mx (mx (f4 p) + Cscale (-2) (f3 p)) + f2 p)%C)
    (Cscale ik3 (mx (- f4 p) + f3 p)%C)
    (Cscale ik3 (f4 p))
    (Cscale ik (fs p - eth2_half)%C).
Definition abd_point (v : vec3) (d : dir) (u : R) (p : fields) : fields :=
  let ik := one_over_k v (d_r d) in
  horner (abd_X v d u) p (ik * (ik * ik)) ik (Cscale (/ 2) (d_eth2 d)).

(** ** One field, WaveformGrid.from_modes (waveform_grid.py:484-558) *)
(** waveform_grid.py:514-523; line 507 uses the GHP eth, so the two factors 1/sqrt 2 multiply. *)
Definition grid_X (v : vec3) (d : dir) (t : R) : C :=
  (Cscale ((t - d_alpha d) * gamma v * kfactor v (d_r d)) (Cscale (/ sqrt 2) (d_vr1 d))
   - Cscale (/ sqrt 2) (Cscale (/ sqrt 2) (d_eth d)))%C.
Fixpoint Cpow (z : C) (n : nat) : C := match n with O => C1 | S n => (z * Cpow z n)%C end.
(** scipy.special.comb on small integers. *)
Fixpoint comb (n k : nat) : Z :=
  match n, k with
  | _, O => 1
  | O, S _ => 0
  | S n', S k' => comb n' k' + comb n' (S k')
  end%Z.
(** Weyl scalar with data type code DT (psi0 = 1 ... psi4 = 5). *)
Definition weyl (p : fields) (dt : nat) : C :=
  match dt with 1 => f0 p | 2 => f1 p | 3 => f2 p | 4 => f3 p | _ => f4 p end%nat.
(** The loop at waveform_grid.py:526-551 over DT = dataType+1 .. psi4. *)
Definition grid_mix (dt : nat) (X : C) (p : fields) : C :=
  fold_left (fun acc DT => (acc + Cscale (IZR (comb (5 - dt) (5 - DT))) (weyl p DT) * Cpow X (DT - dt))%C)
            (seq (S dt) (5 - dt)) (weyl p dt).
(** waveform_grid.py:484-561 for one direction and time.  [hval] is the strain when the data type is h;
    [nontrivial] is the condition of line 484.  Data types without a rule are transformed like psi4. *)
Definition grid_value (nontrivial : bool) (v : vec3) (d : dir) (dataType : Z) (t : R) (p : fields) (x : C) : C :=
  if negb nontrivial then x
  else if (dataType =? h)%Z then (x - Cscale 2 (Cscale (/ 2) (Conj (d_eth2 d))))%C
  else if (dataType =? sigma)%Z then (x - Cscale (/ 2) (d_eth2 d))%C
  else if (1 <=? dataType)%Z && (dataType <=? 4)%Z then grid_mix (Z.to_nat dataType) (grid_X v d t) p
  else x.
Definition grid_point (nontrivial : bool) (v : vec3) (d : dir) (dataType : Z) (r_scaled : bool) (t : R) (p : fields) (x : C) : res C :=
  let? cw := conformal_weight dataType r_scaled in
  Ok (Cscale (powerRZ (kfactor v (d_r d)) cw) (grid_value nontrivial v d dataType t p x)).

(** ** New time slices, transformations.py:391-396 and waveform_grid.py:564-568 *)
Fixpoint np_max1 (x : R) (l : list R) : R := match l with [] => x | y :: l => np_max1 (if Rltb x y then y else x) l end.
Fixpoint np_min1 (x : R) (l : list R) : R := match l with [] => x | y :: l => np_min1 (if Rltb y x then y else x) l end.
(** [None] stands for the ValueError numpy raises on an empty array. *)
Definition np_max (l : list R) : res R := match l with [] => Err ValueError | x :: l => Ok (np_max1 x l) end.
Definition np_min (l : list R) : res R := match l with [] => Err ValueError | x :: l => Ok (np_min1 x l) end.

Definition new_slices (v : vec3) (a00 : C) (dirs : list dir) (u : list R) : res (list R) :=
  match u with
  | [] => Err IndexError
  | u0 :: _ =>
    let un := last u 0 in
    let timeprime := map (fun t => (t - re (constant_from_ell_0_mode a00)) / gamma v) u in
    let? lo := np_max (map (fun d => kfactor v (d_r d) * (u0 - d_alpha d)) dirs) in
    let? hi := np_min (map (fun d => kfactor v (d_r d) * (un - d_alpha d)) dirs) in
    Ok (filter (fun t => Rleb lo t && Rleb t hi) timeprime)
  end.

(** waveform_grid.py:570-590, transformations.py:402-412: interpolation in one direction; [spline] is the external
    cubic spline through the given knots. *)
Section Interp.
  Variable spline : list R -> list C -> R -> C.
  Definition knots (v : vec3) (d : dir) (u : list R) : list R := map (fun t => kfactor v (d_r d) * (t - d_alpha d)) u.
  Definition interp (v : vec3) (d : dir) (u : list R) (vals : list C) (newt : list R) : list C :=
    map (spline (knots v d u) vals) newt.
End Interp.
