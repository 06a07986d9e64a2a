(** C29 (time slices), C30 (mixing of Weyl scalars) and C55 (directions and conformal factor of a boosted grid). *)
From Coq Require Import ZArith Reals List Bool Lia Lra.
From Verif Require Import Common Cplx Times_Model Times_Proofs Tables_Model Quat Kwargs_Model Kwargs_Proofs Transform_Model.
Import ListNotations.
Open Scope R_scope.

(** ** Directions and the conformal factor *)
Definition unitv (v : vec3) : Prop := dotv v v = 1.
Lemma norm3_sq : forall v, norm3 v * norm3 v = dotv v v.
Proof. intros [[x y] z]. unfold norm3, dotv. apply sqrt_sqrt. nra. Qed.
Lemma norm3_nonneg : forall v, 0 <= norm3 v.
Proof. intros [[x y] z]. apply sqrt_pos. Qed.
Lemma norm3_unit : forall v, unitv v -> norm3 v = 1.
Proof. intros [[x y] z] H. unfold unitv, dotv in H. unfold norm3. rewrite H. apply sqrt_1. Qed.
Lemma cauchy : forall u v, dotv u v * dotv u v <= dotv u u * dotv v v.
Proof.
  intros [[a b] c] [[x y] z]. unfold dotv.
  assert (0 <= (a * y - b * x) ^ 2 + (b * z - c * y) ^ 2 + (c * x - a * z) ^ 2) by (assert (A := pow2_ge_0 (a * y - b * x)); assert (B := pow2_ge_0 (b * z - c * y)); assert (D := pow2_ge_0 (c * x - a * z)); lra).
  nra.
Qed.
Lemma dot_bound : forall v r, unitv r -> Rabs (dotv v r) <= norm3 v.
Proof.
  intros v r U. assert (A := cauchy v r). unfold unitv in U. rewrite U, Rmult_1_r, <- norm3_sq in A.
  assert (N := norm3_nonneg v). apply Rsqr_le_abs_0 in A. rewrite (Rabs_right (norm3 v)) in A by lra. exact A.
Qed.

Lemma gamma_pos : forall v, norm3 v < 1 -> 0 < gamma v.
Proof.
  intros v H. unfold gamma. assert (N := norm3_nonneg v). apply Rdiv_lt_0_compat; [lra|]. apply sqrt_lt_R0. nra.
Qed.
Lemma gamma_sq : forall v, norm3 v < 1 -> gamma v * gamma v * (1 - norm3 v ^ 2) = 1.
Proof.
  intros v H. unfold gamma. assert (N := norm3_nonneg v). assert (P : 0 < 1 - norm3 v ^ 2) by nra.
  assert (S : sqrt (1 - norm3 v ^ 2) * sqrt (1 - norm3 v ^ 2) = 1 - norm3 v ^ 2) by (apply sqrt_sqrt; lra).
  assert (0 < sqrt (1 - norm3 v ^ 2)) by (apply sqrt_lt_R0; exact P).
  rewrite <- S at 3. field. lra.
Qed.

Lemma one_over_k_pos : forall v r, norm3 v < 1 -> unitv r -> 0 < one_over_k v r.
Proof.
  intros v r H U. unfold one_over_k. assert (G := gamma_pos v H). assert (B := dot_bound v r U).
  assert (dotv v r <= Rabs (dotv v r)) by apply Rle_abs. apply Rmult_lt_0_compat; [exact G|]. lra.
Qed.
Lemma kfactor_pos : forall v r, norm3 v < 1 -> unitv r -> 0 < kfactor v r.
Proof. intros. unfold kfactor. apply Rdiv_lt_0_compat; [lra|]. apply one_over_k_pos; assumption. Qed.

(** The direction of a unit rotor is a unit vector. *)
Lemma direction_unit : forall q, qnorm2 q = 1 -> unitv (direction q).
Proof.
  intros q H. unfold direction. rewrite (qinv_unit q H).
  assert (W : qw (qmul (qmul q qk) (qconj q)) = 0) by (destruct q; cbn; ring).
  assert (N : qnorm2 (qmul (qmul q qk) (qconj q)) = 1).
  { rewrite !qnorm2_mul, qnorm2_conj, H. unfold qnorm2, qk. cbn. ring. }
  unfold unitv, dotv, qvec. unfold qnorm2 in N. rewrite W in N. lra.
Qed.

(** ** C55: aberration *)
Definition rotv (q : quat) (v : vec3) : vec3 :=
  let '(x, y, z) := v in qvec (qmul (qmul q (mkq 0 x y z)) (qconj q)).
Lemma direction_mul : forall b q, qnorm2 b = 1 -> qnorm2 q = 1 -> direction (qmul b q) = rotv b (direction q).
Proof.
  intros b q Hb Hq. unfold direction.
  rewrite (qinv_unit (qmul b q)) by (rewrite qnorm2_mul, Hb, Hq; ring). rewrite (qinv_unit q Hq).
  assert (W : qw (qmul (qmul q qk) (qconj q)) = 0) by (destruct q; cbn; ring).
  unfold rotv, qvec at 2. rewrite qconj_mul.
  set (p := qmul (qmul q qk) (qconj q)) in *.
  replace (mkq 0 (qx p) (qy p) (qz p)) with p by (destruct p; cbn in *; subst; reflexivity).
  unfold p. rewrite !qmul_assoc. reflexivity.
Qed.

(** Rotation by the angle delta about an axis orthogonal to the vector. *)
Definition axis_rotor (n : vec3) (a : R) : quat := let '(x, y, z) := n in mkq (cos a) (sin a * x) (sin a * y) (sin a * z).
Lemma qexp_axis : forall n a, unitv n -> qexp_vec (scalev a n) = axis_rotor n a.
Proof.
  intros [[x y] z] a U. unfold qexp_vec, scalev, axis_rotor.
  assert (N : norm3 (a * x, a * y, a * z) = Rabs a).
  { unfold norm3. unfold unitv, dotv in U. replace (a * x * (a * x) + a * y * (a * y) + a * z * (a * z)) with (a * a * (x * x + y * y + z * z)) by ring.
    rewrite U, Rmult_1_r. change (a * a) with (Rsqr a). apply sqrt_Rsqr_abs. }
  rewrite N. destruct (Req_EM_T (Rabs a) 0) as [E|E].
  - assert (a = 0) by (destruct (Req_dec a 0); [assumption|exfalso; exact (Rabs_no_R0 a H E)]). subst. rewrite sin_0, cos_0. unfold q1. f_equal; ring.
  - unfold Rabs in *. destruct (Rcase_abs a).
    + rewrite sin_neg, cos_neg. apply quat_eq; cbn; try reflexivity; field; lra.
    + apply quat_eq; cbn; try reflexivity; field; lra.
Qed.
Lemma axis_rotor_unit : forall n a, unitv n -> qnorm2 (axis_rotor n a) = 1.
Proof.
  intros [[x y] z] a U. unfold axis_rotor, qnorm2. cbn. unfold unitv, dotv in U. assert (S := sin2_cos2 a). unfold Rsqr in S.
  replace (cos a * cos a + sin a * x * (sin a * x) + sin a * y * (sin a * y) + sin a * z * (sin a * z))
    with (cos a * cos a + sin a * sin a * (x * x + y * y + z * z)) by ring. rewrite U. lra.
Qed.
Definition addv (u v : vec3) : vec3 := let '(a, b, c) := u in let '(x, y, z) := v in (a + x, b + y, c + z).
Lemma rotv_axis : forall n r a, unitv n -> dotv n r = 0 ->
  rotv (axis_rotor n a) r = addv (scalev (cos (2 * a)) r) (scalev (sin (2 * a)) (crossv n r)).
Proof.
  intros [[x y] z] [[p q] r] a U O. unfold unitv, dotv in *. rewrite cos_2a, sin_2a.
  unfold rotv, axis_rotor, qvec, addv, scalev, crossv. cbn.
  assert (S := sin2_cos2 a). unfold Rsqr in S.
  set (c := cos a) in *. set (s := sin a) in *.
  f_equal; [f_equal|].
  - replace (- (sin a)) with (- s) by reflexivity.
    transitivity (c * c * p + 2 * s * c * (y * r - z * q) + s * s * (2 * x * (x * p + y * q + z * r) - p * (x * x + y * y + z * z))); [ring|]. rewrite O, U. ring.
  - transitivity (c * c * q + 2 * s * c * (z * p - x * r) + s * s * (2 * y * (x * p + y * q + z * r) - q * (x * x + y * y + z * z))); [ring|]. rewrite O, U. ring.
  - transitivity (c * c * r + 2 * s * c * (x * q - y * p) + s * s * (2 * z * (x * p + y * q + z * r) - r * (x * x + y * y + z * z))); [ring|]. rewrite O, U. ring.
Qed.

Lemma cross_norm : forall u v, unitv u -> unitv v -> norm3 (crossv u v) * norm3 (crossv u v) = 1 - dotv u v * dotv u v.
Proof.
  intros [[a b] c] [[x y] z] U V. rewrite norm3_sq. unfold unitv, dotv, crossv in *.
  replace (1 - (a * x + b * y + c * z) * (a * x + b * y + c * z))
    with (1 * 1 - (a * x + b * y + c * z) * (a * x + b * y + c * z)) by ring.
  rewrite <- U at 1. rewrite <- V at 1. ring.
Qed.

Lemma cos_2atan : forall t, cos (2 * atan t) = (1 - t * t) / (1 + t * t).
Proof.
  intros t. rewrite cos_2a_cos. rewrite cos_atan.
  assert (P : 0 < 1 + t * t) by nra.
  assert (S : sqrt (1 + Rsqr t) * sqrt (1 + Rsqr t) = 1 + t * t) by (apply sqrt_sqrt; unfold Rsqr; lra).
  assert (0 < sqrt (1 + Rsqr t)) by (apply sqrt_lt_R0; unfold Rsqr; lra).
  set (q := sqrt (1 + Rsqr t)) in *. 
  replace (2 * (1 / q) * (1 / q) - 1) with (2 / (q * q) - 1) by (field; lra). rewrite S. field. lra.
Qed.
Lemma exp_atanh : forall b, 0 <= b < 1 -> exp (- atanh b) * exp (- atanh b) = (1 - b) / (1 + b).
Proof.
  intros b H. rewrite <- exp_plus. unfold atanh.
  assert (P : 0 < (1 + b) / (1 - b)) by (apply Rdiv_lt_0_compat; lra).
  replace (- (/ 2 * ln ((1 + b) / (1 - b))) + - (/ 2 * ln ((1 + b) / (1 - b)))) with (- ln ((1 + b) / (1 - b))) by field.
  rewrite exp_Ropp, exp_ln by exact P. field. lra.
Qed.
Lemma tan_half_sq : forall x, cos x <> -1 -> tan (x / 2) * tan (x / 2) = (1 - cos x) / (1 + cos x).
Proof.
  intros x H. replace x with (2 * (x / 2)) in H |- * at 3 4 by field. set (y := x / 2) in *.
  rewrite cos_2a in *. unfold tan. assert (S := sin2_cos2 y). unfold Rsqr in S.
  assert (cos y <> 0). { intros E. apply H. rewrite E in *. lra. }
  replace (1 - (cos y * cos y - sin y * sin y)) with (2 * (sin y * sin y)) by lra.
  replace (1 + (cos y * cos y - sin y * sin y)) with (2 * (cos y * cos y)) by lra. field. assumption.
Qed.

(** cos Theta of the unprimed direction in terms of cos Theta' (relativistic aberration). *)
Lemma aberration_cos : forall b c, 0 <= b < 1 -> -1 < c <= 1 ->
  cos (2 * atan (exp (- atanh b) * tan (acos c / 2))) = (c + b) / (1 + b * c).
Proof.
  intros b c Hb Hc. rewrite cos_2atan.
  set (e := exp (- atanh b)). set (t := tan (acos c / 2)).
  replace (e * t * (e * t)) with ((e * e) * (t * t)) by ring.
  unfold e, t. rewrite exp_atanh by exact Hb. rewrite tan_half_sq by (rewrite cos_acos by lra; lra).
  rewrite cos_acos by lra. field. split; [nra|]. split; [lra|].
  assert (0 <= b * c + b) by nra. nra.
Qed.

Lemma unit_scalev : forall v, norm3 v <> 0 -> unitv (scalev (/ norm3 v) v).
Proof.
  intros v H. assert (S := norm3_sq v). destruct v as [[x y] z]. unfold unitv, dotv, scalev in *.
  set (n := norm3 (x, y, z)) in *.
  replace (/ n * x * (/ n * x) + / n * y * (/ n * y) + / n * z * (/ n * z)) with (/ n * / n * (x * x + y * y + z * z)) by ring.
  rewrite <- S. field. exact H.
Qed.
Lemma dot_scale_l : forall s u v, dotv (scalev s u) v = s * dotv u v.
Proof. intros s [[a b] c] [[x y] z]. unfold dotv, scalev. ring. Qed.
Lemma dot_scale_r : forall s u v, dotv u (scalev s v) = s * dotv u v.
Proof. intros s [[a b] c] [[x y] z]. unfold dotv, scalev. ring. Qed.
Lemma dot_add_r : forall u v w, dotv u (addv v w) = dotv u v + dotv u w.
Proof. intros [[a b] c] [[x y] z] [[p q] r]. unfold dotv, addv. ring. Qed.
Lemma dot_cross_l : forall u v, dotv (crossv u v) u = 0.
Proof. intros [[a b] c] [[x y] z]. unfold dotv, crossv. ring. Qed.
Lemma dot_cross_cross : forall u v, unitv u -> unitv v -> dotv v (crossv (crossv u v) u) = 1 - dotv u v * dotv u v.
Proof.
  intros [[a b] c] [[x y] z] U V. unfold unitv, dotv, crossv in *.
  transitivity ((a * a + b * b + c * c) * (x * x + y * y + z * z) - (a * x + b * y + c * z) * (a * x + b * y + c * z)); [ring|].
  rewrite U, V. ring.
Qed.
Lemma cross_scale_l : forall s u v, crossv (scalev s u) v = scalev s (crossv u v).
Proof. intros s [[a b] c] [[x y] z]. unfold crossv, scalev. f_equal; [f_equal|]; ring. Qed.
Lemma dot_cross_self : forall u v, dotv (crossv u v) (crossv (crossv u v) u) = 0.
Proof. intros [[a b] c] [[x y] z]. unfold dotv, crossv. ring. Qed.
Lemma dot_comm : forall u v, dotv u v = dotv v u.
Proof. intros [[a b] c] [[x y] z]. unfold dotv. ring. Qed.

(** For a grid point r' of the moving frame, the rotor of that point is a unit rotor whose direction r lies in the
    plane of r' and the velocity and obeys the aberration formula; the conformal factor k there is the Doppler
    factor gamma (1 + v.r'). *)
Theorem C55_aberration : forall frame q v, qnorm2 frame = 1 -> qnorm2 q = 1 -> 3 / 10 ^ 14 < norm3 v < 1 ->
  let r' := direction (qmul frame q) in
  let vhat := scalev (/ norm3 v) v in
  / 10 ^ 200 < norm3 (crossv r' vhat) ->
  let B := grid_rotor frame v q in let r := direction B in
  qnorm2 B = 1 /\ unitv r
  /\ dotv vhat r = (dotv vhat r' + norm3 v) / (1 + norm3 v * dotv vhat r')
  /\ dotv (crossv r' vhat) r = 0
  /\ kfactor v r = gamma v * (1 + dotv v r').
Proof.
  intros frame q v Hf Hq [Hv1 Hv2] r' vhat Hc B r.
  assert (Small : 0 < 3 / 10 ^ 14) by (apply Rdiv_lt_0_compat; [lra|apply pow_lt; lra]).
  assert (Small2 : 0 < / 10 ^ 200) by (apply Rinv_0_lt_compat, pow_lt; lra).
  assert (Hrot : qnorm2 (qmul frame q) = 1) by (rewrite qnorm2_mul, Hf, Hq; ring).
  assert (U' : unitv r') by (apply direction_unit; exact Hrot).
  assert (UV : unitv vhat) by (apply unit_scalev; lra).
  assert (CN := cross_norm r' vhat U' UV).
  set (b := norm3 v) in *. set (cn := norm3 (crossv r' vhat)) in *. set (cc := dotv vhat r').
  assert (CC : dotv r' vhat = cc) by apply dot_comm. rewrite CC in CN.
  assert (Rng : -1 < cc < 1) by (split; nra).
  set (n := scalev (/ cn) (crossv r' vhat)).
  assert (Un : unitv n) by (apply unit_scalev; fold cn; lra).
  set (Th := 2 * atan (exp (- atanh b) * tan (acos cc / 2))).
  set (a := (acos cc - Th) / 2).
  assert (EB : Bprm v r' = axis_rotor n a).
  { unfold Bprm. fold b. destruct (Rltb_spec (3 / 10 ^ 14) b) as [_|N]; [|lra]. cbv zeta. fold vhat cn cc.
    destruct (Rltb_spec (/ 10 ^ 200) cn) as [_|N]; [|lra]. fold Th. fold n. fold a. apply qexp_axis. exact Un. }
  assert (UB : qnorm2 (Bprm v r') = 1) by (rewrite EB; apply axis_rotor_unit; exact Un).
  assert (EBB : B = qmul (Bprm v r') (qmul frame q)) by reflexivity.
  assert (U1 : qnorm2 B = 1) by (rewrite EBB, qnorm2_mul, UB, Hrot; ring).
  assert (Er : r = addv (scalev (cos (2 * a)) r') (scalev (sin (2 * a)) (crossv n r'))).
  { unfold r. rewrite EBB, direction_mul by assumption. fold r'. rewrite EB. apply rotv_axis; [exact Un|].
    unfold n. rewrite dot_scale_l, dot_cross_l. ring. }
  assert (Sin : sin (acos cc) = cn).
  { rewrite sin_acos by lra. unfold Rsqr. rewrite <- CN. apply sqrt_square. apply norm3_nonneg. }
  assert (D : dotv vhat r = cos Th).
  { rewrite Er, dot_add_r, !dot_scale_r. fold cc. unfold n. rewrite cross_scale_l, dot_scale_r, dot_cross_cross, CC, <- CN by assumption.
    replace (sin (2 * a) * (/ cn * (cn * cn))) with (sin (2 * a) * cn) by (field; lra).
    replace (2 * a) with (acos cc - Th) by (unfold a; field).
    transitivity (cos (acos cc - (acos cc - Th))); [|f_equal; ring]. rewrite (cos_minus (acos cc) (acos cc - Th)), cos_acos by lra. rewrite Sin. ring. }
  assert (D' : dotv vhat r = (cc + b) / (1 + b * cc)).
  { rewrite D. unfold Th. apply aberration_cos; lra. }
  assert (Ur : unitv r) by (apply direction_unit; exact U1).
  split; [exact U1|]. split; [exact Ur|]. split; [exact D'|]. split.
  - rewrite Er, dot_add_r, !dot_scale_r, dot_cross_l. unfold n. rewrite cross_scale_l, dot_scale_r, dot_cross_self. ring.
  - unfold kfactor, one_over_k.
    assert (Ev : v = scalev b vhat).
    { unfold vhat. destruct v as [[x y] z]. unfold scalev. f_equal; [f_equal|]; field; lra. }
    assert (Dv : dotv v r = b * dotv vhat r) by (rewrite Ev at 1; apply dot_scale_l).
    assert (Dv' : dotv v r' = b * cc) by (rewrite Ev at 1; apply dot_scale_l).
    rewrite Dv, Dv', D'. assert (G := gamma_sq v Hv2). fold b in G. assert (Gp := gamma_pos v Hv2).
    assert (P : 0 < 1 + b * cc) by nra. set (g := gamma v) in *.
    assert (Q : 0 < 1 - b ^ 2) by nra.
    replace (g * (1 - b * ((cc + b) / (1 + b * cc)))) with (g * (1 - b ^ 2) / (1 + b * cc)) by (field; lra).
    apply Rmult_eq_reg_r with (g * (1 - b ^ 2)); [|nra].
    replace (g * (1 + b * cc) * (g * (1 - b ^ 2))) with ((1 + b * cc) * (g * g * (1 - b ^ 2))) by ring. rewrite G. field. repeat split; nra.
Qed.

(** Looking along the velocity nothing is deflected, and without a boost the grid is only rotated. *)
Theorem C55_parallel : forall frame q v, qnorm2 frame = 1 -> qnorm2 q = 1 ->
  (forall s, s * s = 1 -> norm3 v < 1 -> v <> (0, 0, 0) -> direction (qmul frame q) = scalev s (scalev (/ norm3 v) v) ->
     grid_rotor frame v q = qmul frame q /\ kfactor v (direction (grid_rotor frame v q)) = gamma v * (1 + dotv v (direction (qmul frame q))))
  /\ grid_rotor frame (0, 0, 0) q = qmul frame q.
Proof.
  intros frame q v Hf Hq. split.
  - intros s Hs Hv1 Hv0 E.
    assert (Hn : norm3 v <> 0).
    { intros N. apply Hv0. assert (S := norm3_sq v). rewrite N in S. destruct v as [[x y] z]. unfold dotv in S.
      assert (x = 0) by nra. assert (y = 0) by nra. assert (z = 0) by nra. subst. reflexivity. }
    assert (Z : norm3 (crossv (direction (qmul frame q)) (scalev (/ norm3 v) v)) = 0).
    { rewrite E. destruct v as [[x y] z]. set (n := norm3 (x, y, z)). unfold norm3, crossv, scalev.
      match goal with |- sqrt ?e = 0 => replace e with 0 by ring end. apply sqrt_0. }
    assert (B1 : Bprm v (direction (qmul frame q)) = q1).
    { unfold Bprm. destruct (Rltb (3 / 10 ^ 14) (norm3 v)); [|reflexivity]. cbv zeta. rewrite Z.
      destruct (Rltb_spec (/ 10 ^ 200) 0) as [N|_]; [|reflexivity]. exfalso. assert (0 < / 10 ^ 200) by (apply Rinv_0_lt_compat, pow_lt; lra). lra. }
    assert (EG : grid_rotor frame v q = qmul frame q) by (unfold grid_rotor; rewrite B1; apply qmul_1_l).
    split; [exact EG|]. rewrite EG. unfold kfactor, one_over_k.
    assert (D : dotv v (direction (qmul frame q)) = s * norm3 v).
    { rewrite E, !dot_scale_r, <- norm3_sq. field. exact Hn. }
    rewrite D. assert (G := gamma_sq v Hv1). assert (Gp := gamma_pos v Hv1). assert (Np := norm3_nonneg v).
    set (b := norm3 v) in *. set (g := gamma v) in *.
    assert (P1 : 0 < 1 - s * b) by (destruct (Rle_dec 0 s); nra).
    apply Rmult_eq_reg_r with (g * (1 - s * b)); [|nra].
    replace (g * (1 + s * b) * (g * (1 - s * b))) with (g * g * (1 - (s * s) * b ^ 2)) by ring. rewrite Hs, Rmult_1_l, G. field. split; lra.
  - unfold grid_rotor, Bprm.
    assert (N0 : norm3 (0, 0, 0) = 0) by (unfold norm3; replace (0 * 0 + 0 * 0 + 0 * 0) with 0 by ring; apply sqrt_0).
    rewrite N0. destruct (Rltb_spec (3 / 10 ^ 14) 0) as [N|_]; [|apply qmul_1_l].
    exfalso. assert (0 < 3 / 10 ^ 14) by (apply Rdiv_lt_0_compat; [lra|apply pow_lt; lra]). lra.
Qed.

(** k is positive and lies between the two extreme Doppler factors. *)
Theorem C55_conformal_factor : forall v r, norm3 v < 1 -> unitv r ->
  0 < kfactor v r
  /\ gamma v * (1 - norm3 v) <= kfactor v r <= gamma v * (1 + norm3 v)
  /\ kfactor v r * one_over_k v r = 1.
Proof.
  intros v r Hv U. assert (O := one_over_k_pos v r Hv U). assert (B := dot_bound v r U).
  assert (G := gamma_sq v Hv). assert (Gp := gamma_pos v Hv). assert (Np := norm3_nonneg v).
  split; [apply kfactor_pos; assumption|]. unfold kfactor in *.
  assert (B1 : - norm3 v <= dotv v r <= norm3 v).
  { assert (A1 := Rle_abs (dotv v r)). assert (A2 := Rle_abs (- dotv v r)). rewrite Rabs_Ropp in A2. lra. }
  split; [|field; lra]. unfold one_over_k in *. set (b := norm3 v) in *. set (g := gamma v) in *. set (c := dotv v r) in *.
  split; apply Rmult_le_reg_r with (g * (1 - c)); try assumption; replace (1 / (g * (1 - c)) * (g * (1 - c))) with 1 by (field; split; nra).
  - replace (g * (1 - b) * (g * (1 - c))) with ((g * g) * ((1 - b) * (1 - c))) by ring. rewrite <- G. apply Rmult_le_compat_l; nra.
  - replace (g * (1 + b) * (g * (1 - c))) with ((g * g) * ((1 + b) * (1 - c))) by ring. rewrite <- G. apply Rmult_le_compat_l; nra.
Qed.
Example C55_case : let v := (0, 0, 1 / 2) in let q := mkq (/ sqrt 2) 0 (/ sqrt 2) 0 in
  qnorm2 q1 = 1 /\ qnorm2 q = 1 /\ 3 / 10 ^ 14 < norm3 v < 1 /\ / 10 ^ 200 < norm3 (crossv (direction (qmul q1 q)) (scalev (/ norm3 v) v)).
Proof.
  intros v q. assert (S : sqrt 2 * sqrt 2 = 2) by (apply sqrt_sqrt; lra). assert (0 < sqrt 2) by (apply sqrt_lt_R0; lra).
  assert (I : / sqrt 2 * / sqrt 2 = / 2) by (rewrite <- S at 3; field; lra).
  assert (U : qnorm2 q = 1) by (unfold qnorm2, q; cbn; lra).
  assert (N : norm3 v = 1 / 2).
  { unfold norm3, v. replace (0 * 0 + 0 * 0 + 1 / 2 * (1 / 2)) with ((1 / 2) * (1 / 2)) by ring. apply sqrt_square. lra. }
  split; [unfold qnorm2, q1; cbn; ring|]. split; [exact U|]. rewrite N. split; [lra|].
  rewrite qmul_1_l. assert (D : direction q = (1, 0, 0)).
  { unfold direction. rewrite qinv_unit by exact U. unfold qvec, q. cbn. set (h := / sqrt 2) in *. f_equal; [f_equal|]; nra. }
  rewrite D. unfold crossv, scalev, v, norm3.
  match goal with |- _ < sqrt ?e => replace e with 1 by field end. rewrite sqrt_1.
  rewrite <- Rinv_1. apply Rinv_lt_contravar; [rewrite Rmult_1_l; apply pow_lt; lra|]. apply Rlt_pow_R1; [lra|lia].
Qed.

(** ** C29: time slices *)
Lemma Ok_inj : forall A (x y : A), Ok x = Ok y -> x = y.
Proof. intros A x y H. injection H as H. exact H. Qed.
Lemma np_max1_spec : forall l x, (forall y, In y (x :: l) -> y <= np_max1 x l) /\ In (np_max1 x l) (x :: l).
Proof.
  induction l as [|y l IH]; intros x; cbn [np_max1].
  - split; [intros y [->|[]]; lra|left; reflexivity].
  - destruct (Rltb_spec x y) as [L|L]; [destruct (IH y) as [A B]|destruct (IH x) as [A B]]; split.
    + intros z [->|[->|I]]; [|apply A; left; reflexivity|apply A; right; exact I].
      assert (y <= np_max1 y l) by (apply A; left; reflexivity). lra.
    + right. exact B.
    + intros z [->|[->|I]]; [apply A; left; reflexivity| |apply A; right; exact I].
      assert (x <= np_max1 x l) by (apply A; left; reflexivity). lra.
    + destruct B as [<-|I]; [left; reflexivity|right; right; exact I].
Qed.
Lemma np_min1_spec : forall l x, (forall y, In y (x :: l) -> np_min1 x l <= y) /\ In (np_min1 x l) (x :: l).
Proof.
  induction l as [|y l IH]; intros x; cbn [np_min1].
  - split; [intros y [->|[]]; lra|left; reflexivity].
  - destruct (Rltb_spec y x) as [L|L]; [destruct (IH y) as [A B]|destruct (IH x) as [A B]]; split.
    + intros z [->|[->|I]]; [|apply A; left; reflexivity|apply A; right; exact I].
      assert (np_min1 y l <= y) by (apply A; left; reflexivity). lra.
    + right. exact B.
    + intros z [->|[->|I]]; [apply A; left; reflexivity| |apply A; right; exact I].
      assert (np_min1 x l <= x) by (apply A; left; reflexivity). lra.
    + destruct B as [<-|I]; [left; reflexivity|right; right; exact I].
Qed.
Lemma np_max_le : forall l m x, np_max l = Ok m -> (m <= x <-> forall y, In y l -> y <= x).
Proof.
  intros [|a l] m x H; [discriminate|]. injection H as <-. destruct (np_max1_spec l a) as [A B]. split.
  - intros H y I. specialize (A y I). lra.
  - intros H. apply H. exact B.
Qed.
Lemma np_min_ge : forall l m x, np_min l = Ok m -> (x <= m <-> forall y, In y l -> x <= y).
Proof.
  intros [|a l] m x H; [discriminate|]. injection H as <-. destruct (np_min1_spec l a) as [A B]. split.
  - intros H y I. specialize (A y I). lra.
  - intros H. apply H. exact B.
Qed.

(** Candidate slices: the input times, shifted by the mean supertranslation and divided by gamma. *)
Definition candidates (v : vec3) (a00 : C) (u : list R) : list R := map (fun t => (t - re a00 / sqrt (4 * PI)) / gamma v) u.
(** Input retarded time met on slice t' in direction d:  u = u'/k + alpha. *)
Definition source_time (v : vec3) (d : dir) (t' : R) : R := t' / kfactor v (d_r d) + d_alpha d.

(** A candidate slice is kept exactly when, in every direction, it meets the input at a time within its range. *)
Theorem C29_slices : forall v a00 dirs u out, norm3 v < 1 -> (forall d, In d dirs -> unitv (d_r d)) ->
  new_slices v a00 dirs u = Ok out ->
  forall t', In t' out <-> In t' (candidates v a00 u)
    /\ forall d, In d dirs -> hd 0 u <= source_time v d t' <= last u 0.
Proof.
  intros v a00 dirs u out Hv Hd H t'. unfold new_slices in H. destruct u as [|u0 u]; [discriminate|].
  cbv zeta in H. set (un := last (u0 :: u) 0) in *.
  destruct (np_max _) as [lo|] eqn:Elo; [|discriminate]. destruct (np_min _) as [hi|] eqn:Ehi; [|discriminate].
  cbn [rbind] in H. apply Ok_inj in H. subst out. rewrite filter_In, andb_true_iff.
  assert (Same : map (fun t => (t - re (constant_from_ell_0_mode a00)) / gamma v) (u0 :: u) = candidates v a00 (u0 :: u)).
  { unfold candidates. apply map_ext. intros t. f_equal. unfold constant_from_ell_0_mode, Cscale. cbn. unfold Rdiv. ring. }
  rewrite Same. apply and_iff_compat_l.
  assert (L1 : Rleb lo t' = true <-> lo <= t') by (destruct (Rleb_spec lo t'); split; intros; try assumption; try discriminate; try reflexivity; lra).
  assert (L2 : Rleb t' hi = true <-> t' <= hi) by (destruct (Rleb_spec t' hi); split; intros; try assumption; try discriminate; try reflexivity; lra).
  rewrite L1, L2, (np_max_le _ _ t' Elo), (np_min_ge _ _ t' Ehi).
  assert (K : forall d, In d dirs -> (kfactor v (d_r d) * (u0 - d_alpha d) <= t' <-> u0 <= source_time v d t')
                                /\ (t' <= kfactor v (d_r d) * (un - d_alpha d) <-> source_time v d t' <= un)).
  { intros d I. assert (P := kfactor_pos v (d_r d) Hv (Hd d I)). unfold source_time. set (k := kfactor v (d_r d)) in *.
    assert (E : t' = k * (t' / k)) by (field; lra). split; split; intros G.
    - assert (u0 - d_alpha d <= t' / k); [|lra]. apply Rmult_le_reg_l with k; [exact P|]. lra.
    - rewrite E. apply Rmult_le_compat_l; lra.
    - assert (t' / k <= un - d_alpha d); [|lra]. apply Rmult_le_reg_l with k; [exact P|]. lra.
    - rewrite E at 1. apply Rmult_le_compat_l; lra. }
  cbn [hd]. split.
  - intros [A B] d I. destruct (K d I) as [K1 K2]. split; [apply K1; apply A|apply K2; apply B]; apply in_map_iff; exists d; split; try reflexivity; exact I.
  - intros A. split; intros y I; apply in_map_iff in I; destruct I as (d & <- & I); destruct (K d I) as [K1 K2]; destruct (A d I); [apply K1|apply K2]; assumption.
Qed.

(** Hence the spline in each direction is only evaluated between its first and last knot, and the kept slices are
    in increasing order when the input times are. *)
Theorem C29_no_extrapolation : forall v a00 dirs u out, norm3 v < 1 -> (forall d, In d dirs -> unitv (d_r d)) ->
  new_slices v a00 dirs u = Ok out -> forall d t', In d dirs -> In t' out ->
  hd 0 (knots v d u) <= t' <= last (knots v d u) 0.
Proof.
  intros v a00 dirs u out Hv Hd H d t' Id It. assert (Hu : u <> []) by (intros ->; discriminate).
  apply (C29_slices v a00 dirs u out Hv Hd H) in It. destruct It as [_ S]. specialize (S d Id).
  assert (P := kfactor_pos v (d_r d) Hv (Hd d Id)). unfold source_time in S. unfold knots. set (k := kfactor v (d_r d)) in *.
  assert (E : t' = k * (t' / k)) by (field; lra).
  assert (Hl : last (map (fun t => k * (t - d_alpha d)) u) 0 = k * (last u 0 - d_alpha d)).
  { clear S H Hd. induction u as [|a [|b u] IH]; [congruence|reflexivity|]. change (last (a :: b :: u) 0) with (last (b :: u) 0).
    rewrite <- IH by discriminate. reflexivity. }
  rewrite Hl. destruct u as [|u0 u]; [congruence|]. cbn [hd map] in *.
  split; rewrite E; apply Rmult_le_compat_l; lra.
Qed.

Inductive increasing : list R -> Prop :=
| inc_nil : increasing [] | inc_one : forall x, increasing [x]
| inc_cons : forall x y l, x < y -> increasing (y :: l) -> increasing (x :: y :: l).
Lemma increasing_lt : forall l x, increasing (x :: l) -> forall y, In y l -> x < y.
Proof.
  induction l as [|a l IH]; intros x H y I; [contradiction|]. inversion H; subst. destruct I as [<-|I]; [assumption|].
  specialize (IH a H4 y I). lra.
Qed.
Lemma increasing_intro : forall l x, (forall y, In y l -> x < y) -> increasing l -> increasing (x :: l).
Proof. intros [|y l] x H I; constructor; [apply H; left; reflexivity|exact I]. Qed.
Lemma increasing_filter : forall f l, increasing l -> increasing (filter f l).
Proof.
  induction l as [|x l IH]; intros H; [constructor|]. assert (T : increasing l) by (inversion H; subst; [constructor|assumption]).
  simpl. destruct (f x); [|apply IH; exact T]. apply increasing_intro; [|apply IH; exact T].
  intros y I. apply filter_In in I. apply (increasing_lt l x H). tauto.
Qed.
Lemma increasing_map : forall f l, (forall x y, x < y -> f x < f y) -> increasing l -> increasing (map f l).
Proof. intros f l Hf H. induction H; simpl; constructor; auto. Qed.

Theorem C29_increasing : forall v a00 dirs u out, norm3 v < 1 -> increasing u -> new_slices v a00 dirs u = Ok out -> increasing out.
Proof.
  intros v a00 dirs u out Hv I H. unfold new_slices in H. destruct u as [|u0 u]; [discriminate|]. cbv zeta in H.
  destruct (np_max _) as [lo|]; [|discriminate]. destruct (np_min _) as [hi|]; [|discriminate]. cbn [rbind] in H. apply Ok_inj in H. subst out.
  apply (increasing_filter _ (map (fun t => (t - re (constant_from_ell_0_mode a00)) / gamma v) (u0 :: u))).
  apply increasing_map; [|exact I]. intros x y L. assert (G := gamma_pos v Hv). unfold Rdiv. apply Rmult_lt_compat_r; [apply Rinv_0_lt_compat; exact G|lra].
Qed.

(** A pure time translation (the same alpha in every direction, no boost) loses no slice. *)
Theorem C29_time_translation : forall a dirs u, u <> [] -> increasing u -> dirs <> [] ->
  (forall d, In d dirs -> d_alpha d = a /\ unitv (d_r d)) ->
  new_slices (0, 0, 0) (constant_as_ell_0_mode a) dirs u = Ok (map (fun t => t - a) u).
Proof.
  intros a dirs u Hu Hi Hd HD.
  assert (Nz : norm3 (0, 0, 0) = 0) by (unfold norm3; replace (0 * 0 + 0 * 0 + 0 * 0) with 0 by ring; apply sqrt_0).
  assert (G1 : gamma (0, 0, 0) = 1) by (unfold gamma; rewrite Nz; replace (1 - 0 ^ 2) with 1 by ring; rewrite sqrt_1; field).
  assert (K1 : forall r, kfactor (0, 0, 0) r = 1).
  { intros [[x y] z]. unfold kfactor, one_over_k. rewrite G1. unfold dotv. field. }
  assert (T0 : re (constant_from_ell_0_mode (constant_as_ell_0_mode a)) = a).
  { unfold constant_from_ell_0_mode, constant_as_ell_0_mode, Cscale, RtoC. cbn. destruct sqrt_consts as (_ & _ & S). set (s := sqrt (4 * PI)) in *.
    replace (/ s * (a * s)) with (a * (s * / s)) by ring. rewrite S. ring. }
  unfold new_slices. destruct u as [|u0 u]; [congruence|]. cbv zeta. rewrite T0, G1.
  assert (Ends : forall x, map (fun d => kfactor (0, 0, 0) (d_r d) * (x - d_alpha d)) dirs = map (fun _ => x - a) dirs).
  { intros x. apply map_ext_in. intros d I. rewrite K1. destruct (HD d I) as [-> _]. ring. }
  rewrite !Ends. destruct dirs as [|d0 dirs]; [congruence|]. cbn [map np_max np_min rbind].
  assert (Mx : forall x (l : list dir), np_max1 x (map (fun _ => x) l) = x).
  { induction l as [|y l IH]; cbn [map np_max1]; [reflexivity|]. destruct (Rltb x x); exact IH. }
  assert (Mn : forall x (l : list dir), np_min1 x (map (fun _ => x) l) = x).
  { induction l as [|y l IH]; cbn [map np_min1]; [reflexivity|]. destruct (Rltb x x); exact IH. }
  rewrite Mx, Mn. f_equal.
  assert (Mp : forall l, map (fun t => (t - a) / 1) l = map (fun t => t - a) l) by (intros; apply map_ext; intros; field).
  change ((u0 - a) / 1 :: map (fun t => (t - a) / 1) u) with (map (fun t => (t - a) / 1) (u0 :: u)).
  change (u0 - a :: map (fun t => t - a) u) with (map (fun t => t - a) (u0 :: u)).
  rewrite Mp. clear Ends Mp.
  assert (Lst : forall l x y, increasing (x :: l) -> In y (x :: l) -> x <= y <= last (x :: l) 0).
  { induction l as [|b l IH]; intros x y I H; [destruct H as [<-|[]]; cbn; lra|].
    inversion I; subst. change (last (x :: b :: l) 0) with (last (b :: l) 0).
    destruct H as [<-|H]; [specialize (IH b b H4 (or_introl eq_refl)); lra|specialize (IH b y H4 H); lra]. }
  assert (F : forall (f : R -> bool) l, (forall y, In y l -> f y = true) -> filter f l = l).
  { induction l as [|y l IH]; intros A; [reflexivity|]. simpl. rewrite (A y (or_introl eq_refl)). f_equal. apply IH. intros z I. apply A. right. exact I. }
  apply F. intros y I. apply in_map_iff in I. destruct I as (x & <- & I). destruct (Lst u u0 x Hi I) as [B1 B2].
  apply andb_true_iff. split; [destruct (Rleb_spec (u0 - a) (x - a)) as [|N]; [reflexivity|lra]|].
  destruct (Rleb_spec (x - a) (last (u0 :: u) 0 - a)) as [|N]; [reflexivity|]. lra.
Qed.
Example C29_case : norm3 (0, 0, 0) < 1 /\ unitv (0, 0, 1) /\ increasing [0; 1; 2]
  /\ new_slices (0, 0, 0) (constant_as_ell_0_mode 3) [mkdir (0, 0, 1) 3 C0 C0 C0] [0; 1; 2] = Ok [0 - 3; 1 - 3; 2 - 3].
Proof.
  split; [unfold norm3; replace (0 * 0 + 0 * 0 + 0 * 0) with 0 by ring; rewrite sqrt_0; lra|].
  split; [unfold unitv, dotv; ring|]. assert (I : increasing [0; 1; 2]) by (repeat constructor; lra). split; [exact I|].
  apply (C29_time_translation 3); [discriminate|exact I|discriminate|]. intros d [<-|[]]. split; [reflexivity|unfold unitv, dotv; cbn; ring].
Qed.

(** ** C30: mixing of the Weyl scalars *)
Open Scope C_scope.
(** The quartic form whose coefficients are the five Weyl scalars. *)
Definition quartic (p : fields) (a b : C) : C :=
  f0 p * (a * a * a * a) + Cscale 4 (f1 p) * (a * a * a * b) + Cscale 6 (f2 p) * (a * a * b * b)
  + Cscale 4 (f3 p) * (a * b * b * b) + f4 p * (b * b * b * b).
Lemma Cscale_mul : forall x z, Cscale x z = RtoC x * z.
Proof. intros; cx. Qed.

(** The form determines the scalars, so the next theorem determines the transformed scalars. *)
Lemma Cscale_inj : forall x z, x <> 0%R -> Cscale x z = C0 -> z = C0.
Proof.
  intros x [a b] H E. assert (E1 := f_equal re E). assert (E2 := f_equal im E). cbn in E1, E2.
  apply C_eq; cbn; [destruct (Rmult_integral _ _ E1)|destruct (Rmult_integral _ _ E2)]; tauto.
Qed.
Theorem C30_form_determines : forall p q, (forall a b, quartic p a b = quartic q a b) ->
  f0 p = f0 q /\ f1 p = f1 q /\ f2 p = f2 q /\ f3 p = f3 q /\ f4 p = f4 q.
Proof.
  intros [p0 p1 p2 p3 p4 ps] [r0 r1 r2 r3 r4 rs] H. unfold quartic in H. cbn [f0 f1 f2 f3 f4] in *.
  assert (E0 := H C1 C0). assert (E4 := H C0 C1). assert (Ep := H C1 C1). assert (Em := H C1 (- C1)). assert (E2 := H C1 (C1 + C1)). clear H.
  assert (H0 : p0 = r0) by (transitivity (p0 * (C1 * C1 * C1 * C1) + Cscale 4 p1 * (C1 * C1 * C1 * C0) + Cscale 6 p2 * (C1 * C1 * C0 * C0) + Cscale 4 p3 * (C1 * C0 * C0 * C0) + p4 * (C0 * C0 * C0 * C0)); [ring|rewrite E0; ring]).
  assert (H4 : p4 = r4) by (transitivity (p0 * (C0 * C0 * C0 * C0) + Cscale 4 p1 * (C0 * C0 * C0 * C1) + Cscale 6 p2 * (C0 * C0 * C1 * C1) + Cscale 4 p3 * (C0 * C1 * C1 * C1) + p4 * (C1 * C1 * C1 * C1)); [ring|rewrite E4; ring]).
  subst r0 r4. clear E0 E4.
  assert (A1 := f_equal re Ep). assert (A2 := f_equal im Ep). assert (B1 := f_equal re Em). assert (B2 := f_equal im Em).
  assert (D1 := f_equal re E2). assert (D2 := f_equal im E2). cbn in A1, A2, B1, B2, D1, D2. clear Ep Em E2.
  split; [reflexivity|]. split; [apply C_eq; cbn; lra|]. split; [apply C_eq; cbn; lra|]. split; [apply C_eq; cbn; lra|reflexivity].
Qed.

(** AsymptoticBondiData.transform acts on the form as the null rotation (a,b) -> (a, b - X a), with weight 1/k^3. *)
Theorem C30_null_rotation : forall v d u p a b,
  quartic (abd_point v d u p) a b
  = Cscale (one_over_k v (d_r d) ^ 3) (quartic p a (b - abd_X v d u * a)).
Proof.
  intros v d u p a b. unfold abd_point, horner, quartic. cbn [f0 f1 f2 f3 f4].
  set (X := abd_X v d u). set (k := one_over_k v (d_r d)). destruct p as [p0 p1 p2 p3 p4 ps]. cbn [f0 f1 f2 f3 f4 fs].
  rewrite !Cscale_mul.
  replace (RtoC (k * (k * k))) with (RtoC k * RtoC k * RtoC k) by cx. replace (RtoC (k ^ 3)) with (RtoC k * RtoC k * RtoC k) by cx.
  replace (RtoC 4) with (C1 + C1 + C1 + C1) by cx. replace (RtoC (-4)) with (- (C1 + C1 + C1 + C1)) by cx.
  replace (RtoC 6) with (C1 + C1 + C1 + C1 + C1 + C1) by cx. replace (RtoC 3) with (C1 + C1 + C1) by cx.
  replace (RtoC (-3)) with (- (C1 + C1 + C1)) by cx. replace (RtoC (-2)) with (- (C1 + C1)) by cx. ring.
Qed.

(** Composition and identity of the mixing. *)
Theorem C30_group : forall X Y p k l e e',
  let p1 := horner X p (k ^ 3) k e in let p2 := horner Y p1 (l ^ 3) l e' in
  let q := horner (X + Y) p ((k * l) ^ 3) (k * l) (e + Cscale (/ k) e') in
  f0 p2 = f0 q /\ f1 p2 = f1 q /\ f2 p2 = f2 q /\ f3 p2 = f3 q /\ f4 p2 = f4 q /\ (k <> 0%R -> fs p2 = fs q).
Proof.
  intros X Y [p0 p1 p2 p3 p4 ps] k l e e'. cbv zeta. unfold horner. cbn [f0 f1 f2 f3 f4 fs].
  destruct X, Y, p0, p1, p2, p3, p4, ps, e, e'. repeat split.
  - apply C_eq; cbn; ring.
  - apply C_eq; cbn; ring.
  - apply C_eq; cbn; ring.
  - apply C_eq; cbn; ring.
  - apply C_eq; cbn; ring.
  - intros H. apply C_eq; cbn; field; exact H.
Qed.
Theorem C30_identity : forall p, horner C0 p 1 1 C0 = p.
Proof. intros [p0 p1 p2 p3 p4 ps]. unfold horner. cbn. f_equal; cx. Qed.

(** Conversion between the convention of AsymptoticBondiData and that of a WaveformModes; these are the inverses of
    the factors listed by create_abd_from_h5. *)
Definition to_spec (p : fields) : fields :=
  mkfields (Cscale (/ 2) (f0 p)) (Cscale (- / sqrt 2) (f1 p)) (f2 p) (Cscale (- sqrt 2) (f3 p)) (Cscale 2 (f4 p)) (Cscale 2 (Conj (fs p))).

Lemma grid_abd_X : forall v d u, (norm3 v < 1)%R -> unitv (d_r d) -> grid_X v d u = Cscale (/ sqrt 2) (abd_X v d u).
Proof.
  intros v d u Hv Hr. assert (G := gamma_pos v Hv). assert (P := one_over_k_pos v (d_r d) Hv Hr).
  assert (N : (1 - dotv v (d_r d) <> 0)%R) by (unfold one_over_k in P; intros Z; rewrite Z, Rmult_0_r in P; lra).
  assert (S2 : (sqrt 2 <> 0)%R) by (apply Rgt_not_eq, sqrt_lt_R0; lra).
  unfold grid_X, abd_X, ethk_over_k, kfactor, one_over_k. destruct (d_vr1 d), (d_eth d). apply C_eq; cbn; field; repeat split; auto; lra.
Qed.

(** A direction in which the supertranslation is constant and there is no boost. *)
Definition trivial_dir (d : dir) : Prop := d_eth d = C0 /\ d_eth2 d = C0 /\ d_vr1 d = C0.

(** The two implementations agree for all five Weyl scalars. *)
Theorem C30_agree : forall nt v d u p dt, (norm3 v < 1)%R -> unitv (d_r d) -> (nt = false -> trivial_dir d) ->
  (1 <= dt <= 5)%nat ->
  grid_point nt v d (Z.of_nat dt) true u (to_spec p) (weyl (to_spec p) dt) = Ok (weyl (to_spec (abd_point v d u p)) dt).
Proof.
  intros nt v d u p dt Hv Hr Hn Hdt.
  assert (P := one_over_k_pos v (d_r d) Hv Hr).
  assert (W : (powerRZ (kfactor v (d_r d)) (-3) = one_over_k v (d_r d) * (one_over_k v (d_r d) * one_over_k v (d_r d)))%R).
  { unfold kfactor. cbn [powerRZ]. change (Pos.to_nat 3) with 3%nat. cbn [pow]. field. lra. }
  assert (CW : conformal_weight (Z.of_nat dt) true = Ok (-3)%Z) by (destruct dt as [|[|[|[|[|[|dt]]]]]]; try lia; reflexivity).
  unfold grid_point. rewrite CW. cbn [rbind]. rewrite W. f_equal.
  set (k := one_over_k v (d_r d)) in *.
  assert (S2 : (sqrt 2 * sqrt 2 = 2)%R) by (apply sqrt_sqrt; lra).
  assert (S2n : (sqrt 2 <> 0)%R) by (apply Rgt_not_eq, sqrt_lt_R0; lra).
  assert (GX := grid_abd_X v d u Hv Hr).
  assert (V : grid_value nt v d (Z.of_nat dt) u (to_spec p) (weyl (to_spec p) dt)
              = if (dt =? 5)%nat then f4 (to_spec p) else grid_mix dt (grid_X v d u) (to_spec p)).
  { unfold grid_value. destruct nt; cbn [negb].
    - destruct dt as [|[|[|[|[|[|dt]]]]]]; try lia; reflexivity.
    - destruct (Hn eq_refl) as (Z1 & Z2 & Z3).
      assert (X0 : grid_X v d u = C0) by (unfold grid_X; rewrite Z1, Z3; cx).
      rewrite X0. destruct dt as [|[|[|[|[|[|dt]]]]]]; try lia; cbn -[Cadd Cmul C0]; try reflexivity; ring. }
  rewrite V, GX. unfold abd_point. fold k. set (X := abd_X v d u). destruct p as [p0 p1 p2 p3 p4 ps].
  assert (Q : (/ sqrt 2 = sqrt 2 / 2)%R) by (field_simplify_eq; [nra|exact S2n]).
  unfold to_spec, horner. rewrite Q. set (s := sqrt 2) in *. clearbody s k X. clear - S2 Hdt.
  assert (S2' : (s ^ 2 = 2)%R) by nra.
  destruct X as [x y], p0, p1, p2, p3, p4.
  destruct dt as [|[|[|[|[|[|dt]]]]]]; try lia; cbn [Nat.eqb weyl f0 f1 f2 f3 f4].
  - unfold grid_mix; cbn; apply C_eq; cbn; field [S2'].
  - unfold grid_mix; cbn; apply C_eq; cbn; field [S2'].
  - unfold grid_mix; cbn; apply C_eq; cbn; field [S2'].
  - unfold grid_mix; cbn; apply C_eq; cbn; field [S2'].
  - cx.
Qed.

(** Strain and shear: the strain 2 conj(sigma) of the transformed shear is the transformed strain. *)
Theorem C30_agree_shear : forall nt v d u p q, (norm3 v < 1)%R -> unitv (d_r d) -> (nt = false -> trivial_dir d) ->
  grid_point nt v d sigma true u q (fs p) = Ok (fs (abd_point v d u p))
  /\ grid_point nt v d h true u q (Cscale 2 (Conj (fs p))) = Ok (Cscale 2 (Conj (fs (abd_point v d u p)))).
Proof.
  intros nt v d u p q Hv Hr Hn. assert (P := one_over_k_pos v (d_r d) Hv Hr).
  assert (W : (powerRZ (kfactor v (d_r d)) (-1) = one_over_k v (d_r d))%R).
  { unfold kfactor. cbn [powerRZ]. change (Pos.to_nat 1) with 1%nat. cbn [pow]. field. lra. }
  unfold grid_point. change (conformal_weight sigma true) with (Ok (-1)%Z). change (conformal_weight h true) with (Ok (-1)%Z).
  cbn [rbind]. rewrite W. unfold abd_point, horner, grid_value. cbn [fs].
  destruct nt; cbn [negb].
  - split; f_equal; destruct (fs p), (d_eth2 d); cbn; apply C_eq; cbn; field.
  - destruct (Hn eq_refl) as (Z1 & Z2 & Z3). rewrite Z2. split; f_equal; destruct (fs p); apply C_eq; cbn; field.
Qed.
(** A case with a boost of 3/5 along z seen face on, and a non-constant supertranslation. *)
Example C30_case : (norm3 (0, 0, 3 / 5) < 1)%R /\ unitv (0%R, 0%R, 1%R)
  /\ abd_X (0, 0, 3 / 5)%R (mkdir (0, 0, 1)%R 1 (RtoC (sqrt 2)) Ci C1) 3 = RtoC 4
  /\ f0 (abd_point (0, 0, 3 / 5)%R (mkdir (0, 0, 1)%R 1 (RtoC (sqrt 2)) Ci C1) 3 (mkfields C0 C0 C0 C0 C1 C0)) = RtoC 32.
Proof.
  assert (N : norm3 (0, 0, 3 / 5)%R = (3 / 5)%R).
  { unfold norm3. replace (0 * 0 + 0 * 0 + 3 / 5 * (3 / 5))%R with ((3 / 5) * (3 / 5))%R by ring. apply sqrt_square. lra. }
  assert (G : gamma (0, 0, 3 / 5)%R = (5 / 4)%R).
  { unfold gamma. rewrite N. replace (1 - (3 / 5) ^ 2)%R with ((4 / 5) * (4 / 5))%R by field. rewrite sqrt_square by lra. field. }
  assert (S2n : (sqrt 2 <> 0)%R) by (apply Rgt_not_eq, sqrt_lt_R0; lra).
  assert (X4 : abd_X (0, 0, 3 / 5)%R (mkdir (0, 0, 1)%R 1 (RtoC (sqrt 2)) Ci C1) 3 = RtoC 4).
  { unfold abd_X, ethk_over_k, dotv. cbn [d_r d_alpha d_eth d_eth2 d_vr1]. apply C_eq; cbn; field; try split; try lra; exact S2n. }
  rewrite N. split; [lra|]. split; [unfold unitv, dotv; ring|]. split; [exact X4|].
  unfold abd_point. rewrite X4. unfold one_over_k. rewrite G. unfold horner, dotv. cbn [f0 f1 f2 f3 f4 d_r]. apply C_eq; cbn; field.
Qed.
Close Scope C_scope.
