(** The boosted grid of /repo/scri/asymptotic_bondi_data/transformations.py:133-196 evaluated point by point is a Lorentz
    boost of light rays; this links the formula of [transform_supertranslation] in Spin_Model.v to the code's. *)
From Coq Require Import ZArith Reals List Bool Lia Lra.
From Verif Require Import Common Cplx Quat Times_Model Times_Proofs Kwargs_Model Transform_Model Transform_Proofs Spin_Model Spin_Proofs.
Open Scope R_scope.

Lemma sin_2atan : forall t, sin (2 * atan t) = 2 * t / (1 + t * t).
Proof.
  intros t. rewrite sin_2a, sin_atan, cos_atan.
  assert (S : sqrt (1 + Rsqr t) * sqrt (1 + Rsqr t) = 1 + t * t) by (apply sqrt_sqrt; unfold Rsqr; nra).
  assert (0 < sqrt (1 + Rsqr t)) by (apply sqrt_lt_R0; unfold Rsqr; nra).
  set (q := sqrt (1 + Rsqr t)) in *. rewrite <- S. field. lra.
Qed.
Lemma tan_half : forall x, cos x <> -1 -> tan (x / 2) = sin x / (1 + cos x).
Proof.
  intros x H. remember (x / 2) as y eqn:Ey. assert (E : x = 2 * y) by lra. clear Ey. subst x.
  rewrite sin_2a. rewrite cos_2a in *. unfold tan. assert (S := sin2_cos2 y). unfold Rsqr in S.
  assert (cos y <> 0). { intros E. apply H. rewrite E in *. lra. }
  replace (1 + (cos y * cos y - sin y * sin y)) with (2 * (cos y * cos y)) by lra. field. assumption.
Qed.

Lemma lin1 : forall A B D E u w, addv (scalev A u) (scalev B (scalev D (addv w (scalev E u)))) = addv (scalev (A + B * D * E) u) (scalev (B * D) w).
Proof. intros A B D E [[x y] z] [[p q] w]. unfold addv, scalev. f_equal; [f_equal|]; ring. Qed.
Lemma lin2 : forall A B u w, plus3 u (scalev A (scalev B w)) = addv (scalev 1 u) (scalev (A * B) w).
Proof. intros A B [[x y] z] [[p q] w]. unfold plus3, addv, scalev. f_equal; [f_equal|]; ring. Qed.
Lemma lin3 : forall A B D u w, scalev A (addv (scalev B u) (scalev D w)) = addv (scalev (A * B) u) (scalev (A * D) w).
Proof. intros A B D [[x y] z] [[p q] w]. unfold addv, scalev. f_equal; [f_equal|]; ring. Qed.

(** The direction r of a boosted grid point and the conformal factor k there: (k, k r) is the light ray (1, r') of the
    (rotated) unboosted grid point boosted by v. *)
Theorem C55_boosted_direction : forall frame q v, qnorm2 frame = 1 -> qnorm2 q = 1 -> 3 / 10 ^ 14 < norm3 v < 1 ->
  let r' := direction (qmul frame q) in
  / 10 ^ 200 < norm3 (crossv r' (scalev (/ norm3 v) v)) ->
  let r := direction (grid_rotor frame v q) in
  r' = rotate3 frame (direction q) /\ boost4 v (1, r') = (kfactor v r, scalev (kfactor v r) r).
Proof.
  intros frame q v Hf Hq [Hv1 Hv2] r' Hc r.
  assert (Small : 0 < 3 / 10 ^ 14) by (apply Rdiv_lt_0_compat; [lra|apply pow_lt; lra]).
  assert (Small2 : 0 < / 10 ^ 200) by (apply Rinv_0_lt_compat, pow_lt; lra).
  split.
  { unfold r'. rewrite direction_mul by assumption. unfold rotv, rotate3. destruct (direction q) as [[x y] z]. reflexivity. }
  destruct (C55_aberration frame q v Hf Hq (conj Hv1 Hv2) Hc) as (_ & Ur & D' & _ & Ek). fold r' r in Ur, D', Ek. rewrite Ek.
  set (vhat := scalev (/ norm3 v) v) in *.
  assert (Hrot : qnorm2 (qmul frame q) = 1) by (rewrite qnorm2_mul, Hf, Hq; ring).
  assert (U' : unitv r') by (apply direction_unit; exact Hrot).
  assert (UV : unitv vhat) by (apply unit_scalev; lra).
  assert (CN := cross_norm r' vhat U' UV).
  set (b := norm3 v) in *. set (cn := norm3 (crossv r' vhat)) in *. set (cc := dotv vhat r') in *.
  assert (CC : dotv r' vhat = cc) by apply dot_comm. rewrite CC in CN.
  assert (Rng : -1 < cc < 1) by (split; nra).
  set (n := scalev (/ cn) (crossv r' vhat)).
  assert (Un : unitv n) by (apply unit_scalev; fold cn; lra).
  set (Th := 2 * atan (exp (- atanh b) * tan (acos cc / 2))).
  set (a := (acos cc - Th) / 2).
  assert (EB : Bprm v r' = axis_rotor n a).
  { unfold Bprm. fold b. destruct (Rltb_spec (3 / 10 ^ 14) b) as [_|N]; [|lra]. cbv zeta. fold vhat cn cc.
    destruct (Rltb_spec (/ 10 ^ 200) cn) as [_|N]; [|lra]. fold Th. fold n. fold a. apply qexp_axis. exact Un. }
  assert (UB : qnorm2 (Bprm v r') = 1) by (rewrite EB; apply axis_rotor_unit; exact Un).
  assert (Er : r = addv (scalev (cos (2 * a)) r') (scalev (sin (2 * a)) (crossv n r'))).
  { unfold r, grid_rotor. fold r'. rewrite direction_mul by assumption. fold r'. rewrite EB. apply rotv_axis; [exact Un|].
    unfold n. rewrite dot_scale_l, dot_cross_l. ring. }
  assert (Sin : sin (acos cc) = cn).
  { rewrite sin_acos by lra. unfold Rsqr. rewrite <- CN. apply sqrt_square. apply norm3_nonneg. }
  assert (Ca : cos (acos cc) = cc) by (apply cos_acos; lra).
  assert (G := gamma_sq v Hv2). fold b in G. assert (Gp := gamma_pos v Hv2). set (g := gamma v) in *.
  assert (P : 0 < 1 + b * cc) by nra.
  assert (CT : cos Th = (cc + b) / (1 + b * cc)) by (apply aberration_cos; lra).
  assert (Ee : exp (- atanh b) = / (g * (1 + b))).
  { assert (E2 := exp_atanh b ltac:(lra)). assert (E0 := exp_pos (- atanh b)). set (e := exp (- atanh b)) in *.
    assert (E3 : (g * (1 + b) * e) * (g * (1 + b) * e) = 1).
    { replace (g * (1 + b) * e * (g * (1 + b) * e)) with (g * g * ((1 + b) * (1 + b)) * (e * e)) by ring. rewrite E2.
      replace (g * g * ((1 + b) * (1 + b)) * ((1 - b) / (1 + b))) with (g * g * (1 - b ^ 2)) by (field; lra). exact G. }
    assert (E4 : 0 < g * (1 + b) * e) by (apply Rmult_lt_0_compat; [apply Rmult_lt_0_compat; lra|exact E0]).
    assert (E5 : g * (1 + b) * e = 1) by nra. apply Rmult_eq_reg_l with (g * (1 + b)); [rewrite E5; field; split; lra|nra]. }
  assert (ST : sin Th = cn / (g * (1 + b * cc))).
  { unfold Th. rewrite sin_2atan, tan_half, Sin, Ca, Ee by (rewrite Ca; lra).
    set (tt := / (g * (1 + b)) * (cn / (1 + cc))).
    assert (T2 : 1 + tt * tt = 2 * (1 + b * cc) / ((1 + b) * (1 + cc))).
    { unfold tt. replace (/ (g * (1 + b)) * (cn / (1 + cc)) * (/ (g * (1 + b)) * (cn / (1 + cc)))) with ((cn * cn) / (g * g * ((1 + b) * (1 + b)) * ((1 + cc) * (1 + cc)))) by (field; lra).
      rewrite CN. assert (G' : g * g = 1 / (1 - b ^ 2)) by (apply Rmult_eq_reg_r with (1 - b ^ 2); [rewrite G; field; nra|nra]). rewrite G'. field. repeat split; nra. }
    rewrite T2. unfold tt. field. repeat split; lra. }
  assert (X : crossv n r' = scalev (/ cn) (addv vhat (scalev (- cc) r'))).
  { unfold n. rewrite cross_scale_l. f_equal. rewrite <- CC. clear - U'. unfold unitv in U'. destruct r' as [[x y] z], vhat as [[p qq] w]. unfold crossv, addv, scalev, dotv in *.
    f_equal; [f_equal|].
    - transitivity ((x * x + y * y + z * z) * p - (x * p + y * qq + z * w) * x); [ring|rewrite U'; ring].
    - transitivity ((x * x + y * y + z * z) * qq - (x * p + y * qq + z * w) * y); [ring|rewrite U'; ring].
    - transitivity ((x * x + y * y + z * z) * w - (x * p + y * qq + z * w) * z); [ring|rewrite U'; ring]. }
  assert (C2 : cos (2 * a) = cc * cos Th + cn * sin Th).
  { replace (2 * a) with (acos cc - Th) by (unfold a; field). rewrite cos_minus, Ca, Sin. reflexivity. }
  assert (S2 : sin (2 * a) = cn * cos Th - cc * sin Th).
  { replace (2 * a) with (acos cc - Th) by (unfold a; field). rewrite sin_minus, Ca, Sin. reflexivity. }
  assert (Ev : v = scalev b vhat).
  { unfold vhat. destruct v as [[x y] z]. unfold scalev. f_equal; [f_equal|]; field; lra. }
  assert (Dv' : dotv v r' = b * cc) by (rewrite Ev at 1; apply dot_scale_l).
  assert (Er' : r = addv (scalev (sin Th / cn) r') (scalev (cos Th - cc * sin Th / cn) vhat)).
  { rewrite Er, X, C2, S2. assert (K : forall A B C D : R, A = C -> B = D -> addv (scalev A r') (scalev B vhat) = addv (scalev C r') (scalev D vhat)) by (intros A B C D -> ->; reflexivity).
    rewrite lin1. apply K; [|field; lra]. apply Rmult_eq_reg_r with cn; [|lra].
    replace ((cc * cos Th + cn * sin Th + (cn * cos Th - cc * sin Th) * / cn * - cc) * cn) with (cn * cn * sin Th + cc * cc * sin Th) by (field; lra).
    rewrite CN. field. lra. }
  unfold boost4. fold g. rewrite Dv'. f_equal. rewrite Er', CT, ST.
  assert (G1 : g * g * b * b = g * g - 1) by nra.
  assert (GG : g * g / (1 + g) * (b * b) = g - 1) by (replace (g * g / (1 + g) * (b * b)) with (g * g * b * b / (1 + g)) by (field; lra); rewrite G1; field; lra).
  assert (K : forall A B C D : R, A = C -> B = D -> addv (scalev A r') (scalev B vhat) = addv (scalev C r') (scalev D vhat)) by (intros A B C D -> ->; reflexivity).
  rewrite lin3. transitivity (plus3 r' (scalev (g * 1 + g * g / (1 + g) * (b * cc)) (scalev b vhat))); [rewrite <- Ev; reflexivity|].
  rewrite lin2. apply K; [field; repeat split; lra|].
  replace ((g * 1 + g * g / (1 + g) * (b * cc)) * b) with (g * b + g * g / (1 + g) * (b * b) * cc) by (field; lra). rewrite GG. field. repeat split; lra.
Qed.
