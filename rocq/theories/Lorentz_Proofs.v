(** Polar decomposition of spin matrices and their action on four-vectors (lemmas for C31 and C32). *)
From Coq Require Import ZArith Reals List Bool Lia Lra.
From Verif Require Import Common Cplx Quat Times_Model Times_Proofs Kwargs_Model Transform_Model Transform_Proofs Spin_Model Spin_Proofs.
Import ListNotations.
Open Scope R_scope.

(** ** From matrices back to rotors and velocities *)
Lemma norm3_scale : forall a v, 0 <= a -> norm3 (scalev a v) = a * norm3 v.
Proof.
  intros a [[x y] z] Ha. unfold norm3, scalev.
  replace (a * x * (a * x) + a * y * (a * y) + a * z * (a * z)) with (a * a * (x * x + y * y + z * z)) by ring.
  rewrite sqrt_mult by nra. rewrite sqrt_square by exact Ha. reflexivity.
Qed.
Lemma scalev_scalev : forall a b v, scalev a (scalev b v) = scalev (a * b) v.
Proof. intros a b [[x y] z]. unfold scalev. f_equal; [f_equal|]; ring. Qed.
Lemma scalev_1 : forall v, scalev 1 v = v.
Proof. intros [[x y] z]. unfold scalev. f_equal; [f_equal|]; ring. Qed.

Lemma rot_back : forall q, good_rotor q -> pure_to_rotation (rmat q) = q.
Proof.
  intros q G. assert (Gw := good_w q G). destruct G as [H N]. assert (Rw := qw_range q H).
  unfold pure_to_rotation.
  assert (Ec : (re (m00 (rmat q)) + re (m11 (rmat q))) / 2 = qw q) by (unfold rmat; cbn; field).
  unfold logm. rewrite Ec. destruct (Rltb_spec 1 (qw q)) as [L|_]; [lra|].
  destruct (Req_EM_T (qw q) 1) as [E|E].
  - assert (q = q1) by (apply w_one; assumption). subst q.
    assert (Z : nvec_re (msub (rmat q1) (mscale (RtoC (qw q1)) mone)) = (0, 0, 0)).
    { unfold nvec_re, msub, mscale, rmat, mone, q1. cbn. f_equal; [f_equal|]; field. }
    rewrite Z. assert (Z0 : norm3 (0, 0, 0) = 0) by (unfold norm3; replace (0 * 0 + 0 * 0 + 0 * 0) with 0 by ring; apply sqrt_0).
    rewrite Z0. unfold unit_or_z. rewrite Z0. destruct (Req_EM_T (2 * 0) 0) as [_|F]; [|lra].
    replace (2 * 0 / 2) with 0 by field. rewrite cos_0, sin_0. unfold scalev, q1. apply quat_eq; cbn; ring.
  - destruct (Rltb_spec (-1) (qw q)) as [_|F]; [|lra].
    set (s := acos (qw q)).
    assert (Hc : cos s = qw q) by (apply cos_acos; exact Rw).
    assert (Hs : sin s = norm3 (qvec q)) by (unfold s; rewrite sin_acos, qvec_norm by assumption; reflexivity).
    assert (Sp : 0 < s).
    { destruct (acos_bound (qw q)) as [B _]. fold s in B. destruct (Rle_lt_or_eq_dec _ _ B) as [L|Z]; [exact L|].
      exfalso. apply E. apply acos_zero; [exact Rw|]. symmetry. exact Z. }
    assert (Np : 0 < norm3 (qvec q)).
    { assert (P := norm3_nonneg (qvec q)). destruct (Req_dec (norm3 (qvec q)) 0) as [Z|Z]; [|lra].
      exfalso. rewrite qvec_norm in Z by exact H. apply sqrt_eq_0 in Z; [|nra]. assert (qw q = 1 \/ qw q = -1) by (assert (X : (qw q - 1) * (qw q + 1) = 0) by nra; apply Rmult_integral in X; lra). lra. }
    rewrite Hs. set (n := norm3 (qvec q)) in *.
    assert (V : nvec_re (mscale (RtoC (s / n)) (msub (rmat q) (mscale (RtoC (qw q)) mone))) = scalev (s / n) (qvec q)).
    { destruct q as [w x y z]. unfold nvec_re, mscale, msub, mone, rmat, qvec, scalev. cbn [m00 m01 m10 m11 qw qx qy qz re im Cadd Csub Cmul Cscale RtoC C0 C1].
      f_equal; [f_equal|]; field; lra. }
    rewrite V. assert (Sn : 0 < s / n) by (apply Rdiv_lt_0_compat; assumption).
    assert (NN : norm3 (scalev (s / n) (qvec q)) = s) by (rewrite norm3_scale by lra; fold n; field; lra).
    rewrite NN. unfold unit_or_z. rewrite NN. destruct (Req_EM_T (2 * s) 0) as [F|_]; [lra|].
    rewrite !scalev_scalev. replace (2 * s / 2) with s by field. rewrite Hc, Hs.
    replace (n * / s * (s / n)) with 1 by (field; lra). fold n. replace (n * (/ s * (s / n))) with 1 by (field; lra). rewrite scalev_1.
    destruct q as [w x y z]. reflexivity.
Qed.
Lemma rot_back_minus : pure_to_rotation (rmat (qopp q1)) = q1.
Proof.
  unfold pure_to_rotation. assert (Ec : (re (m00 (rmat (qopp q1))) + re (m11 (rmat (qopp q1)))) / 2 = -1) by (unfold rmat, qopp, q1; cbn; field).
  unfold logm. rewrite Ec. destruct (Rltb_spec 1 (-1)); [lra|]. destruct (Req_EM_T (-1) 1); [lra|]. destruct (Rltb_spec (-1) (-1)); [lra|].
  assert (Z : nvec_re (mscale (Ci * RtoC PI)%C mone) = (0, 0, 0)).
  { unfold nvec_re, mscale, mone. cbn. f_equal; [f_equal|]; field. }
  rewrite Z. assert (Z0 : norm3 (0, 0, 0) = 0) by (unfold norm3; replace (0 * 0 + 0 * 0 + 0 * 0) with 0 by ring; apply sqrt_0).
  rewrite Z0. unfold unit_or_z. rewrite Z0. destruct (Req_EM_T (2 * 0) 0) as [_|F]; [|lra].
  replace (2 * 0 / 2) with 0 by field. rewrite cos_0, sin_0. unfold scalev, q1. apply quat_eq; cbn; ring.
Qed.
Lemma good_one : good_rotor q1.
Proof. split; [unfold qnorm2, q1; cbn; ring|]. intros E. injection E. lra. Qed.
Lemma rmat_opp : forall q, rmat (qopp q) = mopp (rmat q).
Proof. intros [w x y z]. apply mat_eq; unfold rmat, mopp, qopp; cx. Qed.
(** Up to the sign of the rotor. *)
Lemma rot_back_sign : forall q, qnorm2 q = 1 ->
  let p := pure_to_rotation (rmat q) in good_rotor p /\ (rmat p = rmat q \/ rmat p = mopp (rmat q)).
Proof.
  intros q H p.
  destruct (Req_dec (qw q) (-1)) as [E|E].
  - assert (Q : q = qopp q1). { destruct q as [w x y z]. unfold qnorm2 in H. cbn in *. subst w. apply quat_eq; cbn; nra. }
    unfold p. rewrite Q, rot_back_minus. split; [exact good_one|]. right. rewrite rmat_opp, mopp_opp. reflexivity.
  - assert (G : good_rotor q). { split; [exact H|]. intros Q. apply E. rewrite Q. reflexivity. }
    unfold p. rewrite (rot_back q G). split; [exact G|left; reflexivity].
Qed.

Lemma tanh_lt_1 : forall x, tanh x < 1.
Proof.
  intros x. unfold tanh, sinh, cosh. assert (A := exp_pos x). assert (B := exp_pos (- x)).
  apply Rmult_lt_reg_r with ((exp x + exp (- x)) / 2); [lra|].
  replace ((exp x - exp (- x)) / 2 / ((exp x + exp (- x)) / 2) * ((exp x + exp (- x)) / 2)) with ((exp x - exp (- x)) / 2) by (field; lra). lra.
Qed.
Lemma atanh_tanh : forall x, atanh (tanh x) = x.
Proof.
  intros x. unfold atanh, tanh, sinh, cosh. assert (A := exp_pos x). assert (B := exp_pos (- x)).
  set (a := exp x) in *. set (b := exp (- x)) in *.
  replace ((1 + (a - b) / 2 / ((a + b) / 2)) / (1 - (a - b) / 2 / ((a + b) / 2))) with (a / b) by (field; lra).
  subst a b. rewrite exp_Ropp. replace (exp x / / exp x) with (exp x * exp x) by (field; lra).
  rewrite <- exp_plus, ln_exp. field.
Qed.
Lemma tanh_nonneg : forall x, 0 <= x -> 0 <= tanh x.
Proof.
  intros x H. unfold tanh, sinh, cosh. assert (A := exp_pos x). assert (B := exp_pos (- x)).
  assert (exp (- x) <= exp x). { destruct (Rle_lt_or_eq_dec _ _ H) as [L|E]; [left; apply exp_increasing; lra|]. subst x. rewrite Ropp_0. lra. }
  apply Rmult_le_reg_r with ((exp x + exp (- x)) / 2); [lra|].
  replace ((exp x - exp (- x)) / 2 / ((exp x + exp (- x)) / 2) * ((exp x + exp (- x)) / 2)) with ((exp x - exp (- x)) / 2) by (field; lra). lra.
Qed.

Lemma boost_back : forall c s, 0 < c -> c * c = 1 + dotv s s ->
  let v := pure_to_boost (hmatc c s) in norm3 v < 1 /\ boost_spin_matrix v = hmatc c s.
Proof.
  intros c s Hc Hs v. assert (Sn := norm3_sq s). assert (Nn := norm3_nonneg s). rewrite <- Sn in Hs.
  assert (C1' : 1 <= c) by nra.
  assert (Z0 : norm3 (0, 0, 0) = 0) by (unfold norm3; replace (0 * 0 + 0 * 0 + 0 * 0) with 0 by ring; apply sqrt_0).
  assert (Ec : (re (m00 (hmatc c s)) + re (m11 (hmatc c s))) / 2 = c) by (destruct s as [[x y] z]; unfold hmatc; cbn; field).
  unfold v, pure_to_boost, logm. rewrite Ec. destruct (Rltb_spec 1 c) as [L|L].
  - set (Sq := sqrt (c * c - 1)).
    assert (ES : Sq = norm3 s). { unfold Sq. replace (c * c - 1) with (norm3 s * norm3 s) by lra. apply sqrt_square. exact Nn. }
    assert (Sp : 0 < Sq) by (unfold Sq; apply sqrt_lt_R0; nra).
    assert (S2 : Sq * Sq = c * c - 1) by (unfold Sq; apply sqrt_sqrt; nra).
    set (sg := ln (c + Sq)).
    assert (Ex : exp sg = c + Sq) by (apply exp_ln; lra).
    assert (Ey : exp (- sg) = c - Sq). { rewrite exp_Ropp, Ex. apply Rmult_eq_reg_r with (c + Sq); [|lra]. rewrite Rinv_l by lra. nra. }
    assert (Hcosh : cosh sg = c) by (unfold cosh; rewrite Ex, Ey; field).
    assert (Hsinh : sinh sg = Sq) by (unfold sinh; rewrite Ex, Ey; field).
    assert (Gp : 0 < sg). { unfold sg. rewrite <- ln_1. apply ln_increasing; lra. }
    assert (V : nvec_im (mscale (RtoC (sg / Sq)) (msub (hmatc c s) (mscale (RtoC c) mone))) = scalev (sg / Sq) s).
    { destruct s as [[x y] z]. unfold nvec_im, mscale, msub, mone, hmatc, scalev. cbn [m00 m01 m10 m11 re im Cadd Csub Cmul Cscale RtoC C0 C1].
      f_equal; [f_equal|]; field; lra. }
    rewrite V. assert (P : 0 < sg / Sq) by (apply Rdiv_lt_0_compat; assumption).
    assert (NN : norm3 (scalev (sg / Sq) s) = sg) by (rewrite norm3_scale, <- ES by lra; field; lra).
    rewrite NN. unfold unit_or_z. rewrite NN. destruct (Req_EM_T (2 * sg) 0) as [F|_]; [lra|].
    rewrite (scalev_scalev (/ sg)). replace (/ sg * (sg / Sq)) with (/ Sq) by (field; lra).
    set (w := scalev (tanh (2 * sg)) (scalev (/ Sq) s)).
    assert (T0 : 0 <= tanh (2 * sg)) by (apply tanh_nonneg; lra).
    assert (NW : norm3 w = tanh (2 * sg)).
    { unfold w. assert (0 < / Sq) by (apply Rinv_0_lt_compat; exact Sp). rewrite !norm3_scale, <- ES by lra. field. lra. }
    split; [rewrite NW; apply tanh_lt_1|].
    unfold boost_spin_matrix. rewrite NW, atanh_tanh. destruct (Req_EM_T (2 * sg) 0) as [F|_]; [lra|].
    unfold w. rewrite (scalev_scalev (/ tanh (2 * sg)) (tanh (2 * sg))).
    assert (Tn : tanh (2 * sg) <> 0). { intros F. assert (X := atanh_tanh (2 * sg)). rewrite F, atanh_0 in X. lra. }
    rewrite Rinv_l by exact Tn. rewrite scalev_1.
    destruct s as [[x y] z]. unfold fourvec_to_spin_matrix, scalev, hmatc.
    apply mat_eq; cbn [m00 m01 m10 m11]; apply C_eq; cbn [re im Cadd Csub Cmul Cscale RtoC Ci ccos csin];
      replace (/ 2 * (0 * (2 * sg) - 1 * 0)) with 0 by ring; replace (/ 2 * (0 * 0 + 1 * (2 * sg))) with sg by field;
      rewrite cos_0, ?sin_0, ?Hcosh, ?Hsinh; field; lra.
  - assert (E : c = 1) by lra. assert (Z : norm3 s = 0) by nra. apply norm3_zero in Z. subst c s.
    destruct (Req_EM_T 1 1) as [_|F]; [|lra].
    assert (V : nvec_im (msub (hmatc 1 (0, 0, 0)) (mscale (RtoC 1) mone)) = (0, 0, 0)).
    { unfold nvec_im, mscale, msub, mone, hmatc. cbn. f_equal; [f_equal|]; field. }
    rewrite V, Z0. unfold unit_or_z. rewrite Z0. destruct (Req_EM_T (2 * 0) 0) as [_|F]; [|lra].
    assert (T0 : tanh (2 * 0) = 0) by (unfold tanh; rewrite Rmult_0_r, sinh_0'; field; rewrite cosh_0'; lra).
    rewrite T0. assert (W : scalev 0 (0, 0, 1) = (0, 0, 0)) by (unfold scalev; f_equal; [f_equal|]; ring). rewrite W.
    split; [rewrite Z0; lra|]. rewrite boost_spin_matrix_eq by (rewrite Z0; lra).
    unfold bmat. assert (G1 : gamma (0, 0, 0) = 1).
    { unfold gamma. rewrite Z0. replace (1 - 0 ^ 2) with 1 by ring. rewrite sqrt_1. field. }
    assert (HC : half_c (0, 0, 0) = 1) by (unfold half_c; rewrite G1; replace ((1 + 1) / 2) with 1 by field; apply sqrt_1).
    rewrite HC, G1. f_equal. unfold scalev. f_equal; [f_equal|]; field.
Qed.

(** ** Polar decomposition from the SVD *)
Definition is_svd (A : mat) (r : mat * (R * R) * mat) : Prop :=
  let '(u, s, vh) := r in
  unitary u /\ unitary vh /\ 0 <= snd s <= fst s /\ A = mmul (mmul u (mdiag s)) vh.

Lemma norm2_mul' : forall a b, norm2 (a * b)%C = norm2 a * norm2 b.
Proof. intros [a b] [c d]. unfold norm2. cbn. ring. Qed.
Lemma unitary_det : forall u, unitary u -> norm2 (mdet u) = 1.
Proof.
  intros u [H _]. apply (f_equal mdet) in H. rewrite mdet_mul, mdet_one in H.
  assert (E : mdet (mdag u) = Conj (mdet u)).
  { unfold mdet, mdag. cbn [m00 m01 m10 m11]. destruct (m00 u) as [a b], (m01 u) as [c d], (m10 u) as [e f], (m11 u) as [g h]. cx. }
  rewrite E in H. apply (f_equal re) in H. destruct (mdet u) as [a b]. unfold norm2. cbn in *. lra.
Qed.
Lemma mdet_diag : forall s, mdet (mdiag s) = RtoC (fst s * snd s).
Proof. intros [a b]. unfold mdet, mdiag. cx. Qed.
Lemma unitary_mul : forall u w, unitary u -> unitary w -> unitary (mmul u w).
Proof.
  intros u w [U1 U2] [W1 W2]. unfold unitary. rewrite mdag_mul. split.
  - rewrite mmul_assoc, <- (mmul_assoc u w (mdag w)), W1, mmul_1_r. exact U1.
  - rewrite mmul_assoc, <- (mmul_assoc (mdag w) (mdag u) u), U2, mmul_1_r. exact W2.
Qed.
Lemma unitary_dag : forall u, unitary u -> unitary (mdag u).
Proof. intros u [U1 U2]. unfold unitary. rewrite mdag_dag. split; assumption. Qed.

Lemma svd_dets : forall A u s vh, mdet A = C1 -> is_svd A (u, s, vh) -> fst s * snd s = 1 /\ mdet (mmul u vh) = C1.
Proof.
  intros A u [s1 s2] vh D (Uu & Uv & [S0 S1] & E). cbn [fst snd] in *.
  assert (D' : (mdet u * RtoC (s1 * s2) * mdet vh)%C = C1) by (rewrite <- D, E, !mdet_mul, mdet_diag; reflexivity).
  assert (P : s1 * s2 = 1).
  { assert (N := f_equal norm2 D'). rewrite !norm2_mul', (unitary_det u Uu), (unitary_det vh Uv) in N.
    unfold norm2, RtoC, C1 in N. cbn in N. assert (0 <= s1 * s2) by nra. nra. }
  split; [exact P|]. rewrite mdet_mul. rewrite P in D'. change (RtoC 1) with C1 in D'. transitivity (mdet u * C1 * mdet vh)%C; [ring|exact D'].
Qed.
Lemma su2 : forall U, unitary U -> mdet U = C1 -> exists q, qnorm2 q = 1 /\ U = rmat q.
Proof.
  intros U [H _] D. assert (E := minv_unique U (mdag U) D H). rewrite (minv_det1 U D) in E.
  exists (mkq (re (m00 U)) (im (m01 U)) (- re (m01 U)) (im (m00 U))).
  assert (E0 := f_equal m00 E). assert (E1 := f_equal m01 E). cbn in E0, E1.
  assert (EU : U = rmat (mkq (re (m00 U)) (im (m01 U)) (- re (m01 U)) (im (m00 U)))).
  { destruct U as [[a b] [c d] [e f] [g h]]. unfold rmat, mdag in *. cbn in *. injection E0 as <- <-. injection E1 as E1 E2.
    apply mat_eq; cbn; apply C_eq; cbn; lra. }
  split; [|exact EU]. rewrite EU, rmat_det in D. apply (f_equal re) in D. exact D.
Qed.
Lemma hermitian_form : forall P, mdag P = P ->
  P = hmatc ((re (m00 P) + re (m11 P)) / 2) (- re (m01 P), - im (m01 P), (re (m11 P) - re (m00 P)) / 2).
Proof.
  intros [[a b] [c d] [e f] [g h]] H. unfold mdag in H. cbn in H. injection H as B0 E1 E2 H1 H2 B1. subst.
  apply mat_eq; unfold hmatc; cbn; apply C_eq; cbn; lra.
Qed.
(** conj of a positive diagonal matrix by a unitary is a boost matrix *)
Lemma positive_form : forall u s, unitary u -> 0 <= snd s -> fst s * snd s = 1 ->
  exists c w, 0 < c /\ c * c = 1 + dotv w w /\ mmul (mmul u (mdiag s)) (mdag u) = hmatc c w.
Proof.
  intros u s U S0 P. set (M := mmul (mmul u (mdiag s)) (mdag u)).
  assert (H : mdag M = M).
  { unfold M. rewrite !mdag_mul, mdag_dag. assert (E : mdag (mdiag s) = mdiag s) by (apply mat_eq; unfold mdag, mdiag; cx).
    rewrite E. apply mmul_assoc. }
  assert (D : mdet M = C1).
  { unfold M. rewrite !mdet_mul, mdet_diag, P. destruct U as [U _]. apply (f_equal mdet) in U. rewrite mdet_mul, mdet_one in U.
    change (RtoC 1) with C1. transitivity (mdet u * mdet (mdag u))%C; [ring|exact U]. }
  assert (T : re (m00 M) + re (m11 M) = fst s + snd s).
  { destruct U as [_ U]. assert (U0 := f_equal m00 U). assert (U1 := f_equal m11 U).
    assert (E : (m00 M + m11 M)%C = (RtoC (fst s) * m00 (mmul (mdag u) u) + RtoC (snd s) * m11 (mmul (mdag u) u))%C).
    { unfold M, mmul, mdiag, mdag. cbn [m00 m01 m10 m11]. ring. }
    rewrite U0, U1 in E. apply (f_equal re) in E. unfold mone in E. cbn in E. cbn. lra. }
  assert (S1 : 0 < fst s) by (destruct (Rle_dec (fst s) 0); [exfalso; nra|lra]).
  set (c := (re (m00 M) + re (m11 M)) / 2). set (w := (- re (m01 M), - im (m01 M), (re (m11 M) - re (m00 M)) / 2)).
  assert (E := hermitian_form M H). fold c w in E.
  exists c, w. split; [unfold c; lra|]. split; [|exact E].
  rewrite E in D. destruct w as [[x y] z]. unfold mdet, hmatc in D. apply (f_equal re) in D. cbn in D. unfold dotv. lra.
Qed.

Definition good_lorentz (L : lorentz) : Prop :=
  good_rotor (l_rot L) /\ norm3 (l_boost L) < 1.
Definition same_up_to_sign (a b : mat) : Prop := a = b \/ a = mopp b.

Lemma not_small : forall A, mdet A = C1 -> small (m00 A) && small (m01 A) && small (m10 A) && small (m11 A) = false.
Proof.
  intros A D. destruct (small (m00 A)) eqn:E0, (small (m01 A)) eqn:E1, (small (m10 A)) eqn:E2, (small (m11 A)) eqn:E3; try reflexivity.
  exfalso. unfold small in *.
  set (e := / 10 ^ 8 * / 10 ^ 8) in *.
  assert (He : 0 < e < 1 / 4).
  { unfold e. assert (0 < / 10 ^ 8) by (apply Rinv_0_lt_compat, pow_lt; lra).
    assert (/ 10 ^ 8 < / 10). { apply Rinv_lt_contravar; [apply Rmult_lt_0_compat; [lra|apply pow_lt; lra]|].
      replace (10 ^ 8) with 100000000 by ring. lra. }
    set (y := / 10 ^ 8) in *. clearbody y. split; nra. }
  destruct (Rleb_spec (norm2 (m00 A)) e); [|discriminate]. destruct (Rleb_spec (norm2 (m01 A)) e); [|discriminate].
  destruct (Rleb_spec (norm2 (m10 A)) e); [|discriminate]. destruct (Rleb_spec (norm2 (m11 A)) e); [|discriminate].
  clear E0 E1 E2 E3. unfold mdet in D. apply (f_equal re) in D. destruct (m00 A) as [a b], (m01 A) as [c d], (m10 A) as [f g], (m11 A) as [h i].
  unfold norm2 in *. cbn in *. clearbody e.
  assert (a * h - b * i - (c * f - d * g) <= (a * a + b * b + h * h + i * i + c * c + d * d + f * f + g * g) / 2).
  { assert (X1 := Rle_0_sqr (a - h)). assert (X2 := Rle_0_sqr (b + i)). assert (X3 := Rle_0_sqr (c + f)). assert (X4 := Rle_0_sqr (d - g)).
    unfold Rsqr in *. lra. }
  lra.
Qed.

Section Svd.
  Variable svd : mat -> mat * (R * R) * mat.
  Hypothesis svd_ok : forall A, mdet A = C1 -> is_svd A (svd A).
  (** [b]: rotation before boost in the requested order. *)
  Definition order_rf (out : list comp) (b : bool) : Prop :=
    (match index CR out, index CB out with Some i, Some j => Nat.ltb i j | Some _, None => true | None, _ => false end) = b
    /\ forall q v e, rot_first (l_order (mklorentz q v out e)) = Ok b.

  (** Decomposing a matrix of determinant one and multiplying up again gives the matrix back up to sign. *)
  Lemma spin_back : forall A out b, mdet A = C1 -> order_rf out b ->
    let L := spin_matrix_to_Lorentz svd A out in
    good_lorentz L /\ l_ell L = 12%Z /\ l_order L = l_order (mklorentz q1 (0, 0, 0) out 12)
    /\ exists A', Lorentz_to_spin_matrix L = Ok A' /\ same_up_to_sign A' A.
  Proof.
    intros A out b D [Hb Ho] L. unfold L, spin_matrix_to_Lorentz. rewrite (not_small A D).
    assert (Sv := svd_ok A D). destruct (svd A) as [[u s] vh]. destruct (svd_dets A u s vh D Sv) as [P DU].
    destruct Sv as (Uu & Uv & [S0 S1] & E).
    destruct (su2 (mmul u vh) (unitary_mul u vh Uu Uv) DU) as (q & Hq & EU).
    destruct (rot_back_sign q Hq) as [Gp Sg]. rewrite EU, Hb.
    assert (Fix : forall b', mmul (mmul u (mdiag s)) vh = if (b' : bool) then mmul (mmul (mmul u (mdiag s)) (mdag u)) (mmul u vh) else mmul (mmul u vh) (mmul (mmul (mdag vh) (mdiag s)) vh)).
    { intros b'. destruct Uu as [_ Uu], Uv as [Uv _]. destruct b'.
      - rewrite mmul_assoc. f_equal. rewrite <- mmul_assoc, Uu. symmetry. apply mmul_1_r.
      - rewrite <- (mmul_assoc (mdag vh)), <- (mmul_assoc u vh), (mmul_assoc vh (mdag vh)), Uv, mmul_1_l. symmetry. apply mmul_assoc. }
    assert (PF : exists c w, 0 < c /\ c * c = 1 + dotv w w /\ (if b then mmul (mmul u (mdiag s)) (mdag u) else mmul (mmul (mdag vh) (mdiag s)) vh) = hmatc c w).
    { destruct b; [apply positive_form; assumption|]. destruct (positive_form (mdag vh) s (unitary_dag vh Uv) S0 P) as (c & w & H1 & H2 & H3).
      rewrite mdag_dag in H3. exists c, w. auto. }
    destruct PF as (c & w & Hc & Hw & EP). rewrite EP. destruct (boost_back c w Hc Hw) as [Bv EB].
    split; [split; [exact Gp|exact Bv]|]. split; [reflexivity|]. split; [reflexivity|].
    unfold Lorentz_to_spin_matrix. rewrite Ho. cbn [rbind mklorentz l_rot l_boost].
    rewrite EB, (rotation_spin_matrix_eq _ Gp). eexists. split; [reflexivity|].
    rewrite E, (Fix b).
    destruct b; rewrite EU, EP; destruct Sg as [-> | ->]; rewrite ?mopp_mul_r, ?mopp_mul_l; [left|right|left|right]; reflexivity.
  Qed.
End Svd.

(** ** Matrices of determinant one act on four-vectors *)
Lemma hmatc_inj : forall c s c' s', hmatc c s = hmatc c' s' -> c = c' /\ s = s'.
Proof.
  intros c [[x y] z] c' [[x' y'] z'] H. assert (H0 := f_equal (fun m => re (m00 m)) H). assert (H1 := f_equal (fun m => re (m11 m)) H).
  assert (H2 := f_equal (fun m => re (m01 m)) H). assert (H3 := f_equal (fun m => im (m01 m)) H).
  unfold hmatc in *. cbn in *. split; [lra|]. f_equal; [f_equal|]; lra.
Qed.
(** (t, x) is sent to the four-vector of M h(t, x) M^dagger. *)
Definition lam (M : mat) (l : vec4) : vec4 :=
  let Y := mmul (mmul M (hmatc (fst l) (snd l))) (mdag M) in
  ((re (m00 Y) + re (m11 Y)) / 2, (- re (m01 Y), - im (m01 Y), (re (m11 Y) - re (m00 Y)) / 2)).
Lemma hmatc_dag : forall c s, mdag (hmatc c s) = hmatc c s.
Proof. intros c [[x y] z]. apply mat_eq; unfold mdag, hmatc; cx. Qed.
Lemma lam_spec : forall M t x, hmatc (fst (lam M (t, x))) (snd (lam M (t, x))) = mmul (mmul M (hmatc t x)) (mdag M).
Proof.
  intros M t x. unfold lam. cbn [fst snd]. symmetry. apply hermitian_form.
  rewrite !mdag_mul, mdag_dag, hmatc_dag. apply mmul_assoc.
Qed.
Lemma lam_unique : forall M t x t' x', hmatc t' x' = mmul (mmul M (hmatc t x)) (mdag M) -> lam M (t, x) = (t', x').
Proof.
  intros M t x t' x' H. rewrite <- lam_spec in H. apply hmatc_inj in H as [H1 H2].
  destruct (lam M (t, x)) as [a b]. cbn in *. subst. reflexivity.
Qed.
Lemma lam_mul : forall M N l, lam (mmul M N) l = lam M (lam N l).
Proof.
  intros M N [t x]. destruct (lam N (t, x)) as [t1 x1] eqn:E1. destruct (lam M (t1, x1)) as [t2 x2] eqn:E2.
  apply lam_unique. assert (H1 := lam_spec N t x). rewrite E1 in H1. assert (H2 := lam_spec M t1 x1). rewrite E2 in H2.
  cbn [fst snd] in *. rewrite H2, H1, mdag_mul. rewrite !mmul_assoc. reflexivity.
Qed.
Lemma lam_one : forall l, lam mone l = l.
Proof.
  intros [t x]. apply lam_unique. rewrite mmul_1_l. assert (E : mdag mone = mone) by (apply mat_eq; unfold mdag, mone; cx).
  rewrite E, mmul_1_r. reflexivity.
Qed.
Lemma lam_opp : forall M l, lam (mopp M) l = lam M l.
Proof.
  intros M [t x]. unfold lam. assert (E : mdag (mopp M) = mopp (mdag M)) by (apply mat_eq; unfold mdag, mopp; cx).
  rewrite E, mopp_mul_l, mopp_mul_r, mopp_mul_l, mopp_opp. reflexivity.
Qed.
Lemma lam_sign : forall M N l, same_up_to_sign M N -> lam M l = lam N l.
Proof. intros M N l [->| ->]; [reflexivity|apply lam_opp]. Qed.
(** Linearity, in the form needed here. *)
Lemma hmatc_scale : forall a c s, hmatc (a * c) (scalev a s) = mscale (RtoC a) (hmatc c s).
Proof. intros a c [[x y] z]. apply mat_eq; unfold hmatc, mscale, scalev; cx. Qed.
Lemma mscale_mul : forall a M N P, mmul (mmul M (mscale a N)) P = mscale a (mmul (mmul M N) P).
Proof. intros. apply mat_eq; unfold mmul, mscale; cbn [m00 m01 m10 m11]; ring. Qed.
Lemma lam_scale : forall M a t x, lam M (a * t, scalev a x) = (a * fst (lam M (t, x)), scalev a (snd (lam M (t, x)))).
Proof. intros M a t x. apply lam_unique. rewrite !hmatc_scale, mscale_mul, lam_spec. reflexivity. Qed.
(** The Minkowski square is preserved. *)
Lemma hmatc_det : forall c s, mdet (hmatc c s) = RtoC (c * c - dotv s s).
Proof. intros c [[x y] z]. unfold mdet, hmatc, dotv. cx. Qed.
Lemma mdet_dag : forall u, mdet (mdag u) = Conj (mdet u).
Proof. intros u. unfold mdet, mdag. cbn [m00 m01 m10 m11]. destruct (m00 u) as [a b], (m01 u) as [c d], (m10 u) as [e f], (m11 u) as [g h]. cx. Qed.
Lemma lam_minkowski : forall M t x, mdet M = C1 ->
  fst (lam M (t, x)) * fst (lam M (t, x)) - dotv (snd (lam M (t, x))) (snd (lam M (t, x))) = t * t - dotv x x.
Proof.
  intros M t x D. assert (H := f_equal mdet (lam_spec M t x)). rewrite !mdet_mul, mdet_dag, !hmatc_det, D in H.
  apply (f_equal re) in H. cbn [RtoC re im C1 Cmul Conj] in H. lra.
Qed.
(** Future-directed light rays stay future-directed. *)
Lemma row_form : forall (p q : C) x y z, x * x + y * y + z * z = 1 ->
  0 <= (re p * re p + im p * im p) * (1 - z) + (re q * re q + im q * im q) * (1 + z)
       - 2 * (x * (re p * re q + im p * im q) + y * (im q * re p - im p * re q)).
Proof.
  intros [a b] [c d] x y z H. cbn.
  destruct (Req_dec z 1) as [E|E].
  - subst z. assert (S : Rsqr x + Rsqr y = 0) by (unfold Rsqr; lra).
    assert (x = 0) by exact (Rplus_sqr_eq_0_l _ _ S). assert (y = 0) by (rewrite Rplus_comm in S; exact (Rplus_sqr_eq_0_l _ _ S)).
    subst x y. assert (X1 := Rle_0_sqr c). assert (X2 := Rle_0_sqr d). unfold Rsqr in *. lra.
  - assert (Z1 : z <= 1). { destruct (Rle_dec z 1); [assumption|]. exfalso. assert (X1 := Rle_0_sqr x). assert (X2 := Rle_0_sqr y). unfold Rsqr in *. nra. }
    assert (0 < 1 - z) by lra.
    apply Rmult_le_reg_l with (1 - z); [assumption|]. rewrite Rmult_0_r.
    replace ((1 - z) * ((a * a + b * b) * (1 - z) + (c * c + d * d) * (1 + z) - 2 * (x * (a * c + b * d) + y * (d * a - b * c))))
      with ((a * (1 - z) - (x * c + y * d)) * (a * (1 - z) - (x * c + y * d)) + (b * (1 - z) - (x * d - y * c)) * (b * (1 - z) - (x * d - y * c))
            + (c * c + d * d) * (1 - (x * x + y * y + z * z))) by ring.
    rewrite H. assert (X1 := Rle_0_sqr (a * (1 - z) - (x * c + y * d))). assert (X2 := Rle_0_sqr (b * (1 - z) - (x * d - y * c))). unfold Rsqr in *. lra.
Qed.
Lemma lam_future : forall M n, mdet M = C1 -> dotv n n = 1 -> 0 < fst (lam M (1, n)).
Proof.
  intros M n D H. assert (K := lam_minkowski M 1 n D).
  assert (N0 : 0 <= fst (lam M (1, n))).
  { destruct n as [[x y] z]. unfold dotv in H.
    assert (R0 := row_form (m00 M) (m01 M) x y z ltac:(lra)). assert (R1 := row_form (m10 M) (m11 M) x y z ltac:(lra)).
    unfold lam, mmul, hmatc, mdag. cbn [fst snd m00 m01 m10 m11]. destruct (m00 M) as [a b], (m01 M) as [c d], (m10 M) as [e f], (m11 M) as [g h].
    cbn in *. lra. }
  destruct (Rle_lt_or_eq_dec _ _ N0) as [L|Z]; [exact L|]. exfalso.
  assert (S : snd (lam M (1, n)) = (0, 0, 0)).
  { rewrite <- Z in K. rewrite H in K. destruct (snd (lam M (1, n))) as [[x y] z]. unfold dotv in K. f_equal; [f_equal|]; nra. }
  assert (B : lam (minv M) (lam M (1, n)) = (1, n)) by (rewrite <- lam_mul, mul_minv_l by exact D; apply lam_one).
  destruct (lam M (1, n)) as [t x]. cbn in *. subst t x.
  assert (X := lam_scale (minv M) 0 0 (0, 0, 0)). replace (0 * 0) with 0 in X by ring.
  replace (scalev 0 (0, 0, 0)) with (0, 0, 0) in X by (unfold scalev; f_equal; [f_equal|]; ring).
  rewrite B in X. apply (f_equal fst) in X. cbn in X. lra.
Qed.
(** Rotors rotate, boosts boost. *)
Lemma lam_rmat : forall q t x, qnorm2 q = 1 -> lam (rmat q) (t, x) = (t, rotate3 q x).
Proof.
  intros [w a b c] t [[x y] z] H. unfold qnorm2 in H. cbn in H. apply lam_unique.
  unfold hmatc, rotate3, rmat, mdag, mmul, qvec, qmul, qconj. cbn [qw qx qy qz m00 m01 m10 m11].
  apply mat_eq; cbn [m00 m01 m10 m11]; apply C_eq; cbn; set (n := w * w + a * a + b * b + c * c) in H.
  all: try (replace t with (t * n) at 1 by (rewrite H; ring); unfold n; ring).
  all: unfold n; ring.
Qed.
Lemma rotate_norm : forall q x, qnorm2 q = 1 -> dotv (rotate3 q x) (rotate3 q x) = dotv x x.
Proof.
  intros q x H. assert (D : mdet (rmat q) = C1) by (rewrite rmat_det, H; reflexivity).
  assert (K := lam_minkowski (rmat q) 0 x D). rewrite lam_rmat in K by exact H. cbn [fst snd] in K. lra.
Qed.
Lemma lam_bmat : forall v l, norm3 v < 1 -> lam (bmat v) l = boost4 v l.
Proof.
  intros v [t x] H. assert (Gp := gamma_pos v H). assert (G2 := gamma_sq v H). assert (Cp := half_c_pos v H). assert (C2 := half_c_sq v H).
  assert (V2 := norm3_sq v).
  destruct (boost4 v (t, x)) as [t' x'] eqn:E. apply lam_unique. unfold boost4 in E.
  assert (E1 := f_equal fst E). assert (E2 := f_equal snd E). cbn [fst snd] in E1, E2. clear E.
  unfold bmat. set (g := gamma v) in *. set (c := half_c v) in *. clearbody g c.
  set (s := g / (2 * c)).
  assert (Hs2 : s * s * (2 * (g + 1)) = g * g) by (unfold s; replace (2 * (g + 1)) with (2 * c * (2 * c)) by lra; field; lra).
  assert (Hcs : 2 * (c * s) = g) by (unfold s; field; lra).
  assert (Hss : s * s = g * g / (1 + g) / 2) by (apply Rmult_eq_reg_r with (2 * (g + 1)); [|lra]; rewrite Hs2; field; lra).
  assert (VV : g * g * dotv v v = g * g - 1) by (rewrite <- V2; lra).
  clearbody s.
  destruct v as [[v1 v2] v3], x as [[x1 x2] x3], x' as [[y1 y2] y3].
  unfold plus3, scalev in E2. injection E2 as E2 E3 E4.
  unfold dotv in *. set (vv := v1 * v1 + v2 * v2 + v3 * v3) in *.
  assert (Svv : s * s * vv = (g - 1) / 2).
  { rewrite Hss. replace (g * g / (1 + g) / 2 * vv) with (g * g * vv / (1 + g) / 2) by (field; lra). rewrite VV. field. lra. }
  set (k := g * g / (1 + g)) in *. assert (Hk : k = 2 * (s * s)) by lra. rewrite Hk in *. clear Hk k Hss.
  unfold hmatc, scalev, mdag, mmul. cbn [m00 m01 m10 m11].
  assert (Hc2 : c * c = (g + 1) / 2) by lra.
  assert (Hg : g = 2 * (c * s)) by lra.
  assert (Hone : c * c - s * s * vv = 1) by lra.
  subst t' y1 y2 y3. unfold vv in *. clear Svv VV C2 Hs2 Hcs.
  apply mat_eq; cbn [m00 m01 m10 m11]; apply C_eq; cbn.
  all: assert (A1 : forall a, a * (g - (2 * (c * c) - 1)) = 0) by (intros a; replace (g - (2 * (c * c) - 1)) with 0 by lra; ring).
  all: assert (A2 : forall a, a * (g - 2 * (c * s)) = 0) by (intros a; replace (g - 2 * (c * s)) with 0 by lra; ring).
  all: assert (A3 : forall a, a * (c * c - s * s * (v1 * v1 + v2 * v2 + v3 * v3) - 1) = 0) by (intros a; rewrite Hone; ring).
  all: clear Hg Hc2 Hone H G2.
  all: set (vx := v1 * x1 + v2 * x2 + v3 * x3).
  all: apply Rminus_diag_uniq.
  - transitivity (t * (g - (2 * (c * c) - 1)) + vx * (g - 2 * (c * s)) + (t + x3) * (c * c - s * s * (v1 * v1 + v2 * v2 + v3 * v3) - 1) - v3 * t * (g - 2 * (c * s))); [unfold vx; ring|rewrite A1, !A2, A3; ring].
  - ring.
  - transitivity (x1 * (c * c - s * s * (v1 * v1 + v2 * v2 + v3 * v3) - 1) - v1 * t * (g - 2 * (c * s))); [unfold vx; ring|rewrite ?A1, ?A2, ?A3; ring].
  - transitivity (x2 * (c * c - s * s * (v1 * v1 + v2 * v2 + v3 * v3) - 1) - v2 * t * (g - 2 * (c * s))); [unfold vx; ring|rewrite ?A1, ?A2, ?A3; ring].
  - transitivity (x1 * (c * c - s * s * (v1 * v1 + v2 * v2 + v3 * v3) - 1) - v1 * t * (g - 2 * (c * s))); [unfold vx; ring|rewrite ?A1, ?A2, ?A3; ring].
  - transitivity (v2 * t * (g - 2 * (c * s)) - x2 * (c * c - s * s * (v1 * v1 + v2 * v2 + v3 * v3) - 1)); [unfold vx; ring|rewrite ?A1, ?A2, ?A3; ring].
  - transitivity (t * (g - (2 * (c * c) - 1)) + vx * (g - 2 * (c * s)) + (t - x3) * (c * c - s * s * (v1 * v1 + v2 * v2 + v3 * v3) - 1) + v3 * t * (g - 2 * (c * s))); [unfold vx; ring|rewrite ?A1, ?A2, ?A3; ring].
  - ring.
Qed.
