(** C33: spin matrices of rotations, boosts and Lorentz transformations. *)
From Coq Require Import ZArith Reals List Bool Lia Lra.
From Verif Require Import Common Cplx Quat Times_Model Times_Proofs Kwargs_Model Transform_Model Transform_Proofs Spin_Model.
Import ListNotations.
Open Scope R_scope.

(** ** Matrix algebra *)
Lemma mat_eq : forall a b, m00 a = m00 b -> m01 a = m01 b -> m10 a = m10 b -> m11 a = m11 b -> a = b.
Proof. intros [] []; cbn; intros; subst; reflexivity. Qed.
Lemma mmul_assoc : forall a b c, mmul a (mmul b c) = mmul (mmul a b) c.
Proof. intros a b c. apply mat_eq; unfold mmul; cbn [m00 m01 m10 m11]; ring. Qed.
Lemma mmul_1_l : forall a, mmul mone a = a.
Proof. intros a. apply mat_eq; unfold mmul, mone; cbn [m00 m01 m10 m11]; ring. Qed.
Lemma mmul_1_r : forall a, mmul a mone = a.
Proof. intros a. apply mat_eq; unfold mmul, mone; cbn [m00 m01 m10 m11]; ring. Qed.
Lemma Conj_mul' : forall a b, Conj (a * b)%C = (Conj a * Conj b)%C.
Proof. intros [a b] [c d]. cx. Qed.
Lemma Conj_add' : forall a b, Conj (a + b)%C = (Conj a + Conj b)%C.
Proof. intros [a b] [c d]. cx. Qed.
Lemma Conj_conj' : forall a, Conj (Conj a) = a.
Proof. intros [a b]. cx. Qed.
Lemma mdag_mul : forall a b, mdag (mmul a b) = mmul (mdag b) (mdag a).
Proof. intros a b. apply mat_eq; unfold mmul, mdag; cbn [m00 m01 m10 m11]; rewrite Conj_add', !Conj_mul'; ring. Qed.
Lemma mdag_dag : forall a, mdag (mdag a) = a.
Proof. intros a. apply mat_eq; unfold mdag; cbn [m00 m01 m10 m11]; apply Conj_conj'. Qed.
Lemma mdet_mul : forall a b, mdet (mmul a b) = (mdet a * mdet b)%C.
Proof. intros a b. unfold mdet, mmul. cbn [m00 m01 m10 m11]. ring. Qed.
Lemma mdet_one : mdet mone = C1.
Proof. unfold mdet, mone. cbn [m00 m01 m10 m11]. ring. Qed.
Lemma Cinv_1 : Cinv C1 = C1.
Proof. unfold Cinv, norm2. cx. Qed.
Lemma minv_det1 : forall a, mdet a = C1 -> minv a = mkm (m11 a) (- m01 a)%C (- m10 a)%C (m00 a).
Proof. intros a H. unfold minv. rewrite H, Cinv_1. unfold mscale. cbn [m00 m01 m10 m11]. apply mat_eq; cbn [m00 m01 m10 m11]; ring. Qed.
Lemma mul_minv_r : forall a, mdet a = C1 -> mmul a (minv a) = mone.
Proof. intros a H. rewrite (minv_det1 a H). unfold mdet in H. unfold mmul, mone. apply mat_eq; cbn [m00 m01 m10 m11]; try ring; rewrite <- H; ring. Qed.
Lemma mul_minv_l : forall a, mdet a = C1 -> mmul (minv a) a = mone.
Proof. intros a H. rewrite (minv_det1 a H). unfold mdet in H. unfold mmul, mone. apply mat_eq; cbn [m00 m01 m10 m11]; try ring; rewrite <- H; ring. Qed.
Lemma mdet_minv : forall a, mdet a = C1 -> mdet (minv a) = C1.
Proof. intros a H. rewrite (minv_det1 a H). rewrite <- H. unfold mdet. cbn [m00 m01 m10 m11]. ring. Qed.
Lemma minv_unique : forall a b, mdet a = C1 -> mmul a b = mone -> b = minv a.
Proof. intros a b H E. rewrite <- (mmul_1_l b), <- (mul_minv_l a H), <- mmul_assoc, E. apply mmul_1_r. Qed.
Lemma minv_mul : forall a b, mdet a = C1 -> mdet b = C1 -> minv (mmul a b) = mmul (minv b) (minv a).
Proof.
  intros a b Ha Hb. symmetry. apply minv_unique; [rewrite mdet_mul, Ha, Hb; ring|].
  rewrite mmul_assoc, <- (mmul_assoc a b (minv b)), (mul_minv_r b Hb), mmul_1_r. apply mul_minv_r. exact Ha.
Qed.
Lemma minv_minv : forall a, mdet a = C1 -> minv (minv a) = a.
Proof. intros a H. symmetry. apply minv_unique; [apply mdet_minv; exact H|]. apply mul_minv_l. exact H. Qed.
Definition mopp (a : mat) : mat := mkm (- m00 a)%C (- m01 a)%C (- m10 a)%C (- m11 a)%C.
Lemma mopp_mul_l : forall a b, mmul (mopp a) b = mopp (mmul a b).
Proof. intros. unfold mmul, mopp. apply mat_eq; cbn [m00 m01 m10 m11]; ring. Qed.
Lemma mopp_mul_r : forall a b, mmul a (mopp b) = mopp (mmul a b).
Proof. intros. unfold mmul, mopp. apply mat_eq; cbn [m00 m01 m10 m11]; ring. Qed.
Lemma mopp_opp : forall a, mopp (mopp a) = a.
Proof. intros. unfold mopp. apply mat_eq; cbn [m00 m01 m10 m11]; ring. Qed.
Lemma mdet_opp : forall a, mdet (mopp a) = mdet a.
Proof. intros. unfold mdet, mopp. cbn [m00 m01 m10 m11]. ring. Qed.
Lemma minv_opp : forall a, mdet a = C1 -> minv (mopp a) = mopp (minv a).
Proof. intros a H. rewrite !minv_det1 by (rewrite ?mdet_opp; exact H). unfold mopp. apply mat_eq; cbn [m00 m01 m10 m11]; ring. Qed.

(** ** Specification: the matrices of a rotor and of a boost, as polynomials in their components *)
Definition rmat (q : quat) : mat :=
  mkm (mkC (qw q) (qz q)) (mkC (- qy q) (qx q)) (mkC (qy q) (qx q)) (mkC (qw q) (- qz q)).
(** c - s.tau for the Pauli matrices (sigma_x, -sigma_y, sigma_z). *)
Definition hmatc (c : R) (s : vec3) : mat :=
  let '(x, y, z) := s in mkm (RtoC (c - z)) (mkC (- x) (- y)) (mkC (- x) y) (RtoC (c + z)).
Definition half_c (v : vec3) : R := sqrt ((gamma v + 1) / 2).
Definition bmat (v : vec3) : mat := hmatc (half_c v) (scalev (gamma v / (2 * half_c v)) v).

Definition good_rotor (q : quat) : Prop := qnorm2 q = 1 /\ q <> qopp q1.

Lemma rmat_mul : forall p q, rmat (qmul p q) = mmul (rmat p) (rmat q).
Proof. intros [a b c d] [w x y z]. apply mat_eq; unfold mmul, rmat; cbn [m00 m01 m10 m11]; cx. Qed.
Lemma rmat_det : forall q, mdet (rmat q) = RtoC (qnorm2 q).
Proof. intros [w x y z]. unfold mdet, rmat, qnorm2. cx. Qed.
Lemma rmat_dag : forall q, mdag (rmat q) = rmat (qconj q).
Proof. intros [w x y z]. apply mat_eq; unfold mdag, rmat; cx. Qed.
Lemma rmat_one : rmat q1 = mone.
Proof. apply mat_eq; unfold rmat, mone, q1; cx. Qed.

Lemma qvec_norm : forall q, qnorm2 q = 1 -> norm3 (qvec q) = sqrt (1 - qw q * qw q).
Proof. intros [w x y z] H. unfold qnorm2 in H. cbn in *. unfold norm3, qvec. cbn. f_equal. lra. Qed.
Lemma qw_range : forall q, qnorm2 q = 1 -> -1 <= qw q <= 1.
Proof. intros [w x y z] H. unfold qnorm2 in H. cbn in *. split; nra. Qed.
Lemma good_w : forall q, good_rotor q -> -1 < qw q.
Proof.
  intros q [H N]. destruct (qw_range q H) as [L _]. destruct (Rle_lt_or_eq_dec _ _ L) as [L'|E]; [exact L'|].
  exfalso. apply N. destruct q as [w x y z]. unfold qnorm2 in H. cbn in *. subst w. apply quat_eq; cbn; nra.
Qed.
Lemma w_one : forall q, qnorm2 q = 1 -> qw q = 1 -> q = q1.
Proof. intros [w x y z] H E. unfold qnorm2 in H. cbn in *. subst w. apply quat_eq; cbn; nra. Qed.

Lemma arctan2_unit : forall q, qnorm2 q = 1 -> arctan2_pos (norm3 (qvec q)) (qw q) = acos (qw q).
Proof.
  intros q H. unfold arctan2_pos.
  assert (E : qw q * qw q + norm3 (qvec q) * norm3 (qvec q) = 1).
  { rewrite norm3_sq. destruct q as [w x y z]. unfold qnorm2 in H. unfold dotv, qvec. cbn in *. lra. }
  rewrite E. destruct (Req_EM_T 1 0); [lra|]. rewrite sqrt_1. f_equal. field.
Qed.
Lemma acos_zero : forall x, -1 <= x <= 1 -> acos x = 0 -> x = 1.
Proof. intros x H E. rewrite <- (cos_acos x H), E. apply cos_0. Qed.
Lemma sinh_0' : sinh 0 = 0.
Proof. unfold sinh. rewrite Ropp_0. field. Qed.
Lemma cosh_0' : cosh 0 = 1.
Proof. unfold cosh. rewrite Ropp_0, exp_0. field. Qed.

(** The matrix computed by the code for a rotor other than -1. *)
Lemma rotation_spin_matrix_eq : forall q, good_rotor q -> rotation_spin_matrix q = rmat q.
Proof.
  intros q G. destruct G as [H N]. assert (Gw := good_w q (conj H N)). assert (Rw := qw_range q H).
  unfold rotation_spin_matrix. rewrite (arctan2_unit q H).
  assert (Hc : cos (acos (qw q)) = qw q) by (apply cos_acos; exact Rw).
  assert (Hs : sin (acos (qw q)) = norm3 (qvec q)) by (rewrite sin_acos, qvec_norm by assumption; unfold Rsqr; reflexivity).
  destruct (Req_EM_T (2 * acos (qw q)) 0) as [E|E].
  - assert (E1 : qw q = 1) by (apply acos_zero; [exact Rw|lra]). assert (q = q1) by (apply w_one; assumption). subst q.
    rewrite E. unfold fourvec_to_spin_matrix, rmat, q1. apply mat_eq; cbn [m00 m01 m10 m11 qw qx qy qz]; apply C_eq; cbn [re im Cadd Csub Cmul Cscale RtoC Ci ccos csin];
      rewrite ?Rmult_0_r, ?cos_0, ?sin_0, ?sinh_0', ?cosh_0'; ring.
  - assert (Nz : norm3 (qvec q) <> 0).
    { intros Z. apply E. assert (E1 : qw q = 1).
      { rewrite qvec_norm in Z by exact H. apply sqrt_eq_0 in Z; [|nra]. nra. }
      rewrite E1. replace (acos 1) with 0; [ring|]. symmetry. apply acos_1. }
    destruct q as [w x y z]. unfold qvec in *. cbn [qw qx qy qz] in *. set (n := norm3 (x, y, z)) in *.
    unfold fourvec_to_spin_matrix, scalev, rmat. cbn [qw qx qy qz].
    apply mat_eq; cbn [m00 m01 m10 m11]; apply C_eq; cbn [re im Cadd Csub Cmul Cscale RtoC Ci ccos csin];
      rewrite ?Rmult_0_r, ?sinh_0', ?cosh_0'; replace (/ 2 * (2 * acos w)) with (acos w) by field; rewrite ?Hc, ?Hs; field; exact Nz.
Qed.

(** ** Hyperbolic functions *)
Lemma gamma_exp : forall v, norm3 v < 1 ->
  let E := exp (atanh (norm3 v)) in E = gamma v * (1 + norm3 v) /\ / E = gamma v * (1 - norm3 v).
Proof.
  intros v H E. assert (Nn := norm3_nonneg v). assert (Gp := gamma_pos v H). assert (G2 := gamma_sq v H). set (b := norm3 v) in *. set (g := gamma v) in *.
  assert (Ep : 0 < E) by apply exp_pos.
  assert (E2 : / E * / E = (1 - b) / (1 + b)).
  { rewrite <- (exp_atanh b) by lra. unfold E. rewrite <- exp_Ropp. reflexivity. }
  assert (I : / E = g * (1 - b)).
  { assert (A : (/ E) ^ 2 = (g * (1 - b)) ^ 2).
    { replace ((g * (1 - b)) ^ 2) with (g * g * (1 - b ^ 2) * ((1 - b) / (1 + b))) by (field; lra). rewrite G2, <- E2. ring. }
    assert (0 < / E) by (apply Rinv_0_lt_compat; exact Ep). assert (0 < g * (1 - b)) by nra. nra. }
  split; [|exact I]. rewrite <- (Rinv_inv E), I. apply Rmult_eq_reg_r with (g * (1 - b)); [|nra].
  rewrite Rinv_l by nra. transitivity (g * g * (1 - b ^ 2)); [symmetry; exact G2|ring].
Qed.
Lemma half_boost : forall v, norm3 v < 1 ->
  let h := atanh (norm3 v) / 2 in cosh h = half_c v /\ sinh h = gamma v * norm3 v / (2 * half_c v).
Proof.
  intros v H h. destruct (gamma_exp v H) as [E1 E2]. assert (Gp := gamma_pos v H). assert (Nn := norm3_nonneg v).
  set (x := exp h). assert (Xp : 0 < x) by apply exp_pos.
  assert (X2 : x * x = gamma v * (1 + norm3 v)).
  { rewrite <- E1. unfold x. rewrite <- exp_plus. f_equal. unfold h. field. }
  assert (Y2 : / x * / x = gamma v * (1 - norm3 v)).
  { rewrite <- E2. unfold x. rewrite <- !exp_Ropp, <- exp_plus. f_equal. unfold h. field. }
  assert (Ch : cosh h = (x + / x) / 2) by (unfold cosh; rewrite exp_Ropp; reflexivity).
  assert (Sh : sinh h = (x - / x) / 2) by (unfold sinh; rewrite exp_Ropp; reflexivity).
  assert (Ip : 0 < / x) by (apply Rinv_0_lt_compat; exact Xp). assert (One : x * / x = 1) by (apply Rinv_r; lra).
  assert (C2 : cosh h = half_c v).
  { unfold half_c. symmetry. apply sqrt_lem_1; [|rewrite Ch; lra|].
    - lra.
    - rewrite Ch. nra. }
  split; [exact C2|]. rewrite <- C2.
  assert (0 < cosh h) by (rewrite Ch; lra). apply Rmult_eq_reg_r with (2 * cosh h); [|lra].
  replace (gamma v * norm3 v / (2 * cosh h) * (2 * cosh h)) with (gamma v * norm3 v) by (field; lra).
  rewrite Ch, Sh. nra.
Qed.
Lemma half_c_pos : forall v, norm3 v < 1 -> 0 < half_c v.
Proof. intros v H. unfold half_c. apply sqrt_lt_R0. assert (G := gamma_pos v H). lra. Qed.
Lemma half_c_sq : forall v, norm3 v < 1 -> half_c v * half_c v = (gamma v + 1) / 2.
Proof. intros v H. unfold half_c. apply sqrt_sqrt. assert (G := gamma_pos v H). lra. Qed.
Lemma norm3_zero : forall v, norm3 v = 0 -> v = (0, 0, 0).
Proof.
  intros v E. assert (S := norm3_sq v). rewrite E in S. destruct v as [[x y] z]. unfold dotv in S.
  assert (x = 0) by nra. assert (y = 0) by nra. assert (z = 0) by nra. subst. reflexivity.
Qed.
Lemma atanh_0 : atanh 0 = 0.
Proof. unfold atanh. replace ((1 + 0) / (1 - 0)) with 1 by field. rewrite ln_1. ring. Qed.
Lemma atanh_pos : forall b, 0 < b < 1 -> 0 < atanh b.
Proof.
  intros b H. unfold atanh. apply Rmult_lt_0_compat; [lra|]. rewrite <- ln_1. apply ln_increasing; [lra|].
  apply Rmult_lt_reg_r with (1 - b); [lra|]. replace ((1 + b) / (1 - b) * (1 - b)) with (1 + b) by (field; lra). lra.
Qed.
Lemma boost_spin_matrix_eq : forall v, norm3 v < 1 -> boost_spin_matrix v = bmat v.
Proof.
  intros v H. destruct (half_boost v H) as [Hc Hs]. assert (Hp := half_c_pos v H). unfold boost_spin_matrix.
  assert (Nn := norm3_nonneg v).
  assert (Ec : forall hat, fourvec_to_spin_matrix (Ci * RtoC (atanh (norm3 v)))%C hat
     = hmatc (half_c v) (scalev (gamma v * norm3 v / (2 * half_c v)) hat)).
  { intros [[x y] z]. unfold fourvec_to_spin_matrix, hmatc, scalev.
    apply mat_eq; cbn [m00 m01 m10 m11]; apply C_eq; cbn [re im Cadd Csub Cmul Cscale RtoC Ci ccos csin];
      replace (/ 2 * (0 * atanh (norm3 v) - 1 * 0)) with 0 by ring; replace (/ 2 * (0 * 0 + 1 * atanh (norm3 v))) with (atanh (norm3 v) / 2) by field;
      rewrite cos_0, ?sin_0, ?Hc, ?Hs; field; lra. }
  rewrite Ec. unfold bmat. destruct (Req_EM_T (atanh (norm3 v)) 0) as [E|E].
  - assert (Z : norm3 v = 0). { destruct (Req_dec (norm3 v) 0) as [Z|Z]; [exact Z|]. assert (0 < atanh (norm3 v)) by (apply atanh_pos; lra). lra. }
    rewrite (norm3_zero v Z). f_equal. unfold scalev. f_equal; [f_equal|]; ring.
  - assert (Z : norm3 v <> 0). { intros Z. apply E. rewrite Z. apply atanh_0. }
    f_equal. destruct v as [[x y] z]. set (n := norm3 (x, y, z)) in *. unfold scalev. f_equal; [f_equal|]; field; lra.
Qed.
Lemma bmat_props : forall v, norm3 v < 1 -> mdet (bmat v) = C1 /\ mdag (bmat v) = bmat v.
Proof.
  intros v H. assert (Hp := half_c_pos v H). assert (H2 := half_c_sq v H). assert (G2 := gamma_sq v H). assert (Gp := gamma_pos v H).
  assert (Sq := norm3_sq v). unfold bmat. set (c := half_c v) in *. set (g := gamma v) in *. set (n := norm3 v) in *. destruct v as [[x y] z]. unfold dotv in Sq.
  assert (K : (g / (2 * c) * x) ^ 2 + (g / (2 * c) * y) ^ 2 + (g / (2 * c) * z) ^ 2 = c * c - 1).
  { replace ((g / (2 * c) * x) ^ 2 + (g / (2 * c) * y) ^ 2 + (g / (2 * c) * z) ^ 2) with (g * g * (x * x + y * y + z * z) / (4 * (c * c))) by (field; lra).
    rewrite <- Sq, H2. apply Rmult_eq_reg_r with (4 * ((g + 1) / 2)); [|lra].
    replace (g * g * (n * n) / (4 * ((g + 1) / 2)) * (4 * ((g + 1) / 2))) with (g * g - g * g * (1 - n ^ 2)) by (field; lra). rewrite G2. field. }
  unfold scalev, hmatc. set (a := g / (2 * c)) in *. split.
  - unfold mdet. apply C_eq; cbn; nra.
  - apply mat_eq; unfold mdag; cx.
Qed.

(** ** C33 *)
Definition unitary (u : mat) : Prop := mmul u (mdag u) = mone /\ mmul (mdag u) u = mone.
(** x^dagger A x > 0 for every nonzero vector x. *)
Definition qform (A : mat) (x y : C) : C :=
  (Conj x * (m00 A * x + m01 A * y) + Conj y * (m10 A * x + m11 A * y))%C.
Definition positive (A : mat) : Prop := forall x y, (x <> C0 \/ y <> C0) -> im (qform A x y) = 0 /\ 0 < re (qform A x y).

Lemma rmat_unitary : forall q, qnorm2 q = 1 -> unitary (rmat q).
Proof.
  intros q H. unfold unitary. rewrite rmat_dag, <- !rmat_mul, qmul_conj_l, qmul_conj_r, H, qscale_1, rmat_one. split; reflexivity.
Qed.
Theorem C33_rotation : forall q, good_rotor q ->
  rotation_spin_matrix q = rmat q /\ unitary (rotation_spin_matrix q) /\ mdet (rotation_spin_matrix q) = C1.
Proof.
  intros q G. rewrite (rotation_spin_matrix_eq q G). destruct G as [H _]. split; [reflexivity|]. split; [apply rmat_unitary; exact H|].
  rewrite rmat_det, H. reflexivity.
Qed.
Theorem C33_multiplicative : forall p q, good_rotor p -> good_rotor q -> good_rotor (qmul p q) ->
  rotation_spin_matrix (qmul p q) = mmul (rotation_spin_matrix p) (rotation_spin_matrix q).
Proof. intros p q Hp Hq Hpq. rewrite !rotation_spin_matrix_eq by assumption. apply rmat_mul. Qed.
(** The rotor -1 is excluded with reason: its angle is not zero but its axis is 0/0. *)
Theorem C33_minus_one_refuted :
  2 * arctan2_pos (norm3 (qvec (qopp q1))) (qw (qopp q1)) <> 0 /\ norm3 (qvec (qopp q1)) = 0.
Proof.
  assert (U : qnorm2 (qopp q1) = 1) by (unfold qnorm2, qopp, q1; cbn; ring). split.
  - rewrite arctan2_unit by exact U. cbn. rewrite acos_opp, acos_1. assert (P := PI_RGT_0). lra.
  - unfold norm3, qvec, qopp, q1. cbn. replace (- 0 * - 0 + - 0 * - 0 + - 0 * - 0) with 0 by ring. apply sqrt_0.
Qed.
Lemma hmatc_positive : forall c s, 0 < c -> dotv s s < c * c -> positive (hmatc c s).
Proof.
  intros c [[x y] z] Hc Hs [a b] [d e] Nz. unfold dotv in Hs. unfold qform, hmatc. cbn.
  split; [ring|].
  set (Q := c * (a * a + b * b + d * d + e * e)).
  set (X := 2 * (a * d + b * e)). set (Y := 2 * (a * e - b * d)). set (Zc := a * a + b * b - d * d - e * e).
  assert (E : re ((mkC a (- b)) * (RtoC (c - z) * mkC a b + mkC (- x) (- y) * mkC d e) + mkC d (- e) * (mkC (- x) y * mkC a b + RtoC (c + z) * mkC d e))%C
     = Q - (x * X - y * Y + z * Zc)).
  { unfold Q, X, Y, Zc. cbn. ring. }
  cbn in E.
  match goal with |- 0 < ?e => replace e with (Q - (x * X - y * Y + z * Zc)) by (rewrite <- E; ring) end.
  set (W := a * a + b * b + d * d + e * e). assert (Wp : 0 < W).
  { assert (0 <= a * a /\ 0 <= b * b /\ 0 <= d * d /\ 0 <= e * e) by (repeat split; apply Rle_0_sqr).
    destruct (Req_dec W 0) as [W0|W0]; [|unfold W in *; lra]. exfalso. unfold W in W0.
    assert (a = 0) by nra. assert (b = 0) by nra. assert (d = 0) by nra. assert (e = 0) by nra. subst. destruct Nz as [Nz|Nz]; apply Nz; reflexivity. }
  assert (N : X * X + Y * Y + Zc * Zc = W * W) by (unfold X, Y, Zc, W; ring).
  assert (Cs := cauchy (x, y, z) (X, - Y, Zc)). unfold dotv in Cs.
  replace (X * X + - Y * - Y + Zc * Zc) with (W * W) in Cs by lra.
  assert (EQ : Q = c * W) by reflexivity. rewrite EQ.
  set (D := x * X + y * - Y + z * Zc) in *. replace (x * X - y * Y + z * Zc) with D by (unfold D; ring).
  assert (W2 : 0 < W * W) by nra. assert (L := Rmult_lt_compat_r _ _ _ W2 Hs).
  assert (D * D < (c * W) * (c * W)) by (replace ((c * W) * (c * W)) with (c * c * (W * W)) by ring; lra).
  assert (0 < c * W) by nra. nra.
Qed.
Theorem C33_boost : forall v, norm3 v < 1 ->
  boost_spin_matrix v = bmat v /\ mdag (boost_spin_matrix v) = boost_spin_matrix v
  /\ positive (boost_spin_matrix v) /\ mdet (boost_spin_matrix v) = C1.
Proof.
  intros v H. rewrite (boost_spin_matrix_eq v H). destruct (bmat_props v H) as [D A]. split; [reflexivity|]. split; [exact A|]. split; [|exact D].
  unfold bmat. apply hmatc_positive; [apply half_c_pos; exact H|].
  unfold bmat in D. destruct (scalev (gamma v / (2 * half_c v)) v) as [[x y] z]. unfold mdet, hmatc in D. apply (f_equal re) in D. cbn in D. unfold dotv. lra.
Qed.
Example C33_case : good_rotor (mkq (3 / 5) 0 (4 / 5) 0) /\ norm3 (0, 3 / 5, 0) < 1.
Proof.
  split; [split|].
  - unfold qnorm2. cbn. lra.
  - intros E. injection E. lra.
  - unfold norm3. replace (0 * 0 + 3 / 5 * (3 / 5) + 0 * 0) with ((3 / 5) * (3 / 5)) by ring. rewrite sqrt_square; lra.
Qed.
