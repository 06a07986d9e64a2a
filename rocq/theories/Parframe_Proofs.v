(** * C84: the parity operations are reflections of the field, and the frame goes along *)
From Coq Require Import Reals ZArith List Bool Lia Lra.
From Verif Require Import Common Cplx Quat Modes_Model Modal_Model Kwargs_Model Transform_Model Rotate_Model Modes_Proofs Modal_Proofs Rotate_Proofs
  Transform_Proofs Kwargs_Proofs Wigner_Model Wigner_Proofs Sphere_Model Sphere_Proofs Harmonics_Proofs Parity_Proofs Parframe_Model.
Import ListNotations.
Open Scope R_scope.
Ltac to_nat_eval := repeat (match goal with |- context [Z.to_nat ?z] => let n := eval vm_compute in (Z.to_nat z) in change (Z.to_nat z) with n end).

(** ** Matrices of reflected rotors *)
Lemma wterm_ab : forall a b n j' j r, wterm (Conj a) (Conj b) n j' j r = Conj (wterm a b n j' j r).
Proof.
  intros a b n j' j r. unfold wterm. destruct ((r + j <=? n) && (j' <=? r + j))%nat; [|symmetry; apply Conj_C0].
  rewrite Conj_scale, !Conj_mul, !Conj_Cpow. reflexivity.
Qed.
Lemma Cpow_opp : forall z n, Cpow (- z)%C n = (RtoC ((-1) ^ n) * Cpow z n)%C.
Proof. intros z n. replace (- z)%C with ((- C1) * z)%C by ring. rewrite Cpow_mul, Cpow_neg1. reflexivity. Qed.
Lemma wterm_b : forall a b n j' j r, wterm a (- b)%C n j' j r = (RtoC ((-1) ^ (j + j')) * wterm a b n j' j r)%C.
Proof.
  intros a b n j' j r. unfold wterm. destruct (Nat.leb_spec (r + j) n); cbn [andb]; [|ring]. destruct (Nat.leb_spec j' (r + j)); [|ring].
  rewrite Conj_opp, !Cpow_opp, !Cscale_mul.
  replace ((-1) ^ (j + j')) with ((-1) ^ (r + j - j') * (-1) ^ r).
  - rewrite !RtoC_mul. ring.
  - rewrite <- pow_add. transitivity ((-1) ^ (r + j - j' + r) * (-1) ^ (2 * j')); [rewrite pow_1_even; ring|].
    transitivity ((-1) ^ (j + j') * (-1) ^ (2 * r)); [|rewrite pow_1_even; ring]. rewrite <- !pow_add. f_equal. lia.
Qed.
Lemma D_conj_rotor : forall p q l m' m, part_a p = Conj (part_a q) -> part_b p = Conj (part_b q) ->
  wigner_D p l m' m = Conj (wigner_D q l m' m).
Proof.
  intros p q l m' m A B. unfold wigner_D. cbv zeta. rewrite A, B, Conj_scale, csum_conj. f_equal. apply csum_ext. intros r _. apply wterm_ab.
Qed.
Lemma D_opp_b : forall p q l m' m, (0 <= l)%Z -> (- l <= m' <= l)%Z -> (- l <= m <= l)%Z ->
  part_a p = part_a q -> part_b p = (- part_b q)%C -> wigner_D p l m' m = (RtoC (sgn (m' + m)) * wigner_D q l m' m)%C.
Proof.
  intros p q l m' m Hl H H' A B. unfold wigner_D. cbv zeta. rewrite A, B.
  rewrite (csum_ext _ (fun r => (RtoC ((-1) ^ (Z.to_nat (l + m) + Z.to_nat (l + m'))) * wterm (part_a q) (part_b q) (Z.to_nat (2 * l)) (Z.to_nat (l + m')) (Z.to_nat (l + m)) r)%C))
    by (intros r _; apply wterm_b).
  rewrite csum_scale, pow_sgn. replace (Z.of_nat (Z.to_nat (l + m) + Z.to_nat (l + m')))%Z with (m' + m + (l + l))%Z by lia.
  rewrite sgn_add, (sgn_add l l), sgn_sq, !Cscale_mul, Rmult_1_r. ring.
Qed.
(** The matrices of the conjugates of a rotor *)
Lemma D_fconj : forall k q l m' m, (0 <= l)%Z -> (- l <= m' <= l)%Z -> (- l <= m <= l)%Z ->
  wigner_D (fconj k q) l m' m =
  match k with
  | PX => (RtoC (sgn (m' + m)) * Conj (wigner_D q l m' m))%C
  | PY => Conj (wigner_D q l m' m)
  | PZ => (RtoC (sgn (m' + m)) * wigner_D q l m' m)%C
  | PAll => wigner_D q l m' m
  end.
Proof.
  intros k [w x y z] l m' m Hl H H'. destruct k; cbn [fconj qw qx qy qz].
  - rewrite (D_opp_b _ (mkq w (- x) y (- z))) by (auto; cx). f_equal. apply D_conj_rotor; cx.
  - apply D_conj_rotor; cx.
  - apply D_opp_b; auto; cx.
  - reflexivity.
Qed.
Lemma D_opp : forall q l m' m, (0 <= l)%Z -> (- l <= m' <= l)%Z -> (- l <= m <= l)%Z -> wigner_D (qopp q) l m' m = wigner_D q l m' m.
Proof.
  intros q l m' m Hl H H'. replace (qopp q) with (qmul q (mkq (cos PI) 0 0 (sin PI))) by (rewrite cos_PI, sin_PI; destruct q; qx).
  rewrite <- C25_wigner_product by auto. rewrite <- (csum_delta l m (fun k => wigner_D q l m' k)) by auto. apply csum_ext. intros k Hk.
  apply ms_of_In in Hk. f_equal. rewrite C25_wigner_z by (auto; lia). destruct (Z.eqb_spec k m) as [->|]; [|reflexivity].
  assert (E : cos (IZR m * (2 * PI)) = 1 /\ sin (IZR m * (2 * PI)) = 0).
  { replace (IZR m * (2 * PI)) with (0 + 2 * IZR m * PI) by ring. split.
    - destruct (Z_lt_le_dec m 0); [rewrite <- cos_neg; replace (- (0 + 2 * IZR m * PI)) with (0 + 2 * INR (Z.to_nat (- m)) * PI)|
        replace (IZR m) with (INR (Z.to_nat m))]; rewrite ?cos_period, ?cos_0; auto; rewrite INR_IZR_INZ, Z2Nat.id by lia; rewrite ?opp_IZR; ring.
    - destruct (Z_lt_le_dec m 0); [rewrite <- (Ropp_involutive (sin _)), <- sin_neg; replace (- (0 + 2 * IZR m * PI)) with (0 + 2 * INR (Z.to_nat (- m)) * PI)|
        replace (IZR m) with (INR (Z.to_nat m))]; rewrite ?sin_period, ?sin_0; try ring; rewrite INR_IZR_INZ, Z2Nat.id by lia; rewrite ?opp_IZR; ring. }
  destruct E as [-> ->]. reflexivity.
Qed.
Lemma csum_rev_seq : forall (f : nat -> C) n, csum (fun k => f (n - k)%nat) (seq 0 (S n)) = csum f (seq 0 (S n)).
Proof.
  intros f n. revert f. induction n as [|n IH]; intros f; [reflexivity|]. rewrite csum_head. cbn [Nat.sub].
  rewrite IH, (seq_S (S n) 0), csum_app. cbn [csum plus]. ring.
Qed.
(** Half turns about the axes *)
Lemma D_qj_r : forall q l m' m, (0 <= l)%Z -> (- l <= m' <= l)%Z -> (- l <= m <= l)%Z ->
  wigner_D (qmul q qj) l m' m = (RtoC (sgn (l + m)) * wigner_D q l m' (- m))%C.
Proof.
  intros q l m' m Hl H H'. rewrite !D_entry by lia. set (n := Z.to_nat (2 * l)). set (j' := Z.to_nat (l + m')). set (j := Z.to_nat (l + m)).
  replace (Z.to_nat (l + - m)) with (n - j)%nat by (unfold n, j; lia).
  assert (Lj : (j <= n)%nat) by (unfold j, n; lia). assert (Lj' : (j' <= n)%nat) by (unfold j', n; lia).
  replace (part_a (qmul q qj)) with (- Conj (part_b q))%C by (destruct q; cx).
  replace (part_b (qmul q qj)) with (Conj (part_a q)) by (destruct q; cx).
  replace (wnorm n (n - j)) with (wnorm n j) by (unfold wnorm; replace (n - (n - j))%nat with j by lia; f_equal; ring).
  replace (sgn (l + m)) with ((-1) ^ j) by (rewrite pow_sgn; unfold j; f_equal; lia).
  assert (E : wc (- Conj (part_b q))%C (Conj (part_a q)) n j' j = (RtoC ((-1) ^ j) * wc (part_a q) (part_b q) n j' (n - j))%C).
  { set (a := part_a q). set (b := part_b q).
    transitivity (RtoC ((-1) ^ (n - j)) * wc a b n j' (n - j))%C.
    2:{ f_equal. f_equal. transitivity ((-1) ^ (n - j) * ((-1) ^ j * (-1) ^ j)); [rewrite sign_sq; ring|]. rewrite <- Rmult_assoc, <- pow_add.
        replace (n - j + j)%nat with (2 * Z.to_nat l)%nat by (unfold n in *; lia). rewrite pow_1_even. ring. }
    apply (coefficients_unique (fun j => wc (- Conj b)%C (Conj a) n j' j) (fun j => (RtoC ((-1) ^ (n - j)) * wc a b n j' (n - j))%C) n); [|exact Lj].
    intros x. transitivity (Cpow ((- Conj b) * RtoC x - Conj (Conj a) * C1) j' * Cpow (Conj a * RtoC x + Conj (- Conj b) * C1) (n - j'))%C.
    - rewrite wrow_expand by exact Lj'. apply csum_ext. intros k _. rewrite Cpow_1. ring.
    - transitivity (Cpow (a * (- C1) - Conj b * RtoC x) j' * Cpow (b * (- C1) + Conj a * RtoC x) (n - j'))%C.
      + rewrite Conj_opp, !Conj_involutive. f_equal; f_equal; ring.
      + rewrite wrow_expand by exact Lj'. rewrite <- (csum_rev_seq (fun k => (wc a b n j' k * (Cpow (- C1) k * Cpow (RtoC x) (n - k)))%C)).
        apply csum_ext. intros k Hk. apply in_seq in Hk. rewrite Cpow_neg1. replace (n - (n - k))%nat with k by lia. ring. }
  rewrite E. ring.
Qed.
Lemma csum_pick : forall l k (f : Z -> C), (0 <= l)%Z -> (- l <= k <= l)%Z ->
  csum (fun i => (if (i =? k)%Z then C1 else C0) * f i)%C (ms_of l) = f k.
Proof.
  intros l k f Hl Hk. rewrite <- (csum_delta l k f Hl Hk). apply csum_ext. intros i _. ring.
Qed.
Lemma D_qj : forall l m' m, (0 <= l)%Z -> (- l <= m' <= l)%Z -> (- l <= m <= l)%Z ->
  wigner_D qj l m' m = (RtoC (sgn (l + m)) * (if (m =? - m')%Z then C1 else C0))%C.
Proof.
  intros l m' m Hl H H'. rewrite <- (qmul_1_l qj), D_qj_r, C25_wigner_one by lia. f_equal.
  destruct (Z.eqb_spec m' (- m)), (Z.eqb_spec m (- m')); auto; lia.
Qed.
Lemma D_qj_l : forall q l m' m, (0 <= l)%Z -> (- l <= m' <= l)%Z -> (- l <= m <= l)%Z ->
  wigner_D (qmul qj q) l m' m = (RtoC (sgn (l + m')) * wigner_D q l (- m') m)%C.
Proof.
  intros q l m' m Hl H H'. rewrite <- C25_wigner_product by lia.
  rewrite <- (csum_pick l (- m') (fun i => RtoC (sgn (l + m')) * wigner_D q l i m)%C) by lia. apply csum_ext. intros i Hi. apply ms_of_In in Hi.
  rewrite D_qj by lia. destruct (Z.eqb_spec i (- m')) as [->|]; [|ring]. rewrite !sgn_add, sgn_opp. ring.
Qed.
Lemma half_trig : forall m, mkC (cos (IZR m * (2 * (PI / 2)))) (sin (IZR m * (2 * (PI / 2)))) = RtoC (sgn m).
Proof.
  assert (P : forall n : nat, cos (INR n * PI) = (-1) ^ n /\ sin (INR n * PI) = 0).
  { induction n as [|n [A B]]; [cbn; rewrite Rmult_0_l, cos_0, sin_0; auto|].
    rewrite S_INR, Rmult_plus_distr_r, Rmult_1_l, neg_cos, neg_sin, A, B. cbn [pow]. split; ring. }
  intros m. replace (2 * (PI / 2)) with PI by field. destruct (Z_lt_le_dec m 0) as [L|G].
  - destruct (P (Z.to_nat (- m))) as [A B]. rewrite pow_sgn, INR_IZR_INZ, Z2Nat.id, sgn_opp in * by lia. rewrite opp_IZR in *.
    rewrite Ropp_mult_distr_l_reverse in *. rewrite cos_neg in A. rewrite sin_neg in B. unfold RtoC. f_equal; lra.
  - destruct (P (Z.to_nat m)) as [A B]. rewrite pow_sgn, INR_IZR_INZ, Z2Nat.id in * by lia. unfold RtoC. f_equal; lra.
Qed.
Lemma D_qk : forall l m' m, (0 <= l)%Z -> (- l <= m' <= l)%Z -> (- l <= m <= l)%Z ->
  wigner_D qk l m' m = (RtoC (sgn m) * (if (m' =? m)%Z then C1 else C0))%C.
Proof.
  intros l m' m Hl H H'. replace qk with (mkq (cos (PI / 2)) 0 0 (sin (PI / 2))) by (rewrite cos_PI2, sin_PI2; reflexivity).
  rewrite C25_wigner_z, half_trig by lia. destruct (m' =? m)%Z; ring.
Qed.
Lemma D_qk_l : forall q l m' m, (0 <= l)%Z -> (- l <= m' <= l)%Z -> (- l <= m <= l)%Z ->
  wigner_D (qmul qk q) l m' m = (RtoC (sgn m') * wigner_D q l m' m)%C.
Proof.
  intros q l m' m Hl H H'. rewrite <- C25_wigner_product by lia.
  rewrite <- (csum_pick l m' (fun i => RtoC (sgn m') * wigner_D q l i m)%C) by lia. apply csum_ext. intros i Hi. apply ms_of_In in Hi.
  rewrite D_qk, (Z.eqb_sym m' i) by lia. destruct (Z.eqb_spec i m') as [->|]; ring.
Qed.
Lemma D_qi_l : forall q l m' m, (0 <= l)%Z -> (- l <= m' <= l)%Z -> (- l <= m <= l)%Z ->
  wigner_D (qmul qi q) l m' m = (RtoC (sgn l) * wigner_D q l (- m') m)%C.
Proof.
  intros q l m' m Hl H H'. replace (qmul qi q) with (qmul qj (qmul qk q)) by (destruct q; qx).
  rewrite D_qj_l, D_qk_l by lia. rewrite sgn_add, sgn_opp, RtoC_mul.
  transitivity (RtoC (sgn l) * (RtoC (sgn m') * RtoC (sgn m')) * wigner_D q l (- m') m)%C; [ring|]. rewrite <- RtoC_mul, sgn_sq. cx.
Qed.

(** ** Reflections of turned modes *)
(** Reflecting modes that were turned by q is turning the reflected modes by the reflected rotor. *)
Theorem C84_turn : forall k s q f l m, (0 <= l)%Z -> (- l <= m <= l)%Z ->
  parity_value k s (turn wigner_D q f) l m = turn wigner_D (fconj k q) (parity_value k s f) l m.
Proof.
  intros k s q f l m Hl Hm. unfold turn. destruct k; cbn [parity_value].
  - rewrite csum_conj, Cscale_mul, <- csum_scale. apply csum_ext. intros i Hi. apply ms_of_In in Hi.
    rewrite D_fconj by lia. rewrite Conj_mul, !Cscale_mul, sgn_add, RtoC_mul.
    transitivity ((RtoC (sgn i) * RtoC (sgn i)) * (RtoC (sgn m) * (Conj (f l i) * Conj (wigner_D q l i m))))%C; [|ring]. rewrite <- RtoC_mul, sgn_sq. cx.
  - rewrite csum_conj. apply csum_ext. intros i Hi. apply ms_of_In in Hi. rewrite D_fconj by lia. apply Conj_mul.
  - rewrite csum_conj, Cscale_mul, <- csum_scale. rewrite ms_flip by lia. apply csum_ext. intros i Hi. apply ms_of_In in Hi.
    rewrite D_fconj by lia. rewrite Conj_mul, D_conj by lia. rewrite !Z.opp_involutive, Cscale_mul, !sgn_add, !sgn_opp. ring.
  - rewrite csum_conj, Cscale_mul, <- csum_scale. rewrite ms_flip by lia. apply csum_ext. intros i Hi. apply ms_of_In in Hi.
    rewrite D_fconj by lia. rewrite Conj_mul, D_conj by lia. rewrite !Z.opp_involutive, Cscale_mul, !sgn_add, !sgn_opp, !RtoC_mul.
    transitivity ((RtoC (sgn m) * RtoC (sgn m)) * (RtoC (sgn l) * RtoC (sgn s) * RtoC (sgn i) * (Conj (f l (- i)%Z) * wigner_D q l i m)))%C; [ring|].
    rewrite <- RtoC_mul, sgn_sq. cx.
Qed.

(** ** The operations are reflections of the field *)
(** Specification: the reflection along an axis, or along all of them, of a vector. *)
Definition reflect (k : parity_kind) (v : vec3) : vec3 :=
  let '(x, y, z) := v in
  match k with PX => (- x, y, z) | PY => (x, - y, z) | PZ => (x, y, - z) | PAll => (- x, - y, - z) end.
Definition negv (v : vec3) : vec3 := let '(x, y, z) := v in (- x, - y, - z).
(** The triad of [q'] is the mirror image of that of [q], with the second leg turned round so that it is
    right-handed again. *)
Definition mirrored (k : parity_kind) (q q' : quat) : Prop :=
  rotv q' (1, 0, 0) = reflect k (rotv q (1, 0, 0)) /\ rotv q' (0, 1, 0) = negv (reflect k (rotv q (0, 1, 0))) /\
  rotv q' (0, 0, 1) = reflect k (rotv q (0, 0, 1)).
(** A field of spin weight s is a component of a tensor along the complex leg of the triad; mirroring the tensor
    conjugates it.  The sign of the code: none along x and y, (-1)^s along z and along all axes. *)
Definition intrinsic (k : parity_kind) (s : Z) : R := match k with PX | PY => 1 | PZ | PAll => sgn s end.

Definition axis (k : parity_kind) : quat := match k with PX => qi | PY => qj | PZ => qk | PAll => q1 end.
Lemma same_triad : forall p q, unitq p -> unitq q -> rotv p (1, 0, 0) = rotv q (1, 0, 0) -> rotv p (0, 1, 0) = rotv q (0, 1, 0) ->
  p = q \/ p = qopp q.
Proof.
  intros p q Up Uq H1 H2.
  assert (C : forall v, qw v = 0 -> rotv p (qx v, qy v, qz v) = rotv q (qx v, qy v, qz v) -> qmul (qmul (qconj q) p) v = qmul v (qmul (qconj q) p)).
  { intros v Wv H. unfold rotv, qvec in H. replace (mkq 0 (qx v) (qy v) (qz v)) with v in H by (destruct v; cbn in *; subst; reflexivity).
    assert (E : qmul (qmul p v) (qconj p) = qmul (qmul q v) (qconj q)).
    { assert (W : forall r, qw (qmul (qmul r v) (qconj r)) = 0) by (intros r; destruct r, v; cbn in *; subst; ring).
      apply (f_equal (fun t => t)) in H. injection H as Hx Hy Hz. apply quat_eq; [rewrite !W; reflexivity|exact Hx|exact Hy|exact Hz]. }
    apply (f_equal (fun t => qmul (qmul (qconj q) t) p)) in E.
    transitivity (qmul (qmul (qconj q) (qmul (qmul p v) (qconj p))) p).
    - rewrite <- !qmul_assoc. rewrite (proj2 (mul_conj_unit p Up)), qmul_1_r. reflexivity.
    - rewrite E. rewrite !qmul_assoc. rewrite (proj2 (mul_conj_unit q Uq)), qmul_1_l. reflexivity. }
  pose proof (C qi eq_refl H1) as A. pose proof (C qj eq_refl H2) as B.
  assert (P : p = qmul q (qmul (qconj q) p)) by (rewrite qmul_assoc, (proj1 (mul_conj_unit q Uq)), qmul_1_l; reflexivity).
  assert (U : unitq (qmul (qconj q) p)) by (apply unit_mul; [apply unit_conj|]; assumption).
  set (r := qmul (qconj q) p) in *. clearbody r. destruct r as [w x y z].
  apply (f_equal (fun t => (qy t, qz t))) in A. apply (f_equal qz) in B. cbn in A, B. injection A as A1 A2.
  assert (z = 0) by lra. assert (y = 0) by lra. assert (x = 0) by lra. subst. unfold unitq, qnorm2 in U. cbn in U.
  assert (W : w = 1 \/ w = -1) by (assert ((w - 1) * (w + 1) = 0) as M by lra; apply Rmult_integral in M; destruct M; [left|right]; lra).
  destruct W as [-> | ->]; [left|right]; destruct q; qx.
Qed.
Lemma mirror_rotor : forall k q, mirrored k q (qmul (qmul (axis k) q) qj).
Proof.
  intros k [w x y z]. unfold mirrored, rotv, reflect, negv, qvec. destruct k; cbn; repeat split; apply (f_equal2 pair); try (apply (f_equal2 pair)); ring.
Qed.
Lemma D_mirror : forall k q l m s, (0 <= l)%Z -> (- l <= m <= l)%Z -> (- l <= s <= l)%Z ->
  Conj (wigner_D (qmul (qmul (axis k) q) qj) l m (- s)) =
  match k with
  | PX => (RtoC (sgn m) * wigner_D q l m (- s))%C
  | PY => wigner_D q l m (- s)
  | PZ => (RtoC (sgn l) * wigner_D q l (- m) (- s))%C
  | PAll => (RtoC (sgn (l + m)) * wigner_D q l (- m) (- s))%C
  end.
Proof.
  intros k q l m s Hl Hm Hs. rewrite D_qj_r, Conj_mul, Conj_RtoC, D_conj, !Z.opp_involutive by lia.
  assert (Q : forall i, (RtoC (sgn i) * RtoC (sgn i))%C = C1) by (intros; rewrite <- RtoC_mul, sgn_sq; reflexivity).
  assert (T : forall X, (RtoC (sgn (l + - s)) * (RtoC (sgn (m + s)) * X))%C = (RtoC (sgn (l + m)) * X)%C).
  { intros X. rewrite !sgn_add, sgn_opp, !RtoC_mul. transitivity ((RtoC (sgn s) * RtoC (sgn s)) * (RtoC (sgn l) * RtoC (sgn m) * X))%C; [ring|]. rewrite Q. ring. }
  rewrite T. destruct k; cbn [axis].
  - rewrite D_qi_l, Z.opp_involutive, sgn_add, RtoC_mul by lia. transitivity ((RtoC (sgn l) * RtoC (sgn l)) * (RtoC (sgn m) * wigner_D q l m (- s)))%C; [ring|]. rewrite Q. ring.
  - rewrite D_qj_l, Z.opp_involutive, !sgn_add, sgn_opp, !RtoC_mul by lia.
    transitivity ((RtoC (sgn l) * RtoC (sgn l)) * (RtoC (sgn m) * RtoC (sgn m)) * wigner_D q l m (- s))%C; [ring|]. rewrite !Q. ring.
  - rewrite D_qk_l, sgn_add, sgn_opp, RtoC_mul by lia. transitivity ((RtoC (sgn m) * RtoC (sgn m)) * (RtoC (sgn l) * wigner_D q l (- m) (- s)))%C; [ring|]. rewrite Q. ring.
  - rewrite qmul_1_l. reflexivity.
Qed.
Lemma field_opp : forall s L f q, field s L f (qopp q) = field s L f q.
Proof.
  intros s L f q. rewrite !field_by_l. apply csum_ext. intros l Hl. apply zrange_In in Hl. apply csum_ext. intros m Hm. apply ms_of_In in Hm. f_equal.
  destruct (Z.lt_ge_cases l (Z.abs s)); [rewrite !swsh_low by lia; reflexivity|]. rewrite !swsh_in, D_opp by lia. reflexivity.
Qed.
(** The field of the parity conjugate is the mirror image of the field. *)
Theorem C84_reflection : forall k s L f q q', unitq q -> unitq q' -> mirrored k q q' ->
  field s L (parity_value k s f) q = Cscale (intrinsic k s) (Conj (field s L f q')).
Proof.
  intros k s L f q q' U U' (M1 & M2 & _).
  assert (E : q' = qmul (qmul (axis k) q) qj \/ q' = qopp (qmul (qmul (axis k) q) qj)).
  { destruct (mirror_rotor k q) as (N1 & N2 & _). apply same_triad; try congruence. apply unit_mul; [apply unit_mul; auto|]; unfold unitq, qnorm2; destruct k; cbn; ring. }
  assert (F : field s L f q' = field s L f (qmul (qmul (axis k) q) qj)) by (destruct E as [-> | ->]; [|rewrite field_opp]; reflexivity).
  rewrite F. clear - U. rewrite !field_by_l, csum_conj, Cscale_mul, <- csum_scale. apply csum_ext. intros l Hl. apply zrange_In in Hl.
  destruct (Z.lt_ge_cases l (Z.abs s)) as [LO|HI].
  { rewrite csum_conj, <- csum_scale, !csum_const0; auto; intros m _; rewrite swsh_low by lia; rewrite ?Conj_mul, ?Conj_C0; ring. }
  rewrite csum_conj, <- csum_scale. set (c := sgn s * sqrt (IZR (2 * l + 1) / (4 * PI))).
  assert (A : forall g p, csum (fun m => (g m * swsh s l m p)%C) (ms_of l) = csum (fun m => (g m * (RtoC c * wigner_D p l m (- s)))%C) (ms_of l)).
  { intros g p. apply csum_ext. intros m Hm. apply ms_of_In in Hm. rewrite swsh_in by lia. reflexivity. }
  rewrite A. rewrite (csum_ext (fun m => (RtoC (intrinsic k s) * Conj (f l m * swsh s l m (qmul (qmul (axis k) q) qj)))%C)
    (fun m => (RtoC (intrinsic k s) * (Conj (f l m) * (RtoC c * Conj (wigner_D (qmul (qmul (axis k) q) qj) l m (- s)))))%C)).
  2:{ intros m Hm. apply ms_of_In in Hm. rewrite swsh_in by lia. fold c. rewrite !Conj_mul, Conj_RtoC. reflexivity. }
  destruct k; cbn [parity_value intrinsic]; [| |symmetry; rewrite ms_flip by lia|symmetry; rewrite ms_flip by lia];
    apply csum_ext; intros m Hm; apply ms_of_In in Hm; rewrite D_mirror by lia; rewrite ?Z.opp_involutive, ?Cscale_mul, ?sgn_add, ?sgn_opp, ?RtoC_mul; try ring.
  change (RtoC 1) with C1. ring. change (RtoC 1) with C1. ring.
Qed.
(** Such a triad always exists, and is unique up to the sign of its rotor. *)
Theorem C84_mirror : forall k q, unitq q -> exists q', unitq q' /\ mirrored k q q' /\
  forall p, unitq p -> mirrored k q p -> p = q' \/ p = qopp q'.
Proof.
  intros k q U. exists (qmul (qmul (axis k) q) qj).
  assert (U' : unitq (qmul (qmul (axis k) q) qj)) by (apply unit_mul; [apply unit_mul; auto|]; unfold unitq, qnorm2; destruct k; cbn; ring).
  split; [exact U'|]. split; [apply mirror_rotor|]. intros p Up (M1 & M2 & _). destruct (mirror_rotor k q) as (N1 & N2 & _).
  apply same_triad; congruence.
Qed.

(** ** Two reflections are half a turn *)
(** Along x and y: half a turn about z, for every spin weight. *)
Theorem C84_half_turn_z : forall s f l m, (0 <= l)%Z -> (- l <= m <= l)%Z ->
  parity_value PY s (parity_value PX s f) l m = turn wigner_D qk f l m.
Proof.
  intros s f l m Hl Hm. unfold turn. cbn [parity_value]. rewrite Conj_scale, Conj_involutive, Cscale_mul.
  rewrite <- (csum_delta l m (fun i => RtoC (sgn m) * f l i)%C) by lia. apply csum_ext. intros i Hi. apply ms_of_In in Hi.
  rewrite D_qk by lia. destruct (Z.eqb_spec i m) as [->|]; ring.
Qed.
(** Along z and one of the others: half a turn about the third axis, times (-1)^s. *)
Theorem C84_half_turn_y : forall s f l m, (0 <= l)%Z -> (- l <= m <= l)%Z ->
  parity_value PZ s (parity_value PX s f) l m = Cscale (sgn s) (turn wigner_D qj f l m).
Proof.
  intros s f l m Hl Hm. unfold turn. cbn [parity_value]. rewrite Conj_scale, Conj_involutive, !Cscale_mul, <- csum_scale.
  rewrite <- (csum_delta l (- m) (fun i => RtoC (sgn (l + s)) * (RtoC (sgn (- m)) * f l i))%C) by lia. apply csum_ext. intros i Hi. apply ms_of_In in Hi.
  rewrite D_qj by lia. destruct (Z.eqb_spec i (- m)) as [->|].
  - rewrite Z.opp_involutive, Z.eqb_refl, !sgn_add, sgn_opp, !RtoC_mul. ring.
  - destruct (Z.eqb_spec m (- i)); [lia|]. ring.
Qed.
Theorem C84_half_turn_x : forall s f l m, (0 <= l)%Z -> (- l <= m <= l)%Z ->
  parity_value PZ s (parity_value PY s f) l m = Cscale (sgn s) (turn wigner_D qi f l m).
Proof.
  intros s f l m Hl Hm. unfold turn. cbn [parity_value]. rewrite Conj_involutive, !Cscale_mul, <- csum_scale.
  rewrite <- (csum_delta l (- m) (fun i => RtoC (sgn (l + s)) * f l i)%C) by lia. apply csum_ext. intros i Hi. apply ms_of_In in Hi.
  rewrite <- (qmul_1_r qi), D_qi_l, C25_wigner_one, sgn_add, RtoC_mul by lia.
  destruct (Z.eqb_spec i (- m)), (Z.eqb_spec (- i) m); try lia; ring.
Qed.

(** ** Whole waveforms *)
Definition good (P : pwave) : Prop := wf (pw_wave P) /\ (1 <= rw_hi (pw_wave P))%Z /\ pw_spin P <> None.
Definition sw (P : pwave) : Z := match pw_spin P with Some s => s | None => 0%Z end.
Lemma good_wave : forall P, good P -> wave_ok (modes_of P) /\ spin (modes_of P) = sw P.
Proof.
  intros [[s|] [lo hi rows fr ty]] ([Hlo HF] & Hh & Hs); [|cbn in Hs; congruence]. cbn in *. split; [|reflexivity].
  assert (LL : Z.of_nat (length (LM_range lo hi)) = ((hi + 1) ^ 2 - lo ^ 2)%Z) by (apply LM_range_length; lia).
  unfold wave_ok, n_modes. cbn. split; [lia|]. split; [nia|]. split; [eauto|]. eapply Forall_impl; [|exact HF]. cbn. intros r Hr. lia.
Qed.
Lemma Forall2_nth_rows : forall (Q : list C -> list C -> Prop) a b, Forall2 Q a b -> length b = length a /\
  forall t, (t < length a)%nat -> Q (nth t a []) (nth t b []).
Proof.
  induction 1 as [|x y a b H HF [L IH]]; cbn [length]; [split; auto; intros; lia|]. split; [congruence|].
  intros [|t] Ht; cbn [nth]; auto. apply IH. lia.
Qed.
Definition image (v : (Z -> Z -> C) -> Z -> Z -> C) (P P' : pwave) : Prop :=
  pw_spin P' = pw_spin P /\ rw_lo (pw_wave P') = rw_lo (pw_wave P) /\ rw_hi (pw_wave P') = rw_hi (pw_wave P) /\
  rw_type (pw_wave P') = rw_type (pw_wave P) /\ length (rw_data (pw_wave P')) = length (rw_data (pw_wave P)) /\ wf (pw_wave P') /\
  forall t l m, (t < length (rw_data (pw_wave P)))%nat -> valid (rw_lo (pw_wave P)) (rw_hi (pw_wave P)) l m ->
    md (pw_wave P') t l m = v (md (pw_wave P) t) l m.
Lemma image_of : forall v P w fr, good P -> mode_image v (modes_of P) w -> image v P (with_parts P w fr).
Proof.
  intros v [sp [lo hi rows fr0 ty]] [sp' lo' hi' rows'] fr ([Hlo HF] & _) (_ & E1 & E2 & F). cbn in *. subst lo' hi'.
  destruct (Forall2_nth_rows _ _ _ F) as [L N].
  split; [reflexivity|]. split; [reflexivity|]. split; [reflexivity|]. split; [reflexivity|]. cbn. split; [exact L|]. split.
  - split; [exact Hlo|]. cbn. rewrite Forall_forall in *. intros r Hr. destruct (In_nth _ _ [] Hr) as (t & Ht & <-). rewrite L in Ht.
    rewrite (proj1 (N t Ht)). apply HF, nth_In, Ht.
  - intros t l m Ht V. unfold md. cbn. apply (proj2 (N t Ht)). exact V.
Qed.
Definition junk_fits (P : pwave) (junk : nat -> list C) : Prop := junk_ok (modes_of P) junk.
(** What the operations return *)
Theorem C84_returned : forall k junk P, good P -> junk_fits P junk ->
  exists c s a, conjugate k junk P = Ok c /\ symmetric_part k junk P = Ok s /\ antisymmetric_part k junk P = Ok a /\
    image (parity_value k (sw P)) P c /\ image (sym_value k (sw P)) P s /\ image (anti_value k (sw P)) P a /\
    rw_frame (pw_wave c) = on_frame (fconj k) (rw_frame (pw_wave P)) /\
    rw_frame (pw_wave s) = on_frame (fsym k) (rw_frame (pw_wave P)) /\
    rw_frame (pw_wave a) = on_frame (fanti k) (rw_frame (pw_wave P)).
Proof.
  intros k junk P G J. destruct (good_wave P G) as [OK SP].
  destruct (parity_conj_image k junk (modes_of P) OK J) as (c & E & I & _).
  destruct (parts_image k junk (modes_of P) OK J) as (s & a & Es & Ea & Is & Ia). rewrite SP in *.
  unfold conjugate, symmetric_part, antisymmetric_part. rewrite E, Es, Ea. cbn [rbind]. do 3 eexists.
  repeat (split; [reflexivity|]). split; [apply image_of; auto|]. split; [apply image_of; auto|]. split; [apply image_of; auto|].
  repeat split.
Qed.
Lemma conjugate_ok : forall k junk P, good P -> junk_fits P junk -> exists c, conjugate k junk P = Ok c /\ image (parity_value k (sw P)) P c /\
  rw_frame (pw_wave c) = on_frame (fconj k) (rw_frame (pw_wave P)).
Proof. intros k junk P G J. destruct (C84_returned k junk P G J) as (c & s & a & E & _ & _ & I & _ & _ & F & _). eauto. Qed.
Lemma image_good : forall v P P', good P -> image v P P' -> good P' /\ sw P' = sw P.
Proof.
  intros v P P' (W & H & S) (E1 & E2 & E3 & E4 & E5 & W' & _). unfold good, sw. rewrite E1, E3. auto.
Qed.

(** The rotors, frames, ... of the mirror image *)
Definition on_rotors (f : quat -> quat) (r : rotors) : rotors :=
  match r with RQuat q => RQuat (f q) | RList l => RList (map f l) | RArr1 l => RArr1 (map f l) | RArr2 l => RArr2 (map (map f) l) | ROther => ROther end.
Lemma fconj_mul : forall k p q, fconj k (qmul p q) = qmul (fconj k p) (fconj k q).
Proof. intros k [] []. destruct k; qx. Qed.
Lemma fconj_conj : forall k q, fconj k (qconj q) = qconj (fconj k q).
Proof. intros k []. destruct k; qx. Qed.
Lemma fconj_one : forall k, fconj k q1 = q1.
Proof. intros []; qx. Qed.

Section Rotations.
Variable garbage : Z -> list C.
Hypothesis garbage_len : forall n, (0 <= n)%Z -> zlen (garbage n) = n.
Notation rotate := (rotate_wave wigner_doc garbage).
Notation inertial_of := (inertial_wave wigner_doc garbage).

Definition result_eq (k : parity_kind) (junk : nat -> list C) (a : res rwave) (sp : option Z) (b : res rwave) : Prop :=
  match a, b with
  | Ok A, Ok B => conjugate k junk (mkpw sp A) = Ok (mkpw sp B)
  | Err x, Err y => x = y
  | _, _ => False
  end.
(** A waveform with the mirrored data and frame is the mirror image. *)
Lemma conjugate_is : forall k junk P B, good P -> junk_fits P junk -> wf B -> rw_lo B = rw_lo (pw_wave P) -> rw_hi B = rw_hi (pw_wave P) ->
  rw_type B = rw_type (pw_wave P) -> length (rw_data B) = length (rw_data (pw_wave P)) -> rw_frame B = on_frame (fconj k) (rw_frame (pw_wave P)) ->
  (forall t l m, (t < length (rw_data (pw_wave P)))%nat -> valid (rw_lo (pw_wave P)) (rw_hi (pw_wave P)) l m ->
     md B t l m = parity_value k (sw P) (md (pw_wave P) t) l m) ->
  conjugate k junk P = Ok (mkpw (pw_spin P) B).
Proof.
  intros k junk P B G J WB E1 E2 E3 E4 E5 H. destruct (conjugate_ok k junk P G J) as (c & E & (I1 & I2 & I3 & I4 & I5 & I6 & I7) & F).
  rewrite E. f_equal. destruct c as [sp c]. cbn in *. subst sp. f_equal. apply wave_eq; auto; try congruence.
  intros t l m Ht V. rewrite I5 in Ht. rewrite I2, I3 in V. rewrite I7, H; auto.
Qed.
Lemma parity_turn : forall k s q A B t t' l m, (0 <= l)%Z -> (- l <= m <= l)%Z ->
  (forall i, (- l <= i <= l)%Z -> md B t l i = parity_value k s (md A t') l i) ->
  turn wigner_D (fconj k q) (md B t) l m = parity_value k s (turn wigner_D q (md A t')) l m.
Proof. intros k s q A B t t' l m Hl Hm H. rewrite C84_turn by auto. apply turn_ext. exact H. Qed.
Lemma parity_ext : forall k s f g l m, (forall i, (- l <= i <= l)%Z -> f l i = g l i) -> (- l <= m <= l)%Z -> parity_value k s f l m = parity_value k s g l m.
Proof. intros k s f g l m H Hm. destruct k; cbn [parity_value]; rewrite H; auto; lia. Qed.

Lemma constant_mirror : forall k j1 j2 P c q, good P -> junk_fits P j1 -> junk_fits P j2 -> conjugate k j1 P = Ok c ->
  result_eq k j2 (rotate_constant wigner_doc garbage (pw_wave P) q) (pw_spin P) (rotate_constant wigner_doc garbage (pw_wave c) (fconj k q)).
Proof.
  intros k j1 j2 P c q G J1 J2 E. destruct (conjugate_ok k j1 P G J1) as (c' & E' & I & F). rewrite E in E'. injection E' as <-.
  destruct (image_good _ _ _ G I) as [Gc Sc]. destruct I as (I1 & I2 & I3 & I4 & I5 & I6 & I7).
  destruct (C25_constant wigner_D wigner_doc garbage doc_fills garbage_len (pw_wave P) q _ (proj1 G) (or_introl eq_refl)) as (A & EA & WA & (A1 & A2 & A3 & A4 & A5) & FA).
  destruct (C25_constant wigner_D wigner_doc garbage doc_fills garbage_len (pw_wave c) (fconj k q) _ I6 (or_introl eq_refl)) as (B & EB & WB & (B1 & B2 & B3 & B4 & B5) & FB).
  cbn [rotate_basis] in EA, EB. rewrite EA, EB. unfold result_eq.
  assert (GA : good (mkpw (pw_spin P) A)) by (destruct G as (g1 & g2 & g3); split; [exact WA|]; cbn; rewrite A2; auto).
  change (pw_spin P) with (pw_spin (mkpw (pw_spin P) A)) at 2. apply conjugate_is; auto; cbn [pw_wave pw_spin]; try congruence.
  - unfold junk_fits, junk_ok, modes_of in *. cbn in *. rewrite A1, A2. exact J2.
  - rewrite FB, F, FA. destruct (rw_frame (pw_wave P)) as [[|x fr]|fr]; cbn [on_frame map]; auto.
    + rewrite fconj_mul, !map_map. f_equal. f_equal. apply map_ext. intros; symmetry; apply fconj_mul.
    + f_equal. rewrite !map_map. apply map_ext. intros r. rewrite !map_map. apply map_ext. intros; symmetry; apply fconj_mul.
  - intros t l m Ht V. rewrite A3 in Ht. rewrite A1, A2 in V. unfold sw. cbn [pw_spin]. fold (sw P).
    assert (Hl : (0 <= l)%Z) by (destruct G as ([g _] & _); destruct V; lia). assert (Hm : (- l <= m <= l)%Z) by (destruct V; lia).
    rewrite B5 by (rewrite ?I5, ?I2, ?I3; auto).
    rewrite (parity_turn k (sw P) q (pw_wave P) (pw_wave c) t t) by (auto; intros i Hi; apply I7; auto; destruct V; split; lia).
    apply parity_ext; auto. intros i Hi. symmetry. apply A5; auto. destruct V; split; lia.
Qed.
(** The frame left by a series of rotors (the code of rotate_series) *)
Definition series_frame (fr : frame_t) (Rs : list quat) : res frame_t :=
  match fr with
  | F1 [] => Ok (F1 Rs)
  | F1 [f] => Ok (F2 (map (fun r => [qmul f r]) Rs))
  | F1 f => let? f' := frame_times f Rs in Ok (F1 f')
  | F2 f => Ok (F2 (map (fun row => match row with [x] => map (qmul x) Rs | _ => map (fun p => qmul (fst p) (snd p)) (combine row Rs) end) f))
  end.
Lemma combine_mirror : forall k f Rs, map (fun p => qmul (fst p) (snd p)) (combine (map (fconj k) f) (map (fconj k) Rs)) =
  map (fconj k) (map (fun p => qmul (fst p) (snd p)) (combine f Rs)).
Proof. intros k. induction f as [|a f IH]; intros [|b Rs]; cbn; auto. rewrite IH, fconj_mul. reflexivity. Qed.
Lemma series_frame_mirror : forall k fr Rs, series_frame (on_frame (fconj k) fr) (map (fconj k) Rs) = let? x := series_frame fr Rs in Ok (on_frame (fconj k) x).
Proof.
  intros k [[|a [|b f]]|f] Rs; cbn [on_frame map series_frame rbind]; auto.
  - f_equal. f_equal. rewrite !map_map. apply map_ext. intros q. cbn. rewrite fconj_mul. reflexivity.
  - unfold frame_times. cbn [length]. rewrite !map_length. destruct (Nat.eqb _ _); cbn [rbind on_frame]; auto. f_equal. f_equal.
    apply (combine_mirror k (a :: b :: f) Rs).
  - f_equal. f_equal. rewrite !map_map. apply map_ext. intros [|x [|y row]]; cbn [map].
    + destruct Rs; reflexivity.
    + rewrite !map_map. apply map_ext. intros q. symmetry. apply fconj_mul.
    + apply (combine_mirror k (x :: y :: row) Rs).
Qed.
Lemma series_mirror : forall k j1 j2 P c Rs, good P -> junk_fits P j1 -> junk_fits P j2 -> conjugate k j1 P = Ok c ->
  result_eq k j2 (rotate_series wigner_doc (pw_wave P) Rs) (pw_spin P) (rotate_series wigner_doc (pw_wave c) (map (fconj k) Rs)).
Proof.
  intros k j1 j2 P c Rs G J1 J2 E. destruct (conjugate_ok k j1 P G J1) as (c' & E' & I & F). rewrite E in E'. injection E' as <-.
  destruct I as (I1 & I2 & I3 & I4 & I5 & I6 & I7). unfold rotate_series. rewrite map_length, I5.
  destruct (Nat.eqb_spec (length (rw_data (pw_wave P))) (length Rs)) as [EL|]; cbn [negb]; [|reflexivity].
  destruct (by_series_ok wigner_D wigner_doc doc_fills (rw_lo (pw_wave P)) (rw_hi (pw_wave P)) (rw_data (pw_wave P)) Rs (proj1 (proj1 G)) EL (proj2 (proj1 G)))
    as (dA & EA & RA).
  destruct (by_series_ok wigner_D wigner_doc doc_fills (rw_lo (pw_wave c)) (rw_hi (pw_wave c)) (rw_data (pw_wave c)) (map (fconj k) Rs) (proj1 I6)
    ltac:(rewrite map_length; congruence) (proj2 I6)) as (dB & EB & RB).
  rewrite EA, EB. cbn [rbind].
  destruct (series_rel_nth _ _ _ _ _ _ RA) as (LA & _ & FA & NA). destruct (series_rel_nth _ _ _ _ _ _ RB) as (LB & _ & FB & NB).
  pose proof (series_frame_mirror k (rw_frame (pw_wave P)) Rs) as SF. rewrite <- F in SF. unfold series_frame in SF. rewrite SF. clear SF.
  match goal with |- result_eq _ _ (rbind ?x _) _ _ => destruct x as [fr|e] end; cbn [rbind result_eq]; [|reflexivity].
  set (A := mkrw _ _ dA fr _). assert (GA : good (mkpw (pw_spin P) A)).
  { destruct G as ((g1 & g1') & g2 & g3). split; [|split; auto]. split; [exact g1|exact FA]. }
  change (pw_spin P) with (pw_spin (mkpw (pw_spin P) A)) at 2. apply conjugate_is; auto; cbn [pw_wave pw_spin rw_lo rw_hi rw_data rw_frame rw_type A]; try congruence.
  - split; [exact (proj1 I6)|exact FB].
  - intros t l m Ht V. unfold sw. cbn [pw_spin]. fold (sw P). unfold A in *. cbn in Ht, V. rewrite LA in Ht. unfold md. cbn [rw_lo rw_data].
    assert (Hl : (0 <= l)%Z) by (destruct G as ([g _] & _); destruct V; lia). assert (Hm : (- l <= m <= l)%Z) by (destruct V; lia).
    rewrite (proj2 (NB t ltac:(rewrite I5; exact Ht))) by (rewrite I2, I3; exact V).
    replace (nth t (map (fconj k) Rs) q1) with (fconj k (nth t Rs q1)) by (rewrite <- (fconj_one k) at 2; symmetry; apply map_nth).
    etransitivity; [apply (parity_turn k (sw P) (nth t Rs q1) (pw_wave P) (pw_wave c) t t); auto; intros i Hi; apply I7; auto; destruct V; split; lia|].
    apply parity_ext; auto. intros i Hi. symmetry. apply (proj2 (NA t Ht)). destruct V; split; lia.
Qed.
(** Rotating and then mirroring is mirroring and then rotating by the mirrored rotors, for every kind of argument and every frame: the same
    modes, the same frame, the same error. *)
Theorem C84_rotate : forall k j1 j2 P r, good P -> junk_fits P j1 -> junk_fits P j2 ->
  rbind (rotate P r) (conjugate k j2) = rbind (conjugate k j1 P) (fun c => rotate c (on_rotors (fconj k) r)).
Proof.
  intros k j1 j2 P r G J1 J2. destruct (conjugate_ok k j1 P G J1) as (c & E & I & F). rewrite E. cbn [rbind]. unfold rotate_wave.
  assert (K : forall a b, result_eq k j2 a (pw_spin P) b ->
    rbind (rbind a (fun W => Ok (mkpw (pw_spin P) W))) (conjugate k j2) = rbind b (fun W => Ok (mkpw (pw_spin c) W))).
  { intros [A|e] [B|e'] H; cbn [rbind result_eq] in *; try contradiction; [|congruence]. rewrite H. destruct I as (-> & _). reflexivity. }
  assert (Q : forall q, rotate_basis wigner_doc garbage (pw_wave P) (RQuat q) = rotate_constant wigner_doc garbage (pw_wave P) q) by reflexivity.
  apply K. destruct r as [q|[|a [|b l]]|[|a [|b l]]|[|a [|b l]]|]; cbn [on_rotors map rotate_basis];
    try (eapply (constant_mirror k j1 j2 P c); eassumption); try (eapply (series_mirror k j1 j2 P c (_ :: _ :: _)); eassumption); try (eapply (series_mirror k j1 j2 P c []); eassumption);
    try (eapply (series_mirror k j1 j2 P c a); eassumption); try reflexivity.
  unfold result_eq. destruct P as [sp W]. cbn [pw_spin pw_wave] in *.
  destruct (conjugate_ok k j2 (mkpw sp W) G J2) as (c2 & E2 & I2 & F2). rewrite E2. f_equal.
  destruct I as (i1 & i2 & i3 & i4 & i5 & i6 & i7). destruct I2 as (p1 & p2 & p3 & p4 & p5 & p6 & p7). destruct c as [s1 c], c2 as [s2 c2]. cbn in *. subst.
  f_equal. apply wave_eq; auto; try congruence. intros t l m Ht V. rewrite p5 in Ht. rewrite p2, p3 in V. rewrite i7, p7; auto.
Qed.
Lemma conj_rotors_mirror : forall k r, conj_rotors (on_rotors (fconj k) r) = let? x := conj_rotors r in Ok (on_rotors (fconj k) x).
Proof.
  intros k r. destruct r; cbn [on_rotors conj_rotors rbind]; auto; f_equal; f_equal; rewrite ?map_map.
  - symmetry. apply fconj_conj.
  - apply map_ext. intros; symmetry; apply fconj_conj.
  - apply map_ext. intros a. rewrite !map_map. apply map_ext. intros; symmetry; apply fconj_conj.
Qed.
(** In particular the mirror image of the inertial waveform is the inertial waveform of the mirror image. *)
Theorem C84_inertial : forall k j1 j2 P, good P -> junk_fits P j1 -> junk_fits P j2 ->
  rbind (inertial_of P) (conjugate k j2) = rbind (conjugate k j1 P) inertial_of.
Proof.
  intros k j1 j2 P G J1 J2. destruct (conjugate_ok k j1 P G J1) as (c & E & I & F). unfold inertial_wave, to_inertial.
  destruct (conj_rotors (frame_rotors (rw_frame (pw_wave P)))) as [r|e] eqn:Er.
  2:{ destruct (rw_frame (pw_wave P)); discriminate Er. }
  pose proof (C84_rotate k j1 j2 P r G J1 J2) as H. rewrite E in *. cbn [rbind] in *. unfold rotate_wave in H.
  assert (Ec : conj_rotors (frame_rotors (rw_frame (pw_wave c))) = Ok (on_rotors (fconj k) r)).
  { rewrite F. replace (frame_rotors (on_frame (fconj k) (rw_frame (pw_wave P)))) with (on_rotors (fconj k) (frame_rotors (rw_frame (pw_wave P))))
      by (destruct (rw_frame (pw_wave P)); reflexivity). rewrite conj_rotors_mirror, Er. reflexivity. }
  rewrite Ec. cbn [rbind]. destruct (rotate_basis wigner_doc garbage (pw_wave P) r) as [A|e]; cbn [rbind] in *.
  - destruct (rotate_basis wigner_doc garbage (pw_wave c) (on_rotors (fconj k) r)) as [B|e]; cbn [rbind] in *.
    + unfold conjugate, modes_of in *. cbn [pw_spin pw_wave rw_lo rw_hi rw_data rw_frame rw_type] in *.
      destruct (parity_conj k j2 _) as [w|]; cbn [rbind] in *; [|discriminate]. unfold with_parts in *. cbn in *. injection H as H1 H2. rewrite <- H2, H1. reflexivity.
    + unfold conjugate, modes_of in *. cbn [pw_spin pw_wave rw_lo rw_hi rw_data rw_frame rw_type] in *.
      destruct (parity_conj k j2 _) as [w|]; cbn [rbind] in *; [discriminate|exact H].
  - destruct (rotate_basis wigner_doc garbage (pw_wave c) (on_rotors (fconj k) r)) as [B|e']; cbn [rbind] in *; [discriminate|exact H].
Qed.

(** ** Violations and rotations *)
Lemma violation_is : forall k junk P, violation k junk P = violation_normalized k junk (modes_of P).
Proof.
  intros k junk P. unfold violation, antisymmetric_part, violation_normalized. destruct (parity_anti k junk (modes_of P)); reflexivity.
Qed.
(** The rotation by q carries the mirror (plane or point) into itself. *)
Definition keeps_mirror (k : parity_kind) (q : quat) : Prop := fconj k q = q \/ fconj k q = qopp q.
Lemma turn_opp : forall q f l m, (0 <= l)%Z -> (- l <= m <= l)%Z -> turn wigner_D (qopp q) f l m = turn wigner_D q f l m.
Proof. intros q f l m Hl Hm. apply csum_ext. intros i Hi. apply ms_of_In in Hi. rewrite D_opp by lia. reflexivity. Qed.
Lemma keeps_turn : forall k s q f l m, (0 <= l)%Z -> (- l <= m <= l)%Z -> keeps_mirror k q ->
  parity_value k s (turn wigner_D q f) l m = turn wigner_D q (parity_value k s f) l m.
Proof. intros k s q f l m Hl Hm [E|E]; rewrite C84_turn, E by auto; [reflexivity|]. apply turn_opp; auto. Qed.
Lemma anti_turn : forall k s q f l m, (0 <= l)%Z -> (- l <= m <= l)%Z -> keeps_mirror k q ->
  anti_value k s (turn wigner_D q f) l m = turn wigner_D q (anti_value k s f) l m.
Proof.
  intros k s q f l m Hl Hm K. unfold anti_value at 1. rewrite keeps_turn by auto. unfold turn, anti_value. rewrite Cscale_mul.
  transitivity (RtoC (/ 2) * csum (fun i => f l i * wigner_D q l i m - parity_value k s f l i * wigner_D q l i m) (ms_of l))%C.
  - f_equal. generalize (ms_of l). intros ms. induction ms as [|i ms IH]; cbn [csum]; [ring|]. rewrite <- IH. ring.
  - rewrite <- csum_scale. apply csum_ext. intros i _. rewrite Cscale_mul. ring.
Qed.
Lemma wave_norm : forall W t, wf W -> (t < length (rw_data W))%nat ->
  row_norm (nth t (rw_data W) []) = rsum (fun l => rsum (fun m => norm2 (md W t l m)) (ms_of l)) (zrange (rw_lo W) (rw_hi W + 1)).
Proof.
  intros W t [Hlo HF] Ht. apply row_norm_modes; [lia|]. unfold md. apply (has_modes_mode (rw_lo W) (rw_hi W)); [lia|].
  rewrite Forall_forall in HF. specialize (HF _ (nth_In _ [] Ht)). pose proof (LM_range_length (rw_lo W) (rw_hi W) ltac:(lia) ltac:(lia)). lia.
Qed.
Lemma turned_norm : forall W W' qs t, wf W -> wf W' -> turned_by wigner_D W W' qs -> (t < length (rw_data W))%nat -> unitq (qs t) ->
  row_norm (nth t (rw_data W') []) = row_norm (nth t (rw_data W) []).
Proof.
  intros W W' qs t HW HW' (E1 & E2 & E3 & _ & H) Ht U. rewrite !wave_norm by (auto; lia). rewrite E1, E2. apply rsum_ext. intros l Hl. apply zrange_In in Hl.
  destruct HW as [Hlo _]. rewrite <- (turn_norm wigner_D doc_mul C25_wigner_one doc_adjoint (qs t) (md W t) l U) by lia.
  apply rsum_ext. intros m Hm. apply ms_of_In in Hm. rewrite H; auto. split; lia.
Qed.
Lemma norms_nth : forall w t, (t < length (w_rows w))%nat -> nth t (norm_of w) 0 = row_norm (nth t (w_rows w) []).
Proof. intros w t Ht. unfold norm_of. rewrite (nth_indep _ 0 (row_norm [])) by (rewrite map_length; auto). apply map_nth. Qed.
Lemma violation_turned : forall k j1 j2 P P' qs, good P -> junk_fits P j1 -> junk_fits P' j2 -> pw_spin P' = pw_spin P -> wf (pw_wave P') ->
  turned_by wigner_D (pw_wave P) (pw_wave P') qs ->
  (forall t, (t < length (rw_data (pw_wave P)))%nat -> unitq (qs t) /\ keeps_mirror k (qs t)) ->
  violation k j2 P' = violation k j1 P.
Proof.
  intros k j1 j2 P P' qs G J1 J2 ES WP' T K.
  assert (G' : good P') by (destruct G as (g1 & g2 & g3); destruct T as (T1 & T2 & _); split; [exact WP'|]; rewrite T2, ES; auto).
  destruct (C84_returned k j1 P G J1) as (c & s & a & _ & _ & Ea & _ & _ & Ia & _ & _ & _).
  destruct (C84_returned k j2 P' G' J2) as (c' & s' & a' & _ & _ & Ea' & _ & _ & Ia' & _ & _ & _).
  unfold violation. rewrite Ea, Ea'. cbn [rbind]. f_equal.
  destruct Ia as (_ & a2 & a3 & a4 & a5 & a6 & a7). destruct Ia' as (_ & b2 & b3 & b4 & b5 & b6 & b7).
  pose proof T as (T1 & T2 & T3 & T4 & T5).
  assert (TA : turned_by wigner_D (pw_wave a) (pw_wave a') qs).
  { split; [congruence|]. split; [congruence|]. split; [congruence|]. split; [congruence|]. intros t l m Ht V. rewrite a5 in Ht. rewrite a2, a3 in V.
    assert (Hl : (0 <= l)%Z) by (destruct G as ([g _] & _); destruct V; lia). assert (Hm : (- l <= m <= l)%Z) by (destruct V; lia).
    rewrite b7 by (rewrite ?T1, ?T2, ?T3; auto). replace (sw P') with (sw P) by (unfold sw; rewrite ES; reflexivity).
    transitivity (anti_value k (sw P) (turn wigner_D (qs t) (md (pw_wave P) t)) l m).
    - unfold anti_value. f_equal. f_equal; [apply T5; auto|]. apply parity_ext; auto. intros i Hi. apply T5; auto. destruct V; split; lia.
    - rewrite anti_turn by (auto; apply K; auto). apply turn_ext. intros i Hi. symmetry. apply a7; auto. destruct V; split; lia. }
  assert (NA : norm_of (modes_of a') = norm_of (modes_of a)).
  { assert (L : length (rw_data (pw_wave a')) = length (rw_data (pw_wave a))) by congruence.
    apply nth_ext with (d := 0) (d' := 0); [unfold norm_of; rewrite !map_length; exact L|]. intros t Ht. unfold norm_of in Ht. rewrite map_length in Ht. cbn in Ht.
    rewrite !norms_nth by (cbn; congruence). cbn [modes_of w_rows]. apply (turned_norm _ _ qs); auto; [congruence|]. apply K. congruence. }
  assert (NP : norm_of (modes_of P') = norm_of (modes_of P)).
  { apply nth_ext with (d := 0) (d' := 0); [unfold norm_of; rewrite !map_length; exact T3|]. intros t Ht. unfold norm_of in Ht. rewrite map_length in Ht. cbn in Ht.
    rewrite !norms_nth by (cbn; congruence). cbn [modes_of w_rows]. apply (turned_norm _ _ qs); auto; [exact (proj1 G)|congruence|]. apply K. congruence. }
  rewrite NA, NP. reflexivity.
Qed.
(** Rotations that keep the mirror leave the violation alone: all of them for the full parity, those about the axis and the half turns across it
    for the others. *)
Theorem C84_violation : forall k j1 j2 P r P', good P -> junk_fits P j1 -> junk_fits P' j2 ->
  (exists q, r = RQuat q /\ unitq q /\ keeps_mirror k q) \/
  (exists Rs, r = RArr1 Rs /\ length Rs = length (rw_data (pw_wave P)) /\ Forall (fun q => unitq q /\ keeps_mirror k q) Rs) ->
  rotate P r = Ok P' -> violation k j2 P' = violation k j1 P.
Proof.
  intros k j1 j2 P r P' G J1 J2 [(q & -> & U & K)|(Rs & -> & L & FR)] E; unfold rotate_wave in E.
  - destruct (C25_constant wigner_D wigner_doc garbage doc_fills garbage_len (pw_wave P) q _ (proj1 G) (or_introl eq_refl)) as (A & EA & WA & TA & _).
    rewrite EA in E. cbn [rbind] in E. injection E as <-. eapply (violation_turned k j1 j2 P _ (fun _ => q)); eauto.
  - rewrite Forall_forall in FR. destruct Rs as [|a [|b Rs]].
    + unfold rotate_basis in E. assert (N : rw_data (pw_wave P) = []) by (destruct (rw_data (pw_wave P)); [reflexivity|discriminate]).
      unfold rotate_series in E. rewrite N in E. cbn [length Nat.eqb negb by_series rbind] in E.
      destruct (match rw_frame (pw_wave P) with F1 [] => _ | _ => _ end) as [fr|] in E; cbn [rbind] in E; [|discriminate]. injection E as <-.
      eapply (violation_turned k j1 j2 P _ (fun _ => q1)); eauto; cbn [pw_wave pw_spin]; auto.
      * split; [exact (proj1 (proj1 G))|constructor].
      * unfold turned_by. cbn. rewrite N. repeat (split; [reflexivity|]). cbn. intros; lia.
      * rewrite N. cbn. intros; lia.
    + destruct (C25_constant wigner_D wigner_doc garbage doc_fills garbage_len (pw_wave P) a (RArr1 [a]) (proj1 G) ltac:(auto)) as (A & EA & WA & TA & _).
      rewrite EA in E. cbn [rbind] in E. injection E as <-. eapply (violation_turned k j1 j2 P _ (fun _ => a)); eauto. intros; apply FR; left; auto.
    + set (l := a :: b :: Rs) in *. unfold rotate_basis in E. change (rbind (rotate_series wigner_doc (pw_wave P) l) (fun W => Ok (mkpw (pw_spin P) W)) = Ok P') in E.
      unfold rotate_series in E. rewrite L, Nat.eqb_refl in E. cbn [negb] in E.
      destruct (by_series_ok wigner_D wigner_doc doc_fills (rw_lo (pw_wave P)) (rw_hi (pw_wave P)) (rw_data (pw_wave P)) l (proj1 (proj1 G)) (eq_sym L) (proj2 (proj1 G)))
        as (dA & EA & RA). rewrite EA in E. cbn [rbind] in E.
      destruct (match rw_frame (pw_wave P) with F1 [] => _ | _ => _ end) as [fr|] in E; cbn [rbind] in E; [|discriminate]. injection E as <-.
      destruct (series_rel_nth _ _ _ _ _ _ RA) as (LA & _ & FA & NA).
      eapply (violation_turned k j1 j2 P _ (fun t => nth t l q1)); eauto; cbn [pw_wave pw_spin]; auto.
      * split; [exact (proj1 (proj1 G))|exact FA].
      * unfold turned_by. cbn [rw_lo rw_hi rw_data rw_type]. repeat (split; [auto; fail|]). intros t i m Ht V. unfold md. cbn [rw_lo rw_data]. apply (proj2 (NA t Ht)). exact V.
      * intros t Ht. apply FR, nth_In. lia.
Qed.
Theorem C84_keeps : forall k q, keeps_mirror k q <->
  match k with
  | PX => (qy q = 0 /\ qz q = 0) \/ (qw q = 0 /\ qx q = 0)
  | PY => (qx q = 0 /\ qz q = 0) \/ (qw q = 0 /\ qy q = 0)
  | PZ => (qx q = 0 /\ qy q = 0) \/ (qw q = 0 /\ qz q = 0)
  | PAll => True
  end.
Proof.
  intros k [w x y z]. unfold keeps_mirror, qopp. destruct k; cbn; split; try tauto;
    (intros [H|H]; [injection H; intros; left; split; lra|injection H; intros; right; split; lra]) ||
    (intros [[-> ->]|[-> ->]]; [left|right]; f_equal; ring).
Qed.
(** Other rotations do not: turned by half a turn about the diagonal of the x and y axes, a waveform symmetric along x
    is antisymmetric along x. *)
Definition w_turned : pwave := mkpw (Some 0%Z) (mkrw 1 1 [[Ci; C0; Ci]] (F1 []) InertialFrame).
Definition q_diagonal : quat := mkq 0 (sqrt (/ 2)) (sqrt (/ 2)) 0.
Lemma good_w_turned : good w_turned.
Proof. split; [|split; [cbn; lia|discriminate]]. split; [cbn; lia|]. repeat constructor. Qed.
Lemma q_diagonal_unit : unitq q_diagonal.
Proof. unfold unitq, qnorm2, q_diagonal. cbn [qw qx qy qz]. rewrite sqrt_sqrt by lra. lra. Qed.
Lemma D_diagonal : wigner_D q_diagonal 1 (-1) 1 = Ci /\ wigner_D q_diagonal 1 1 (-1) = (- Ci)%C /\
  wigner_D q_diagonal 1 1 1 = C0 /\ wigner_D q_diagonal 1 (-1) (-1) = C0 /\ wigner_D q_diagonal 1 1 0 = C0 /\ wigner_D q_diagonal 1 (-1) 0 = C0.
Proof.
  assert (R2 : sqrt (/ 2) * sqrt (/ 2) = / 2) by (apply sqrt_sqrt; lra).
  assert (W : wnorm 2 2 / wnorm 2 0 = 1 /\ wnorm 2 0 / wnorm 2 2 = 1).
  { assert (E : wnorm 2 0 = wnorm 2 2) by (unfold wnorm; cbn; f_equal; ring). pose proof (wnorm_pos 2 2). rewrite E. split; field; lra. }
  destruct W as [W1 W2].
  rewrite !D_entry by lia. change (Z.to_nat (2 * 1)) with 2%nat. change (Z.to_nat (1 + -1)) with 0%nat. change (Z.to_nat (1 + 1)) with 2%nat. change (Z.to_nat (1 + 0)) with 1%nat.
  rewrite W1, W2. unfold part_a, part_b, q_diagonal. cbn [qw qx qy qz]. unfold wc, wrow, ppow. cbn [Nat.sub pmul ppow padd map nth].
  set (h := sqrt (/ 2)) in *. repeat split; apply C_eq; cbn; try ring; ring_simplify; rewrite ?Rpow_mult_distr; cbn [pow]; try nra; lra.
Qed.
Theorem C84_violation_refuted : exists P q, good P /\ unitq q /\ forall j1 j2, junk_fits P j1 -> junk_fits P j2 ->
  exists P', rotate P (RQuat q) = Ok P' /\ violation PX j1 P = Ok [0] /\ violation PX j2 P' = Ok [1].
Proof.
  exists w_turned, q_diagonal. split; [exact good_w_turned|]. split; [exact q_diagonal_unit|]. intros j1 j2 J1 J2.
  destruct (C25_constant wigner_D wigner_doc garbage doc_fills garbage_len (pw_wave w_turned) q_diagonal _ (proj1 good_w_turned) (or_introl eq_refl))
    as (A & EA & WA & (A1 & A2 & A3 & A4 & A5) & _).
  exists (mkpw (Some 0%Z) A). unfold rotate_wave. rewrite EA. split; [reflexivity|]. cbn [w_turned pw_wave rw_lo rw_hi rw_data length] in *.
  assert (GA : good (mkpw (Some 0%Z) A)) by (split; [exact WA|]; cbn; rewrite A2; split; [lia|discriminate]).
  assert (J2' : junk_fits (mkpw (Some 0%Z) A) j2) by (unfold junk_fits, junk_ok in *; cbn in *; rewrite A1, A2; exact J2).
  rewrite !violation_is. destruct D_diagonal as (D1 & D2 & D3 & D4 & D5 & D6).
  assert (M : forall m, (-1 <= m <= 1)%Z -> md A 0 1 m = if (m =? 1)%Z then (- C1)%C else if (m =? -1)%Z then C1 else C0).
  { intros m Hm. rewrite A5 by (auto; split; lia). unfold turn. change (ms_of 1) with [-1; 0; 1]%Z. cbn [csum].
    change (md (mkrw 1 1 [[Ci; C0; Ci]] (F1 []) InertialFrame) 0 1 (-1)) with Ci. change (md (mkrw 1 1 [[Ci; C0; Ci]] (F1 []) InertialFrame) 0 1 0) with C0.
    change (md (mkrw 1 1 [[Ci; C0; Ci]] (F1 []) InertialFrame) 0 1 1) with Ci.
    assert (m = -1 \/ m = 0 \/ m = 1)%Z as [-> | [-> | ->]] by lia; cbn [Z.eqb Pos.eqb]; rewrite ?D1, ?D2, ?D3, ?D4, ?D5, ?D6; cx. }
  split.
  - destruct (C19_violation_normalized PX j1 (modes_of w_turned) (proj1 (good_wave _ good_w_turned)) J1) as (v & E & L & H). rewrite E. f_equal.
    destruct v as [|x [|y v]]; cbn in L; try discriminate. f_equal. specialize (H 0%nat [Ci; C0; Ci] eq_refl).
    destruct H as (_ & H & _); [unfold row_norm, norm2; cbn; lra|]. cbn [nth] in H. apply H. intros l m [V1 V2]. cbn in V1, V2. assert (l = 1%Z) by lia. subst l.
    assert (m = -1 \/ m = 0 \/ m = 1)%Z as [-> | [-> | ->]] by lia; unfold mode; cbn [modes_of w_lo pw_wave w_turned rw_lo parity_value]; to_nat_eval; cbn; cx.
  - destruct (C19_violation_normalized PX j2 (modes_of (mkpw (Some 0%Z) A)) (proj1 (good_wave _ GA)) J2') as (v & E & L & H). rewrite E. f_equal.
    cbn [modes_of w_rows pw_wave] in L, H. rewrite A3 in L. destruct v as [|x [|y v]]; cbn in L; try discriminate. f_equal.
    destruct (rw_data A) as [|row [|]] eqn:ER; try discriminate A3. specialize (H 0%nat row eq_refl).
    assert (RM : forall m, mode 1 row 1 m = md A 0 1 m) by (intros m; unfold md; rewrite A1, ER; reflexivity).
    destruct H as (_ & _ & H).
    + pose proof (wave_norm A 0 WA) as N. rewrite ER, A1, A2 in N. specialize (N ltac:(cbn; lia)). cbn [nth] in N. rewrite N.
      change (zrange 1 (1 + 1)) with [1%Z]. cbn [rsum]. change (ms_of 1) with [-1; 0; 1]%Z. cbn [rsum]. rewrite !M by lia. cbn. unfold norm2. cbn. lra.
    + cbn [nth] in H. apply H. cbn [modes_of w_lo w_hi pw_wave]. rewrite A1, A2. intros l m [V1 V2]. assert (l = 1%Z) by lia. subst l.
      change (spin (mkwave (pw_spin (mkpw (Some 0%Z) A)) 1 1 [row])) with 0%Z. cbn [parity_value]. rewrite !RM, !M by lia.
      assert (m = -1 \/ m = 0 \/ m = 1)%Z as [-> | [-> | ->]] by lia; cbn; cx.
Qed.
End Rotations.

(** ** Odd spin weights *)
(** A field of spin weight -1 whose tensor is its own mirror image along z, and which nevertheless counts as entirely antisymmetric. *)
Definition w_odd : pwave := mkpw (Some (-1)%Z) (mkrw 1 1 [[C0; Ci; C0]] (F1 []) InertialFrame).
Theorem C84_odd_spin_refuted : exists P, good P /\
  (forall q q', unitq q -> unitq q' -> mirrored PZ q q' -> field (-1) 1 (md (pw_wave P) 0) q = Conj (field (-1) 1 (md (pw_wave P) 0) q')) /\
  sw P = (-1)%Z /\ length (rw_data (pw_wave P)) = 1%nat /\
  (forall junk, junk_fits P junk -> violation PZ junk P = Ok [1]) /\
  exists l m, parity_value PZ (-1) (parity_value PX (-1) (md (pw_wave P) 0)) l m <> turn wigner_D qj (md (pw_wave P) 0) l m.
Proof.
  assert (G : good w_odd) by (split; [|split; [cbn; lia|discriminate]]; split; [cbn; lia|]; repeat constructor).
  assert (V : forall m, (-1 <= m <= 1)%Z -> parity_value PZ (-1) (md (pw_wave w_odd) 0) 1 m = (- md (pw_wave w_odd) 0 1 m)%C).
  { intros m Hm. assert (m = -1 \/ m = 0 \/ m = 1)%Z as [-> | [-> | ->]] by lia; unfold md, mode; cbn [w_odd pw_wave rw_lo rw_data parity_value]; to_nat_eval; cbn; cx. }
  exists w_odd. split; [exact G|]. split; [|split; [reflexivity|split; [reflexivity|split]]].
  - intros q q' U U' M. pose proof (C84_reflection PZ (-1) 1 (md (pw_wave w_odd) 0) q q' U U' M) as H.
    assert (E : field (-1) 1 (parity_value PZ (-1) (md (pw_wave w_odd) 0)) q = (- field (-1) 1 (md (pw_wave w_odd) 0) q)%C).
    { rewrite !field_by_l. change (zrange 0 (1 + 1)) with [0; 1]%Z. cbn [csum]. rewrite !(csum_const0 _ (ms_of 0)); [|intros; rewrite swsh_low by (cbn; lia); ring|intros; rewrite swsh_low by (cbn; lia); ring].
      change (ms_of 1) with [-1; 0; 1]%Z. cbn [csum]. rewrite !V by lia. ring. }
    rewrite E in H. cbn [intrinsic] in H. change (sgn (-1)) with (-1) in H.
    apply (f_equal Copp) in H. replace (- - field (-1) 1 (md (pw_wave w_odd) 0) q)%C with (field (-1) 1 (md (pw_wave w_odd) 0) q) in H by ring.
    rewrite H. cx.
  - intros junk J. rewrite violation_is.
    destruct (C19_violation_normalized PZ junk (modes_of w_odd) (proj1 (good_wave _ G)) J) as (v & E & L & H). rewrite E. f_equal.
    destruct v as [|x [|y v]]; cbn in L; try discriminate. f_equal. specialize (H 0%nat [C0; Ci; C0] eq_refl).
    destruct H as (_ & _ & H); [unfold row_norm, norm2; cbn; lra|]. cbn [nth] in H. apply H. intros l m [V1 V2]. cbn in V1, V2. assert (l = 1%Z) by lia. subst l.
    apply (V m). lia.
  - exists 1%Z, 0%Z. rewrite C84_half_turn_y by lia. intros H.
    assert (E : turn wigner_D qj (md (pw_wave w_odd) 0) 1 0 = (- Ci)%C).
    { unfold turn. change (ms_of 1) with [-1; 0; 1]%Z. cbn [csum]. rewrite !D_qj by lia. unfold md, mode. cbn [w_odd pw_wave rw_lo rw_data]. to_nat_eval. cbn. cx. }
    rewrite E in H. apply (f_equal im) in H. cbn in H. lra.
Qed.

(** ** The frames of the parts *)
Theorem C84_part_frames : forall k q, unitq q ->
  qadd (fsym k q) (fanti k q) = q /\ qnorm2 (fsym k q) + qnorm2 (fanti k q) = 1 /\
  (unitq (fsym k q) <-> fconj k q = q) /\ (unitq (fanti k q) <-> fconj k q = qopp q).
Proof.
  intros k [w x y z] U. unfold unitq, qnorm2 in U. cbn in U. unfold unitq, qnorm2.
  destruct k; cbn; (split; [qx|]); (split; [lra|]); split; split; intros H; try reflexivity;
    first [apply quat_eq; cbn; nra | injection H; intros; nra | lra | exfalso; injection H; intros; nra].
Qed.
(** So the parts of a waveform with a frame of rotors never both have a frame of rotors, and the antisymmetric part with respect to all
    axes has the frame zero. *)
Theorem C84_part_frames_refuted : forall k junk P f, good P -> junk_fits P junk -> rw_frame (pw_wave P) = F1 f -> f <> [] -> Forall unitq f ->
  exists s a fs fa, symmetric_part k junk P = Ok s /\ antisymmetric_part k junk P = Ok a /\ rw_frame (pw_wave s) = F1 fs /\ rw_frame (pw_wave a) = F1 fa /\
    ~ (Forall unitq fs /\ Forall unitq fa) /\ (k = PAll -> Forall (fun q => q = q0) fa).
Proof.
  intros k junk P f G J F N U. destruct (C84_returned k junk P G J) as (c & s & a & _ & Es & Ea & _ & _ & _ & _ & Fs & Fa).
  rewrite F in Fs, Fa. cbn [on_frame] in Fs, Fa. exists s, a, (map (fsym k) f), (map (fanti k) f). repeat (split; [assumption|]). split.
  - intros [A B]. destruct f as [|q f]; [congruence|]. inversion A; subst. inversion B; subst. inversion U; subst.
    destruct (C84_part_frames k q H5) as (_ & S & _). unfold unitq in *. lra.
  - intros ->. apply Forall_forall. intros q Hq. apply in_map_iff in Hq. destruct Hq as (p & <- & _). reflexivity.
Qed.

Example C84_case : exists P junk, good P /\ junk_fits P junk /\ sw P = (-2)%Z /\ length (rw_data (pw_wave P)) = 2%nat /\
  exists c, conjugate PZ junk P = Ok c /\ rw_frame (pw_wave c) = F1 [qopp qi; qk] /\ c <> P.
Proof.
  set (P := mkpw (Some (-2)%Z) (mkrw 2 2 [[C1; C0; Ci; C0; RtoC 2]; [C0; Ci; C0; Ci; C0]] (F1 [qi; qk]) CoprecessingFrame)).
  assert (G : good P) by (split; [|split; [cbn; lia|discriminate]]; split; [cbn; lia|]; repeat constructor).
  assert (J : junk_fits P (fun _ => [Ci; Ci; Ci; Ci; Ci])) by (intros i; reflexivity).
  exists P, (fun _ => [Ci; Ci; Ci; Ci; Ci]). split; [exact G|]. split; [exact J|]. split; [reflexivity|]. split; [reflexivity|].
  destruct (conjugate_ok PZ _ P G J) as (c & E & I & F). exists c. split; [exact E|]. rewrite F. split.
  - cbn. f_equal. f_equal; [qx|]. f_equal. qx.
  - intros ->. cbn in F. injection F as H1 _. cbn in H1. lra.
Qed.
