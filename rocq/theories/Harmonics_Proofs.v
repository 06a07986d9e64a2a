(** * Spin-weighted fields: rotation, complex conjugation, the lowest degrees *)
From Coq Require Import Reals ZArith List Bool Lia Lra Permutation.
From Verif Require Import Common Cplx Quat Modes_Model Modal_Model Kwargs_Model Transform_Model Rotate_Model Modes_Proofs Modal_Proofs Rotate_Proofs
  Kwargs_Proofs Wigner_Model Wigner_Proofs Sphere_Model Sphere_Proofs.
Import ListNotations.
Open Scope R_scope.

Lemma csum_flat_map : forall A B (f : B -> C) (g : A -> list B) l, csum f (flat_map g l) = csum (fun a => csum f (g a)) l.
Proof. induction l as [|a l IH]; cbn [flat_map csum]; [reflexivity|rewrite csum_app, IH; reflexivity]. Qed.
(** The sum over all modes, degree by degree *)
Lemma field_by_l : forall s L a q, field s L a q = csum (fun l => csum (fun m => (a l m * swsh s l m q)%C) (ms_of l)) (zrange 0 (L + 1)).
Proof.
  intros s L a q. unfold field, LM_range. rewrite csum_flat_map. apply csum_ext. intros l _. rewrite csum_map. reflexivity.
Qed.
Lemma swsh_in : forall s l m q, (Z.abs s <= l)%Z -> (- l <= m <= l)%Z ->
  swsh s l m q = (RtoC (sgn s * sqrt (IZR (2 * l + 1) / (4 * PI))) * wigner_D q l m (- s))%C.
Proof.
  intros s l m q Hs Hm. unfold swsh. destruct (Z.leb_spec (Z.abs s) l); [|lia]. destruct (Z.leb_spec (Z.abs m) l); [|lia]. cbn [andb]. apply Cscale_mul.
Qed.

(** Turning the modes by q is evaluating the field at the rotated points. *)
Theorem C68_field_rotation : forall s L a q r, (0 <= L)%Z -> field s L (turn wigner_D q a) r = field s L a (qmul q r).
Proof.
  intros s L a q r HL. rewrite !field_by_l. apply csum_ext. intros l Hl. apply zrange_In in Hl.
  destruct (Z.lt_ge_cases l (Z.abs s)) as [LO|HI].
  { rewrite !csum_const0; [reflexivity| |]; intros m _; rewrite swsh_low by lia; ring. }
  transitivity (csum (fun m => csum (fun m' => (a l m' * (wigner_D q l m' m * swsh s l m r))%C) (ms_of l)) (ms_of l)).
  { apply csum_ext. intros m _. unfold turn. rewrite <- csum_scale_r. apply csum_ext. intros; ring. }
  rewrite csum_swap. apply csum_ext. intros m' Hm'. unfold ms_of in Hm'. apply zrange_In in Hm'. rewrite csum_scale. f_equal.
  rewrite swsh_in by lia.
  rewrite <- (C25_wigner_product q r l m' (- s)) by lia. rewrite <- csum_scale. apply csum_ext. intros m Hm. unfold ms_of in Hm. apply zrange_In in Hm.
  rewrite swsh_in by lia. ring.
Qed.

(** ** Complex conjugation *)
Lemma wterm_zero : forall a b n j' j r, ((j' < r) \/ (n < r + j) \/ (r + j < j'))%nat -> wterm a b n j' j r = C0.
Proof.
  intros a b n j' j r H. unfold wterm. destruct (Nat.leb_spec (r + j) n); [|reflexivity]. destruct (Nat.leb_spec j' (r + j)); [|reflexivity]. cbn [andb].
  rewrite bin_zero by lia. cbn [INR]. rewrite Cscale_mul. apply C_eq; cbn; ring.
Qed.
Lemma Conj_Cpow : forall z k, Conj (Cpow z k) = Cpow (Conj z) k.
Proof. intros z k. induction k as [|k IH]; cbn [Cpow]; [apply C_eq; cbn; ring|]. rewrite Conj_mul, IH. reflexivity. Qed.
Lemma wterm_conj : forall a b n j' j r, (j' <= j)%nat -> (r <= j')%nat -> (j <= n)%nat ->
  Conj (wterm a b n j' j r) = Cscale ((-1) ^ (j - j')) (wterm a b n (n - j') (n - j) (r + (j - j'))).
Proof.
  intros a b n j' j r H Hr Hj. unfold wterm.
  destruct (Nat.leb_spec (r + j) n); cycle 1.
  { destruct (Nat.leb_spec (r + (j - j') + (n - j)) n); destruct (Nat.leb_spec (n - j') (r + (j - j') + (n - j))); cbn [andb]; try (apply C_eq; cbn; ring).
    rewrite (bin_zero (n - j') (r + (j - j'))) by lia. cbn [INR]. apply C_eq; cbn; ring. }
  destruct (Nat.leb_spec j' (r + j)); [|lia]. destruct (Nat.leb_spec (r + (j - j') + (n - j)) n); [|lia].
  destruct (Nat.leb_spec (n - j') (r + (j - j') + (n - j))); [|lia]. cbn [andb].
  replace (n - (n - j) - (r + (j - j')))%nat with (j' - r)%nat by lia. replace (n - (n - j'))%nat with j' by lia.
  rewrite (bin_sym j' r) by lia. rewrite <- (bin_sym (n - j') (r + (j - j'))) by lia.
  replace (n - j' - (r + (j - j')))%nat with (n - j - r)%nat by lia. replace (r + (j - j') + (n - j) - (n - j'))%nat with r by lia.
  replace (r + j - j')%nat with (r + (j - j'))%nat by lia.
  rewrite Conj_scale, !Conj_mul, !Conj_Cpow, !Conj_involutive, !Cscale_mul.
  rewrite (pow_add (-1) r (j - j')), !RtoC_mul. pose proof (sign_sq (j - j')) as S. set (sg := (-1) ^ (j - j')) in *.
  assert (SC : (RtoC sg * RtoC sg)%C = C1) by (rewrite <- RtoC_mul, S; reflexivity).
  set (X := (RtoC (INR (bin j' r)) * RtoC (INR (bin (n - j') (n - j - r))) * RtoC ((-1) ^ r) *
    (Cpow (Conj a) (j' - r) * Cpow a (n - j - r) * Cpow (Conj b) (r + (j - j')) * Cpow b r))%C).
  transitivity (RtoC sg * RtoC sg * X)%C; [rewrite SC; unfold X; ring|unfold X; ring].
Qed.
Lemma csum_tail0 : forall (f : nat -> C) a b, (a <= b)%nat -> (forall r, (a <= r)%nat -> f r = C0) -> csum f (seq 0 b) = csum f (seq 0 a).
Proof.
  intros f a b H Z. replace b with (a + (b - a))%nat by lia. rewrite seq_app, csum_app.
  rewrite (csum_const0 f (seq (0 + a) (b - a))); [ring|]. intros r Hr. apply in_seq in Hr. apply Z. lia.
Qed.
Lemma csum_head0 : forall (f : nat -> C) d b, (d <= b)%nat -> (forall r, (r < d)%nat -> f r = C0) ->
  csum f (seq 0 b) = csum (fun r => f (r + d)%nat) (seq 0 (b - d)).
Proof.
  intros f d b H Z. replace b with (d + (b - d))%nat at 1 by lia. rewrite seq_app, csum_app.
  rewrite (csum_const0 f (seq 0 d)); [|intros r Hr; apply in_seq in Hr; apply Z; lia].
  assert (E : csum f (seq (0 + d) (b - d)) = csum (fun r => f (r + d)%nat) (seq 0 (b - d))).
  { clear. generalize (b - d)%nat. intros k. rewrite <- (csum_map _ _ (fun r => (r + d)%nat) f). f_equal. rewrite Nat.add_0_l.
    induction k as [|k IH]; [reflexivity|]. rewrite !seq_S, map_app, IH. cbn. f_equal. f_equal. lia. }
  rewrite E. ring.
Qed.
Lemma wsum_conj_le : forall a b n j' j, (j' <= j <= n)%nat ->
  Conj (csum (wterm a b n j' j) (seq 0 (S j'))) = Cscale ((-1) ^ (j - j')) (csum (wterm a b n (n - j') (n - j)) (seq 0 (S (n - j')))).
Proof.
  intros a b n j' j H. rewrite csum_conj.
  rewrite <- (csum_tail0 (fun x => Conj (wterm a b n j' j x)) (S j') (S n)); [|lia|intros r Hr; rewrite wterm_zero by lia; apply Conj_C0].
  rewrite <- (csum_tail0 (wterm a b n (n - j') (n - j)) (S (n - j')) (S n)); [|lia|intros r Hr; apply wterm_zero; lia].
  rewrite (csum_head0 (wterm a b n (n - j') (n - j)) (j - j') (S n)); [|lia|intros r Hr; apply wterm_zero; lia].
  rewrite (csum_tail0 (fun x => Conj (wterm a b n j' j x)) (S n - (j - j')) (S n)); [|lia|intros r Hr; rewrite wterm_zero by lia; apply Conj_C0].
  rewrite Cscale_mul, <- csum_scale. apply csum_ext. intros r Hr. apply in_seq in Hr. rewrite <- Cscale_mul.
  destruct (Nat.le_gt_cases r j') as [L|G]; [apply wterm_conj; lia|].
  rewrite !wterm_zero by lia. apply C_eq; cbn; ring.
Qed.
Lemma wsum_conj : forall a b n j' j, (j' <= n)%nat -> (j <= n)%nat ->
  Conj (csum (wterm a b n j' j) (seq 0 (S j'))) = Cscale ((-1) ^ (j + j')) (csum (wterm a b n (n - j') (n - j)) (seq 0 (S (n - j')))).
Proof.
  intros a b n j' j H H'. destruct (Nat.le_gt_cases j' j) as [L|G].
  - rewrite wsum_conj_le by lia. f_equal. replace (j + j')%nat with (j - j' + 2 * j')%nat by lia. rewrite pow_add, pow_1_even. ring.
  - pose proof (wsum_conj_le a b n (n - j') (n - j) ltac:(lia)) as E. replace (n - (n - j'))%nat with j' in E by lia. replace (n - (n - j))%nat with j in E by lia.
    apply (f_equal Conj) in E. rewrite Conj_involutive, Conj_scale in E. rewrite E, !Cscale_mul. set (X := Conj _). 
    replace (n - j - (n - j'))%nat with (j' - j)%nat by lia.
    replace (j + j')%nat with (j' - j + 2 * j)%nat by lia. rewrite pow_add, pow_1_even, Rmult_1_r.
    transitivity ((RtoC ((-1) ^ (j' - j)) * RtoC ((-1) ^ (j' - j))) * X)%C; [|ring]. rewrite <- RtoC_mul, sign_sq. apply C_eq; cbn; ring.
Qed.
Lemma pow_sgn : forall k, (-1) ^ k = sgn (Z.of_nat k).
Proof.
  induction k as [|k IH]; [reflexivity|]. rewrite Nat2Z.inj_succ. unfold Z.succ. rewrite sgn_add, <- IH. cbn [pow]. change (sgn 1) with (-1). ring.
Qed.
Lemma D_conj : forall q l m' m, (0 <= l)%Z -> (- l <= m' <= l)%Z -> (- l <= m <= l)%Z ->
  Conj (wigner_D q l m' m) = (RtoC (sgn (m' + m)) * wigner_D q l (- m') (- m))%C.
Proof.
  intros q l m' m Hl H H'. unfold wigner_D. cbv zeta. rewrite Conj_scale, wsum_conj by lia.
  replace (Z.to_nat (2 * l) - Z.to_nat (l + m'))%nat with (Z.to_nat (l + - m')) by lia.
  replace (Z.to_nat (2 * l) - Z.to_nat (l + m))%nat with (Z.to_nat (l + - m)) by lia.
  set (S := csum _ _).
  assert (W : forall k, (- l <= k <= l)%Z -> wnorm (Z.to_nat (2 * l)) (Z.to_nat (l + k)) = wnorm (Z.to_nat (2 * l)) (Z.to_nat (l + - k))).
  { intros k Hk. unfold wnorm. replace (Z.to_nat (2 * l) - Z.to_nat (l + k))%nat with (Z.to_nat (l + - k)) by lia.
    replace (Z.to_nat (2 * l) - Z.to_nat (l + - k))%nat with (Z.to_nat (l + k)) by lia. f_equal. ring. }
  rewrite (W m), (W m') by lia. rewrite pow_sgn.
  replace (Z.of_nat (Z.to_nat (l + m) + Z.to_nat (l + m')))%Z with (m' + m + (l + l))%Z by lia.
  rewrite sgn_add, (sgn_add l l), sgn_sq, !Cscale_mul, Rmult_1_r. ring.
Qed.
(** The conjugate of a harmonic is a harmonic of the opposite spin weight and order. *)
Theorem C68_harmonic_conjugate : forall s l m q, Conj (swsh s l m q) = (RtoC (sgn (s + m)) * swsh (- s) l (- m) q)%C.
Proof.
  intros s l m q. destruct (Z.lt_ge_cases l (Z.abs s)) as [A|A]; [rewrite !swsh_low by lia; apply C_eq; cbn; ring|].
  destruct (Z.lt_ge_cases l (Z.abs m)) as [B|B]; [rewrite !swsh_out by lia; apply C_eq; cbn; ring|].
  rewrite !swsh_in by lia. rewrite Conj_mul, Conj_RtoC, D_conj by lia. rewrite sgn_opp. replace (- - s)%Z with (- - s)%Z by reflexivity.
  replace (m + - s)%Z with (- s + m)%Z by lia. rewrite !sgn_add, sgn_opp. ring.
Qed.

(** A set of modes with the symmetry of a real function, a_lm = (-1)^m conj a_l,-m, gives real values everywhere. *)
Lemma nodup_map_in : forall A B (f : A -> B) l, (forall x y, In x l -> In y l -> f x = f y -> x = y) -> NoDup l -> NoDup (map f l).
Proof.
  intros A B f l. induction l as [|a l IH]; intros I N; cbn [map]; [constructor|]. inversion_clear N as [|? ? NI ND]. constructor.
  - rewrite in_map_iff. intros (b & E & Hb). apply NI. rewrite <- (I b a); [exact Hb|right; exact Hb|left; reflexivity|exact E].
  - apply IH; [|exact ND]. intros x y Hx Hy. apply I; right; assumption.
Qed.
Lemma ms_flip : forall (f : Z -> C) l, (0 <= l)%Z -> csum f (ms_of l) = csum (fun m => f (- m)%Z) (ms_of l).
Proof.
  intros f l Hl. rewrite !csum_ms by exact Hl. set (n := Z.to_nat (2 * l)).
  transitivity (csum (fun k => f (Z.of_nat k - l)%Z) (map (fun k => (n - k)%nat) (seq 0 (S n)))).
  - apply csum_perm. apply NoDup_Permutation.
    + apply seq_NoDup.
    + apply nodup_map_in; [intros x y Hx Hy; apply in_seq in Hx, Hy; lia|apply seq_NoDup].
    + intros x. rewrite in_map_iff. split; [intros Hx; apply in_seq in Hx; exists (n - x)%nat; rewrite in_seq; lia|intros (y & E & Hy); apply in_seq in Hy; apply in_seq; lia].
  - rewrite csum_map. apply csum_ext. intros k Hk. apply in_seq in Hk. f_equal. unfold n in *. lia.
Qed.
Theorem C68_real_function : forall L a q, (0 <= L)%Z ->
  (forall l m, (0 <= l <= L)%Z -> (- l <= m <= l)%Z -> a l m = Cscale (sgn m) (Conj (a l (- m)%Z))) -> im (field 0 L a q) = 0.
Proof.
  intros L a q HL Ha. assert (E : Conj (field 0 L a q) = field 0 L a q).
  { rewrite !field_by_l, csum_conj. apply csum_ext. intros l Hl. apply zrange_In in Hl. rewrite csum_conj, ms_flip by lia. apply csum_ext. intros m Hm.
    unfold ms_of in Hm. apply zrange_In in Hm. rewrite Conj_mul, C68_harmonic_conjugate. change (- 0)%Z with 0%Z. rewrite Z.opp_involutive, Z.add_0_l, sgn_opp.
    rewrite (Ha l m) by lia. rewrite Cscale_mul. ring. }
  apply (f_equal im) in E. cbn in E. lra.
Qed.
(** Two derivatives of a real function in opposite directions are conjugate: the mode weights used for the strain
    (spin weight -2) and for the shear (spin weight 2). *)
Theorem C68_conjugate_fields : forall s L a b q, (0 <= L)%Z ->
  (forall l m, (0 <= l <= L)%Z -> (- l <= m <= l)%Z -> b l m = Cscale (sgn (s + m)) (Conj (a l (- m)%Z))) ->
  field (- s) L b q = Conj (field s L a q).
Proof.
  intros s L a b q HL Hb. rewrite !field_by_l, csum_conj. apply csum_ext. intros l Hl. apply zrange_In in Hl. rewrite csum_conj.
  rewrite (ms_flip (fun x => Conj (a l x * swsh s l x q)%C)) by lia. apply csum_ext. intros m Hm.
  unfold ms_of in Hm. apply zrange_In in Hm. rewrite Conj_mul, C68_harmonic_conjugate, Z.opp_involutive, (Hb l m), Cscale_mul by lia.
  rewrite !sgn_add, sgn_opp. ring.
Qed.

(** ** Degrees zero and one *)
Lemma swsh_00 : forall q, swsh 0 0 0 q = Y0.
Proof.
  intros q. rewrite swsh_in by lia. unfold wigner_D. change (Z.to_nat _) with 0%nat. cbn [Z.opp Z.add Z.to_nat seq csum]. unfold wterm, wnorm.
  cbn [Nat.leb Nat.add andb Nat.sub bin INR fact pow Cpow]. change (sgn 0) with 1. change (IZR (2 * 0 + 1)) with 1.
  rewrite Rmult_1_r, sqrt_1. unfold Y0. rewrite sqrt_div_alt, sqrt_1 by (pose proof PI_RGT_0; lra). pose proof (sqrt_lt_R0 (4 * PI) ltac:(pose proof PI_RGT_0; lra)).
  apply C_eq; cbn; field; lra.
Qed.
Lemma direction_formula : forall q, qnorm2 q = 1 -> direction q =
  (2 * (qx q * qz q + qw q * qy q), 2 * (qy q * qz q - qw q * qx q), qw q * qw q + qz q * qz q - qx q * qx q - qy q * qy q).
Proof.
  intros [w x y z] H. unfold direction, qinv. rewrite H. unfold qvec. cbn. rewrite Rinv_1. f_equal; [f_equal|]; ring.
Qed.
Lemma swsh_1m : forall m q, qnorm2 q = 1 -> (- 1 <= m <= 1)%Z -> swsh 0 1 m q = Y1 m (direction q).
Proof.
  intros m q Hq Hm. rewrite swsh_in by lia. rewrite direction_formula by exact Hq. unfold wigner_D. cbv zeta. change (Z.to_nat (2 * 1)) with 2%nat.
  change (Z.to_nat (1 + - 0)) with 1%nat. change (IZR (2 * 1 + 1)) with 3. change (sgn 0) with 1. rewrite Rmult_1_l.
  assert (P := PI_RGT_0).
  assert (S3 : sqrt (3 / (4 * PI)) = / 2 * sqrt (3 / PI)).
  { replace (3 / (4 * PI)) with (3 / PI / (2 * 2)) by (field; lra). rewrite sqrt_div_alt by lra. rewrite sqrt_square by lra. field. }
  assert (S6 : sqrt (3 / (2 * PI)) = sqrt (3 / PI) / sqrt 2).
  { replace (3 / (2 * PI)) with (3 / PI / 2) by (field; lra). apply sqrt_div_alt. lra. }
  assert (W1 : wnorm 2 1 = 1) by (unfold wnorm; cbn [fact Nat.sub Nat.mul Nat.add INR]; rewrite Rmult_1_r; apply sqrt_1).
  assert (W0 : wnorm 2 0 = sqrt 2) by (unfold wnorm; f_equal; cbn; ring).
  assert (W2 : wnorm 2 2 = sqrt 2) by (unfold wnorm; f_equal; cbn; ring).
  assert (Q2 : sqrt 2 * sqrt 2 = 2) by (apply sqrt_def; lra). pose proof (sqrt_lt_R0 2 ltac:(lra)) as Q2'.
  rewrite W1, S3. set (k := sqrt (3 / PI)) in *. set (r2 := sqrt 2) in *.
  assert (R2 : / r2 = r2 / 2) by (rewrite <- Q2; field; lra).
  destruct q as [w x y z]. cbn [qw qx qy qz]. unfold Y1.
  assert (M : (m = -1 \/ m = 0 \/ m = 1)%Z) by lia. destruct M as [-> | [-> | ->]]; cbn [Z.eqb Pos.eqb].
  - change (Z.to_nat (1 + -1)) with 0%nat. rewrite W0. cbn [seq csum]. unfold wterm. cbn [Nat.leb Nat.add andb Nat.sub bin INR pow Cpow]. rewrite S6.
    unfold part_a, part_b. cbn [qw qx qy qz]. replace (1 / r2) with (r2 / 2) by (rewrite <- R2; field; lra). replace (k / r2) with (k * (r2 / 2)) by (rewrite <- R2; field; lra).
    apply C_eq; cbn; field.
  - change (Z.to_nat (1 + 0)) with 1%nat. rewrite W1. cbn [seq csum]. unfold wterm. cbn [Nat.leb Nat.add andb Nat.sub bin INR pow Cpow].
    unfold part_a, part_b. cbn [qw qx qy qz]. fold k. apply C_eq; cbn; field.
  - change (Z.to_nat (1 + 1)) with 2%nat. rewrite W2. cbn [seq csum]. unfold wterm. cbn [Nat.leb Nat.add andb Nat.sub bin INR pow Cpow]. rewrite S6.
    unfold part_a, part_b. cbn [qw qx qy qz]. replace (1 / r2) with (r2 / 2) by (rewrite <- R2; field; lra). replace (k / r2) with (k * (r2 / 2)) by (rewrite <- R2; field; lra).
    apply C_eq; cbn; field.
Qed.
