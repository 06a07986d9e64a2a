(** Encoding of representable numbers as 64-bit words. *)
From Coq Require Import ZArith Reals List Lia Lra Bool.
From Verif Require Import Common Times_Model Times_Proofs Numeric_Model Numeric_Proofs Validity_Model Double_Model.
Open Scope Z_scope.

(** A finite binary64 number. *)
Definition double (x : R) : Prop :=
  exists m e, Z.abs m < 2 ^ 53 /\ -1074 <= e <= 971 /\ x = (IZR m * powerRZ 2 e)%R.

Lemma pow2_pos : forall e, (0 < powerRZ 2 e)%R.
Proof. intros. apply powerRZ_lt. lra. Qed.
Lemma pow2_add : forall a b, (powerRZ 2 (a + b) = powerRZ 2 a * powerRZ 2 b)%R.
Proof. intros. apply powerRZ_add. lra. Qed.
Lemma pow2_Z : forall e, 0 <= e -> powerRZ 2 e = IZR (2 ^ e).
Proof.
  intros e He. rewrite <- (Z2Nat.id e He). rewrite <- pow_powerRZ, <- pow_IZR. reflexivity.
Qed.
Lemma pow2_ln : forall e, powerRZ 2 e = exp (IZR e * ln 2).
Proof.
  intros e. destruct e as [|p|p].
  - simpl. rewrite Rmult_0_l, exp_0. reflexivity.
  - rewrite <- (positive_nat_Z p). rewrite <- pow_powerRZ, <- INR_IZR_INZ. rewrite <- Rpower_pow by lra. reflexivity.
  - replace (Z.neg p) with (- Z.pos p) by lia. rewrite powerRZ_neg', opp_IZR.
    rewrite <- (positive_nat_Z p). rewrite <- pow_powerRZ, <- INR_IZR_INZ, <- Rpower_pow by lra. unfold Rpower.
    replace (- INR (Pos.to_nat p) * ln 2)%R with (- (INR (Pos.to_nat p) * ln 2))%R by ring.
    rewrite exp_Ropp. reflexivity.
Qed.
Lemma ln2_pos : (0 < ln 2)%R.
Proof. rewrite <- ln_1. apply ln_increasing; lra. Qed.
Lemma pow2_lt : forall a b, a < b -> (powerRZ 2 a < powerRZ 2 b)%R.
Proof.
  intros a b H. rewrite !pow2_ln. apply exp_increasing. apply Rmult_lt_compat_r; [apply ln2_pos|]. apply IZR_lt; auto.
Qed.
Lemma pow2_le : forall a b, a <= b -> (powerRZ 2 a <= powerRZ 2 b)%R.
Proof. intros a b H. destruct (Z.eq_dec a b) as [->|]; [lra|]. left. apply pow2_lt. lia. Qed.

Lemma floor_log2 : forall x, (0 < x)%R -> (powerRZ 2 (floorR (ln x / ln 2)) <= x < powerRZ 2 (floorR (ln x / ln 2) + 1))%R.
Proof.
  intros x Hx. unfold floorR. destruct (base_Int_part (ln x / ln 2)) as [A B]. pose proof ln2_pos as P.
  set (k := Int_part (ln x / ln 2)) in *. rewrite !pow2_ln, plus_IZR.
  assert (E : (ln x = ln x / ln 2 * ln 2)%R) by (field; lra).
  assert (X : x = exp (ln x / ln 2 * ln 2)) by (rewrite <- E; symmetry; apply exp_ln; auto).
  rewrite X at 1 2. clear X. split.
  - destruct (Rle_lt_or_eq_dec _ _ A) as [C|C]; [left; apply exp_increasing; apply Rmult_lt_compat_r; auto|].
    rewrite C. lra.
  - apply exp_increasing. apply Rmult_lt_compat_r; auto. lra.
Qed.
Lemma floor_Z : forall z, floorR (IZR z) = z.
Proof.
  intros z. unfold floorR. destruct (base_Int_part (IZR z)) as [A B].
  apply le_IZR in A. assert (C : (IZR z < IZR (Int_part (IZR z) + 1))%R) by (rewrite plus_IZR; lra).
  apply lt_IZR in C. lia.
Qed.

(** The word of a positive double. *)
Lemma magnitude_spec : forall m e, 0 < m < 2 ^ 53 -> -1074 <= e <= 971 ->
  let x := (IZR m * powerRZ 2 e)%R in
  exists E M, -1022 <= E <= 1023 /\ 0 < M < 2 ^ 53 /\ (2 ^ 52 <= M \/ E = -1022) /\
    magnitude_bits x = (E + 1022) * 2 ^ 52 + M /\ x = (IZR M * powerRZ 2 (E - 52))%R.
Proof.
  intros m e Hm He x.
  assert (Px : (0 < x)%R) by (unfold x; apply Rmult_lt_0_compat; [apply IZR_lt; lia|apply pow2_pos]).
  destruct (floor_log2 x Px) as [L1 L2].
  unfold magnitude_bits. set (k := floorR (ln x / ln 2)) in *.
  assert (Xlt : (x < powerRZ 2 (e + 53))%R).
  { unfold x. rewrite Z.add_comm, pow2_add. apply Rmult_lt_compat_r; [apply pow2_pos|].
    rewrite pow2_Z by lia. apply IZR_lt. lia. }
  assert (K1 : k < e + 53).
  { destruct (Z_lt_le_dec k (e + 53)) as [|C]; auto. pose proof (pow2_le _ _ C). lra. }
  set (E := Z.max k (-1022)). exists E, (m * 2 ^ (e - (E - 52))).
  assert (HE : E - 52 <= e) by lia.
  assert (XM : x = (IZR (m * 2 ^ (e - (E - 52))) * powerRZ 2 (E - 52))%R).
  { unfold x. rewrite mult_IZR, <- pow2_Z by lia. rewrite Rmult_assoc, <- pow2_add. f_equal. f_equal. lia. }
  set (M := m * 2 ^ (e - (E - 52))) in *.
  pose proof (pow2_pos (E - 52)) as PE.
  assert (M1 : 0 < M) by (unfold M; apply Z.mul_pos_pos; [lia|apply Z.pow_pos_nonneg; lia]).
  assert (M2 : M < 2 ^ 53).
  { apply lt_IZR. rewrite <- pow2_Z by lia. apply Rmult_lt_reg_r with (powerRZ 2 (E - 52)); auto.
    rewrite <- XM, <- pow2_add. eapply Rlt_le_trans; [exact L2|]. apply pow2_le. lia. }
  split; [lia|]. split; [lia|]. split; [|split].
  - destruct (Z.eq_dec E (-1022)) as [|N]; auto. left. assert (E = k) by lia.
    apply le_IZR. rewrite <- pow2_Z by lia. apply Rmult_le_reg_r with (powerRZ 2 (E - 52)); auto.
    rewrite <- XM, <- pow2_add. replace (52 + (E - 52)) with k by lia. exact L1.
  - f_equal. rewrite XM. unfold Rdiv. rewrite Rmult_assoc, Rinv_r, Rmult_1_r by lra. apply floor_Z.
  - exact XM.
Qed.

Lemma decode_parts : forall s E M, (s = 0 \/ s = 2 ^ 63) -> -1022 <= E <= 1023 -> 0 < M < 2 ^ 53 -> (2 ^ 52 <= M \/ E = -1022) ->
  let z := s + ((E + 1022) * 2 ^ 52 + M) in
  0 <= z < 2 ^ 64 /\ unbits z = Fin (IZR ((if s =? 0 then 1 else -1) * M) * powerRZ 2 (E - 52)).
Proof.
  intros s E M Hs HE HM HN z.
  change (2 ^ 52) with 4503599627370496 in *. change (2 ^ 53) with 9007199254740992 in *.
  change (2 ^ 63) with 9223372036854775808 in *. change (2 ^ 64) with 18446744073709551616 in *.
  assert (Hz : 0 <= z < 18446744073709551616) by (unfold z; lia). split; [exact Hz|].
  unfold unbits. change (2 ^ 52) with 4503599627370496. change (2 ^ 63) with 9223372036854775808. change (2 ^ 11) with 2048.
  assert (S : (9223372036854775808 <=? z) = negb (s =? 0)).
  { unfold z. destruct Hs as [-> | ->]; cbn [Z.eqb negb]; [apply Z.leb_gt|apply Z.leb_le]; lia. }
  rewrite S.
  destruct (Z_lt_le_dec M 4503599627370496) as [C|C].
  - (* subnormal *)
    assert (E = -1022) by lia. subst E.
    assert (Q : (z / 4503599627370496) mod 2048 = 0).
    { unfold z. destruct Hs as [-> | ->].
      - replace (0 + ((-1022 + 1022) * 4503599627370496 + M)) with M by lia. rewrite Z.div_small by lia. reflexivity.
      - replace (9223372036854775808 + ((-1022 + 1022) * 4503599627370496 + M)) with (M + 2048 * 4503599627370496) by lia.
        rewrite Z.div_add, Z.div_small by lia. reflexivity. }
    assert (F : z mod 4503599627370496 = M).
    { unfold z. destruct Hs as [-> | ->].
      - replace (0 + ((-1022 + 1022) * 4503599627370496 + M)) with M by lia. apply Z.mod_small. lia.
      - replace (9223372036854775808 + ((-1022 + 1022) * 4503599627370496 + M)) with (M + 2048 * 4503599627370496) by lia.
        rewrite Z.mod_add by lia. apply Z.mod_small. lia. }
    rewrite Q, F. cbn [Z.eqb]. destruct (s =? 0); reflexivity.
  - (* normal *)
    assert (Q : (z / 4503599627370496) mod 2048 = E + 1023).
    { replace z with ((M - 4503599627370496) + (s / 4503599627370496 + (E + 1023)) * 4503599627370496).
      - rewrite Z.div_add, Z.div_small by lia. destruct Hs as [-> | ->].
        + change (0 / 4503599627370496) with 0. rewrite !Z.add_0_l. apply Z.mod_small. lia.
        + change (9223372036854775808 / 4503599627370496) with (1 * 2048). rewrite Z.add_0_l, Z.add_comm, Z.mod_add by lia.
          apply Z.mod_small. lia.
      - unfold z. destruct Hs as [-> | ->].
        + change (0 / 4503599627370496) with 0. lia.
        + change (9223372036854775808 / 4503599627370496) with 2048. lia. }
    assert (F : z mod 4503599627370496 = M - 4503599627370496).
    { replace z with ((M - 4503599627370496) + (s / 4503599627370496 + (E + 1023)) * 4503599627370496).
      - rewrite Z.mod_add by lia. apply Z.mod_small. lia.
      - unfold z. destruct Hs as [-> | ->].
        + change (0 / 4503599627370496) with 0. lia.
        + change (9223372036854775808 / 4503599627370496) with 2048. lia. }
    rewrite Q, F. replace (E + 1023 =? 2047) with false by (symmetry; lia). replace (E + 1023 =? 0) with false by (symmetry; lia).
    replace (4503599627370496 + (M - 4503599627370496)) with M by lia. replace (E + 1023 - 1075) with (E - 52) by lia.
    destruct (s =? 0); reflexivity.
Qed.

(** Storing a double and reading it back gives the same number. *)
Theorem C09_words_of_doubles : forall x, double x -> 0 <= bits (Fin x) < 2 ^ 64 /\ unbits (bits (Fin x)) = Fin x.
Proof.
  intros x (m & e & Hm & He & Hx). cbn [bits].
  destruct (Req_EM_T x 0) as [->|N].
  { split; [lia|]. unfold unbits. change ((2 ^ 63 <=? 0)) with false. change (0 / 2 ^ 52) with 0. change (0 mod 2 ^ 11) with 0.
    change (0 mod 2 ^ 52) with 0. cbn [Z.eqb]. f_equal. change (IZR (1 * 0)) with 0%R. ring. }
  pose proof (pow2_pos e) as P.
  destruct (Rltb_spec x 0) as [C|C].
  - assert (m < 0).
    { apply lt_IZR. destruct (Rlt_le_dec (IZR m) 0); auto. assert (0 <= x)%R by (rewrite Hx; apply Rmult_le_pos; lra). lra. }
    destruct (magnitude_spec (- m) e ltac:(lia) He) as (E & M & H1 & H2 & H3 & H4 & H5).
    replace (IZR (- m) * powerRZ 2 e)%R with (- x)%R in * by (rewrite opp_IZR, Hx; ring).
    rewrite H4. destruct (decode_parts (2 ^ 63) E M ltac:(auto) H1 H2 H3) as [D1 D2]. split; [exact D1|].
    rewrite D2. f_equal. change (2 ^ 63 =? 0) with false. cbv iota. replace (-1 * M) with (- M) by lia. rewrite opp_IZR. lra.
  - assert (0 < m).
    { apply lt_IZR. destruct (Rlt_le_dec 0 (IZR m)); auto.
      assert (x <= 0)%R. { rewrite Hx. pose proof (Rmult_le_compat_r (powerRZ 2 e) (IZR m) 0). lra. } lra. }
    destruct (magnitude_spec m e ltac:(lia) He) as (E & M & H1 & H2 & H3 & H4 & H5).
    rewrite <- Hx in *. rewrite H4. destruct (decode_parts 0 E M ltac:(auto) H1 H2 H3) as [D1 D2]. rewrite Z.add_0_l in *.
    split; [exact D1|]. rewrite D2. f_equal. change (0 =? 0) with true. cbv iota. replace (1 * M) with M by lia. congruence.
Qed.
Lemma bits_nan : 0 <= bits NaN < 2 ^ 64 /\ unbits (bits NaN) = NaN.
Proof. split; [split; vm_compute; congruence|reflexivity]. Qed.

Theorem C09_words_of_others : forall x, (forall r, x <> Fin r) -> 0 <= bits x < 2 ^ 64 /\ unbits (bits x) = x.
Proof. intros [r| | |] H; [destruct (H r eq_refl)| | |]; (split; [cbn; lia|reflexivity]). Qed.
Lemma double_0 : double 0.
Proof. exists 0, 0. split; [reflexivity|]. split; [lia|]. simpl. ring. Qed.
Lemma double_Z : forall z, Z.abs z < 2 ^ 53 -> double (IZR z).
Proof. intros z H. exists z, 0. split; [exact H|]. split; [lia|]. simpl. ring. Qed.
