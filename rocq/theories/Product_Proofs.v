(** * The product of two spin-weighted harmonics is a sum of harmonics *)
From Coq Require Import Reals ZArith List Bool Lia Lra.
From Verif Require Import Common Cplx Quat Modes_Model Modal_Model Kwargs_Model Transform_Model Rotate_Model Modes_Proofs Modal_Proofs Rotate_Proofs
  Kwargs_Proofs Wigner_Model Wigner_Proofs Sphere_Model Sphere_Proofs Harmonics_Proofs Pipeline_Proofs ABD_Model ABD_Proofs ABDBalance_Proofs.
Import ListNotations.
Open Scope R_scope.

(** ** Monomials in the two complex parts of a rotor *)
Definition wmono (a b : C) (n j' j r : nat) : C := (Cpow a (j' - r) * Cpow (Conj a) (n - j - r) * Cpow b (r + j - j') * Cpow (Conj b) r)%C.
Definition okr (n j' j r : nat) : Prop := (r <= j' /\ r + j <= n /\ j' <= r + j)%nat.
Lemma wmono_mul : forall a b n1 j1' j1 r1 n2 j2' j2 r2, okr n1 j1' j1 r1 -> okr n2 j2' j2 r2 ->
  (wmono a b n1 j1' j1 r1 * wmono a b n2 j2' j2 r2)%C = wmono a b (n1 + n2) (j1' + j2') (j1 + j2) (r1 + r2).
Proof.
  intros a b n1 j1' j1 r1 n2 j2' j2 r2 (A & B & D) (A' & B' & D'). unfold wmono.
  replace (j1' + j2' - (r1 + r2))%nat with ((j1' - r1) + (j2' - r2))%nat by lia.
  replace (n1 + n2 - (j1 + j2) - (r1 + r2))%nat with ((n1 - j1 - r1) + (n2 - j2 - r2))%nat by lia.
  replace (r1 + r2 + (j1 + j2) - (j1' + j2'))%nat with ((r1 + j1 - j1') + (r2 + j2 - j2'))%nat by lia.
  rewrite !Cpow_add. ring.
Qed.
Lemma wmono_raise : forall a b n j' j r, (a * Conj a + b * Conj b = C1)%C -> okr n j' j r ->
  wmono a b n j' j r = (wmono a b (n + 2) (j' + 1) (j + 1) r + wmono a b (n + 2) (j' + 1) (j + 1) (r + 1))%C.
Proof.
  intros a b n j' j r U (A & B & D). unfold wmono.
  replace (j' + 1 - r)%nat with (S (j' - r)) by lia. replace (n + 2 - (j + 1) - r)%nat with (S (n - j - r)) by lia.
  replace (r + (j + 1) - (j' + 1))%nat with (r + j - j')%nat by lia. replace (j' + 1 - (r + 1))%nat with (j' - r)%nat by lia.
  replace (n + 2 - (j + 1) - (r + 1))%nat with (n - j - r)%nat by lia. replace (r + 1 + (j + 1) - (j' + 1))%nat with (S (r + j - j')) by lia.
  replace (r + 1)%nat with (S r) by lia. cbn [Cpow].
  transitivity ((a * Conj a + b * Conj b) * (Cpow a (j' - r) * Cpow (Conj a) (n - j - r) * Cpow b (r + j - j') * Cpow (Conj b) r))%C; [rewrite U; ring|ring].
Qed.
Definition wweight (n j' j r : nat) : R := INR (bin j' r) * INR (bin (n - j') (n - j - r)).
Lemma wweight_pos : forall n j' j r, (j' <= n)%nat -> okr n j' j r -> 0 < wweight n j' j r.
Proof. intros n j' j r Hn (A & B & D). unfold wweight. apply Rmult_lt_0_compat; apply lt_0_INR, bin_pos; lia. Qed.
Lemma wterm_mono : forall a b n j' j r, okr n j' j r -> wterm a b n j' j r = Cscale (wweight n j' j r * (-1) ^ r) (wmono a b n j' j r).
Proof.
  intros a b n j' j r (A & B & D). unfold wterm, wmono, wweight. destruct (Nat.leb_spec (r + j) n); [|lia]. destruct (Nat.leb_spec j' (r + j)); [|lia]. reflexivity.
Qed.

(** ** The monomials of one spin weight and order, and the harmonics *)
Definition mono (s l m : Z) (r : nat) (q : quat) : C := wmono (part_a q) (part_b q) (Z.to_nat (2 * l)) (Z.to_nat (l + m)) (Z.to_nat (l - s)) r.
Definition first_r (s m : Z) : nat := Z.to_nat (Z.max 0 (m + s)).
Definition okm (s l m : Z) (r : nat) : Prop := (first_r s m <= r)%nat /\ (Z.of_nat r <= l + Z.min m s)%Z.
Lemma okm_okr : forall s l m r, (Z.abs s <= l)%Z -> (Z.abs m <= l)%Z -> okm s l m r -> okr (Z.to_nat (2 * l)) (Z.to_nat (l + m)) (Z.to_nat (l - s)) r.
Proof. intros s l m r Hs Hm [A B]. unfold okr, first_r in *. lia. Qed.
Definition rs (s l m : Z) : list nat := seq (first_r s m) (S (Z.to_nat (l - Z.max (Z.abs s) (Z.abs m)))).
Lemma rs_In : forall s l m r, (Z.abs s <= l)%Z -> (Z.abs m <= l)%Z -> In r (rs s l m) <-> okm s l m r.
Proof. intros s l m r Hs Hm. unfold rs, okm, first_r. rewrite in_seq. lia. Qed.
Definition cf (s l m : Z) (r : nat) : R := kap s l m * (wweight (Z.to_nat (2 * l)) (Z.to_nat (l + m)) (Z.to_nat (l - s)) r * (-1) ^ r).
Lemma swsh_mono : forall s l m q, (Z.abs s <= l)%Z -> (Z.abs m <= l)%Z -> swsh s l m q = csum (fun r => Cscale (cf s l m r) (mono s l m r q)) (rs s l m).
Proof.
  intros s l m q Hs Hm. unfold swsh. destruct (Z.leb_spec (Z.abs s) l); [|lia]. destruct (Z.leb_spec (Z.abs m) l); [|lia]. cbn [andb]. unfold wigner_D. cbv zeta.
  replace (l + - s)%Z with (l - s)%Z by lia. set (n := Z.to_nat (2 * l)). set (j' := Z.to_nat (l + m)). set (j := Z.to_nat (l - s)).
  set (k := Z.to_nat (l - Z.max (Z.abs s) (Z.abs m))).
  assert (E : csum (wterm (part_a q) (part_b q) n j' j) (seq 0 (S j')) = csum (wterm (part_a q) (part_b q) n j' j) (rs s l m)).
  { unfold rs. fold k. rewrite (csum_tail0 _ (first_r s m + S k)).
    - rewrite seq_app, csum_app. cbn [Nat.add]. rewrite (csum_const0 _ (seq 0 (first_r s m))); [ring|]. intros r I. apply in_seq in I. apply wterm_zero. unfold first_r, n, j', j in *. lia.
    - unfold first_r, k, j'. lia.
    - intros r Hr. apply wterm_zero. unfold first_r, k, n, j', j in *. lia. }
  rewrite E, !Cscale_mul. rewrite <- !csum_scale. apply csum_ext. intros r I. apply (rs_In s l m r Hs Hm) in I. rewrite wterm_mono by (apply okm_okr; assumption).
  unfold cf, kap. fold n j' j. replace (l + - s)%Z with (l - s)%Z by lia. fold j. unfold mono. fold n j' j. rewrite !Cscale_mul, !RtoC_mul. ring.
Qed.
Lemma cf_nonzero : forall s l m r, (Z.abs s <= l)%Z -> (Z.abs m <= l)%Z -> okm s l m r -> cf s l m r <> 0.
Proof.
  intros s l m r Hs Hm H. unfold cf. apply Rmult_integral_contrapositive_currified; [apply kap_nonzero; lia|].
  apply Rmult_integral_contrapositive_currified; [apply Rgt_not_eq, wweight_pos; [lia|apply okm_okr; assumption]|apply pow_nonzero; lra].
Qed.
Lemma parts_unit : forall q, qnorm2 q = 1 -> (part_a q * Conj (part_a q) + part_b q * Conj (part_b q) = C1)%C.
Proof. intros q H. unfold qnorm2 in H. unfold part_a, part_b. apply C_eq; cbn; [lra|ring]. Qed.
Lemma mono_raise : forall s l m r q, qnorm2 q = 1 -> (Z.abs s <= l)%Z -> (Z.abs m <= l)%Z -> okm s l m r ->
  mono s l m r q = (mono s (l + 1) m r q + mono s (l + 1) m (r + 1) q)%C.
Proof.
  intros s l m r q Hq Hs Hm H. unfold mono. replace (Z.to_nat (2 * (l + 1))) with (Z.to_nat (2 * l) + 2)%nat by lia.
  replace (Z.to_nat (l + 1 + m)) with (Z.to_nat (l + m) + 1)%nat by lia. replace (Z.to_nat (l + 1 - s)) with (Z.to_nat (l - s) + 1)%nat by lia.
  apply wmono_raise; [apply parts_unit, Hq|apply okm_okr; assumption].
Qed.

(** ** Sums of harmonics with real coefficients *)
Definition span (s L m : Z) (f : quat -> C) : Type :=
  { c : Z -> R | forall q, qnorm2 q = 1 -> f q = csum (fun l => Cscale (c l) (swsh s l m q)) (zrange 0 (L + 1)) }.
Lemma span_ext : forall s L m f g, span s L m f -> (forall q, qnorm2 q = 1 -> g q = f q) -> span s L m g.
Proof. intros s L m f g [c H] E. exists c. intros q Hq. rewrite E by exact Hq. apply H, Hq. Defined.
Lemma span_zero : forall s L m, span s L m (fun _ => C0).
Proof. intros s L m. exists (fun _ => 0). intros q _. symmetry. apply csum_const0. intros l _. apply C_eq; cbn; ring. Defined.
Lemma span_add : forall s L m f g, span s L m f -> span s L m g -> span s L m (fun q => f q + g q)%C.
Proof.
  intros s L m f g [c H] [d H']. exists (fun l => c l + d l). intros q Hq. rewrite H, H' by exact Hq. rewrite <- csum_add. apply csum_ext. intros l _. apply C_eq; cbn; ring.
Defined.
Lemma span_scale : forall s L m k f, span s L m f -> span s L m (fun q => Cscale k (f q)).
Proof.
  intros s L m k f [c H]. exists (fun l => k * c l). intros q Hq. rewrite H by exact Hq. rewrite Cscale_mul, <- csum_scale. apply csum_ext. intros l _. apply C_eq; cbn; ring.
Defined.
Lemma span_csum : forall A s L m (f : A -> quat -> C) xs, (forall x, In x xs -> span s L m (f x)) -> span s L m (fun q => csum (fun x => f x q) xs).
Proof.
  intros A s L m f. induction xs as [|x xs IH]; intros H; cbn [csum]; [apply span_zero|].
  apply span_add; [apply H; left; reflexivity|]. apply IH. intros y I. apply H. right. exact I.
Defined.
Lemma span_raise : forall s L L' m f, (0 <= L <= L')%Z -> span s L m f -> span s L' m f.
Proof.
  intros s L L' m f HL [c H]. exists (fun l => if (l <=? L)%Z then c l else 0). intros q Hq. rewrite H by exact Hq.
  rewrite (zrange_split 0 (L + 1) (L' + 1)) by lia. rewrite csum_app, (csum_const0 _ (zrange (L + 1) _)).
  - transitivity (csum (fun l => Cscale (c l) (swsh s l m q)) (zrange 0 (L + 1)) + C0)%C; [ring|]. f_equal. apply csum_ext. intros l I. apply zrange_In in I. destruct (Z.leb_spec l L); [reflexivity|lia].
  - intros l I. apply zrange_In in I. destruct (Z.leb_spec l L); [lia|]. apply C_eq; cbn; ring.
Defined.
Lemma span_harmonic : forall s L m, (0 <= L)%Z -> span s L m (swsh s L m).
Proof.
  intros s L m HL. exists (fun l => if (l =? L)%Z then 1 else 0). intros q _. replace (zrange 0 (L + 1)) with (zrange 0 L ++ zrange L (L + 1)) by (symmetry; apply zrange_split; lia).
  rewrite csum_app, csum_const0.
  - rewrite zrange_cons, zrange_empty by lia. cbn [csum]. rewrite Z.eqb_refl. apply C_eq; cbn; ring.
  - intros l I. apply zrange_In in I. destruct (Z.eqb_spec l L); [lia|]. apply C_eq; cbn; ring.
Defined.

(** Every monomial is such a sum: monomials of neighbouring r have opposite signs up to lower degrees, and all terms of the harmonic then add up. *)
Definition top (s m : Z) (k : nat) : Z := (Z.max (Z.abs s) (Z.abs m) + Z.of_nat k)%Z.
Lemma neighbours : forall s m k, (forall r, okm s (top s m k) m r -> span s (top s m k) m (mono s (top s m k) m r)) ->
  forall i, (i <= S k)%nat -> span s (top s m (S k)) m (fun q => mono s (top s m (S k)) m (first_r s m + i) q - Cscale ((-1) ^ i) (mono s (top s m (S k)) m (first_r s m) q))%C.
Proof.
  intros s m k H. induction i as [|i IH]; intros Hi.
  - apply (span_ext _ _ _ _ _ (span_zero _ _ _)). intros q _. rewrite Nat.add_0_r. apply C_eq; cbn; ring.
  - assert (V : okm s (top s m k) m (first_r s m + i)) by (unfold okm, top, first_r in *; lia).
    assert (A : span s (top s m (S k)) m (mono s (top s m k) m (first_r s m + i))) by (apply (span_raise s (top s m k)); [unfold top; lia|apply H, V]).
    apply (span_ext _ _ _ _ _ (span_add _ _ _ _ _ A (span_scale _ _ _ (-1) _ (IH ltac:(lia))))). intros q Hq.
    rewrite (mono_raise s (top s m k) m (first_r s m + i) q Hq) by (try exact V; unfold top; lia).
    replace (top s m k + 1)%Z with (top s m (S k)) by (unfold top; lia). replace (first_r s m + i + 1)%nat with (first_r s m + S i)%nat by lia.
    cbn [pow]. apply C_eq; cbn; ring.
Defined.
Lemma neighbours_0 : forall s m i, (i <= 0)%nat -> span s (top s m 0) m (fun q => mono s (top s m 0) m (first_r s m + i) q - Cscale ((-1) ^ i) (mono s (top s m 0) m (first_r s m) q))%C.
Proof.
  intros s m i Hi. apply (span_ext _ _ _ _ _ (span_zero _ _ _)). intros q _. replace i with 0%nat by lia. rewrite Nat.add_0_r. apply C_eq; cbn; ring.
Defined.
Definition total_weight (s m : Z) (k : nat) : R :=
  rsum (fun i => wweight (Z.to_nat (2 * top s m k)) (Z.to_nat (top s m k + m)) (Z.to_nat (top s m k - s)) (first_r s m + i)) (seq 0 (S k)).
Lemma csum_shift : forall (g : nat -> C) n i, csum (fun k => g (i + k)%nat) (seq 0 n) = csum g (seq i n).
Proof.
  intros g n. induction n as [|n IH]; intros i; cbn [seq csum]; [reflexivity|]. rewrite Nat.add_0_r. f_equal. rewrite <- (IH (S i)), <- seq_shift, csum_map.
  apply csum_ext. intros k _. f_equal. lia.
Qed.
Lemma csum_const_scale : forall A (f : A -> R) z xs, Cscale (rsum f xs) z = csum (fun x => Cscale (f x) z) xs.
Proof. intros A f z. induction xs as [|x xs IH]; cbn [rsum csum]; [apply C_eq; cbn; ring|]. rewrite <- IH. apply C_eq; cbn; ring. Qed.
Lemma total_weight_pos : forall s m k, 0 < total_weight s m k.
Proof.
  intros s m k. unfold total_weight. assert (P : forall i, (i <= k)%nat -> 0 < wweight (Z.to_nat (2 * top s m k)) (Z.to_nat (top s m k + m)) (Z.to_nat (top s m k - s)) (first_r s m + i)).
  { intros i Hi. apply wweight_pos; [unfold top; lia|]. apply okm_okr; unfold okm, top, first_r; lia. }
  cbn [seq rsum]. apply Rplus_lt_le_0_compat; [apply P; lia|]. apply rsum_nonneg. intros i I. apply in_seq in I. apply Rlt_le, P. lia.
Qed.
Lemma first_span : forall s m k,
  (forall i, (i <= k)%nat -> span s (top s m k) m (fun q => mono s (top s m k) m (first_r s m + i) q - Cscale ((-1) ^ i) (mono s (top s m k) m (first_r s m) q))%C) ->
  span s (top s m k) m (mono s (top s m k) m (first_r s m)).
Proof.
  intros s m k H. set (L := top s m k) in *. set (r0 := first_r s m) in *. set (k0 := kap s L m * (-1) ^ r0 * total_weight s m k).
  assert (K0 : k0 <> 0).
  { unfold k0. apply Rmult_integral_contrapositive_currified; [apply Rmult_integral_contrapositive_currified; [apply kap_nonzero; unfold L, top; lia|apply pow_nonzero; lra]|apply Rgt_not_eq, total_weight_pos]. }
  assert (E : span s L m (fun q => csum (fun i => Cscale (cf s L m (r0 + i)) (mono s L m (r0 + i) q - Cscale ((-1) ^ i) (mono s L m r0 q)))%C (seq 0 (S k)))).
  { apply (span_csum nat s L m (fun i q => Cscale (cf s L m (r0 + i)) (mono s L m (r0 + i) q - Cscale ((-1) ^ i) (mono s L m r0 q))%C)). intros i I. apply in_seq in I. apply span_scale, H. lia. }
  apply (span_ext _ _ _ _ _ (span_scale _ _ _ (/ k0) _ (span_add _ _ _ _ _ (span_harmonic s L m ltac:(unfold L, top; lia)) (span_scale _ _ _ (-1) _ E)))).
  intros q _. rewrite (swsh_mono s L m q) by (unfold L, top; lia). unfold rs. replace (Z.to_nat (L - Z.max (Z.abs s) (Z.abs m))) with k by (unfold L, top; lia). fold r0.
  rewrite <- (csum_shift (fun r => Cscale (cf s L m r) (mono s L m r q)) (S k) r0).
  assert (S1 : (csum (fun i => Cscale (cf s L m (r0 + i)) (mono s L m (r0 + i) q)) (seq 0 (S k)) =
    csum (fun i => Cscale (cf s L m (r0 + i)) (mono s L m (r0 + i) q - Cscale ((-1) ^ i) (mono s L m r0 q))) (seq 0 (S k)) + Cscale k0 (mono s L m r0 q))%C).
  { assert (S2 : Cscale k0 (mono s L m r0 q) = csum (fun i => Cscale (cf s L m (r0 + i) * (-1) ^ i) (mono s L m r0 q)) (seq 0 (S k))).
    { unfold k0, total_weight. fold L r0. rewrite <- rsum_scale. rewrite <- csum_const_scale. f_equal. apply rsum_ext. intros i _. unfold cf. rewrite pow_add.
      assert (Q : (-1) ^ i * (-1) ^ i = 1) by (rewrite <- Rpow_mult_distr; replace (-1 * -1) with 1 by ring; apply pow1).
      transitivity (kap s L m * (-1) ^ r0 * wweight (Z.to_nat (2 * L)) (Z.to_nat (L + m)) (Z.to_nat (L - s)) (r0 + i) * ((-1) ^ i * (-1) ^ i)); [rewrite Q; ring|ring]. }
    rewrite S2, <- csum_add. apply csum_ext. intros i _. apply C_eq; cbn; ring. }
  rewrite S1. apply C_eq; cbn; field; exact K0.
Defined.
Lemma mono_span_at : forall k s m r, okm s (top s m k) m r -> span s (top s m k) m (mono s (top s m k) m r).
Proof.
  assert (G : forall s m k, (forall i, (i <= k)%nat -> span s (top s m k) m (fun q => mono s (top s m k) m (first_r s m + i) q - Cscale ((-1) ^ i) (mono s (top s m k) m (first_r s m) q))%C) ->
    forall r, okm s (top s m k) m r -> span s (top s m k) m (mono s (top s m k) m r)).
  { intros s m k H r V. assert (I : (r - first_r s m <= k)%nat) by (unfold okm, top, first_r in *; lia).
    apply (span_ext _ _ _ _ _ (span_add _ _ _ _ _ (H _ I) (span_scale _ _ _ ((-1) ^ (r - first_r s m)) _ (first_span s m k H)))).
    intros q _. replace (first_r s m + (r - first_r s m))%nat with r by (unfold okm in V; lia). apply C_eq; cbn; ring. }
  induction k as [|k IH]; intros s m r V.
  - apply G; [|exact V]. intros i Hi. apply neighbours_0, Hi.
  - apply G; [|exact V]. intros i Hi. apply neighbours; [|exact Hi]. intros r' V'. apply IH, V'.
Defined.
Lemma mono_span : forall s l m r, (Z.abs s <= l)%Z -> (Z.abs m <= l)%Z -> okm s l m r -> span s l m (mono s l m r).
Proof.
  intros s l m r Hs Hm V. pose proof (mono_span_at (Z.to_nat (l - Z.max (Z.abs s) (Z.abs m))) s m r) as H.
  replace (top s m (Z.to_nat (l - Z.max (Z.abs s) (Z.abs m)))) with l in H by (unfold top; lia). exact (H V).
Defined.

(** ** Products of harmonics *)
Lemma mono_mul : forall s1 l1 m1 r1 s2 l2 m2 r2 q, (Z.abs s1 <= l1)%Z -> (Z.abs m1 <= l1)%Z -> (Z.abs s2 <= l2)%Z -> (Z.abs m2 <= l2)%Z ->
  okm s1 l1 m1 r1 -> okm s2 l2 m2 r2 -> (mono s1 l1 m1 r1 q * mono s2 l2 m2 r2 q)%C = mono (s1 + s2) (l1 + l2) (m1 + m2) (r1 + r2) q.
Proof.
  intros s1 l1 m1 r1 s2 l2 m2 r2 q A B D E V W. unfold mono. rewrite wmono_mul by (apply okm_okr; assumption).
  replace (Z.to_nat (2 * l1) + Z.to_nat (2 * l2))%nat with (Z.to_nat (2 * (l1 + l2))) by lia.
  replace (Z.to_nat (l1 + m1) + Z.to_nat (l2 + m2))%nat with (Z.to_nat (l1 + l2 + (m1 + m2))) by lia.
  replace (Z.to_nat (l1 - s1) + Z.to_nat (l2 - s2))%nat with (Z.to_nat (l1 + l2 - (s1 + s2))) by lia. reflexivity.
Qed.
Definition ok (s l m : Z) : bool := ((Z.abs s <=? l) && (Z.abs m <=? l))%Z.
Lemma ok_true : forall s l m, ok s l m = true -> (Z.abs s <= l /\ Z.abs m <= l)%Z.
Proof. intros s l m H. apply andb_true_iff in H. lia. Qed.
Lemma product_span : forall s1 l1 m1 s2 l2 m2, ok s1 l1 m1 = true -> ok s2 l2 m2 = true ->
  span (s1 + s2) (l1 + l2) (m1 + m2) (fun q => swsh s1 l1 m1 q * swsh s2 l2 m2 q)%C.
Proof.
  intros s1 l1 m1 s2 l2 m2 H1 H2. apply ok_true in H1, H2.
  assert (E : span (s1 + s2) (l1 + l2) (m1 + m2) (fun q => csum (fun r1 => csum (fun r2 => Cscale (cf s1 l1 m1 r1 * cf s2 l2 m2 r2) (mono (s1 + s2) (l1 + l2) (m1 + m2) (r1 + r2) q)) (rs s2 l2 m2)) (rs s1 l1 m1))).
  { apply (span_csum nat _ _ _ (fun r1 q => csum (fun r2 => Cscale (cf s1 l1 m1 r1 * cf s2 l2 m2 r2) (mono (s1 + s2) (l1 + l2) (m1 + m2) (r1 + r2) q)) (rs s2 l2 m2))). intros r1 I1.
    apply (span_csum nat _ _ _ (fun r2 q => Cscale (cf s1 l1 m1 r1 * cf s2 l2 m2 r2) (mono (s1 + s2) (l1 + l2) (m1 + m2) (r1 + r2) q))). intros r2 I2.
    apply rs_In in I1; try lia. apply rs_In in I2; try lia. apply span_scale, mono_span; try lia. unfold okm, first_r in *. lia. }
  apply (span_ext _ _ _ _ _ E). intros q _. rewrite swsh_mono, (swsh_mono s2) by lia. rewrite <- csum_scale_r. apply csum_ext. intros r1 I1. rewrite <- csum_scale. apply csum_ext. intros r2 I2.
  apply rs_In in I1; try lia. apply rs_In in I2; try lia. rewrite <- mono_mul by (try lia; assumption). apply C_eq; cbn; ring.
Defined.

(** The coefficients of the product of two harmonics; nothing outside the harmonics that exist. *)
Definition product_table (s1 l1 m1 s2 l2 m2 l : Z) : R :=
  match bool_dec (ok s1 l1 m1) true, bool_dec (ok s2 l2 m2) true with
  | left H1, left H2 => if (ok (s1 + s2) l (m1 + m2) && (l <=? l1 + l2))%Z then proj1_sig (product_span s1 l1 m1 s2 l2 m2 H1 H2) l else 0
  | _, _ => 0
  end.
Lemma swsh_not : forall s l m q, ok s l m = false -> swsh s l m q = C0.
Proof. intros s l m q H. unfold ok in H. unfold swsh. rewrite H. reflexivity. Qed.
Theorem C72_harmonics : forall s1 l1 m1 s2 l2 m2 q, qnorm2 q = 1 ->
  (swsh s1 l1 m1 q * swsh s2 l2 m2 q)%C = csum (fun l => Cscale (product_table s1 l1 m1 s2 l2 m2 l) (swsh (s1 + s2) l (m1 + m2) q)) (zrange 0 (l1 + l2 + 1)).
Proof.
  intros s1 l1 m1 s2 l2 m2 q Hq. unfold product_table. destruct (bool_dec (ok s1 l1 m1) true) as [H1|H1].
  - destruct (bool_dec (ok s2 l2 m2) true) as [H2|H2].
    + rewrite (proj2_sig (product_span s1 l1 m1 s2 l2 m2 H1 H2) q Hq). apply csum_ext. intros l I. apply zrange_In in I.
      destruct (ok (s1 + s2) l (m1 + m2)) eqn:E; [|rewrite swsh_not by exact E; apply C_eq; cbn; ring]. destruct (Z.leb_spec l (l1 + l2)); [reflexivity|lia].
    + rewrite (swsh_not s2) by (apply not_true_is_false, H2). rewrite csum_const0; [ring|]. intros l _. apply C_eq; cbn; ring.
  - rewrite (swsh_not s1) by (apply not_true_is_false, H1). rewrite csum_const0; [ring|]. intros l _. apply C_eq; cbn; ring.
Qed.
(** Nothing outside the harmonics that exist, and nothing above the sum of the degrees. *)
Lemma table_zero : forall s1 l1 m1 s2 l2 m2 l, ok s1 l1 m1 && ok s2 l2 m2 && ok (s1 + s2) l (m1 + m2) && (l <=? l1 + l2)%Z = false -> product_table s1 l1 m1 s2 l2 m2 l = 0.
Proof.
  intros s1 l1 m1 s2 l2 m2 l H. unfold product_table. destruct (bool_dec (ok s1 l1 m1) true) as [H1|H1]; [|reflexivity]. destruct (bool_dec (ok s2 l2 m2) true) as [H2|H2]; [|reflexivity].
  rewrite H1, H2 in H. cbn [andb] in H. rewrite H. reflexivity.
Qed.

(** ** Uniqueness *)
Lemma field_unique : forall s L a b, (0 <= L)%Z -> (forall q, qnorm2 q = 1 -> field s L a q = field s L b q) ->
  forall l m, (Z.abs s <= l <= L)%Z -> (- l <= m <= l)%Z -> a l m = b l m.
Proof.
  intros s L a b HL H l m Hl Hm. assert (Z : (a l m - b l m)%C = C0).
  { apply (C68_sampling s L (2 * L + 1) (2 * L + 1) (fun l m => (a l m - b l m)%C) HL ltac:(lia) ltac:(lia)); [|lia|lia].
    intros q I. transitivity (field s L a q - field s L b q)%C; [|rewrite (H q (grid_points_unit _ _ _ I)); ring].
    unfold field. replace (csum (fun lm => (a (fst lm) (snd lm) * swsh s (fst lm) (snd lm) q)%C) (LM_range 0 L) - csum (fun lm => (b (fst lm) (snd lm) * swsh s (fst lm) (snd lm) q)%C) (LM_range 0 L))%C
      with (csum (fun lm => (a (fst lm) (snd lm) * swsh s (fst lm) (snd lm) q)%C) (LM_range 0 L) + Copp C1 * csum (fun lm => (b (fst lm) (snd lm) * swsh s (fst lm) (snd lm) q)%C) (LM_range 0 L))%C by ring.
    rewrite <- csum_scale, <- csum_add. apply csum_ext. intros; ring. }
  transitivity ((a l m - b l m) + b l m)%C; [ring|rewrite Z; ring].
Qed.
(** The sum of harmonics of one order is a field. *)
Definition at_order (m0 : Z) (c : Z -> C) : Z -> Z -> C := fun l m => if (m =? m0)%Z then c l else C0.
Lemma order_field : forall s L m0 c q, csum (fun l => (c l * swsh s l m0 q)%C) (zrange 0 (L + 1)) = field s L (at_order m0 c) q.
Proof.
  intros s L m0 c q. rewrite field_by_l. apply csum_ext. intros l I. apply zrange_In in I. destruct (Z.le_gt_cases (Z.abs m0) l) as [A|A].
  - rewrite (csum_pick _ _ (ms_of l) m0).
    + unfold at_order. rewrite Z.eqb_refl. reflexivity.
    + apply zrange_NoDup.
    + apply zrange_In. lia.
    + intros x _ Ne. unfold at_order. destruct (Z.eqb_spec x m0); [contradiction|ring].
  - rewrite swsh_out by lia. rewrite csum_const0; [ring|]. intros m Im. apply zrange_In in Im. unfold at_order. destruct (Z.eqb_spec m m0); [lia|ring].
Qed.
Lemma product_field : forall s1 l1 m1 s2 l2 m2 q, qnorm2 q = 1 ->
  (swsh s1 l1 m1 q * swsh s2 l2 m2 q)%C = field (s1 + s2) (l1 + l2) (at_order (m1 + m2) (fun l => RtoC (product_table s1 l1 m1 s2 l2 m2 l))) q.
Proof. intros. rewrite C72_harmonics, <- order_field by assumption. apply csum_ext. intros l _. apply Cscale_mul. Qed.

(** Any coefficients with which the products of harmonics come out are those of the table. *)
Theorem C72_unique : forall s1 l1 m1 s2 l2 m2 (c : Z -> C),
  (forall q, qnorm2 q = 1 -> (swsh s1 l1 m1 q * swsh s2 l2 m2 q)%C = csum (fun l => (c l * swsh (s1 + s2) l (m1 + m2) q)%C) (zrange 0 (l1 + l2 + 1))) ->
  forall l, (Z.abs (s1 + s2) <= l <= l1 + l2)%Z -> (Z.abs (m1 + m2) <= l)%Z -> c l = RtoC (product_table s1 l1 m1 s2 l2 m2 l).
Proof.
  intros s1 l1 m1 s2 l2 m2 c H l Hl Hm.
  pose proof (field_unique (s1 + s2) (l1 + l2) (at_order (m1 + m2) c) (at_order (m1 + m2) (fun l => RtoC (product_table s1 l1 m1 s2 l2 m2 l))) ltac:(lia)) as U.
  assert (E : forall q, qnorm2 q = 1 -> field (s1 + s2) (l1 + l2) (at_order (m1 + m2) c) q = field (s1 + s2) (l1 + l2) (at_order (m1 + m2) (fun l => RtoC (product_table s1 l1 m1 s2 l2 m2 l))) q).
  { intros q Hq. rewrite <- order_field, <- H, product_field by exact Hq. reflexivity. }
  specialize (U E l (m1 + m2)%Z ltac:(lia) ltac:(lia)). unfold at_order in U. rewrite Z.eqb_refl in U. exact U.
Qed.
Theorem C72_symmetric : K_symmetric product_table.
Proof.
  intros s1 l1 m1 s2 l2 m2 l. destruct (ok s1 l1 m1 && ok s2 l2 m2 && ok (s1 + s2) l (m1 + m2) && (l <=? l1 + l2)%Z) eqn:V.
  - apply andb_true_iff in V. destruct V as [V HL]. apply andb_true_iff in V. destruct V as [V O3]. apply ok_true in O3. apply Z.leb_le in HL.
    assert (E : RtoC (product_table s1 l1 m1 s2 l2 m2 l) = RtoC (product_table s2 l2 m2 s1 l1 m1 l)); [|exact (f_equal re E)].
    apply (C72_unique s2 l2 m2 s1 l1 m1 (fun l => RtoC (product_table s1 l1 m1 s2 l2 m2 l))); [|lia|lia]. intros q Hq.
    transitivity (swsh s1 l1 m1 q * swsh s2 l2 m2 q)%C; [ring|]. rewrite C72_harmonics by exact Hq. replace (l2 + l1)%Z with (l1 + l2)%Z by lia. apply csum_ext. intros x _.
    rewrite Cscale_mul. replace (s2 + s1)%Z with (s1 + s2)%Z by lia. replace (m2 + m1)%Z with (m1 + m2)%Z by lia. reflexivity.
  - rewrite !table_zero; [reflexivity| |exact V]. rewrite (andb_comm (ok s2 l2 m2)), (Z.add_comm s2), (Z.add_comm m2), (Z.add_comm l2). exact V.
Qed.
Lemma ok_opp : forall s l m, ok (- s) l (- m) = ok s l m.
Proof. intros. unfold ok. rewrite !Z.abs_opp. reflexivity. Qed.
Theorem C72_flip : K_flip product_table.
Proof.
  intros s1 l1 m1 s2 l2 m2 l. destruct (ok s1 l1 m1 && ok s2 l2 m2 && ok (s1 + s2) l (m1 + m2) && (l <=? l1 + l2)%Z) eqn:V.
  - apply andb_true_iff in V. destruct V as [V HL]. apply andb_true_iff in V. destruct V as [V O3]. apply ok_true in O3. apply Z.leb_le in HL.
    assert (E : RtoC (product_table (- s1) l1 (- m1) (- s2) l2 (- m2) l) = RtoC (product_table s1 l1 m1 s2 l2 m2 l)); [|exact (f_equal re E)].
    apply (C72_unique s1 l1 m1 s2 l2 m2 (fun l => RtoC (product_table (- s1) l1 (- m1) (- s2) l2 (- m2) l))); [|lia|lia]. intros q Hq.
    assert (CJ : forall s l m, swsh s l m q = (RtoC (sgn (s + m)) * Conj (swsh (- s) l (- m) q))%C).
    { intros s l0 m. pose proof (C68_harmonic_conjugate (- s) l0 (- m) q) as A. rewrite !Z.opp_involutive in A. rewrite A. replace (- s + - m)%Z with (- (s + m))%Z by lia. rewrite sgn_opp.
      pose proof (sgn_sq (s + m)) as Q. transitivity (RtoC (sgn (s + m) * sgn (s + m)) * swsh s l0 m q)%C; [rewrite Q; apply C_eq; cbn; ring|rewrite RtoC_mul; ring]. }
    rewrite (CJ s1), (CJ s2). transitivity (RtoC (sgn (s1 + m1) * sgn (s2 + m2)) * Conj (swsh (- s1) l1 (- m1) q * swsh (- s2) l2 (- m2) q))%C; [rewrite Conj_mul, RtoC_mul; ring|].
    rewrite C72_harmonics by exact Hq. rewrite csum_conj, <- csum_scale. apply csum_ext. intros x _. rewrite (CJ (s1 + s2)%Z). rewrite <- sgn_add.
    replace (s1 + m1 + (s2 + m2))%Z with (s1 + s2 + (m1 + m2))%Z by lia. replace (- (s1 + s2))%Z with (- s1 + - s2)%Z by lia. replace (- (m1 + m2))%Z with (- m1 + - m2)%Z by lia.
    rewrite Cscale_mul, Conj_mul, Conj_RtoC. ring.
  - rewrite !table_zero; [reflexivity|exact V|]. replace (- s1 + - s2)%Z with (- (s1 + s2))%Z by lia. replace (- m1 + - m2)%Z with (- (m1 + m2))%Z by lia. rewrite !ok_opp. exact V.
Qed.

(** ** The mean of the product of two harmonics *)
Lemma swsh_turn : forall s l m q r, (Z.abs s <= l)%Z -> (- l <= m <= l)%Z -> swsh s l m (qmul q r) = csum (fun k => (wigner_D q l m k * swsh s l k r)%C) (ms_of l).
Proof.
  intros s l m q r Hs Hm. rewrite swsh_in by lia. rewrite <- C25_wigner_product by lia. rewrite <- csum_scale. apply csum_ext. intros k I. apply zrange_In in I. rewrite (swsh_in s l k) by lia. ring.
Qed.
Lemma D_000 : forall q, wigner_D q 0 0 0 = C1.
Proof.
  intros q. unfold wigner_D. change (Z.to_nat _) with 0%nat. cbn [Z.opp Z.add Z.to_nat seq csum]. unfold wterm, wnorm. cbn [Nat.leb Nat.add andb Nat.sub bin INR fact pow Cpow].
  rewrite Rmult_1_r, sqrt_1. apply C_eq; cbn; field.
Qed.
Lemma field_csum : forall A s L (k : A -> C) (f : A -> Z -> Z -> C) xs q,
  field s L (fun l m => csum (fun x => (k x * f x l m)%C) xs) q = csum (fun x => (k x * field s L (f x) q)%C) xs.
Proof.
  intros A s L k f xs q. unfold field. transitivity (csum (fun lm => csum (fun x => (k x * f x (fst lm) (snd lm) * swsh s (fst lm) (snd lm) q)%C) xs) (LM_range 0 L)).
  - apply csum_ext. intros lm _. rewrite csum_scale_r. reflexivity.
  - rewrite csum_swap. apply csum_ext. intros x _. rewrite <- csum_scale. apply csum_ext. intros; ring.
Qed.
Definition mean (s l1 l2 m : Z) : R := product_table s l1 m (- s) l2 (- m) 0.
Lemma mean_out : forall s l1 l2 m, (l1 < Z.abs m \/ l2 < Z.abs m)%Z -> mean s l1 l2 m = 0.
Proof.
  intros s l1 l2 m H. unfold mean. apply table_zero. unfold ok. rewrite !Z.abs_opp. destruct H as [H|H].
  - replace (Z.abs m <=? l1)%Z with false by lia. rewrite andb_false_r. reflexivity.
  - replace (Z.abs m <=? l2)%Z with false by lia. rewrite !andb_false_r. reflexivity.
Qed.
Lemma mean_turn : forall s l1 l2 m k q, (Z.abs s <= l1)%Z -> (Z.abs s <= l2)%Z -> (- l1 <= m <= l1)%Z -> (- l2 <= k <= l2)%Z -> qnorm2 q = 1 ->
  (if (m =? k)%Z then RtoC (mean s l1 l2 m) else C0) = csum (fun m' => (RtoC (mean s l1 l2 m') * wigner_D q l1 m m' * (RtoC (sgn (k + m')) * Conj (wigner_D q l2 k m')))%C) (ms_of l1).
Proof.
  intros s l1 l2 m k q H1 H2 Hm Hk Hq.
  set (T := fun m1 m2 => at_order (m1 + m2) (fun l => RtoC (product_table s l1 m1 (- s) l2 m2 l))).
  set (A := turn wigner_D q (T m (- k)%Z)).
  set (B := fun l n => csum (fun m1 => (wigner_D q l1 m m1 * csum (fun m2 => (wigner_D q l2 (- k) m2 * T m1 m2 l n)%C) (ms_of l2))%C) (ms_of l1)).
  assert (U : A 0%Z 0%Z = B 0%Z 0%Z).
  { apply (field_unique 0 (l1 + l2) A B); [lia| |lia|lia]. intros r Hr. unfold A. rewrite C68_field_rotation by lia.
    pose proof (product_field s l1 m (- s) l2 (- k) (qmul q r)) as P. replace (s + - s)%Z with 0%Z in P by lia. unfold T at 1. rewrite <- P by (rewrite qnorm2_mul, Hq, Hr; ring).
    rewrite !swsh_turn by lia. unfold B. rewrite field_csum, <- csum_scale_r. apply csum_ext. intros m1 _. rewrite field_csum.
    rewrite <- !csum_scale. apply csum_ext. intros m2 _. pose proof (product_field s l1 m1 (- s) l2 m2 r Hr) as P2. replace (s + - s)%Z with 0%Z in P2 by lia.
    unfold T. rewrite <- P2. ring. }
  assert (UA : A 0%Z 0%Z = if (m =? k)%Z then RtoC (mean s l1 l2 m) else C0).
  { unfold A, turn. change (ms_of 0) with [0%Z]. cbn [csum]. rewrite D_000. unfold T, at_order. replace (0 =? m + - k)%Z with (m =? k)%Z by lia.
    destruct (Z.eqb_spec m k) as [->|_]; [unfold mean; ring|ring]. }
  rewrite <- UA, U. unfold B. apply csum_ext. intros m1 I. apply zrange_In in I.
  assert (DC : forall x, (- l2 <= x <= l2)%Z -> (RtoC (sgn (k + x)) * Conj (wigner_D q l2 k x))%C = wigner_D q l2 (- k) (- x)).
  { intros x Hx. rewrite D_conj by lia. transitivity (RtoC (sgn (k + x) * sgn (k + x)) * wigner_D q l2 (- k) (- x))%C; [rewrite RtoC_mul; ring|]. rewrite sgn_sq. apply C_eq; cbn; ring. }
  destruct (Z.le_gt_cases (Z.abs m1) l2) as [C|C].
  - rewrite DC by lia. rewrite (csum_pick _ _ (ms_of l2) (- m1)%Z).
    + unfold T, at_order, mean. replace (0 =? m1 + - m1)%Z with true by lia. ring.
    + apply zrange_NoDup.
    + apply zrange_In. lia.
    + intros x _ Ne. unfold T, at_order. destruct (Z.eqb_spec 0 (m1 + x)); [lia|ring].
  - rewrite mean_out by lia. rewrite csum_const0.
    + apply C_eq; cbn; ring.
    + intros x J. apply zrange_In in J. unfold T, at_order. destruct (Z.eqb_spec 0 (m1 + x)); [lia|ring].
Qed.
Lemma D_columns : forall q l m' m, qnorm2 q = 1 -> (0 <= l)%Z -> (- l <= m' <= l)%Z -> (- l <= m <= l)%Z ->
  csum (fun k => (Conj (wigner_D q l k m') * wigner_D q l k m)%C) (ms_of l) = if (m' =? m)%Z then C1 else C0.
Proof.
  intros q l m' m Hq Hl H H'. rewrite <- (C25_wigner_one l m' m) by assumption. replace q1 with (qmul (qconj q) q).
  - rewrite <- C25_wigner_product by assumption. apply csum_ext. intros k I. apply zrange_In in I. rewrite C25_wigner_adjoint by lia. reflexivity.
  - unfold qnorm2 in Hq. apply quat_eq; cbn; nra.
Qed.
Lemma mean_intertwines : forall s l1 l2 m mu q, (Z.abs s <= l1)%Z -> (Z.abs s <= l2)%Z -> (Z.abs m <= l1)%Z -> (Z.abs m <= l2)%Z -> (Z.abs mu <= l1)%Z -> (Z.abs mu <= l2)%Z -> qnorm2 q = 1 ->
  (RtoC (sgn m * mean s l1 l2 m) * wigner_D q l2 m mu)%C = (RtoC (sgn mu * mean s l1 l2 mu) * wigner_D q l1 m mu)%C.
Proof.
  intros s l1 l2 m mu q H1 H2 M1 M2 U1 U2 Hq.
  transitivity (csum (fun k => (RtoC (sgn k) * wigner_D q l2 k mu * (if (m =? k)%Z then RtoC (mean s l1 l2 m) else C0))%C) (ms_of l2)).
  - rewrite (csum_pick _ _ (ms_of l2) m).
    + rewrite Z.eqb_refl, RtoC_mul. ring.
    + apply zrange_NoDup.
    + apply zrange_In. lia.
    + intros x _ Ne. destruct (Z.eqb_spec m x); [congruence|ring].
  - transitivity (csum (fun k => csum (fun m' => (RtoC (sgn m') * RtoC (mean s l1 l2 m') * wigner_D q l1 m m' * (Conj (wigner_D q l2 k m') * wigner_D q l2 k mu))%C) (ms_of l1)) (ms_of l2)).
    + apply csum_ext. intros k I. apply zrange_In in I. rewrite (mean_turn s l1 l2 m k q) by (try assumption; lia). rewrite <- csum_scale. apply csum_ext. intros m' _.
      rewrite sgn_add, RtoC_mul. transitivity (RtoC (sgn k * sgn k) * (RtoC (sgn m') * RtoC (mean s l1 l2 m') * wigner_D q l1 m m' * (Conj (wigner_D q l2 k m') * wigner_D q l2 k mu)))%C; [rewrite RtoC_mul; ring|].
      rewrite sgn_sq. apply C_eq; cbn; ring.
    + rewrite csum_swap. rewrite (csum_pick _ _ (ms_of l1) mu).
      * rewrite csum_scale, D_columns by (exact Hq || lia). rewrite Z.eqb_refl, RtoC_mul. ring.
      * apply zrange_NoDup.
      * apply zrange_In. lia.
      * intros x I Ne. apply zrange_In in I. rewrite csum_scale. destruct (Z.le_gt_cases (Z.abs x) l2) as [C|C].
        -- rewrite D_columns by (exact Hq || lia). destruct (Z.eqb_spec x mu); [contradiction|ring].
        -- rewrite mean_out by lia. apply C_eq; cbn; ring.
Qed.

Lemma harmonics_independent : forall s l1 l2 m x y, (Z.abs s <= l1)%Z -> (Z.abs s <= l2)%Z -> (Z.abs m <= l1)%Z -> (Z.abs m <= l2)%Z ->
  (forall q, qnorm2 q = 1 -> (x * swsh s l2 m q)%C = (y * swsh s l1 m q)%C) -> if (l1 =? l2)%Z then x = y else x = C0.
Proof.
  intros s l1 l2 m x y S1 S2 M1 M2 H. set (L := Z.max l1 l2).
  assert (F : forall l z q, (0 <= l <= L)%Z -> (z * swsh s l m q)%C = field s L (at_order m (fun k => if (k =? l)%Z then z else C0)) q).
  { intros l z q Hl. rewrite <- order_field. rewrite (csum_pick _ _ (zrange 0 (L + 1)) l).
    - rewrite Z.eqb_refl. reflexivity.
    - apply zrange_NoDup.
    - apply zrange_In. lia.
    - intros k _ Ne. destruct (Z.eqb_spec k l); [contradiction|ring]. }
  pose proof (field_unique s L (at_order m (fun k => if (k =? l2)%Z then x else C0)) (at_order m (fun k => if (k =? l1)%Z then y else C0)) ltac:(lia)) as U.
  specialize (U ltac:(intros q Hq; rewrite <- !F by lia; apply H, Hq) l2 m ltac:(lia) ltac:(lia)). unfold at_order in U. rewrite !Z.eqb_refl in U.
  rewrite (Z.eqb_sym l2 l1) in U. destruct (l1 =? l2)%Z; exact U.
Qed.
Lemma D_swsh : forall q l m mu, (Z.abs m <= l)%Z -> (Z.abs mu <= l)%Z -> wigner_D q l m mu = (RtoC (sgn mu / sqrt (IZR (2 * l + 1) / (4 * PI))) * swsh (- mu) l m q)%C.
Proof.
  intros q l m mu Hm Hu. rewrite swsh_in by lia. rewrite Z.opp_involutive, sgn_opp. pose proof PI_RGT_0. assert (0 < IZR (2 * l + 1)) by (apply IZR_lt; lia).
  assert (N : sqrt (IZR (2 * l + 1) / (4 * PI)) <> 0) by (apply Rgt_not_eq, sqrt_lt_R0; apply Rdiv_lt_0_compat; lra).
  set (n := sqrt _) in *. transitivity (RtoC (sgn mu * sgn mu * (n / n)) * wigner_D q l m mu)%C.
  - rewrite sgn_sq. replace (1 * (n / n)) with 1 by (field; exact N). apply C_eq; cbn; ring.
  - transitivity (RtoC ((sgn mu / n) * (sgn mu * n)) * wigner_D q l m mu)%C; [f_equal; f_equal; field; exact N|rewrite RtoC_mul; ring].
Qed.
Lemma mean_schur : forall s l1 l2 m mu, (Z.abs s <= l1)%Z -> (Z.abs s <= l2)%Z -> (Z.abs m <= l1)%Z -> (Z.abs m <= l2)%Z -> (Z.abs mu <= l1)%Z -> (Z.abs mu <= l2)%Z ->
  if (l1 =? l2)%Z then sgn m * mean s l1 l2 m = sgn mu * mean s l1 l2 mu else mean s l1 l2 m = 0.
Proof.
  intros s l1 l2 m mu H1 H2 M1 M2 U1 U2. pose proof PI_RGT_0.
  set (N := fun l => sqrt (IZR (2 * l + 1) / (4 * PI))). assert (NZ : forall l, (0 <= l)%Z -> N l <> 0).
  { intros l Hl. apply Rgt_not_eq, sqrt_lt_R0. apply Rdiv_lt_0_compat; [apply IZR_lt; lia|lra]. }
  pose proof (harmonics_independent (- mu) l1 l2 m (RtoC (sgn m * mean s l1 l2 m * (sgn mu / N l2))) (RtoC (sgn mu * mean s l1 l2 mu * (sgn mu / N l1))) ltac:(lia) ltac:(lia) M1 M2) as I.
  assert (G : forall z, sgn z <> 0) by (intros z E; pose proof (sgn_sq z) as Q; rewrite E in Q; lra).
  specialize (I ltac:(intros q Hq; pose proof (mean_intertwines s l1 l2 m mu q H1 H2 M1 M2 U1 U2 Hq) as E; rewrite !D_swsh in E by assumption; fold (N l1) (N l2) in E; rewrite !(RtoC_mul _ (_ / _)); etransitivity; [|etransitivity; [exact E|]]; ring)).
  destruct (Z.eqb_spec l1 l2) as [<-|Ne].
  - apply (f_equal re) in I. cbn [re RtoC] in I. apply (Rmult_eq_reg_r (sgn mu / N l1)); [exact I|]. unfold Rdiv. apply Rmult_integral_contrapositive_currified; [apply G|apply Rinv_neq_0_compat, NZ; lia].
  - apply (f_equal re) in I. cbn [re RtoC] in I. destruct (Rmult_integral _ _ I) as [Z|Z].
    + destruct (Rmult_integral _ _ Z) as [Z'|Z']; [exfalso; exact (G _ Z')|exact Z'].
    + exfalso. revert Z. unfold Rdiv. apply Rmult_integral_contrapositive_currified; [apply G|apply Rinv_neq_0_compat, NZ; lia].
Qed.
(** The squares of the harmonics of one degree add up to (2 ell + 1) / 4 pi at every point. *)
Theorem C72_addition : forall s l q, qnorm2 q = 1 -> (Z.abs s <= l)%Z -> csum (fun m => (swsh s l m q * Conj (swsh s l m q))%C) (ms_of l) = RtoC (IZR (2 * l + 1) / (4 * PI)).
Proof.
  intros s l q Hq Hs. pose proof PI_RGT_0. assert (0 < IZR (2 * l + 1)) by (apply IZR_lt; lia).
  assert (Q : sqrt (IZR (2 * l + 1) / (4 * PI)) * sqrt (IZR (2 * l + 1) / (4 * PI)) = IZR (2 * l + 1) / (4 * PI)) by (apply sqrt_sqrt, Rlt_le, Rdiv_lt_0_compat; lra).
  transitivity (RtoC (IZR (2 * l + 1) / (4 * PI)) * csum (fun k => (Conj (wigner_D q l k (- s)) * wigner_D q l k (- s))%C) (ms_of l))%C.
  - rewrite <- csum_scale. apply csum_ext. intros m I. apply zrange_In in I. rewrite swsh_in by lia. rewrite Conj_mul, Conj_RtoC. pose proof (sgn_sq s) as G. set (n := sqrt _) in *. rewrite <- Q.
    transitivity (RtoC (sgn s * sgn s * (n * n)) * (Conj (wigner_D q l m (- s)) * wigner_D q l m (- s)))%C; [|rewrite G, Rmult_1_l; reflexivity].
    replace (sgn s * sgn s * (n * n)) with ((sgn s * n) * (sgn s * n)) by ring. rewrite (RtoC_mul (sgn s * n)). ring.
  - rewrite D_columns by (exact Hq || lia). rewrite Z.eqb_refl. ring.
Qed.
Lemma ms_count : forall l (z : R), (0 <= l)%Z -> rsum (fun _ => z) (ms_of l) = IZR (2 * l + 1) * z.
Proof.
  intros l z Hl. assert (G : forall A (xs : list A), rsum (fun _ => z) xs = INR (length xs) * z).
  { intros A xs. induction xs as [|x xs IH]; [cbn; ring|]. cbn [rsum length]. rewrite IH, S_INR. ring. }
  rewrite G. unfold ms_of. rewrite zrange_length. f_equal. rewrite INR_IZR_INZ. f_equal. lia.
Qed.
Lemma mean_value : forall s l m, (Z.abs s <= l)%Z -> (Z.abs m <= l)%Z -> mean s l l m = sgn (s + m) / sqrt (4 * PI).
Proof.
  intros s l m Hs Hm. pose proof PI_RGT_0. assert (P4 : 0 < sqrt (4 * PI)) by (apply sqrt_lt_R0; lra). assert (Q4 : sqrt (4 * PI) * sqrt (4 * PI) = 4 * PI) by (apply sqrt_sqrt; lra).
  assert (P1 : 0 < IZR (2 * l + 1)) by (apply IZR_lt; lia).
  set (A := fun a b : Z => if ((a =? 0) && (b =? 0))%Z then RtoC (IZR (2 * l + 1) / sqrt (4 * PI)) else C0).
  set (B := fun a b => csum (fun k => (RtoC (sgn (s + k)) * at_order (k + - k) (fun x => RtoC (product_table s l k (- s) l (- k) x)) a b)%C) (ms_of l)).
  assert (U : A 0%Z 0%Z = B 0%Z 0%Z).
  { apply (field_unique 0 (l + l) A B); [lia| |lia|lia]. intros q Hq. unfold B. rewrite field_csum. transitivity (RtoC (IZR (2 * l + 1) / (4 * PI))).
    - unfold field. rewrite (csum_pick _ _ (LM_range 0 (l + l)) (0%Z, 0%Z)).
      + cbn [fst snd]. unfold A. cbn [Z.eqb andb]. rewrite swsh_00. unfold Y0. rewrite <- RtoC_mul. f_equal. set (r := sqrt (4 * PI)) in *. rewrite <- Q4. field. lra.
      + apply keys_nodup.
      + apply LM_range_In. lia.
      + intros [a b] _ Ne. cbn [fst snd]. unfold A. destruct (Z.eqb_spec a 0) as [->|]; [destruct (Z.eqb_spec b 0) as [->|]; [congruence|]|]; cbn [andb]; ring.
    - rewrite <- (C72_addition s l q Hq Hs). apply csum_ext. intros k I. rewrite C68_harmonic_conjugate. pose proof (product_field s l k (- s) l (- k) q Hq) as P. replace (s + - s)%Z with 0%Z in P by lia.
      transitivity (RtoC (sgn (s + k)) * (swsh s l k q * swsh (- s) l (- k) q))%C; [ring|]. rewrite P. reflexivity. }
  assert (E : IZR (2 * l + 1) / sqrt (4 * PI) = IZR (2 * l + 1) * (sgn s * (sgn m * mean s l l m))).
  { rewrite <- ms_count by lia. apply (f_equal re) in U. unfold A in U. cbn [Z.eqb andb re RtoC] in U. rewrite U. unfold B.
    rewrite (csum_ext _ (fun k => RtoC (sgn s * (sgn m * mean s l l m)))).
    - rewrite csum_RtoC. reflexivity.
    - intros k I. apply zrange_In in I. unfold at_order. replace (0 =? k + - k)%Z with true by lia. rewrite <- RtoC_mul. f_equal. fold (mean s l l k).
      pose proof (mean_schur s l l m k Hs Hs Hm Hm ltac:(lia) ltac:(lia)) as G. rewrite Z.eqb_refl in G. rewrite G, sgn_add. ring. }
  apply (Rmult_eq_reg_l (sgn s * sgn m)).
  - rewrite sgn_add. pose proof (sgn_sq s) as G. pose proof (sgn_sq m) as G'. transitivity (1 / sqrt (4 * PI)).
    + apply (Rmult_eq_reg_l (IZR (2 * l + 1))); [|lra]. transitivity (IZR (2 * l + 1) * (sgn s * (sgn m * mean s l l m))); [ring|]. rewrite <- E. field. lra.
    + transitivity (sgn s * sgn s * (sgn m * sgn m) / sqrt (4 * PI)); [rewrite G, G'; f_equal; ring|unfold Rdiv; ring].
  - intros Z. pose proof (sgn_sq s) as G. pose proof (sgn_sq m) as G'. assert (1 = sgn s * sgn m * (sgn s * sgn m)) by (transitivity ((sgn s * sgn s) * (sgn m * sgn m)); [rewrite G, G'; ring|ring]). rewrite Z in H0. lra.
Qed.
(** Only harmonics of the same degree and opposite order have a product with a mean, and its value. *)
Theorem C72_mean : forall s l1 l2 m, product_table s l1 m (- s) l2 (- m) 0 = if ((l1 =? l2) && (Z.abs s <=? l1) && (Z.abs m <=? l1))%Z then sgn (s + m) / sqrt (4 * PI) else 0.
Proof.
  intros s l1 l2 m. fold (mean s l1 l2 m). destruct (Z.leb_spec (Z.abs m) l1) as [M1|M1]; [|rewrite andb_false_r; apply mean_out; lia].
  destruct (Z.leb_spec (Z.abs s) l1) as [S1|S1]; [|rewrite !andb_false_r; apply table_zero; unfold ok; replace (Z.abs s <=? l1)%Z with false by lia; reflexivity].
  rewrite !andb_true_r. destruct (Z.le_gt_cases (Z.abs m) l2) as [M2|M2]; [|rewrite mean_out by lia; destruct (Z.eqb_spec l1 l2); [lia|reflexivity]].
  destruct (Z.le_gt_cases (Z.abs s) l2) as [S2|S2].
  - pose proof (mean_schur s l1 l2 m m S1 S2 M1 M2 M1 M2) as G. destruct (Z.eqb_spec l1 l2) as [<-|Ne]; [apply mean_value; assumption|exact G].
  - destruct (Z.eqb_spec l1 l2); [lia|]. apply table_zero. unfold ok. rewrite !Z.abs_opp. replace (Z.abs s <=? l2)%Z with false by lia. cbn [andb]. rewrite andb_false_r. reflexivity.
Qed.
Theorem C72_orthogonal : K_orthogonal product_table.
Proof. intros l1 l2 m. change (-2)%Z with (- (2))%Z. rewrite C72_mean, sgn_add. change (sgn 2) with 1. rewrite Rmult_1_l. reflexivity. Qed.
