(** C03-C07: bit-level codecs. *)
From Coq Require Import ZArith List Lia Bool.
From Verif Require Import Common Codec_Model.
Import ListNotations.
Open Scope Z_scope.
Local Arguments Z.pow : simpl never.
Local Arguments Z.mul : simpl never.
Local Arguments Z.modulo : simpl never.
Local Arguments Z.div : simpl never.

(** * C03 *)
(** Specification: successive differences / running totals in the XOR group. *)
Fixpoint spec_delta (prev : Z) (l : list Z) : list Z :=
  match l with [] => [] | x :: t => Z.lxor prev x :: spec_delta x t end.
Fixpoint spec_undelta (prev : Z) (l : list Z) : list Z :=
  match l with [] => [] | x :: t => Z.lxor prev x :: spec_undelta (Z.lxor prev x) t end.
Definition spec_xor (l : list Z) := match l with [] => [] | x :: t => x :: spec_delta x t end.
Definition spec_unxor (l : list Z) := match l with [] => [] | x :: t => x :: spec_undelta x t end.

Lemma spec_undelta_delta : forall l p, spec_undelta p (spec_delta p l) = l.
Proof.
  induction l; intros; simpl; auto.
  rewrite <- Z.lxor_assoc, Z.lxor_nilpotent, Z.lxor_0_l. f_equal. apply IHl.
Qed.
Lemma spec_delta_undelta : forall l p, spec_delta p (spec_undelta p l) = l.
Proof.
  induction l; intros; simpl; auto.
  rewrite <- Z.lxor_assoc, Z.lxor_nilpotent, Z.lxor_0_l. f_equal. apply IHl.
Qed.

Lemma upd_app_mid : forall A (l1 : list A) x l2 v, upd (l1 ++ x :: l2) (length l1) v = Some (l1 ++ v :: l2).
Proof. induction l1; intros; simpl; auto. rewrite IHl1. reflexivity. Qed.
Lemma nth_error_mid : forall A (l1 : list A) x l2, nth_error (l1 ++ x :: l2) (length l1) = Some x.
Proof. induction l1; simpl; auto. Qed.

Lemma spec_delta_app : forall l1 p x l2,
  spec_delta p (l1 ++ [x] ++ l2) = spec_delta p (l1 ++ [x]) ++ spec_delta x l2.
Proof. induction l1; intros; simpl; auto. f_equal. apply IHl1. Qed.

Lemma xor_loop_spec : forall l1 x0 l2,
  xor_loop (length l1) ((x0 :: l1) ++ l2) = Ok ((x0 :: spec_delta x0 l1) ++ l2).
Proof.
  intros l1. remember (length l1) as n. revert l1 Heqn.
  induction n; intros l1 Hn x0 l2.
  - destruct l1; [|discriminate]. reflexivity.
  - destruct (exists_last (l := l1)) as (l1' & x & ->); [destruct l1; discriminate|].
    rewrite app_length in Hn. simpl in Hn. assert (n = length l1') by lia. subst n.
    cbn [xor_loop].
    assert (E : (x0 :: l1' ++ [x]) ++ l2 = (x0 :: l1') ++ x :: l2) by (simpl; rewrite <- app_assoc; auto).
    rewrite E.
    assert (N2 : nth_error ((x0 :: l1') ++ x :: l2) (S (length l1')) = Some x)
      by (apply (nth_error_mid _ (x0 :: l1'))).
    assert (U : forall v, upd ((x0 :: l1') ++ x :: l2) (S (length l1')) v = Some ((x0 :: l1') ++ v :: l2))
      by (intros; apply (upd_app_mid _ (x0 :: l1'))).
    set (p := last (x0 :: l1') 0).
    assert (N1 : nth_error ((x0 :: l1') ++ x :: l2) (length l1') = Some p).
    { rewrite nth_error_app1 by (simpl; lia).
      unfold p. clear. revert x0. induction l1'; intros; [reflexivity|].
      simpl length. cbn [nth_error]. rewrite IHl1'. reflexivity. }
    rewrite N1, N2, U.
    rewrite (IHn l1' eq_refl x0 (Z.lxor p x :: l2)).
    f_equal.
    assert (ED : forall (l : list Z) q, spec_delta q (l ++ [x]) = spec_delta q l ++ [Z.lxor (last (q :: l) 0) x]).
    { clear. induction l; intros; simpl; auto. f_equal. rewrite IHl. simpl. reflexivity. }
    rewrite ED. fold p. simpl. rewrite <- app_assoc. reflexivity.
Qed.

Lemma xor_timeseries_eq : forall u, xor_timeseries u = Ok (spec_xor u).
Proof.
  destruct u as [|x t]; [reflexivity|]. unfold xor_timeseries. replace (length (x :: t) - 1)%nat with (length t) by (simpl; lia). generalize (xor_loop_spec t x []). rewrite !app_nil_r. auto.
Qed.

Lemma xor_rev_loop_spec : forall l2 l1 p,
  xor_rev_loop (length l2) (S (length l1)) (l1 ++ p :: l2) = Ok (l1 ++ p :: spec_undelta p l2).
Proof.
  induction l2 as [|x l2 IH]; intros l1 p; [reflexivity|].
  cbn [length xor_rev_loop]. rewrite Nat.sub_succ, Nat.sub_0_r.
  rewrite nth_error_mid.
  assert (N2 : nth_error (l1 ++ p :: x :: l2) (S (length l1)) = Some x).
  { replace (l1 ++ p :: x :: l2) with ((l1 ++ [p]) ++ x :: l2) by (rewrite <- app_assoc; auto).
    replace (S (length l1)) with (length (l1 ++ [p])) by (rewrite app_length; simpl; lia).
    apply nth_error_mid. }
  rewrite N2.
  assert (U : upd (l1 ++ p :: x :: l2) (S (length l1)) (Z.lxor p x) = Some ((l1 ++ [p]) ++ Z.lxor p x :: l2)).
  { replace (l1 ++ p :: x :: l2) with ((l1 ++ [p]) ++ x :: l2) by (rewrite <- app_assoc; auto).
    replace (S (length l1)) with (length (l1 ++ [p])) by (rewrite app_length; simpl; lia).
    apply upd_app_mid. }
  rewrite U.
  replace (S (S (length l1))) with (S (length (l1 ++ [p]))) by (rewrite app_length; simpl; lia).
  rewrite IH. simpl. rewrite <- app_assoc. reflexivity.
Qed.

Lemma xor_reverse_eq : forall u, xor_timeseries_reverse u = Ok (spec_unxor u).
Proof.
  destruct u as [|x t]; [reflexivity|]. unfold xor_timeseries_reverse. replace (length (x :: t) - 1)%nat with (length t) by (simpl; lia). apply (xor_rev_loop_spec t [] x).
Qed.

Theorem C03_encoding_is_successive_xor : forall u, xor_timeseries u = Ok (spec_xor u).
Proof. exact xor_timeseries_eq. Qed.

Theorem C03_decode_encode : forall u,
  (let? v := xor_timeseries u in xor_timeseries_reverse v) = Ok u.
Proof.
  intros. rewrite xor_timeseries_eq. simpl. rewrite xor_reverse_eq. f_equal.
  destruct u; simpl; auto. f_equal. apply spec_undelta_delta.
Qed.

Theorem C03_encode_decode : forall u,
  (let? v := xor_timeseries_reverse u in xor_timeseries v) = Ok u.
Proof.
  intros. rewrite xor_reverse_eq. simpl. rewrite xor_timeseries_eq. f_equal.
  destruct u; simpl; auto. f_equal. apply spec_delta_undelta.
Qed.

(** Encoded words stay inside the word size. *)
Lemma lxor_range : forall w a b, 0 <= w -> 0 <= a < 2 ^ w -> 0 <= b < 2 ^ w -> 0 <= Z.lxor a b < 2 ^ w.
Proof.
  intros w a b Hw Ha Hb. assert (0 <= Z.lxor a b) by (apply Z.lxor_nonneg; lia).
  split; auto.
  destruct (Z.eq_dec (Z.lxor a b) 0) as [->|]; [apply Z.pow_pos_nonneg; lia|].
  apply Z.log2_lt_pow2; [lia|].
  eapply Z.le_lt_trans; [apply Z.log2_lxor; lia|].
  destruct (Z.eq_dec w 0) as [->|].
  { change (2 ^ 0) with 1 in *. assert (a = 0) by lia. assert (b = 0) by lia. subst. exfalso. apply n; reflexivity. }
  apply Z.max_lub_lt.
  - destruct (Z.eq_dec a 0) as [->|]; [simpl; lia|]. apply Z.log2_lt_pow2; lia.
  - destruct (Z.eq_dec b 0) as [->|]; [simpl; lia|]. apply Z.log2_lt_pow2; lia.
Qed.

Theorem C03_word_size : forall w u v, 0 <= w -> Forall (fun x => 0 <= x < 2 ^ w) u ->
  xor_timeseries u = Ok v -> Forall (fun x => 0 <= x < 2 ^ w) v /\ length v = length u.
Proof.
  intros w u v Hw HF H. rewrite xor_timeseries_eq in H. injection H as <-.
  destruct u as [|x t]; [split; auto|]. simpl. inversion HF; subst.
  assert (forall l p, 0 <= p < 2 ^ w -> Forall (fun x => 0 <= x < 2 ^ w) l ->
     Forall (fun x => 0 <= x < 2 ^ w) (spec_delta p l) /\ length (spec_delta p l) = length l).
  { clear - Hw. induction l; intros; simpl; auto. inversion H0; subst.
    destruct (IHl a H3 H4). split; [constructor; auto; apply lxor_range; auto|lia]. }
  destruct (H t x H1 H2). split; [constructor; auto|lia].
Qed.

Example C03_case : xor_timeseries [5; 7; 7; 9223372036854775808] = Ok [5; 2; 0; 9223372036854775815].
Proof. reflexivity. Qed.

(** * C06: fletcher32 *)
Definition word16 (x : Z) : Prop := 0 <= x < 65536.
Definition zsum (l : list Z) : Z := fold_right Z.add 0 l.
(** Sum of all prefix sums: word number i (0-based) of n counts n - i times. *)
Fixpoint wsum (l : list Z) : Z :=
  match l with [] => 0 | x :: t => x * Z.of_nat (length l) + wsum t end.
(** Mathematical Fletcher-32. *)
Definition spec_fletcher (l : list Z) : Z := (wsum l mod 65535) * 65536 + zsum l mod 65535.

(** The same block loop without any wrap-around. *)
Fixpoint fl_block_ideal (block : list Z) (c0 c1 : Z) : Z * Z :=
  match block with
  | [] => (c0, c1)
  | x :: t => fl_block_ideal t (c0 + x) (c1 + (c0 + x))
  end.

Lemma fl_ideal_eq : forall b c0 c1,
  fl_block_ideal b c0 c1 = (c0 + zsum b, c1 + Z.of_nat (length b) * c0 + wsum b).
Proof.
  induction b; intros; simpl fl_block_ideal; [simpl; f_equal; lia|].
  rewrite IHb. cbn [zsum fold_right wsum length]. fold (zsum b).
  rewrite Nat2Z.inj_succ. f_equal; lia.
Qed.

Lemma zsum_bound : forall b, Forall word16 b -> 0 <= zsum b <= 65535 * Z.of_nat (length b).
Proof.
  induction b; intros; [simpl; lia|]. inversion H; subst. specialize (IHb H3). cbn [zsum fold_right].
  unfold word16 in H2. cbn [length]. fold (zsum b). lia.
Qed.
Lemma wsum_bound : forall b, Forall word16 b ->
  0 <= wsum b /\ 2 * wsum b <= 65535 * (Z.of_nat (length b) * (Z.of_nat (length b) + 1)).
Proof.
  induction b; intros; [simpl; lia|]. inversion H; subst. specialize (IHb H3).
  unfold word16 in H2. cbn [wsum length]. rewrite Nat2Z.inj_succ.
  split; [nia|]. nia.
Qed.

(** All intermediate accumulator values of a block fit in 32 bits. *)
Fixpoint fl_trace (block : list Z) (c0 c1 : Z) : list Z :=
  match block with
  | [] => []
  | x :: t => (c0 + x) :: (c1 + (c0 + x)) :: fl_trace t (c0 + x) (c1 + (c0 + x))
  end.

Lemma fl_trace_bound : forall b c0 c1 m, Forall word16 b ->
  0 <= c0 -> 0 <= c1 -> c0 + 65535 * Z.of_nat (length b) <= m ->
  c1 + Z.of_nat (length b) * c0 + 65535 * (Z.of_nat (length b) * (Z.of_nat (length b) + 1) / 2) <= m ->
  Forall (fun x => 0 <= x <= m) (fl_trace b c0 c1).
Proof.
  induction b; intros c0 c1 m HF H0 H1 Hm0 Hm1; simpl; constructor.
  - inversion HF; subst. unfold word16 in *. cbn [length] in *. lia.
  - inversion HF; subst. unfold word16 in *. cbn [length] in *. rewrite Nat2Z.inj_succ in *.
    assert (Z.succ (Z.of_nat (length b)) <= Z.succ (Z.of_nat (length b)) * (Z.succ (Z.of_nat (length b)) + 1) / 2).
    { apply Z.div_le_lower_bound; nia. }
    constructor; [nia|].
    apply IHb; auto; try lia.
    set (n := Z.of_nat (length b)) in *.
    assert (E : Z.succ n * (Z.succ n + 1) / 2 = n * (n + 1) / 2 + (n + 1)).
    { replace (Z.succ n * (Z.succ n + 1)) with (n * (n + 1) + (n + 1) * 2) by lia.
      apply Z.div_add; lia. }
    rewrite E in Hm1. nia.
Qed.

(** No 32-bit overflow: with reduced starting accumulators and a block of at most 360 words every
    intermediate value is at most 4282122074 < 2^32. *)
Theorem C06_no_overflow : forall b c0 c1,
  Forall word16 b -> (length b <= 360)%nat -> 0 <= c0 < 65535 -> 0 <= c1 < 65535 ->
  Forall (fun x => 0 <= x <= 4282122074) (fl_trace b c0 c1).
Proof.
  intros b c0 c1 HF HL H0 H1.
  assert (Hn : 0 <= Z.of_nat (length b) <= 360) by lia.
  apply fl_trace_bound; try lia; auto.
  assert (Z.of_nat (length b) * (Z.of_nat (length b) + 1) / 2 <= 64980).
  { apply Z.div_le_upper_bound; nia. }
  nia.
Qed.

Lemma fl_block_no_wrap : forall b c0 c1,
  Forall (fun x => 0 <= x < 2 ^ 32) (fl_trace b c0 c1) -> fl_block b c0 c1 = fl_block_ideal b c0 c1.
Proof.
  induction b; intros; simpl; auto. simpl in H. inversion H; subst. inversion H3; subst.
  unfold w32. rewrite !(Z.mod_small (c0 + a)) by lia. rewrite Z.mod_small by lia. auto.
Qed.

(** 360 is optimal: a block of 361 words can overflow (all words 65535, accumulators 65534). *)
Theorem C06_360_is_largest :
  exists x, In x (fl_trace (repeat 65535 361) 65534 65534) /\ 2 ^ 32 <= x.
Proof.
  exists (snd (fl_block_ideal (repeat 65535 361) 65534 65534)).
  split; [|vm_compute; discriminate].
  assert (forall b c0 c1, b <> [] -> In (snd (fl_block_ideal b c0 c1)) (fl_trace b c0 c1)).
  { induction b; intros; [contradiction|]. destruct b; [simpl; auto|].
    right; right. apply IHb. discriminate. }
  apply H. discriminate.
Qed.

Lemma zsum_app : forall a b, zsum (a ++ b) = zsum a + zsum b.
Proof.
  induction a; intros; cbn [app zsum fold_right]; [reflexivity|].
  fold (zsum (a0 ++ b)). fold (zsum a0). rewrite IHa. lia.
Qed.
Lemma wsum_app : forall a b, wsum (a ++ b) = wsum a + Z.of_nat (length b) * zsum a + wsum b.
Proof.
  induction a; intros; cbn [app wsum length]; [simpl; lia|].
  rewrite IHa, app_length. cbn [zsum fold_right]. fold (zsum a0).
  rewrite !Nat2Z.inj_succ, Nat2Z.inj_add. lia.
Qed.

Definition red (x : Z) := x mod 65535.

Lemma fl_loop_spec : forall fuel data c0 c1,
  Forall word16 data -> 0 <= c0 < 65535 -> 0 <= c1 < 65535 -> (length data <= fuel)%nat ->
  fl_loop fuel 360 data c0 c1 =
    Ok ((c0 + zsum data) mod 65535, (c1 + Z.of_nat (length data) * c0 + wsum data) mod 65535).
Proof.
  induction fuel; intros data c0 c1 HF H0 H1 HL.
  - destruct data; [|simpl in HL; lia]. simpl. rewrite !Z.add_0_r, !Z.mod_small by lia. reflexivity.
  - destruct data as [|x t].
    { simpl. rewrite !Z.add_0_r, !Z.mod_small by lia. reflexivity. }
    remember (x :: t) as data.
    assert (E : fl_loop (S fuel) 360 data c0 c1 =
      let '(c0', c1') := fl_block (firstn 360 data) c0 c1 in
      fl_loop fuel 360 (skipn 360 data) (c0' mod 65535) (c1' mod 65535)).
    { subst data. reflexivity. }
    rewrite E.
    assert (HF1 : Forall word16 (firstn 360 data)).
    { apply Forall_forall. intros y Hy. rewrite Forall_forall in HF. apply HF.
      rewrite <- (firstn_skipn 360 data). apply in_or_app; auto. }
    assert (HF2 : Forall word16 (skipn 360 data)).
    { apply Forall_forall. intros y Hy. rewrite Forall_forall in HF. apply HF.
      rewrite <- (firstn_skipn 360 data). apply in_or_app; auto. }
    rewrite fl_block_no_wrap; cycle 1.
    { eapply Forall_impl; [|apply C06_no_overflow; auto; rewrite firstn_length; lia].
      intros; simpl in *. change (2 ^ 32) with 4294967296. lia. }
    rewrite fl_ideal_eq. cbv beta iota.
    rewrite IHfuel; auto; try (apply Z.mod_pos_bound; lia).
    2: { rewrite skipn_length. subst data. simpl length in *. lia. }
    assert (Ez : zsum data = zsum (firstn 360 data) + zsum (skipn 360 data)).
    { rewrite <- (firstn_skipn 360 data) at 1. apply zsum_app. }
    assert (Ew : wsum data = wsum (firstn 360 data) + Z.of_nat (length (skipn 360 data)) * zsum (firstn 360 data) + wsum (skipn 360 data)).
    { rewrite <- (firstn_skipn 360 data) at 1. apply wsum_app. }
    assert (El : Z.of_nat (length data) = Z.of_nat (length (firstn 360 data)) + Z.of_nat (length (skipn 360 data))).
    { rewrite <- (firstn_skipn 360 data) at 1. rewrite app_length. lia. }
    set (n1 := Z.of_nat (length (firstn 360 data))) in *.
    set (n2 := Z.of_nat (length (skipn 360 data))) in *.
    set (z1 := zsum (firstn 360 data)) in *. set (z2 := zsum (skipn 360 data)) in *.
    set (v1 := wsum (firstn 360 data)) in *. set (v2 := wsum (skipn 360 data)) in *.
    f_equal. f_equal.
    + rewrite Zplus_mod_idemp_l. rewrite Ez. f_equal. lia.
    + rewrite Ew, El.
      rewrite <- Z.add_assoc, Zplus_mod_idemp_l.
      rewrite Zplus_mod. rewrite (Zplus_mod (n2 * _)). rewrite Zmult_mod_idemp_r.
      rewrite <- (Zplus_mod (n2 * _)). rewrite <- Zplus_mod. f_equal. lia.
Qed.

Theorem C06_fletcher32_spec : forall data, Forall word16 data ->
  fletcher32 data = Ok (spec_fletcher data).
Proof.
  intros. unfold fletcher32. rewrite fl_loop_spec by (auto; lia). unfold rmap. cbn [fst snd]. f_equal.
  rewrite Z.mul_0_r, !Z.add_0_l. unfold spec_fletcher.
  pose proof (Z.mod_pos_bound (wsum data) 65535 ltac:(lia)).
  pose proof (Z.mod_pos_bound (zsum data) 65535 ltac:(lia)).
  cbn [fst snd]. rewrite Z.shiftl_mul_pow2 by lia.
  assert (E : Z.lor (wsum data mod 65535 * 2 ^ 16) (zsum data mod 65535)
           = wsum data mod 65535 * 2 ^ 16 + zsum data mod 65535).
  { assert (L : Z.land (wsum data mod 65535 * 2 ^ 16) (zsum data mod 65535) = 0).
    { apply Z.bits_inj'. intros n Hn. rewrite Z.land_spec, Z.bits_0.
      destruct (Z.lt_ge_cases n 16).
      + rewrite Z.mul_pow2_bits_low by lia. reflexivity.
      + rewrite (Z.bits_above_log2 (zsum data mod 65535)); [apply andb_false_r|lia|].
        destruct (Z.eq_dec (zsum data mod 65535) 0) as [->|]; [simpl; lia|].
        assert (Z.log2 (zsum data mod 65535) < 16); [|lia].
        apply Z.log2_lt_pow2; [lia|]. change (2 ^ 16) with 65536. lia. }
    rewrite <- Z.lxor_lor by exact L. symmetry. apply Z.add_nocarry_lxor. exact L. }
  rewrite E. unfold w32. change (2 ^ 16) with 65536. change (2 ^ 32) with 4294967296.
  apply Z.mod_small. lia.
Qed.

Example C06_case : fletcher32 [1; 2; 65535; 0] = Ok (spec_fletcher [1; 2; 65535; 0]) /\
  fletcher32 [1; 2; 65535; 0] = Ok 655363.
Proof. split; vm_compute; reflexivity. Qed.

(** * C07: error detection *)
Lemma spec_fletcher_inj : forall a b, spec_fletcher a = spec_fletcher b ->
  zsum a mod 65535 = zsum b mod 65535 /\ wsum a mod 65535 = wsum b mod 65535.
Proof.
  unfold spec_fletcher. intros.
  pose proof (Z.mod_pos_bound (wsum a) 65535 ltac:(lia)).
  pose proof (Z.mod_pos_bound (zsum a) 65535 ltac:(lia)).
  pose proof (Z.mod_pos_bound (wsum b) 65535 ltac:(lia)).
  pose proof (Z.mod_pos_bound (zsum b) 65535 ltac:(lia)). lia.
Qed.

Lemma mod_eq_sub : forall a b, a mod 65535 = b mod 65535 -> (a - b) mod 65535 = 0.
Proof. intros. rewrite Zminus_mod, H, Z.sub_diag. reflexivity. Qed.

(** Replacing one word by a different one is detected, except that 0x0000 and 0xFFFF are confused. *)
Theorem C07_single_word_error : forall pre x y post cx cy,
  Forall word16 (pre ++ x :: post) -> word16 y -> x <> y ->
  ~ (x = 0 /\ y = 65535) -> ~ (x = 65535 /\ y = 0) ->
  fletcher32 (pre ++ x :: post) = Ok cx -> fletcher32 (pre ++ y :: post) = Ok cy -> cx <> cy.
Proof.
  intros pre x y post cx cy HF Hy Hne H1 H2 Ex Ey E. subst cy.
  assert (HF' : Forall word16 (pre ++ y :: post)).
  { apply Forall_app in HF as [A B]. inversion B; subst. apply Forall_app; split; auto. }
  assert (Hx : word16 x). { apply Forall_app in HF as [A B]. inversion B; auto. }
  rewrite C06_fletcher32_spec in Ex, Ey by auto.
  injection Ex as Ex; injection Ey as Ey. rewrite <- Ey in Ex.
  apply spec_fletcher_inj in Ex as [Ez _]. apply mod_eq_sub in Ez.
  rewrite !zsum_app in Ez. cbn [zsum fold_right] in Ez. fold (zsum post) in Ez.
  replace (zsum pre + (x + zsum post) - (zsum pre + (y + zsum post))) with (x - y) in Ez by lia.
  apply Z.mod_divide in Ez as [k Hk]; [|lia]. unfold word16 in *. lia.
Qed.

(** Exchanging two adjacent words is detected with the same exception. *)
Theorem C07_adjacent_swap : forall pre x y post cx cy,
  Forall word16 (pre ++ x :: y :: post) -> x <> y ->
  ~ (x = 0 /\ y = 65535) -> ~ (x = 65535 /\ y = 0) ->
  fletcher32 (pre ++ x :: y :: post) = Ok cx -> fletcher32 (pre ++ y :: x :: post) = Ok cy -> cx <> cy.
Proof.
  intros pre x y post cx cy HF Hne H1 H2 Ex Ey E. subst cy.
  assert (HH : word16 x /\ word16 y).
  { apply Forall_app in HF as [A B]. inversion B; subst. inversion H4; subst. auto. }
  assert (HF' : Forall word16 (pre ++ y :: x :: post)).
  { apply Forall_app in HF as [A B]. inversion B; subst. inversion H4; subst. apply Forall_app; split; auto. }
  rewrite C06_fletcher32_spec in Ex, Ey by auto.
  injection Ex as Ex; injection Ey as Ey. rewrite <- Ey in Ex.
  apply spec_fletcher_inj in Ex as [_ Ew]. apply mod_eq_sub in Ew.
  rewrite !wsum_app in Ew. cbn [wsum length] in Ew. rewrite !Nat2Z.inj_succ in Ew.
  match type of Ew with ?e mod _ = 0 => replace e with (x - y) in Ew by lia end.
  apply Z.mod_divide in Ew as [k Hk]; [|lia]. unfold word16 in *. lia.
Qed.

(** The exception is real. *)
Theorem C07_zero_ffff_collision : forall pre post, Forall word16 (pre ++ 0 :: post) ->
  fletcher32 (pre ++ 0 :: post) = fletcher32 (pre ++ 65535 :: post).
Proof.
  intros. assert (HF' : Forall word16 (pre ++ 65535 :: post)).
  { apply Forall_app in H as [A B]. inversion B; subst. apply Forall_app; split; auto.
    constructor; auto. unfold word16; lia. }
  rewrite !C06_fletcher32_spec by auto. unfold spec_fletcher.
  rewrite !zsum_app, !wsum_app. cbn [zsum fold_right wsum length]. fold (zsum post).
  f_equal. f_equal; [f_equal|].
  - set (n := Z.of_nat (S (length post))). set (A := wsum pre + n * zsum pre).
    replace (A + (65535 * n + wsum post)) with (A + (0 * n + wsum post) + n * 65535) by lia.
    symmetry; apply Z_mod_plus_full.
  - replace (zsum pre + (65535 + zsum post)) with (zsum pre + (0 + zsum post) + 1 * 65535) by lia.
    symmetry; apply Z_mod_plus_full.
Qed.

Example C07_case : fletcher32 [1; 2; 3] <> fletcher32 [1; 4; 3] /\ fletcher32 [1;2;3] <> fletcher32 [1;3;2].
Proof. split; vm_compute; discriminate. Qed.
