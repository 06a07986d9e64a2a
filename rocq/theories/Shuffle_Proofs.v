(** C04, C05: multishuffle is lossless and produces the specified bit stream. *)
From Coq Require Import ZArith List Lia Bool.
From Verif Require Import Common Codec_Model.
Import ListNotations.
Open Scope Z_scope.
Local Arguments Z.pow : simpl never.
Local Arguments Z.mul : simpl never.
Local Arguments Z.modulo : simpl never.
Local Arguments Z.div : simpl never.
Local Arguments Z.add : simpl never.

(** Little-endian integer denoted by an array of [bw]-bit words: the bit stream of the array. *)
Fixpoint val (bw : Z) (l : list Z) : Z :=
  match l with [] => 0 | x :: t => x + 2 ^ bw * val bw t end.
Definition words (bw : Z) (l : list Z) : Prop := Forall (fun x => 0 <= x < 2 ^ bw) l.

Lemma pow2_pos : forall n, 0 <= n -> 0 < 2 ^ n.
Proof. intros; apply Z.pow_pos_nonneg; lia. Qed.
Local Hint Resolve pow2_pos : core.

Lemma pow2_mono : forall a b, 0 <= a <= b -> 2 ^ a <= 2 ^ b.
Proof. intros; apply Z.pow_le_mono_r; lia. Qed.

Lemma val_bound : forall bw l, 0 <= bw -> words bw l -> 0 <= val bw l < 2 ^ (bw * Z.of_nat (length l)).
Proof.
  induction l; intros Hb H; simpl val.
  - simpl length. rewrite Z.mul_0_r. change (2 ^ 0) with 1. lia.
  - inversion H; subst. specialize (IHl Hb H3). cbn [length]. rewrite Nat2Z.inj_succ.
    replace (bw * Z.succ (Z.of_nat (length l))) with (bw + bw * Z.of_nat (length l)) by lia.
    rewrite Z.pow_add_r by nia. pose proof (pow2_pos bw Hb). nia.
Qed.

Lemma nth_val : forall bw l i, 0 <= bw -> words bw l ->
  nth i l 0 = (val bw l / 2 ^ (bw * Z.of_nat i)) mod 2 ^ bw.
Proof.
  induction l; intros i Hb H.
  - simpl. rewrite Z.div_0_l; [|pose proof (pow2_pos (bw * Z.of_nat i) ltac:(nia)); lia].
    rewrite Z.mod_0_l; [destruct i; auto|]. pose proof (pow2_pos bw Hb); lia.
  - inversion H; subst. pose proof (pow2_pos bw Hb) as Hp. destruct i; cbn [nth val].
    + change (Z.of_nat 0) with 0. rewrite Z.mul_0_r. change (2 ^ 0) with 1. rewrite Z.div_1_r.
      rewrite Z.mul_comm, Z_mod_plus_full. rewrite Z.mod_small; lia.
    + rewrite (IHl i Hb H3). f_equal.
      replace (bw * Z.of_nat (S i)) with (bw + bw * Z.of_nat i) by (rewrite Nat2Z.inj_succ; lia).
      rewrite Z.pow_add_r by nia. rewrite <- Z.div_div by (try lia; apply pow2_pos; nia).
      f_equal. rewrite Z.mul_comm, Z.div_add by lia. rewrite Z.div_small by lia. lia.
Qed.

Lemma val_upd : forall bw l i v l', 0 <= bw -> upd l i v = Some l' ->
  val bw l' = val bw l + (v - nth i l 0) * 2 ^ (bw * Z.of_nat i).
Proof.
  induction l; intros i v l' Hb H; destruct i; cbn [upd] in H; try discriminate.
  - injection H as <-. cbn [val nth]. change (Z.of_nat 0) with 0. rewrite Z.mul_0_r. change (2 ^ 0) with 1. lia.
  - destruct (upd l i v) eqn:E; try discriminate. injection H as <-. cbn [val nth].
    rewrite (IHl _ _ _ Hb E).
    replace (bw * Z.of_nat (S i)) with (bw + bw * Z.of_nat i) by (rewrite Nat2Z.inj_succ; lia).
    rewrite Z.pow_add_r by nia. lia.
Qed.

Lemma words_upd : forall bw l i v l', words bw l -> 0 <= v < 2 ^ bw -> upd l i v = Some l' -> words bw l'.
Proof.
  induction l; intros i v l' H Hv E; destruct i; simpl in E; try discriminate.
  - injection E as <-. inversion H; subst. constructor; auto.
  - destruct (upd l i v) eqn:E'; try discriminate. injection E as <-. inversion H; subst.
    constructor; auto. eapply IHl; [exact H3|exact Hv|exact E'].  
Qed.

Lemma val_inj : forall bw l l', 0 <= bw -> words bw l -> words bw l' -> length l = length l' ->
  val bw l = val bw l' -> l = l'.
Proof.
  intros. apply (nth_ext _ _ 0 0); auto. intros. rewrite !nth_val with (bw := bw) by auto. congruence.
Qed.

(** The masks used in the code select [w] low bits. *)
Lemma mask_land : forall bw w x, 0 <= w <= bw -> Z.land x (mask_of bw w) = x mod 2 ^ w.
Proof.
  intros. unfold mask_of. pose proof (pow2_pos w ltac:(lia)). pose proof (pow2_mono w bw ltac:(lia)).
  rewrite Z.mod_small by lia. rewrite <- Z.land_ones by lia. f_equal. rewrite Z.ones_equiv. lia.
Qed.

(** Field of [w] bits of [x] starting at bit [shift]. *)
Definition field (x shift w : Z) : Z := (x / 2 ^ shift) mod 2 ^ w.
Lemma field_bound : forall x s w, 0 <= w -> 0 <= field x s w < 2 ^ w.
Proof. intros. apply Z.mod_pos_bound. auto. Qed.

(** One store of the shuffle loop adds [v * 2^bit] to the bit stream. *)
Lemma add_at_ok : forall bw b i v, 0 <= bw -> words bw b -> 0 <= i < Z.of_nat (length b) ->
  exists b', add_at bw b i v = Some b' /\ words bw b' /\ length b' = length b /\
    val bw b' = val bw b + ((nth (Z.to_nat i) b 0 + v) mod 2 ^ bw - nth (Z.to_nat i) b 0) * 2 ^ (bw * i).
Proof.
  intros bw b i v Hb HW Hi. unfold add_at.
  destruct (Z.ltb_spec i 0); [lia|].
  rewrite (nth_error_nth' b 0) by lia.
  destruct (upd_ok _ b (Z.to_nat i) ((nth (Z.to_nat i) b 0 + v) mod 2 ^ bw)) as [b' E]; [lia|].
  exists b'. split; auto. split; [|split].
  - eapply words_upd; eauto. apply Z.mod_pos_bound; auto.
  - eapply upd_length; eauto.
  - rewrite (val_upd _ _ _ _ _ Hb E). rewrite Z2Nat.id by lia. reflexivity.
Qed.

Lemma shuf_step : forall bw w b bit v,
  1 <= w <= bw -> words bw b -> 0 <= bit -> val bw b < 2 ^ bit ->
  bit + w <= bw * Z.of_nat (length b) -> 0 <= v < 2 ^ w ->
  exists b1, add_at bw b (bit / bw) (Z.shiftl v (bit mod bw)) = Some b1 /\
    words bw b1 /\ length b1 = length b /\
    (if bw <? bit mod bw + w then
       exists b2, add_at bw b1 (bit / bw + 1) (Z.shiftr v (bw - bit mod bw)) = Some b2 /\
         words bw b2 /\ length b2 = length b /\ val bw b2 = val bw b + v * 2 ^ bit
     else val bw b1 = val bw b + v * 2 ^ bit).
Proof.
  intros bw w b bit v Hw HW Hbit Hval Hroom Hv.
  set (idx := bit / bw). set (e := bit mod bw).
  assert (He : 0 <= e < bw) by (apply Z.mod_pos_bound; lia).
  assert (Hdm : bit = bw * idx + e) by (apply Z.div_mod; lia).
  assert (Hidx0 : 0 <= idx) by (apply Z.div_pos; lia).
  assert (Hidx : idx < Z.of_nat (length b)) by nia.
  pose proof (val_bound bw b ltac:(lia) HW) as Hvb.
  assert (Hpi : 0 < 2 ^ (bw * idx)) by (apply pow2_pos; nia).
  assert (Hpe : 0 < 2 ^ e) by (apply pow2_pos; lia).
  assert (Hpb : 2 ^ bit = 2 ^ (bw * idx) * 2 ^ e) by (rewrite Hdm; apply Z.pow_add_r; nia).
  assert (Hold : 0 <= nth (Z.to_nat idx) b 0 < 2 ^ e).
  { rewrite (nth_val bw) by (auto; lia). rewrite Z2Nat.id by lia.
    assert (0 <= val bw b / 2 ^ (bw * idx) < 2 ^ e).
    { split; [apply Z.div_pos; lia|]. apply Z.div_lt_upper_bound; lia. }
    rewrite Z.mod_small; [lia|]. pose proof (pow2_mono e bw ltac:(lia)). lia. }
  destruct (add_at_ok bw b idx (Z.shiftl v e) ltac:(lia) HW ltac:(lia)) as (b1 & E1 & W1 & L1 & V1).
  exists b1. split; [exact E1|]. split; [exact W1|]. split; [exact L1|].
  rewrite Z.shiftl_mul_pow2 in V1 by lia.
  destruct (Z.ltb_spec bw (e + w)) as [Hst|Hst].
  - (* straddles two words *)
    assert (Hidx1 : idx + 1 < Z.of_nat (length b)) by nia.
    set (c := bw - e). assert (Hc : 0 < c <= bw) by (unfold c; lia).
    assert (Hpc : 0 < 2 ^ c) by (apply pow2_pos; lia).
    assert (Hbwe : 2 ^ bw = 2 ^ e * 2 ^ c) by (rewrite <- Z.pow_add_r by lia; f_equal; unfold c; lia).
    assert (Hsplit : v = 2 ^ c * (v / 2 ^ c) + v mod 2 ^ c) by (apply Z.div_mod; lia).
    assert (Hlo : 0 <= v mod 2 ^ c < 2 ^ c) by (apply Z.mod_pos_bound; lia).
    set (hi := v / 2 ^ c) in *. set (lo := v mod 2 ^ c) in *.
    assert (Hhi : 0 <= hi < 2 ^ bw).
    { split; [apply Z.div_pos; lia|]. apply Z.div_lt_upper_bound; [lia|].
      pose proof (pow2_mono w bw ltac:(lia)). nia. }
    assert (Em : (nth (Z.to_nat idx) b 0 + v * 2 ^ e) mod 2 ^ bw = nth (Z.to_nat idx) b 0 + lo * 2 ^ e).
    { replace (nth (Z.to_nat idx) b 0 + v * 2 ^ e)
        with (nth (Z.to_nat idx) b 0 + lo * 2 ^ e + hi * 2 ^ bw) by (rewrite Hbwe; rewrite Hsplit at 1; ring).
      rewrite Z_mod_plus_full. apply Z.mod_small. rewrite Hbwe. nia. }
    rewrite Em in V1.
    destruct (add_at_ok bw b1 (idx + 1) (Z.shiftr v c) ltac:(lia) W1 ltac:(lia)) as (b2 & E2 & W2 & L2 & V2).
    exists b2. split; [exact E2|]. split; [exact W2|]. split; [lia|].
    rewrite Z.shiftr_div_pow2 in V2 by lia. fold hi in V2.
    assert (V1' : val bw b1 = val bw b + lo * 2 ^ bit) by (rewrite V1, Hpb; ring).
    assert (Hp1 : 2 ^ (bw * (idx + 1)) = 2 ^ bit * 2 ^ c).
    { rewrite <- Z.pow_add_r by lia. f_equal. unfold c. lia. }
    assert (Hz : nth (Z.to_nat (idx + 1)) b1 0 = 0).
    { rewrite (nth_val bw) by (auto; lia). rewrite Z2Nat.id by lia.
      rewrite Z.div_small; [apply Z.mod_0_l; pose proof (pow2_pos bw ltac:(lia)); lia|].
      rewrite V1', Hp1. assert (0 < 2 ^ bit) by (apply pow2_pos; lia). nia. }
    rewrite Hz in V2. rewrite Z.add_0_l, Z.mod_small in V2 by lia.
    rewrite V2, V1', Hp1. rewrite Hsplit. ring.
  - assert (Hlt : 0 <= nth (Z.to_nat idx) b 0 + v * 2 ^ e < 2 ^ bw).
    { split; [nia|]. apply Z.lt_le_trans with (2 ^ (e + w)); [|apply pow2_mono; lia].
      rewrite Z.pow_add_r by lia. nia. }
    rewrite Z.mod_small in V1 by exact Hlt. rewrite V1, Hpb. ring.
Qed.

(** Value contributed by one width: the fields of all elements, one after the other. *)
Fixpoint plane (w shift : Z) (a : list Z) : Z :=
  match a with [] => 0 | x :: t => field x shift w + 2 ^ w * plane w shift t end.
Lemma plane_bound : forall w s a, 0 <= w -> 0 <= plane w s a < 2 ^ (w * Z.of_nat (length a)).
Proof.
  induction a; intros; cbn [plane].
  - cbn [length]. change (Z.of_nat 0) with 0. rewrite Z.mul_0_r. change (2 ^ 0) with 1. lia.
  - specialize (IHa H). cbn [length]. rewrite Nat2Z.inj_succ.
    replace (w * Z.succ (Z.of_nat (length a0))) with (w + w * Z.of_nat (length a0)) by lia.
    rewrite Z.pow_add_r by nia. pose proof (field_bound a s w H). nia.
Qed.

Lemma shuf_inner_ok : forall bw w shift a b bit,
  1 <= w <= bw -> 0 <= shift -> words bw b -> 0 <= bit -> val bw b < 2 ^ bit ->
  bit + w * Z.of_nat (length a) <= bw * Z.of_nat (length b) ->
  exists b', shuf_inner bw w shift a b bit = Some (b', bit + w * Z.of_nat (length a)) /\
    words bw b' /\ length b' = length b /\ val bw b' = val bw b + 2 ^ bit * plane w shift a.
Proof.
  induction a; intros b bit Hw Hs HW Hbit Hval Hroom.
  - exists b. cbn [shuf_inner plane length]. change (Z.of_nat 0) with 0.
    rewrite !Z.mul_0_r, !Z.add_0_r. auto.
  - cbn [length] in Hroom. rewrite Nat2Z.inj_succ in Hroom.
    assert (Hf := field_bound a shift w ltac:(lia)).
    assert (Em : Z.land (Z.shiftr a shift) (mask_of bw w) = field a shift w).
    { rewrite mask_land by lia. rewrite Z.shiftr_div_pow2 by lia. reflexivity. }
    destruct (shuf_step bw w b bit (field a shift w) Hw HW Hbit Hval ltac:(nia) Hf)
      as (b1 & E1 & W1 & L1 & R).
    cbn [shuf_inner]. rewrite Em, E1.
    assert (Hfin : forall b2, words bw b2 -> length b2 = length b ->
       val bw b2 = val bw b + field a shift w * 2 ^ bit ->
       exists b', shuf_inner bw w shift a0 b2 (bit + w) =
            Some (b', bit + w * Z.of_nat (length (a :: a0))) /\
          words bw b' /\ length b' = length b /\
          val bw b' = val bw b + 2 ^ bit * plane w shift (a :: a0)).
    { intros b2 W2 L2 V2.
      assert (Hp : 0 < 2 ^ bit) by (apply pow2_pos; lia).
      destruct (IHa b2 (bit + w)) as (b' & E & W' & L' & V'); auto; try lia.
      - rewrite V2. rewrite Z.pow_add_r by lia. nia.
      - exists b'. cbn [length plane]. rewrite Nat2Z.inj_succ. split; [rewrite E; do 2 f_equal; lia|].
        split; [auto|]. split; [lia|]. rewrite V', V2. rewrite Z.pow_add_r by lia. ring. }
    destruct (bw <? bit mod bw + w).
    + destruct R as (b2 & E2 & W2 & L2 & V2). rewrite E2. apply Hfin; auto.
    + apply Hfin; auto.
Qed.

(** The whole output bit stream. *)
Fixpoint stream (ws : list Z) (shift : Z) (a : list Z) : Z :=
  match ws with
  | [] => 0
  | w :: ws' => plane w shift a + 2 ^ (w * Z.of_nat (length a)) * stream ws' (shift + w) a
  end.

Lemma sum_widths_nonneg : forall ws, Forall (fun w => 1 <= w) ws -> 0 <= sum_widths ws.
Proof. induction 1; cbn [sum_widths fold_right]; [lia|]. fold (sum_widths l). lia. Qed.

Lemma shuf_outer_ok : forall bw a ws shift b,
  Forall (fun w => 1 <= w) ws -> 0 <= shift -> shift + sum_widths ws = bw ->
  words bw b -> length b = length a -> val bw b < 2 ^ (shift * Z.of_nat (length a)) ->
  exists b', shuf_outer bw ws shift a b (shift * Z.of_nat (length a)) = Some b' /\
    words bw b' /\ length b' = length a /\
    val bw b' = val bw b + 2 ^ (shift * Z.of_nat (length a)) * stream ws shift a.
Proof.
  induction ws; intros shift b HF Hs Hsum HW HL HV.
  - exists b. cbn [shuf_outer stream]. rewrite Z.mul_0_r, Z.add_0_r. auto.
  - inversion HF; subst. cbn [sum_widths fold_right] in *. fold (sum_widths ws) in *.
    pose proof (sum_widths_nonneg ws H2).
    destruct (shuf_inner_ok (shift + (a0 + sum_widths ws)) a0 shift a b (shift * Z.of_nat (length a)))
      as (b1 & E1 & W1 & L1 & V1); auto; try lia.
    cbn [shuf_outer]. rewrite E1.
    replace (shift * Z.of_nat (length a) + a0 * Z.of_nat (length a))
      with ((shift + a0) * Z.of_nat (length a)) by lia.
    assert (Hpp : 2 ^ ((shift + a0) * Z.of_nat (length a))
              = 2 ^ (shift * Z.of_nat (length a)) * 2 ^ (a0 * Z.of_nat (length a))).
    { rewrite <- Z.pow_add_r by nia. f_equal. lia. }
    pose proof (plane_bound a0 shift a ltac:(lia)) as Hpl.
    assert (Hp : 0 < 2 ^ (shift * Z.of_nat (length a))) by (apply pow2_pos; nia).
    destruct (IHws (shift + a0) b1) as (b2 & E2 & W2 & L2 & V2); auto; try lia.
    { rewrite V1, Hpp. nia. }
    exists b2. split; [exact E2|]. split; [auto|]. split; [lia|].
    rewrite V2, V1. cbn [stream]. rewrite Hpp. ring.
Qed.

Definition good_widths (shuffle_widths : list Z) : Prop :=
  Forall (fun w => 1 <= w) shuffle_widths /\
  (sum_widths shuffle_widths = 8 \/ sum_widths shuffle_widths = 16 \/
   sum_widths shuffle_widths = 32 \/ sum_widths shuffle_widths = 64).

Lemma sum_widths_app : forall a b, sum_widths (a ++ b) = sum_widths a + sum_widths b.
Proof. unfold sum_widths. induction a; intros; cbn [app fold_right]; [lia|]. rewrite IHa. lia. Qed.
Lemma sum_widths_rev : forall a, sum_widths (rev a) = sum_widths a.
Proof. induction a; auto. cbn [rev]. rewrite sum_widths_app, IHa. unfold sum_widths; cbn [fold_right]. lia. Qed.

Lemma val_repeat0 : forall bw n, val bw (repeat 0 n) = 0.
Proof. induction n; cbn [repeat val]; lia. Qed.
Lemma words_repeat0 : forall bw n, 0 <= bw -> words bw (repeat 0 n).
Proof. intros. apply Forall_forall. intros x Hx. apply repeat_spec in Hx. subst. pose proof (pow2_pos bw H). lia. Qed.

Lemma shuffle_stream : forall sw a, good_widths sw ->
  exists b, shuffle sw a = Ok b /\ words (sum_widths sw) b /\ length b = length a /\
    val (sum_widths sw) b = stream (rev sw) 0 a.
Proof.
  intros sw a [HF Hs]. unfold shuffle.
  assert (Ev : valid_bw (sum_widths sw) = true).
  { unfold valid_bw. destruct Hs as [H|[H|[H|H]]]; rewrite H; reflexivity. }
  rewrite Ev. cbn [negb].
  destruct (shuf_outer_ok (sum_widths sw) a (rev sw) 0 (repeat 0 (length a))) as (b & E & W & L & V).
  - apply Forall_rev; auto.
  - lia.
  - rewrite sum_widths_rev; lia.
  - apply words_repeat0; lia.
  - apply repeat_length.
  - rewrite val_repeat0. change (2 ^ (0 * Z.of_nat (length a))) with 1. lia.
  - rewrite Z.mul_0_l in E, V. rewrite E. exists b. rewrite val_repeat0 in V. change (2 ^ 0) with 1 in V.
    repeat split; auto. lia.
Qed.

(** * Reading side *)
Lemma read_field : forall bw w b bit,
  1 <= w <= bw -> words bw b -> 0 <= bit -> bit + w <= bw * Z.of_nat (length b) ->
  exists bi, nth_error b (Z.to_nat (bit / bw)) = Some bi /\
    (if bw <? bit mod bw + w then
       exists bn, nth_error b (Z.to_nat (bit / bw + 1)) = Some bn /\
         (Z.shiftr bi (bit mod bw)) mod 2 ^ w + (Z.shiftl bn (bw - bit mod bw)) mod 2 ^ w
           = field (val bw b) bit w
     else (Z.shiftr bi (bit mod bw)) mod 2 ^ w = field (val bw b) bit w).
Proof.
  intros bw w b bit Hw HW Hbit Hroom.
  set (idx := bit / bw). set (e := bit mod bw).
  assert (He : 0 <= e < bw) by (apply Z.mod_pos_bound; lia).
  assert (Hdm : bit = bw * idx + e) by (apply Z.div_mod; lia).
  assert (Hidx0 : 0 <= idx) by (apply Z.div_pos; lia).
  assert (Hidx : idx < Z.of_nat (length b)) by nia.
  assert (Hpi : 0 < 2 ^ (bw * idx)) by (apply pow2_pos; nia).
  assert (Hpe : 0 < 2 ^ e) by (apply pow2_pos; lia).
  assert (Hpw : 0 < 2 ^ w) by (apply pow2_pos; lia).
  assert (Hpbw : 0 < 2 ^ bw) by (apply pow2_pos; lia).
  set (B := val bw b). set (D := B / 2 ^ (bw * idx)).
  exists (nth (Z.to_nat idx) b 0). split; [apply nth_error_nth'; lia|].
  assert (Hbi : nth (Z.to_nat idx) b 0 = D mod 2 ^ bw).
  { rewrite (nth_val bw) by (auto; lia). rewrite Z2Nat.id by lia. reflexivity. }
  assert (Hfield : field B bit w = (D / 2 ^ e) mod 2 ^ w).
  { unfold field. rewrite Hdm, Z.pow_add_r by nia. rewrite <- Z.div_div by lia. reflexivity. }
  rewrite Hbi, Hfield, Z.shiftr_div_pow2 by lia.
  assert (HD : D = 2 ^ bw * (D / 2 ^ bw) + D mod 2 ^ bw) by (apply Z.div_mod; lia).
  set (q := D / 2 ^ bw) in *. set (r := D mod 2 ^ bw) in *.
  set (c := bw - e). assert (Hc : 0 < c <= bw) by (unfold c; lia).
  assert (Hpc : 0 < 2 ^ c) by (apply pow2_pos; lia).
  assert (Hbwe : 2 ^ bw = 2 ^ c * 2 ^ e) by (rewrite <- Z.pow_add_r by lia; f_equal; unfold c; lia).
  assert (HDe : D / 2 ^ e = r / 2 ^ e + 2 ^ c * q).
  { rewrite HD, Hbwe. replace (2 ^ c * 2 ^ e * q + r) with (r + (2 ^ c * q) * 2 ^ e) by ring.
    apply Z.div_add. lia. }
  assert (Hr : 0 <= r / 2 ^ e < 2 ^ c).
  { assert (0 <= r < 2 ^ bw) by (apply Z.mod_pos_bound; lia).
    split; [apply Z.div_pos; lia|]. apply Z.div_lt_upper_bound; lia. }
  destruct (Z.ltb_spec bw (e + w)) as [Hst|Hst].
  - assert (Hidx1 : idx + 1 < Z.of_nat (length b)) by nia.
    exists (nth (Z.to_nat (idx + 1)) b 0). split; [apply nth_error_nth'; lia|].
    assert (Hbn : nth (Z.to_nat (idx + 1)) b 0 = q mod 2 ^ bw).
    { rewrite (nth_val bw) by (auto; lia). rewrite Z2Nat.id by lia. f_equal.
      replace (bw * (idx + 1)) with (bw * idx + bw) by lia. rewrite Z.pow_add_r by nia.
      rewrite <- Z.div_div by lia. reflexivity. }
    rewrite Hbn. rewrite Z.shiftl_mul_pow2 by lia. fold c.
    (* 2^w = 2^c * 2^(w-c) *)
    assert (Hwc : 2 ^ w = 2 ^ c * 2 ^ (w - c)) by (rewrite <- Z.pow_add_r by (unfold c; lia); f_equal; lia).
    assert (Hpwc : 0 < 2 ^ (w - c)) by (apply pow2_pos; unfold c; lia).
    assert (Hsmall : (r / 2 ^ e) mod 2 ^ w = r / 2 ^ e).
    { apply Z.mod_small. rewrite Hwc. nia. }
    rewrite Hsmall, HDe.
    assert (Eq : (q mod 2 ^ bw * 2 ^ c) mod 2 ^ w = 2 ^ c * (q mod 2 ^ (w - c))).
    { rewrite Z.mul_comm, Hwc, Z.mul_mod_distr_l by lia. f_equal.
      assert (2 ^ bw = 2 ^ (w - c) * 2 ^ (bw - (w - c))) as -> by (rewrite <- Z.pow_add_r by (unfold c; lia); f_equal; lia).
      rewrite Z.rem_mul_r by (pose proof (pow2_pos (bw - (w - c)) ltac:(unfold c; lia)); lia).
      rewrite Z.add_mod by lia. rewrite Z.mul_comm, Z_mod_mult, Z.add_0_r.
      rewrite !Z.mod_mod by lia. reflexivity. }
    rewrite Eq.
    assert (Hq : q = 2 ^ (w - c) * (q / 2 ^ (w - c)) + q mod 2 ^ (w - c)) by (apply Z.div_mod; lia).
    assert (0 <= q mod 2 ^ (w - c) < 2 ^ (w - c)) by (apply Z.mod_pos_bound; lia).
    set (q1 := q / 2 ^ (w - c)) in *. set (q0 := q mod 2 ^ (w - c)) in *.
    replace (r / 2 ^ e + 2 ^ c * q) with (r / 2 ^ e + 2 ^ c * q0 + q1 * 2 ^ w) by (rewrite Hq, Hwc; ring).
    rewrite Z_mod_plus_full. symmetry. apply Z.mod_small. rewrite Hwc. nia.
  - rewrite HDe.
    assert (2 ^ c = 2 ^ w * 2 ^ (c - w)) as -> by (rewrite <- Z.pow_add_r by (unfold c; lia); f_equal; lia).
    replace (r / 2 ^ e + 2 ^ w * 2 ^ (c - w) * q) with (r / 2 ^ e + (2 ^ (c - w) * q) * 2 ^ w) by ring.
    rewrite Z_mod_plus_full. reflexivity.
Qed.

(** What one pass of the reader adds to each element. *)
Fixpoint add_fields (B w shift : Z) (a : list Z) (bit : Z) : list Z :=
  match a with
  | [] => []
  | x :: t => (x + field B bit w * 2 ^ shift) :: add_fields B w shift t (bit + w)
  end.

Lemma unshuf_inner_ok : forall bw w shift b a bit,
  1 <= w -> 0 <= shift -> shift + w <= bw -> words bw b -> 0 <= bit ->
  Forall (fun x => 0 <= x < 2 ^ shift) a ->
  bit + w * Z.of_nat (length a) <= bw * Z.of_nat (length b) ->
  unshuf_inner bw w shift b a bit
    = Some (add_fields (val bw b) w shift a bit, bit + w * Z.of_nat (length a)).
Proof.
  induction a; intros bit Hw Hs Hsw HW Hbit HF Hroom.
  - cbn. f_equal. f_equal. lia.
  - inversion HF; subst. cbn [length] in Hroom. rewrite Nat2Z.inj_succ in Hroom.
    assert (IH := IHa (bit + w) Hw Hs Hsw HW ltac:(lia) H2 ltac:(lia)).
    destruct (read_field bw w b bit ltac:(lia) HW Hbit ltac:(lia)) as (bi & Ei & R).
    cbn [unshuf_inner]. rewrite Ei, IH.
    pose proof (field_bound (val bw b) bit w ltac:(lia)) as Hfb.
    assert (Hps : 0 < 2 ^ shift) by (apply pow2_pos; lia).
    assert (Hpsw : 2 ^ (shift + w) <= 2 ^ bw) by (apply pow2_mono; lia).
    rewrite Z.pow_add_r in Hpsw by lia.
    assert (Ebit : bit + w + w * Z.of_nat (length a0) = bit + w * Z.of_nat (length (a :: a0)))
      by (cbn [length]; lia).
    rewrite !mask_land by lia.
    destruct (Z.ltb_spec bw (bit mod bw + w)).
    + destruct R as (bn & En & R). rewrite En. rewrite mask_land by lia.
      cbn [add_fields]. do 2 f_equal; [|exact Ebit]. f_equal. rewrite !Z.shiftl_mul_pow2 with (n := shift) by lia.
      set (m1 := (Z.shiftr bi (bit mod bw)) mod 2 ^ w) in *.
      set (m2 := (Z.shiftl bn (bw - bit mod bw)) mod 2 ^ w) in *.
      assert (0 <= m1 < 2 ^ w) by (apply Z.mod_pos_bound; apply pow2_pos; lia).
      assert (0 <= m2 < 2 ^ w) by (apply Z.mod_pos_bound; apply pow2_pos; lia).
      rewrite <- R. rewrite Z.add_mod_idemp_l by (pose proof (pow2_pos bw ltac:(lia)); lia).
      rewrite Z.mod_small; [ring|]. rewrite <- R in Hfb. nia.
    + cbn [add_fields]. do 2 f_equal; [|exact Ebit]. f_equal. rewrite Z.shiftl_mul_pow2 by lia. rewrite R.
      apply Z.mod_small. nia.
Qed.

Lemma add_fields_length : forall B w s a bit, length (add_fields B w s a bit) = length a.
Proof. induction a; intros; cbn [add_fields length]; auto. Qed.

(** Arithmetic of fields. *)
Lemma field_extend : forall x s w, 0 <= s -> 0 <= w ->
  x mod 2 ^ s + field x s w * 2 ^ s = x mod 2 ^ (s + w).
Proof.
  intros. unfold field. rewrite Z.pow_add_r by lia.
  rewrite Z.rem_mul_r; [ring| |]; try (apply pow2_pos; lia).
  pose proof (pow2_pos s H). lia.
Qed.

Lemma div_pow2_add : forall x a b, 0 <= a -> 0 <= b -> x / 2 ^ (a + b) = x / 2 ^ a / 2 ^ b.
Proof. intros. rewrite Z.pow_add_r by lia. rewrite Z.div_div; auto. pose proof (pow2_pos a H); lia. Qed.

Lemma digit_eq : forall b m x f p, 0 <= m < b -> 0 <= f < b -> m + b * x = f + b * p -> m = f /\ x = p.
Proof. intros. assert (x = p) by (destruct (Z.lt_trichotomy x p) as [|[|]]; nia). subst. lia. Qed.

(** Reading the plane of width [w] back gives the fields of the original elements. *)
Lemma add_fields_plane : forall B w shift a pos, 1 <= w -> 0 <= shift -> 0 <= pos ->
  (B / 2 ^ pos) mod 2 ^ (w * Z.of_nat (length a)) = plane w shift a ->
  add_fields B w shift (map (fun x => x mod 2 ^ shift) a) pos = map (fun x => x mod 2 ^ (shift + w)) a.
Proof.
  induction a; intros pos Hw Hs Hpos HB; [reflexivity|].
  cbn [map add_fields plane length] in *. rewrite Nat2Z.inj_succ in HB.
  assert (Hw0 : 0 < 2 ^ w) by (apply pow2_pos; lia).
  assert (Hn : 0 < 2 ^ (w * Z.of_nat (length a0))) by (apply pow2_pos; nia).
  replace (w * Z.succ (Z.of_nat (length a0))) with (w + w * Z.of_nat (length a0)) in HB by lia.
  rewrite Z.pow_add_r in HB by nia. rewrite Z.rem_mul_r in HB by lia.
  pose proof (field_bound a shift w ltac:(lia)) as Hf.
  assert (Hm : 0 <= (B / 2 ^ pos) mod 2 ^ w < 2 ^ w) by (apply Z.mod_pos_bound; lia).
  destruct (digit_eq _ _ _ _ _ Hm Hf HB) as [E1 E2].
  rewrite <- div_pow2_add in E2 by lia.
  f_equal.
  - unfold field at 1. rewrite E1. apply field_extend; lia.
  - apply IHa; auto. lia.
Qed.

Lemma stream_prefix : forall ws shift a, Forall (fun w => 1 <= w) ws -> 0 <= stream ws shift a.
Proof.
  induction ws; intros; cbn [stream]; [lia|]. inversion H; subst.
  pose proof (plane_bound a shift a0 ltac:(lia)). specialize (IHws (shift + a) a0 H3).
  pose proof (pow2_pos (a * Z.of_nat (length a0)) ltac:(nia)). nia.
Qed.

Lemma unshuf_outer_ok : forall bw b ws shift a,
  Forall (fun w => 1 <= w) ws -> 0 <= shift -> shift + sum_widths ws = bw ->
  words bw b -> length b = length a ->
  val bw b / 2 ^ (shift * Z.of_nat (length a)) = stream ws shift a ->
  unshuf_outer bw ws shift b (map (fun x => x mod 2 ^ shift) a) (shift * Z.of_nat (length a))
    = Some (map (fun x => x mod 2 ^ bw) a).
Proof.
  induction ws; intros shift a' HF Hs Hsum HW HL HV.
  - cbn in Hsum. cbn [unshuf_outer]. rewrite Z.add_0_r in Hsum. subst. reflexivity.
  - inversion HF; subst. cbn [sum_widths fold_right] in *. fold (sum_widths ws) in *.
    pose proof (sum_widths_nonneg ws H2).
    cbn [unshuf_outer]. rewrite unshuf_inner_ok; try lia; auto.
    2: { apply Forall_forall. intros x Hx. apply in_map_iff in Hx as (y & <- & _). apply Z.mod_pos_bound; apply pow2_pos; lia. }
    2: { rewrite map_length, HL. nia. }
    rewrite map_length.
    cbn [stream] in HV.
    pose proof (plane_bound a shift a' ltac:(lia)) as Hpl.
    assert (Hpn : 0 < 2 ^ (a * Z.of_nat (length a'))) by (apply pow2_pos; nia).
    rewrite add_fields_plane; [| lia | lia | nia | ].
    + replace (shift * Z.of_nat (length a') + a * Z.of_nat (length a'))
        with ((shift + a) * Z.of_nat (length a')) by lia.
      apply IHws; auto; try lia.
      rewrite Z.mul_add_distr_r, div_pow2_add by nia. rewrite HV.
      rewrite Z.mul_comm, Z.div_add by lia. rewrite Z.div_small by lia. lia.
    + rewrite HV. rewrite Z.mul_comm, Z_mod_plus_full. apply Z.mod_small. lia.
Qed.

(** * C04 *)
Theorem C04_unshuffle_shuffle : forall sw a, good_widths sw -> words (sum_widths sw) a ->
  (let? b := shuffle sw a in unshuffle sw b) = Ok a.
Proof.
  intros sw a Hg HW. destruct (shuffle_stream sw a Hg) as (b & E & Wb & Lb & Vb).
  rewrite E. cbn [rbind]. unfold unshuffle. destruct Hg as [HF Hs].
  assert (Ev : valid_bw (sum_widths sw) = true).
  { unfold valid_bw. destruct Hs as [H|[H|[H|H]]]; rewrite H; reflexivity. }
  rewrite Ev. cbn [negb].
  assert (E0 : repeat 0 (length b) = map (fun x => x mod 2 ^ 0) a).
  { rewrite Lb. clear. induction a; cbn; auto. rewrite Z.mod_1_r. f_equal. exact IHa. }
  rewrite E0.
  replace 0 with (0 * Z.of_nat (length a)) at 2 by lia.
  rewrite unshuf_outer_ok; auto; try lia.
  - f_equal. transitivity (map (fun x : Z => x) a); [|apply map_id].
    apply map_ext_in. intros x Hx. unfold words in HW. rewrite Forall_forall in HW.
    apply Z.mod_small. auto.
  - apply Forall_rev; auto.
  - rewrite sum_widths_rev; lia.
  - rewrite Vb. change (2 ^ (0 * Z.of_nat (length a))) with 1. apply Z.div_1_r.
Qed.

Theorem C04_shape : forall sw a, good_widths sw ->
  exists b, shuffle sw a = Ok b /\ length b = length a /\ words (sum_widths sw) b.
Proof.
  intros. destruct (shuffle_stream sw a H) as (b & E & W & L & _). eauto.
Qed.

(** Fields written by the reader, seen from the bit stream it reads. *)
Lemma unshuf_fields : forall bw b ws shift a,
  Forall (fun w => 1 <= w) ws -> 0 <= shift -> shift + sum_widths ws = bw ->
  words bw b -> length b = length a -> words shift a ->
  exists a', unshuf_outer bw ws shift b a (shift * Z.of_nat (length a)) = Some a' /\
    words bw a' /\ length a' = length a /\
    map (fun x => x mod 2 ^ shift) a' = a /\
    stream ws shift a' = val bw b / 2 ^ (shift * Z.of_nat (length a)).
Proof.
  induction ws; intros shift a0 HF Hs Hsum HW HL HA.
  - cbn in Hsum. rewrite Z.add_0_r in Hsum. subst bw. exists a0. cbn [unshuf_outer stream].
    repeat split; auto.
    + transitivity (map (fun x : Z => x) a0); [|apply map_id]. apply map_ext_in. intros x Hx.
      unfold words in HA. rewrite Forall_forall in HA. apply Z.mod_small; auto.
    + symmetry. apply Z.div_small. rewrite <- HL. apply val_bound; auto.
  - inversion HF; subst. cbn [sum_widths fold_right] in *. fold (sum_widths ws) in *.
    pose proof (sum_widths_nonneg ws H2) as Hnn.
    set (bw := shift + (a + sum_widths ws)) in *.
    cbn [unshuf_outer]. rewrite unshuf_inner_ok; try (unfold bw; lia); auto; try nia.
    set (a1 := add_fields (val bw b) a shift a0 (shift * Z.of_nat (length a0))).
    assert (La1 : length a1 = length a0) by apply add_fields_length.
    assert (Ha1 : forall l pos, words shift l -> words (shift + a) (add_fields (val bw b) a shift l pos)
        /\ map (fun x => x mod 2 ^ shift) (add_fields (val bw b) a shift l pos) = l).
    { clear - H1 Hs. induction l; intros pos HH; [split; [constructor|reflexivity]|].
      inversion HH; subst. destruct (IHl (pos + a) H3). cbn [add_fields map].
      pose proof (field_bound (val bw b) pos a ltac:(lia)).
      split; [constructor; auto|].
      - rewrite Z.pow_add_r by lia. nia.
      - f_equal; auto. rewrite Z_mod_plus_full. apply Z.mod_small; auto. }
    destruct (Ha1 a0 (shift * Z.of_nat (length a0)) HA) as [Ha1w Ha1m]. fold a1 in Ha1w, Ha1m.
    destruct (IHws (shift + a) a1) as (a' & E & W & L & M & S); auto; try (unfold bw; lia).
    replace (shift * Z.of_nat (length a0) + a * Z.of_nat (length a0))
      with ((shift + a) * Z.of_nat (length a1)) by (rewrite La1; lia).
    exists a'. split; [exact E|]. split; [auto|]. split; [lia|].
    split.
    { rewrite <- Ha1m at 1. rewrite <- M. rewrite map_map. apply map_ext. intros x.
      rewrite Z.pow_add_r by lia. rewrite Z.rem_mul_r by (try apply pow2_pos; try lia; pose proof (pow2_pos shift Hs); lia).
      rewrite Z.mul_comm, Z_mod_plus_full. symmetry. apply Z.mod_mod. pose proof (pow2_pos shift Hs); lia. }
    cbn [stream]. rewrite S. rewrite La1, L, La1.
    replace (plane a shift a') with (plane a shift a1).
    2: { rewrite <- M. clear - H1 Hs. induction a'; cbn [map plane]; auto. rewrite IHa'. f_equal.
         unfold field. rewrite Z.pow_add_r by lia.
         pose proof (pow2_pos shift Hs). pose proof (pow2_pos a ltac:(lia)).
         rewrite Z.rem_mul_r by lia.
         rewrite Z.mul_comm, Z.div_add by lia. rewrite Z.div_small by (apply Z.mod_pos_bound; lia).
         rewrite Z.add_0_l. apply Z.mod_mod. lia. }
    assert (Hplane : forall l pos, 0 <= pos -> words shift l ->
       plane a shift (add_fields (val bw b) a shift l pos) = (val bw b / 2 ^ pos) mod 2 ^ (a * Z.of_nat (length l))).
    { clear - H1 Hs. induction l; intros pos Hpos HH; cbn [add_fields plane length].
      - change (Z.of_nat 0) with 0. rewrite Z.mul_0_r. change (2 ^ 0) with 1. rewrite Z.mod_1_r. reflexivity.
      - inversion HH; subst. rewrite IHl by (auto; lia). rewrite Nat2Z.inj_succ.
        replace (a * Z.succ (Z.of_nat (length l))) with (a + a * Z.of_nat (length l)) by lia.
        rewrite (Z.pow_add_r 2 a) by nia.
        pose proof (pow2_pos shift Hs). pose proof (pow2_pos a ltac:(lia)).
        rewrite Z.rem_mul_r; [|lia|apply pow2_pos; nia].
        rewrite <- div_pow2_add by lia. f_equal.
        unfold field at 1. rewrite Z.div_add by lia. rewrite Z.div_small by lia. rewrite Z.add_0_l.
        apply Z.mod_small. apply field_bound; lia. }
    unfold a1. rewrite Hplane by (auto; nia).
    rewrite Z.mul_add_distr_r, div_pow2_add by nia.
    set (X := val bw b / 2 ^ (shift * Z.of_nat (length a0))).
    rewrite Z.add_comm. symmetry. apply Z.div_mod.
    pose proof (pow2_pos (a * Z.of_nat (length a0)) ltac:(nia)). lia.
Qed.

(** The other direction: every array is the shuffle of its unshuffled form. *)
Theorem C04_shuffle_unshuffle : forall sw b, good_widths sw -> words (sum_widths sw) b ->
  (let? a := unshuffle sw b in shuffle sw a) = Ok b.
Proof.
  intros sw b Hg HW. assert (Hg' := Hg). destruct Hg' as [HF Hs].
  assert (Ev : valid_bw (sum_widths sw) = true).
  { unfold valid_bw. destruct Hs as [H|[H|[H|H]]]; rewrite H; reflexivity. }
  unfold unshuffle. rewrite Ev. cbn [negb].
  destruct (unshuf_fields (sum_widths sw) b (rev sw) 0 (repeat 0 (length b))) as (a & E & Wa & La & _ & S).
  - apply Forall_rev; auto.
  - lia.
  - rewrite sum_widths_rev; lia.
  - auto.
  - symmetry; apply repeat_length.
  - apply words_repeat0; lia.
  - rewrite Z.mul_0_l in E, S. rewrite E. cbn [rbind].
    destruct (shuffle_stream sw a Hg) as (b' & E' & Wb & Lb & Vb).
    rewrite E'. f_equal. apply (val_inj (sum_widths sw)); auto; try lia.
    + rewrite Lb, La. apply repeat_length.
    + rewrite Vb, S. change (2 ^ 0) with 1. apply Z.div_1_r.
Qed.

Theorem C04_bad_width_rejected : forall sw a,
  ~ (sum_widths sw = 8 \/ sum_widths sw = 16 \/ sum_widths sw = 32 \/ sum_widths sw = 64) ->
  shuffle sw a = Err ValueError /\ unshuffle sw a = Err ValueError.
Proof.
  intros. unfold shuffle, unshuffle.
  assert (E : valid_bw (sum_widths sw) = false).
  { unfold valid_bw. destruct (Z.eqb_spec (sum_widths sw) 8), (Z.eqb_spec (sum_widths sw) 16),
     (Z.eqb_spec (sum_widths sw) 32), (Z.eqb_spec (sum_widths sw) 64); try reflexivity; exfalso; tauto. }
  rewrite E. split; reflexivity.
Qed.

Example C04_case : good_widths [3; 5] /\
  shuffle [3; 5] [161; 2; 255] = Ok [65; 252; 226] /\ unshuffle [3; 5] [65; 252; 226] = Ok [161; 2; 255].
Proof. split; [split; [repeat constructor; lia|left; reflexivity]|]. split; vm_compute; reflexivity. Qed.

(** * C05: every output bit *)
(** Bit [p] of an array of [bw]-bit words, counting from the least significant bit of word 0. *)
Definition array_bit (bw : Z) (l : list Z) (p : Z) : bool :=
  Z.testbit (nth (Z.to_nat (p / bw)) l 0) (p mod bw).

Lemma array_bit_val : forall bw l p, 0 < bw -> 0 <= p -> words bw l ->
  array_bit bw l p = Z.testbit (val bw l) p.
Proof.
  intros. unfold array_bit. rewrite (nth_val bw) by (auto; lia).
  assert (0 <= p / bw) by (apply Z.div_pos; lia). rewrite Z2Nat.id by auto.
  pose proof (Z.mod_pos_bound p bw H).
  rewrite Z.mod_pow2_bits_low by lia.
  rewrite Z.div_pow2_bits by nia. f_equal.
  rewrite Z.add_comm. symmetry. apply Z.div_mod. lia.
Qed.

Lemma plane_bit : forall w shift a k r, 0 <= shift -> 0 <= r < w -> (k < length a)%nat ->
  Z.testbit (plane w shift a) (w * Z.of_nat k + r) = Z.testbit (nth k a 0) (shift + r).
Proof.
  induction a; intros k r Hs Hr Hk; cbn [length] in Hk; [lia|]. cbn [plane].
  pose proof (field_bound a shift w ltac:(lia)) as Hf.
  pose proof (pow2_pos w ltac:(lia)).
  assert (Ediv : (field a shift w + 2 ^ w * plane w shift a0) / 2 ^ w = plane w shift a0).
  { rewrite Z.mul_comm, Z.div_add by lia. rewrite Z.div_small by lia. lia. }
  assert (Emod : (field a shift w + 2 ^ w * plane w shift a0) mod 2 ^ w = field a shift w).
  { rewrite Z.mul_comm, Z_mod_plus_full. apply Z.mod_small; lia. }
  destruct k.
  - cbn [nth]. change (Z.of_nat 0) with 0. rewrite Z.mul_0_r, Z.add_0_l.
    rewrite <- (Z.mod_pow2_bits_low _ w) by lia. rewrite Emod. unfold field.
    rewrite Z.mod_pow2_bits_low by lia. rewrite Z.div_pow2_bits by lia. f_equal. lia.
  - cbn [nth]. rewrite <- (IHa k r) by lia. rewrite <- Ediv at 2.
    rewrite Z.div_pow2_bits by nia. f_equal. lia.
Qed.

Lemma stream_bit : forall pre w post shift a k r,
  Forall (fun w => 1 <= w) (pre ++ w :: post) -> 0 <= shift -> 0 <= r < w -> (k < length a)%nat ->
  Z.testbit (stream (pre ++ w :: post) shift a) (sum_widths pre * Z.of_nat (length a) + w * Z.of_nat k + r)
  = Z.testbit (nth k a 0) (shift + sum_widths pre + r).
Proof.
  induction pre; intros w post shift a' k r HF Hs Hr Hk.
  - cbn [app stream sum_widths fold_right].
    pose proof (plane_bound w shift a' ltac:(lia)) as Hpl.
    rewrite Z.mul_0_l, Z.add_0_l, Z.add_0_r.
    rewrite <- plane_bit with (w := w) by auto.
    assert (Hlt : w * Z.of_nat k + r < w * Z.of_nat (length a')) by nia.
    rewrite <- (Z.mod_pow2_bits_low _ (w * Z.of_nat (length a'))) by auto.
    rewrite Z.mul_comm, Z_mod_plus_full. rewrite Z.mod_small by lia. reflexivity.
  - inversion HF; subst. cbn [app stream sum_widths fold_right]. fold (sum_widths pre).
    pose proof (plane_bound a shift a' ltac:(lia)) as Hpl.
    assert (0 <= sum_widths pre).
    { apply sum_widths_nonneg. apply Forall_app in H2 as [? _]; auto. }
    replace (shift + (a + sum_widths pre) + r) with ((shift + a) + sum_widths pre + r) by lia.
    rewrite <- (IHpre w post (shift + a) a' k r) by (auto; lia).
    set (M := stream (pre ++ w :: post) (shift + a) a').
    set (P := plane a shift a') in *.
    assert (Hp : 0 < 2 ^ (a * Z.of_nat (length a'))) by (apply pow2_pos; nia).
    assert (Ed : (P + 2 ^ (a * Z.of_nat (length a')) * M) / 2 ^ (a * Z.of_nat (length a')) = M).
    { rewrite Z.mul_comm, Z.div_add by lia. rewrite Z.div_small by lia. lia. }
    rewrite <- Ed at 2. rewrite Z.div_pow2_bits by nia. f_equal. lia.
Qed.

(** Specification of every output bit.  With the widths listed from the *least* significant field
    upwards ([rev sw = pre ++ w :: post]), field [w] of element [k] occupies the [w] output bits
    starting at [n*(sum pre) + w*k]. *)
Theorem C05_output_bits : forall sw a b pre w post k r,
  good_widths sw -> shuffle sw a = Ok b -> rev sw = pre ++ w :: post ->
  0 <= r < w -> (k < length a)%nat ->
  array_bit (sum_widths sw) b (sum_widths pre * Z.of_nat (length a) + w * Z.of_nat k + r)
  = Z.testbit (nth k a 0) (sum_widths pre + r).
Proof.
  intros sw a b pre w post k r Hg E Hrev Hr Hk.
  destruct (shuffle_stream sw a Hg) as (b' & E' & W & L & V). rewrite E in E'. injection E' as <-.
  destruct Hg as [HF Hs].
  assert (HF' : Forall (fun w => 1 <= w) (pre ++ w :: post)) by (rewrite <- Hrev; apply Forall_rev; auto).
  assert (0 <= sum_widths pre) by (apply sum_widths_nonneg; apply Forall_app in HF' as [? _]; auto).
  rewrite array_bit_val; auto; try lia; [|nia].
  rewrite V, Hrev. rewrite stream_bit; auto; try lia.
Qed.

(** Byte shuffle: with [m] widths of 8, output byte [i*n + k] is byte [i] of element [k]. *)
Theorem C05_byte_shuffle : forall m a b i k r,
  (m = 1 \/ m = 2 \/ m = 4 \/ m = 8)%nat -> shuffle (repeat 8 m) a = Ok b ->
  (i < m)%nat -> (k < length a)%nat -> 0 <= r < 8 ->
  array_bit (8 * Z.of_nat m) b (8 * (Z.of_nat i * Z.of_nat (length a) + Z.of_nat k) + r)
  = Z.testbit (nth k a 0) (8 * Z.of_nat i + r).
Proof.
  intros m a b i k r Hm E Hi Hk Hr.
  assert (Hsum : forall n, sum_widths (repeat 8 n) = 8 * Z.of_nat n).
  { induction n; cbn [repeat sum_widths fold_right]; [reflexivity|]. fold (sum_widths (repeat 8 n)). lia. }
  assert (Hg : good_widths (repeat 8 m)).
  { split; [apply Forall_forall; intros x Hx; apply repeat_spec in Hx; lia|].
    rewrite Hsum. destruct Hm as [->|[->|[->| ->]]]; auto. }
  assert (Hrev : rev (repeat 8 m) = repeat 8 i ++ 8 :: repeat 8 (m - i - 1)).
  { assert (Hr1 : rev (repeat 8 m) = repeat 8 m).
    { clear. induction m; auto. cbn [repeat rev]. rewrite IHm. clear.
      induction m; auto. cbn [repeat app]. f_equal. auto. }
    rewrite Hr1. change (8 :: repeat 8 (m - i - 1)) with (repeat 8 (S (m - i - 1))).
    rewrite <- repeat_app. f_equal. lia. }
  pose proof (C05_output_bits (repeat 8 m) a b _ _ _ k r Hg E Hrev Hr Hk) as H.
  rewrite !Hsum in H. rewrite <- H. f_equal. lia.
Qed.

Example C05_case : shuffle [8; 8] [258; 772] = Ok [1026; 769]. (* 0x0102 0x0304 -> 0x0402 0x0301 *)
Proof. vm_compute. reflexivity. Qed.
