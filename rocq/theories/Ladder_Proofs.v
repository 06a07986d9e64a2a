(** C20: spin raising and lowering factors. *)
From Coq Require Import Reals ZArith List Bool Lia Lra.
From Verif Require Import Common Cplx Modes_Model Modes_Proofs Modal_Model Modal_Proofs Parity_Proofs.
Import ListNotations.
Open Scope Z_scope.

(** Specification: the action of one operator on the spin-weighted harmonic of weight s (Goldberg et
    al.), and of a word, the rightmost letter acting first. *)
Definition single (conv : R) (ell : Z) (o : eth_op) (s : Z) : R :=
  if ell <? Z.abs s then 0%R else
  match o with
  | Eth => sqrt (conv * IZR ((ell - s) * (ell + s + 1)))
  | Ethbar => (- sqrt (conv * IZR ((ell + s) * (ell - s + 1))))%R
  | OpBad => 0%R
  end.
Definition weight (o : eth_op) : Z := match o with Eth => 1 | Ethbar => -1 | OpBad => 0 end.
Fixpoint weight_after (ops : list eth_op) (s : Z) : Z :=
  match ops with [] => s | o :: rest => weight_after rest s + weight o end.
Fixpoint word (conv : R) (ell : Z) (ops : list eth_op) (s : Z) : R :=
  match ops with
  | [] => 1%R
  | o :: rest => (single conv ell o (weight_after rest s) * word conv ell rest s)%R
  end.
Definition good (ops : list eth_op) : Prop := Forall (fun o => o <> OpBad) ops.

Lemma good_bad : forall ops, good ops <-> existsb is_bad ops = false.
Proof.
  induction ops as [|o ops IH]; cbn; [split; auto; constructor|]. unfold good in *. rewrite orb_false_iff, <- IH.
  split; [intros H; inversion H; subst; destruct o; cbn; auto; congruence|].
  intros [H1 H2]. constructor; auto. destruct o; cbn in *; congruence.
Qed.
Lemma op_weight : forall o, op_sign o = weight o.
Proof. destruct o; reflexivity. Qed.

(** The running product of the loop. *)
Definition lsq (conv : R) (ell : Z) (o : eth_op) (s : Z) : R :=
  ((if (Z.abs s <=? ell)%Z then IZR (ell - s * op_sign o) * (IZR (ell + s * op_sign o) + 1) else 0) * conv)%R.
Lemma lsq_nonneg : forall c ell o s, (0 <= c)%R -> o <> OpBad -> (0 <= lsq c ell o s)%R.
Proof.
  intros c ell o s Hc Ho. unfold lsq. destruct (Z.leb_spec (Z.abs s) ell); [|lra].
  apply Rmult_le_pos; auto. rewrite <- plus_IZR, <- mult_IZR. apply IZR_le.
  destruct o; cbn [op_sign]; try congruence; apply Z.mul_nonneg_nonneg; lia.
Qed.
Lemma single_lsq : forall c ell o s, (0 <= c)%R -> o <> OpBad ->
  single c ell o s = (IZR (op_sign o) * sqrt (lsq c ell o s))%R.
Proof.
  intros c ell o s Hc Ho. unfold single, lsq. destruct (Z.ltb_spec ell (Z.abs s)), (Z.leb_spec (Z.abs s) ell); try lia.
  - rewrite Rmult_0_l, sqrt_0. ring.
  - destruct o; cbn [op_sign]; [| |congruence].
    + rewrite Rmult_1_l. f_equal. rewrite Rmult_comm. f_equal. rewrite <- plus_IZR, <- mult_IZR. f_equal. ring.
    + replace (IZR (-1)) with (-1)%R by reflexivity.
      replace (sqrt (c * IZR ((ell + s) * (ell - s + 1)))) with (sqrt (IZR (ell - s * -1) * (IZR (ell + s * -1) + 1) * c)); [ring|].
      f_equal. rewrite (Rmult_comm c). f_equal. rewrite <- plus_IZR, <- mult_IZR. f_equal. ring.
Qed.

Lemma ladder_fold : forall c ell ops s, (0 <= c)%R -> good ops ->
  exists L sg, fold_left (ladder_step ell c) (rev ops) (1%R, 1%R, s) = (L, sg, weight_after ops s) /\
    (0 <= L)%R /\ (sg * sqrt L = word c ell ops s)%R.
Proof.
  intros c ell ops s Hc. induction ops as [|o ops IH]; intros Hg; cbn [rev].
  - exists 1%R, 1%R. cbn. rewrite sqrt_1. split; auto. split; lra.
  - inversion Hg; subst. destruct IH as (L & sg & E & HL & HE); auto.
    rewrite fold_left_app, E. cbn [fold_left ladder_step].
    pose proof (lsq_nonneg c ell o (weight_after ops s) Hc H1) as Hn.
    exists (L * lsq c ell o (weight_after ops s))%R, (sg * IZR (op_sign o))%R. split.
    + unfold lsq. cbn [weight_after]. rewrite Rmult_assoc. reflexivity.
    + split; [apply Rmult_le_pos; auto|]. rewrite sqrt_mult by auto. cbn [word]. rewrite <- HE, single_lsq by auto. ring.
Qed.

(** The factor returned by the code is the product of the factors of the single operators, applied from
    right to left with the running spin weight. *)
Theorem C20_factor_is_word : forall ops s ell c, (0 <= c)%R -> good ops ->
  ladder_factor ops s ell (Some c) = Ok (word c ell ops s).
Proof.
  intros ops s ell c Hc Hg. unfold ladder_factor. apply good_bad in Hg as Hb. rewrite Hb.
  destruct (ladder_fold c ell ops s Hc Hg) as (L & sg & E & _ & HE). rewrite E, HE. reflexivity.
Qed.

(** Unknown operators and unknown conventions are rejected. *)
Theorem C20_rejects : forall ops s ell c, (~ good ops \/ c = None) -> ladder_factor ops s ell c = Err ValueError.
Proof.
  intros ops s ell c [H|H]; unfold ladder_factor.
  - destruct (existsb is_bad ops) eqn:E; auto. exfalso. apply H. apply good_bad. auto.
  - subst. destruct (existsb is_bad ops); auto.
Qed.

(** Applying b and then a is applying the concatenation. *)
Theorem C20_concatenation : forall a b s ell c, (0 <= c)%R -> good a -> good b ->
  exists ka kb, ladder_factor b s ell (Some c) = Ok kb /\ ladder_factor a (weight_after b s) ell (Some c) = Ok ka /\
    ladder_factor (a ++ b) s ell (Some c) = Ok (ka * kb)%R.
Proof.
  intros a b s ell c Hc Ha Hb. exists (word c ell a (weight_after b s)), (word c ell b s).
  rewrite !C20_factor_is_word by (auto; apply Forall_app; auto). split; auto. split; auto. f_equal.
  clear. induction a as [|o a IH]; cbn; [ring|]. rewrite IH.
  replace (weight_after (a ++ b) s) with (weight_after a (weight_after b s)); [ring|].
  clear. induction a; cbn; congruence.
Qed.

Lemma sqrt_prod : forall x, (0 <= x)%R -> (sqrt x * sqrt x = x)%R.
Proof. exact sqrt_def. Qed.

Lemma word_lower_raise : forall ell s c, (0 <= c)%R -> Z.abs s <= ell ->
  word c ell [Ethbar; Eth] s = (- (c * IZR ((ell - s) * (ell + s + 1))))%R /\
  word c ell [Eth; Ethbar] s = (- (c * IZR ((ell + s) * (ell - s + 1))))%R.
Proof.
  intros ell s c Hc Hs. cbn [word weight_after weight]. unfold single.
  assert (P1 : (0 <= c * IZR ((ell - s) * (ell + s + 1)))%R) by (apply Rmult_le_pos; auto; apply IZR_le; apply Z.mul_nonneg_nonneg; lia).
  assert (P2 : (0 <= c * IZR ((ell + s) * (ell - s + 1)))%R) by (apply Rmult_le_pos; auto; apply IZR_le; apply Z.mul_nonneg_nonneg; lia).
  destruct (Z.ltb_spec ell (Z.abs s)); [lia|]. split.
  - destruct (Z.ltb_spec ell (Z.abs (s + 1))).
    + replace (ell - s) with 0 by lia. rewrite Z.mul_0_l. ring.
    + replace ((ell + (s + 1)) * (ell - (s + 1) + 1)) with ((ell - s) * (ell + s + 1)) by ring.
      rewrite Rmult_1_r, Ropp_mult_distr_l_reverse, sqrt_prod by auto. reflexivity.
  - destruct (Z.ltb_spec ell (Z.abs (s + -1))).
    + replace (ell + s) with 0 by lia. rewrite Z.mul_0_l. ring.
    + replace ((ell - (s + -1)) * (ell + (s + -1) + 1)) with ((ell + s) * (ell - s + 1)) by ring.
      rewrite Rmult_1_r, Ropp_mult_distr_r_reverse, sqrt_prod by auto. reflexivity.
Qed.

(** ethbar eth, eth ethbar and their commutator. *)
Theorem C20_lower_raise : forall ell s c, (0 <= c)%R -> Z.abs s <= ell ->
  exists k k', ladder_factor [Ethbar; Eth] s ell (Some c) = Ok k /\ ladder_factor [Eth; Ethbar] s ell (Some c) = Ok k' /\
    k = (- (c * IZR ((ell - s) * (ell + s + 1))))%R /\ k' = (- (c * IZR ((ell + s) * (ell - s + 1))))%R /\
    (k - k' = c * (2 * IZR s))%R.
Proof.
  intros ell s c Hc Hs. destruct (word_lower_raise ell s c Hc Hs) as [E1 E2].
  exists (word c ell [Ethbar; Eth] s), (word c ell [Eth; Ethbar] s).
  rewrite !C20_factor_is_word by (auto; repeat constructor; discriminate).
  split; auto. split; auto. split; auto. split; auto. rewrite E1, E2.
  repeat (rewrite ?mult_IZR, ?plus_IZR, ?minus_IZR). ring.
Qed.

(** The factor is zero exactly when the spin weight, before or after some operator, exceeds ell. *)
Definition leaves_range (ell : Z) (ops : list eth_op) (s : Z) : Prop :=
  exists a b, ops = a ++ b /\ ell < Z.abs (weight_after b s).

Lemma word_zero : forall c ell ops s, (0 < c)%R -> good ops -> ops <> [] ->
  word c ell ops s = 0%R <-> leaves_range ell ops s.
Proof.
  intros c ell ops s Hc. induction ops as [|o ops IH]; intros Hg Hne; [congruence|]. clear Hne. inversion Hg; subst.
  assert (HS : single c ell o (weight_after ops s) = 0%R <->
     ell < Z.abs (weight_after ops s) \/ ell < Z.abs (weight_after ops s + weight o)).
  { set (q := weight_after ops s). unfold single. destruct (Z.ltb_spec ell (Z.abs q)); [split; auto|].
    assert (Z0 : forall x, 0 <= x -> sqrt (c * IZR x) = 0%R <-> x = 0).
    { intros x Hx. split.
      - intros E. apply sqrt_eq_0 in E; [|apply Rmult_le_pos; [lra|apply IZR_le; auto]].
        apply Rmult_integral in E as [E|E]; [lra|]. apply eq_IZR in E. auto.
      - intros ->. rewrite Rmult_0_r. apply sqrt_0. }
    assert (F : forall x y, 0 <= x -> 0 < y -> (sqrt (c * IZR (x * y)) = 0%R <-> x = 0)).
    { intros x y Hx Hy. rewrite Z0 by (apply Z.mul_nonneg_nonneg; lia). rewrite Z.mul_eq_0. lia. }
    destruct o; cbn [weight]; [| |congruence].
    - rewrite F by lia. lia.
    - assert (X : (- sqrt (c * IZR ((ell + q) * (ell - q + 1))) = 0)%R <-> sqrt (c * IZR ((ell + q) * (ell - q + 1))) = 0%R) by (split; intros; lra).
      rewrite X, F by lia. lia. }
  cbn [word]. split.
  - intros E. apply Rmult_integral in E as [E|E].
    + apply HS in E as [E|E]; [exists [o], ops|exists [], (o :: ops)]; auto.
    + destruct ops as [|o' ops']; [cbn in E; lra|]. apply IH in E; [|auto|discriminate].
      destruct E as (a & b & E1 & E2). exists (o :: a), b. rewrite E1. auto.
  - intros (a & b & E & Hb). destruct a as [|a0 a]; cbn in E.
    + subst b. cbn in Hb. assert (E0 : single c ell o (weight_after ops s) = 0%R) by (apply HS; auto). rewrite E0. ring.
    + injection E as <- E. destruct ops as [|o' ops'].
      * destruct a, b; try discriminate. cbn in *. assert (E0 : single c ell o s = 0%R) by (apply HS; auto). rewrite E0. ring.
      * assert (E0 : word c ell (o' :: ops') s = 0%R) by (apply IH; auto; [discriminate|]; exists a, b; auto). rewrite E0. ring.
Qed.

Theorem C20_zero_iff_out_of_range : forall ops s ell c, (0 < c)%R -> good ops -> ops <> [] ->
  exists k, ladder_factor ops s ell (Some c) = Ok k /\ (k = 0%R <-> leaves_range ell ops s).
Proof.
  intros ops s ell c Hc Hg Hne. eexists. split; [apply C20_factor_is_word; auto; lra|]. apply word_zero; auto.
Qed.

(** ** apply_eth *)
Section Row.
Variables lo hi : Z.
Hypothesis Hlo : 0 <= lo.

Lemma scale_ms : forall k ell ms row f, has_modes lo hi row f -> (forall m, In m ms -> valid lo hi ell m) -> NoDup ms ->
  exists row', for_each (map (fun m => LM_index ell m lo) ms) (fun i r' => scale_at k i r') row = Ok row' /\
    has_modes lo hi row' (fun l m => if (l =? ell) && memZ m ms then Cscale k (f l m) else f l m).
Proof.
  intros k ell ms. induction ms as [|x ms IH]; intros row f H Hv Hd.
  - exists row. split; auto. eapply has_modes_ext; [exact H|]. intros. rewrite andb_false_r. auto.
  - inversion Hd; subst. cbn [map for_each]. unfold scale_at at 1.
    rewrite (rd_modes lo hi Hlo row f ell x H) by (apply Hv; left; auto). cbn [rbind].
    destruct (wr_modes lo hi Hlo row f ell x (Cscale k (f ell x)) H (Hv x (or_introl eq_refl))) as (r1 & E1 & H1). rewrite E1. cbn [rbind].
    destruct (IH r1 _ H1 ltac:(intros; apply Hv; right; auto) H3) as (r2 & E2 & H4). rewrite E2.
    exists r2. split; auto. eapply has_modes_ext; [exact H4|]. intros l m V. unfold fset, memZ. cbn [existsb].
    destruct (Z.eqb_spec l ell); cbn [andb orb]; auto. subst.
    destruct (Z.eqb_spec m x); cbn [orb andb]; auto. subst.
    destruct (existsb (Z.eqb x) ms) eqn:E; auto. apply memZ_In in E. contradiction.
Qed.

(** Each mode of the result is the factor of its ell times the input mode. *)
Theorem C20_apply_eth : forall ops s c row f, (0 <= c)%R -> good ops -> has_modes lo hi row f ->
  exists row', apply_eth_row ops s lo hi (Some c) row = Ok row' /\
    has_modes lo hi row' (fun l m => Cscale (word c l ops s) (f l m)).
Proof.
  intros ops s c row f Hc Hg H. unfold apply_eth_row.
  destruct (for_each_modes lo hi _ (zrange lo (hi + 1))
     (fun ell r => let? k := ladder_factor ops s ell (Some c) in
        for_each (lm_indices lo ell (fun _ => true)) (fun i r' => scale_at k i r') r)
     (fun ell h l m => if l =? ell then Cscale (word c l ops s) (h l m) else h l m)) with (row := row) (f := f) as (w & E & Hw); auto.
  - intros ell r h Hin Hr. apply zrange_In in Hin. rewrite C20_factor_is_word by auto. cbn [rbind]. unfold lm_indices.
    assert (F : filter (fun _ : Z => true) (ms_of ell) = ms_of ell).
    { clear. induction (ms_of ell); cbn; congruence. }
    rewrite F.
    destruct (scale_ms (word c ell ops s) ell (ms_of ell) r h Hr) as (r' & E' & H').
    + intros m Hm. apply ms_of_In in Hm. split; auto; lia.
    + apply zrange_NoDup.
    + exists r'. split; auto. eapply has_modes_ext; [exact H'|]. intros l m [V1 V2].
      destruct (Z.eqb_spec l ell); cbn [andb]; auto. subst.
      replace (memZ m (ms_of ell)) with true; auto. symmetry. apply memZ_In, ms_of_In. auto.
  - exists w. split; auto. eapply has_modes_ext; [exact Hw|]. intros l m V. clear E Hw.
    assert (Hin : In l (zrange lo (hi + 1))) by (apply zrange_In; destruct V; lia).
    pose proof (zrange_NoDup lo (hi + 1)) as Hd. revert Hin Hd. generalize f.
    induction (zrange lo (hi + 1)) as [|x xs IH]; intros h Hin Hd; [destruct Hin|]. inversion Hd; subst. cbn [fold_left].
    apply in_inv in Hin. destruct Hin as [->|Hin].
    + assert (G : forall h1, fold_left (fun g k => (fun l m => if l =? k then Cscale (word c l ops s) (g l m) else g l m)) xs h1 l m = h1 l m).
      { clear - H2. induction xs as [|y ys IHy]; intros h1; cbn [fold_left]; auto. rewrite IHy by (intro; apply H2; right; auto).
        destruct (Z.eqb_spec l y); auto. subst. exfalso. apply H2. left; auto. }
      rewrite G, Z.eqb_refl. reflexivity.
    + rewrite IH by auto. destruct (Z.eqb_spec l x); auto. subst. contradiction.
Qed.

Theorem C20_apply_eth_rejects : forall ops s c row, lo <= hi -> (~ good ops \/ c = None) -> apply_eth_row ops s lo hi c row = Err ValueError.
Proof.
  intros ops s c row Hle H. unfold apply_eth_row. rewrite zrange_cons by lia. cbn [for_each].
  rewrite C20_rejects by auto. reflexivity.
Qed.
End Row.

(** Example: ethbar ethbar on ell = 2, spin weight 2 gives sqrt(4*1) sqrt(3*2) = sqrt 24; a third lowering
    of spin weight -2 leaves the range. *)
Example C20_case : good [Ethbar; Eth] /\ ladder_factor [Ethbar; Eth] (-2) 2 conv_np = Ok (-4)%R /\
  leaves_range 2 [Ethbar; Eth] 2 /\ ~ leaves_range 2 [Ethbar; Eth] 1.
Proof.
  split; [repeat constructor; discriminate|]. split.
  - unfold conv_np. rewrite C20_factor_is_word by (lra || (repeat constructor; discriminate)).
    rewrite (proj1 (word_lower_raise 2 (-2) 1 ltac:(lra) ltac:(lia))). f_equal. cbn. lra.
  - split; [exists [Ethbar], [Eth]; split; auto; cbn; lia|].
    intros (a & b & E & H). destruct a as [|? [|? [|? a]]]; cbn in E; try discriminate; (subst b || (injection E; intros; subst)); cbn in H; lia.
Qed.
