(** C18, C19: parity operations on mode data. *)
From Coq Require Import Reals ZArith List Bool Lia Lra.
From Verif Require Import Common Cplx Modes_Model Modes_Proofs Modal_Model Modal_Proofs.
Import ListNotations.
Open Scope Z_scope.

(** Specification: the documented action on modes (Boyle et al. 2014): a sign times the conjugate of
    mode (l, m) or (l, -m). *)
Definition parity_value (k : parity_kind) (s : Z) (f : Z -> Z -> C) (l m : Z) : C :=
  match k with
  | PX => Cscale (sgn m) (Conj (f l m))
  | PY => Conj (f l m)
  | PZ => Cscale (sgn (l + s)) (Conj (f l (- m)))
  | PAll => Cscale (sgn (l + s + m)) (Conj (f l (- m)))
  end.

Section Row.
Variables lo hi : Z.
Hypothesis Hlo : 0 <= lo.
Notation idx ell := (fun m => LM_index ell m lo).

Lemma take_modes : forall row f ell ms, has_modes lo hi row f -> (forall m, In m ms -> valid lo hi ell m) ->
  take row (map (idx ell) ms) = Ok (map (f ell) ms).
Proof.
  intros row f ell ms H. induction ms as [|m ms IH]; intros Hv; cbn; auto.
  rewrite (rd_modes lo hi Hlo row f ell m H) by (apply Hv; left; auto). cbn.
  rewrite IH by (intros; apply Hv; right; auto). reflexivity.
Qed.

Definition memZ (m : Z) (ms : list Z) : bool := existsb (Z.eqb m) ms.
Lemma memZ_In : forall m ms, memZ m ms = true <-> In m ms.
Proof.
  intros. unfold memZ. rewrite existsb_exists. split; [intros (x & Hx & E); apply Z.eqb_eq in E; subst; auto|].
  intros. exists m. split; auto. apply Z.eqb_refl.
Qed.

Lemma assign_modes : forall ell g ms row f, has_modes lo hi row f -> (forall m, In m ms -> valid lo hi ell m) ->
  exists row', assign row (map (idx ell) ms) (map g ms) = Ok row' /\
    has_modes lo hi row' (fun l m => if (l =? ell) && memZ m ms then g m else f l m).
Proof.
  intros ell g ms. unfold assign. induction ms as [|x ms IH]; intros row f H Hv.
  - exists row. split; auto. destruct H as [L H]. split; auto. intros l m V. rewrite andb_false_r. auto.
  - cbn [map combine for_each fst snd].
    destruct (wr_modes lo hi Hlo row f ell x (g x) H (Hv x (or_introl eq_refl))) as (r1 & E1 & H1). rewrite E1. cbn [rbind].
    destruct (IH r1 _ H1 ltac:(intros; apply Hv; right; auto)) as (r2 & E2 & H2). rewrite E2.
    exists r2. split; auto. destruct H2 as [L2 H2]. split; auto. intros l m V. rewrite H2 by auto. f_equal.
    unfold memZ. cbn [existsb]. unfold fset.
    destruct (l =? ell) eqn:E; cbn [andb orb]; auto.
    destruct (m =? x) eqn:Em; cbn [orb]; auto.
    apply Z.eqb_eq in Em. subst. destruct (existsb (Z.eqb x) ms); auto.
Qed.

Lemma filter_rev' : forall (keep : Z -> bool) l, filter keep (rev l) = rev (filter keep l).
Proof.
  intros keep. induction l as [|a l IH]; cbn; auto. rewrite filter_app, IH. cbn. destruct (keep a); cbn; auto using app_nil_r.
Qed.
Lemma filter_opp : forall keep l, (forall m, keep (- m) = keep m) -> rev (filter keep (ms_of l)) = map Z.opp (filter keep (ms_of l)).
Proof.
  intros keep l Hk. rewrite <- filter_rev', ms_rev. induction (ms_of l); cbn; auto. rewrite Hk.
  destruct (keep a); cbn; rewrite IHl0; auto.
Qed.

Definition sg (neg : bool) (v : C) : C := if neg then (- v)%C else v.

(** One pair of fancy assignments, without and with reversal of the source. *)
Lemma put_same : forall neg self f ell keep w h, has_modes lo hi self f -> has_modes lo hi w h -> lo <= ell <= hi ->
  exists w', put_conj neg self (lm_indices lo ell keep) (lm_indices lo ell keep) w = Ok w' /\
   has_modes lo hi w' (fun l m => if (l =? ell) && memZ m (filter keep (ms_of ell)) then sg neg (Conj (f ell m)) else h l m).
Proof.
  intros neg self f ell keep w h Hs Hw Hl. unfold put_conj, lm_indices.
  assert (V : forall m, In m (filter keep (ms_of ell)) -> valid lo hi ell m).
  { intros m Hm. apply filter_In in Hm as [Hm _]. apply ms_of_In in Hm. split; auto. }
  rewrite (take_modes self f ell _ Hs V). cbn [rbind]. rewrite map_map.
  replace (map (fun x => if neg then (- Conj (f ell x))%C else Conj (f ell x)) (filter keep (ms_of ell)))
    with (map (fun x => sg neg (Conj (f ell x))) (filter keep (ms_of ell))) by (destruct neg; reflexivity).
  apply (assign_modes ell (fun m => sg neg (Conj (f ell m)))); auto.
Qed.
Lemma put_rev : forall neg self f ell keep w h, has_modes lo hi self f -> has_modes lo hi w h -> lo <= ell <= hi ->
  (forall m, keep (- m) = keep m) ->
  exists w', put_conj neg self (lm_indices lo ell keep) (rev (lm_indices lo ell keep)) w = Ok w' /\
   has_modes lo hi w' (fun l m => if (l =? ell) && memZ m (filter keep (ms_of ell)) then sg neg (Conj (f ell (- m))) else h l m).
Proof.
  intros neg self f ell keep w h Hs Hw Hl Hk. unfold put_conj, lm_indices. rewrite <- map_rev, filter_opp by auto.
  assert (V : forall m, In m (filter keep (ms_of ell)) -> valid lo hi ell m).
  { intros m Hm. apply filter_In in Hm as [Hm _]. apply ms_of_In in Hm. split; auto. }
  rewrite (take_modes self f ell _ Hs).
  2:{ intros m Hm. apply in_map_iff in Hm as (x & <- & Hx). destruct (V x Hx). split; auto; lia. }
  cbn [rbind]. rewrite !map_map.
  replace (map (fun x => if neg then (- Conj (f ell (- x)%Z))%C else Conj (f ell (- x)%Z)) (filter keep (ms_of ell)))
    with (map (fun x => sg neg (Conj (f ell (- x)))) (filter keep (ms_of ell))) by (destruct neg; reflexivity).
  apply (assign_modes ell (fun m => sg neg (Conj (f ell (- m))))); auto.
Qed.

(** A loop over ell in which each pass fills in all modes of that ell. *)
Lemma ell_loop : forall (body : Z -> list C -> res (list C)) (G : Z -> Z -> C),
  (forall ell w h, lo <= ell <= hi -> has_modes lo hi w h -> exists w', body ell w = Ok w' /\
     has_modes lo hi w' (fun l m => if l =? ell then G l m else h l m)) ->
  forall w, length w = length (LM_range lo hi) ->
  exists w', for_each (zrange lo (hi + 1)) body w = Ok w' /\ has_modes lo hi w' G.
Proof.
  intros body G Hb w HL. pose proof (has_modes_mode lo hi Hlo w HL) as Hw.
  destruct (for_each_modes lo hi _ (zrange lo (hi + 1)) body (fun ell h l m => if l =? ell then G l m else h l m)) with (row := w) (f := mode lo w)
    as (w' & E & H); auto.
  - intros ell r h Hin Hr. apply zrange_In in Hin. apply Hb; auto; lia.
  - exists w'. split; auto. destruct H as [L H]. split; auto. intros l m V. rewrite H by auto. f_equal.
    assert (Hin : In l (zrange lo (hi + 1))) by (apply zrange_In; destruct V; lia).
    clear E H L. revert Hin. generalize (mode lo w). induction (zrange lo (hi + 1)) as [|x xs IH]; intros h0 Hin; [destruct Hin|].
    cbn [fold_left].
    destruct (in_dec Z.eq_dec l xs) as [Hi|Hn]; [apply IH; auto|].
    apply in_inv in Hin. destruct Hin as [->|Hin]; [|exfalso; exact (Hn Hin)].
    assert (G0 : forall h1, fold_left (fun g k => (fun l m => if l =? k then G l m else g l m)) xs h1 l m = h1 l m).
    { clear - Hn. induction xs as [|y ys IHy]; intros h1; cbn [fold_left]; auto. rewrite IHy by (intro; apply Hn; right; auto).
      destruct (Z.eqb_spec l y); auto. subst. exfalso. apply Hn. left; auto. }
    rewrite G0. rewrite Z.eqb_refl. reflexivity.
Qed.

Lemma memZ_filter : forall m ell keep, - ell <= m <= ell -> memZ m (filter keep (ms_of ell)) = keep m.
Proof.
  intros m ell keep Hm. destruct (keep m) eqn:E.
  - apply memZ_In. apply filter_In. split; auto. apply ms_of_In; auto.
  - destruct (memZ m (filter keep (ms_of ell))) eqn:E2; auto. apply memZ_In in E2. apply filter_In in E2. destruct E2. congruence.
Qed.
Lemma mod2_sgn : forall x, sgn x = if x mod 2 =? 0 then 1%R else (-1)%R.
Proof.
  intros x. unfold sgn. rewrite Zmod_even. destruct (Z.even x); reflexivity.
Qed.
Lemma mod2_opp : forall x y, (x + - y) mod 2 =? 0 = ((x + y) mod 2 =? 0).
Proof. intros. rewrite !Zmod_even, !Z.even_add, Z.even_opp. reflexivity. Qed.

Lemma has_modes_ext : forall row f g, has_modes lo hi row f -> (forall l m, valid lo hi l m -> f l m = g l m) -> has_modes lo hi row g.
Proof. intros row f g [L H] E. split; auto. intros l m V. rewrite H by auto. rewrite E; auto. Qed.

Lemma conj_row_modes : forall k s self junk f, has_modes lo hi self f -> length junk = length (LM_range lo hi) ->
  exists w, conj_row k s lo hi self junk = Ok w /\ has_modes lo hi w (parity_value k s f).
Proof.
  intros k s self junk f Hs HL. destruct k; cbn [conj_row].
  - unfold x_conj_row. apply ell_loop; auto. intros ell w h Hl Hw.
    destruct (put_same false self f ell (fun m => m mod 2 =? 0) w h Hs Hw Hl) as (w1 & E1 & H1). rewrite E1. cbn [rbind].
    destruct (put_same true self f ell (fun m => negb (m mod 2 =? 0)) w1 _ Hs H1 Hl) as (w2 & E2 & H2).
    exists w2. split; auto. eapply has_modes_ext; [exact H2|]. intros l m [V1 V2].
    destruct (Z.eqb_spec l ell); cbn [andb]; auto. subst. rewrite !memZ_filter by auto.
    cbn [parity_value]. rewrite mod2_sgn. destruct (m mod 2 =? 0); cbn [negb sg]; cx.
  - exists (y_conj_row self). split; auto. destruct Hs as [L H]. split; [unfold y_conj_row; rewrite map_length; auto|].
    intros l m V. unfold y_conj_row. rewrite nth_error_map, H by auto. reflexivity.
  - unfold z_conj_row. apply ell_loop; auto. intros ell w h Hl Hw.
    destruct ((ell + s) mod 2 =? 0) eqn:Ep.
    + destruct (put_rev false self f ell (fun _ => true) w h Hs Hw Hl ltac:(auto)) as (w1 & E1 & H1).
      exists w1. split; auto. eapply has_modes_ext; [exact H1|]. intros l m [V1 V2].
      destruct (Z.eqb_spec l ell); cbn [andb]; auto. subst. rewrite memZ_filter by auto.
      cbn [parity_value sg]. rewrite mod2_sgn, Ep. cx.
    + destruct (put_rev true self f ell (fun _ => true) w h Hs Hw Hl ltac:(auto)) as (w1 & E1 & H1).
      exists w1. split; auto. eapply has_modes_ext; [exact H1|]. intros l m [V1 V2].
      destruct (Z.eqb_spec l ell); cbn [andb]; auto. subst. rewrite memZ_filter by auto.
      cbn [parity_value sg]. rewrite mod2_sgn, Ep. cx.
  - unfold p_conj_row. apply ell_loop; auto. intros ell w h Hl Hw.
    destruct (put_rev false self f ell (fun m => (ell + s + m) mod 2 =? 0) w h Hs Hw Hl ltac:(intros; apply mod2_opp)) as (w1 & E1 & H1).
    rewrite E1. cbn [rbind].
    destruct (put_rev true self f ell (fun m => negb ((ell + s + m) mod 2 =? 0)) w1 _ Hs H1 Hl ltac:(intros; cbv beta; f_equal; apply mod2_opp)) as (w2 & E2 & H2).
    exists w2. split; auto. eapply has_modes_ext; [exact H2|]. intros l m [V1 V2].
    destruct (Z.eqb_spec l ell); cbn [andb]; auto. subst. rewrite !memZ_filter by auto.
    cbn [parity_value]. rewrite mod2_sgn. destruct ((ell + s + m) mod 2 =? 0); cbn [negb sg]; cx.
Qed.

Lemma half_modes : forall a b f g, has_modes lo hi a f -> has_modes lo hi b g ->
  has_modes lo hi (half_sum a b) (fun l m => Cscale (/2) (f l m + g l m)%C) /\
  has_modes lo hi (half_diff a b) (fun l m => Cscale (/2) (f l m - g l m)%C).
Proof.
  intros a b f g [La Ha] [Lb Hb].
  assert (NC : forall l m, valid lo hi l m -> nth_error (combine a b) (Z.to_nat (LM_index l m lo)) = Some (f l m, g l m)).
  { intros l m V. specialize (Ha l m V). specialize (Hb l m V). revert Ha Hb. clear.
    generalize (Z.to_nat (LM_index l m lo)) as i. revert b. induction a; intros [|y b] i Ha Hb; destruct i; try discriminate; cbn in *.
    - congruence.
    - eapply IHa; eauto. }
  split; (split; [unfold half_sum, half_diff; rewrite map_length, combine_length; lia|]); intros l m V;
  unfold half_sum, half_diff; rewrite nth_error_map, NC by auto; reflexivity.
Qed.
End Row.

(** * Waveform level *)
(** Well-formed: every row has the modes of the ell range, and there are at least two of them (see C02
    for what happens otherwise). *)
Definition wave_ok (w : wave) : Prop :=
  0 <= w_lo w /\ 2 <= n_modes w /\ (exists s, w_spin w = Some s) /\
  Forall (fun row => length row = length (LM_range (w_lo w) (w_hi w))) (w_rows w).
Definition junk_ok (w : wave) (junk : nat -> list C) : Prop :=
  forall i, length (junk i) = length (LM_range (w_lo w) (w_hi w)).
Definition spin (w : wave) : Z := match w_spin w with Some s => s | None => 0 end.
(** Same ell range and spin weight, and mode by mode related by [v]. *)
Definition mode_image (v : (Z -> Z -> C) -> Z -> Z -> C) (w w' : wave) : Prop :=
  w_spin w' = w_spin w /\ w_lo w' = w_lo w /\ w_hi w' = w_hi w /\
  Forall2 (fun row row' => length row' = length row /\ forall l m, valid (w_lo w) (w_hi w) l m ->
     mode (w_lo w) row' l m = v (mode (w_lo w) row) l m) (w_rows w) (w_rows w').

Lemma Forall2_length' : forall A B (R : A -> B -> Prop) l l', Forall2 R l l' -> length l = length l'.
Proof. induction 1; cbn; auto. Qed.
Lemma map_res_Forall2 : forall A B (f : A -> res B) (R : A -> B -> Prop) l,
  (forall x, In x l -> exists y, f x = Ok y /\ R x y) -> exists l', map_res f l = Ok l' /\ Forall2 R l l'.
Proof.
  intros A B f R l. induction l as [|x l IH]; intros H; cbn; eauto.
  destruct (H x (or_introl eq_refl)) as (y & E & Hy). rewrite E. cbn.
  destruct IH as (l' & E' & H'); [intros; apply H; right; auto|]. rewrite E'. cbn. eauto.
Qed.
Lemma Forall2_combine_snd : forall A (R : list C -> A -> Prop) rows l' (n : nat),
  Forall2 (fun (ir : nat * list C) y => R (snd ir) y) (combine (seq n (length rows)) rows) l' -> Forall2 R rows l'.
Proof.
  intros A R rows. induction rows as [|r rows IH]; intros l' n H; cbn in H; inversion H; subst; constructor; auto.
  eapply IH; eauto.
Qed.

Lemma parity_conj_image : forall k junk w, wave_ok w -> junk_ok w junk ->
  exists w', parity_conj k junk w = Ok w' /\ mode_image (parity_value k (spin w)) w w' /\ wave_ok w'.
Proof.
  intros k junk [sp lo hi rows] (Hlo & Hn & (s & Hs) & Hr) Hj. cbn in *. subst sp.
  unfold parity_conj. cbn. unfold n_modes in *. cbn in *.
  destruct (Z.ltb_spec (Z.of_nat (length (LM_range lo hi))) 2); [lia|].
  destruct (map_res_Forall2 _ _ (fun ir : nat * list C => conj_row k s lo hi (snd ir) (junk (fst ir)))
    (fun ir w => has_modes lo hi w (parity_value k s (mode lo (snd ir)))) (combine (seq 0 (length rows)) rows)) as (l' & E & H').
  { intros [i r] Hin. apply in_combine_r in Hin. rewrite Forall_forall in Hr. specialize (Hr r Hin). cbn.
    apply conj_row_modes; auto. apply has_modes_mode; auto. }
  rewrite E. cbn. eexists. split; [reflexivity|].
  apply (Forall2_combine_snd _ (fun r w => has_modes lo hi w (parity_value k s (mode lo r)))) in H'.
  assert (Hf : Forall2 (fun row row' => length row' = length row /\ forall l m, valid lo hi l m -> mode lo row' l m = parity_value k s (mode lo row) l m) rows l').
  { clear - H' Hr. induction H'; constructor; inversion Hr; subst; auto. destruct H. split; [congruence|].
    intros l0 m V. unfold mode at 1. apply nth_error_nth. auto. }
  split.
  - unfold mode_image. cbn. auto.
  - unfold wave_ok. cbn. split; auto. split; auto. split; eauto.
    clear - Hf Hr. induction Hf; constructor; inversion Hr; subst; auto. destruct H. congruence.
Qed.

Lemma mode_image_unique : forall v v' w w1 w2, wave_ok w -> mode_image v w w1 -> mode_image v' w w2 ->
  (forall f l m, v f l m = v' f l m) -> w1 = w2.
Proof.
  intros v v' [sp lo hi rows] [sp1 lo1 hi1 rows1] [sp2 lo2 hi2 rows2] (Hlo & _ & _ & Hr) (A1 & B1 & C1 & D1) (A2 & B2 & C2 & D2) E.
  cbn in *. subst. f_equal. revert rows2 D2. induction D1; intros rows2 D2; inversion D2; subst; auto. inversion Hr; subst.
  f_equal; [|apply IHD1; auto]. destruct H as [L1 M1], H2 as [L2 M2].
  eapply (has_modes_unique lo hi Hlo y y0).
  - apply has_modes_mode; auto; congruence.
  - apply has_modes_mode; auto; congruence.
  - intros l0 m V. rewrite M1, M2 by auto. apply E.
Qed.

Lemma parity_value_ext : forall k s f g lo hi l m, (forall l m, valid lo hi l m -> f l m = g l m) -> valid lo hi l m ->
  parity_value k s f l m = parity_value k s g l m.
Proof.
  intros k s f g lo hi l m E [V1 V2]. destruct k; cbn; rewrite E; auto; split; lia.
Qed.

Lemma mode_image_comp : forall v k w w1 w2, mode_image v w w1 -> mode_image (parity_value k (spin w1)) w1 w2 ->
  mode_image (fun f => parity_value k (spin w) (v f)) w w2.
Proof.
  intros v k [sp lo hi rows] [sp1 lo1 hi1 rows1] [sp2 lo2 hi2 rows2] (A1 & B1 & C1 & D1) (A2 & B2 & C2 & D2).
  cbn in *. subst. unfold mode_image. cbn. repeat (split; auto).
  revert rows2 D2. induction D1; intros rows2 D2; inversion D2; subst; constructor; auto.
  destruct H as [L1 M1], H2 as [L2 M2]. split; [congruence|]. intros l0 m V. rewrite M2 by auto.
  unfold spin at 1. cbn. eapply parity_value_ext; eauto.
Qed.

Lemma mode_image_id : forall w, mode_image (fun f => f) w w.
Proof. intros w. unfold mode_image. repeat (split; auto). induction (w_rows w); constructor; auto. Qed.

(** The stated action: every parity conjugate gives back the documented modes, whatever was in the
    uninitialised array. *)
Theorem C18_parity_action : forall k junk w, wave_ok w -> junk_ok w junk ->
  exists w', parity_conj k junk w = Ok w' /\ mode_image (parity_value k (spin w)) w w'.
Proof. intros k junk w H J. destruct (parity_conj_image k junk w H J) as (w' & E & I & _). eauto. Qed.

Theorem C18_involution : forall k junk junk' w, wave_ok w -> junk_ok w junk -> junk_ok w junk' ->
  exists w', parity_conj k junk w = Ok w' /\ parity_conj k junk' w' = Ok w.
Proof.
  intros k junk junk' w H J J'. destruct (parity_conj_image k junk w H J) as (w1 & E1 & I1 & O1).
  assert (J1 : junk_ok w1 junk').
  { destruct I1 as (_ & A & B & _). unfold junk_ok in *. rewrite A, B. auto. }
  destruct (parity_conj_image k junk' w1 O1 J1) as (w2 & E2 & I2 & O2).
  exists w1. split; auto. rewrite E2. f_equal.
  pose proof (mode_image_comp _ _ _ _ _ I1 I2) as I.
  eapply mode_image_unique; [exact H|exact I|apply mode_image_id|].
  intros f l m. destruct k; cbn; rewrite ?Z.opp_involutive, ?Conj_scale, ?Conj_involutive; auto;
  apply C_eq; cbn; rewrite ?sgn_add, ?sgn_opp;
  repeat match goal with |- context [sgn ?x] => destruct (sgn_cases x) as [->| ->] end; ring.
Qed.

Theorem C18_commute : forall k k' j1 j2 j3 j4 w, wave_ok w -> junk_ok w j1 -> junk_ok w j2 -> junk_ok w j3 -> junk_ok w j4 ->
  exists a b r, parity_conj k j1 w = Ok a /\ parity_conj k' j2 a = Ok r /\ parity_conj k' j3 w = Ok b /\ parity_conj k j4 b = Ok r.
Proof.
  intros k k' j1 j2 j3 j4 w H J1 J2 J3 J4.
  destruct (parity_conj_image k j1 w H J1) as (a & Ea & Ia & Oa).
  destruct (parity_conj_image k' j3 w H J3) as (b & Eb & Ib & Ob).
  assert (Ja : junk_ok a j2) by (destruct Ia as (_ & A & B & _); unfold junk_ok in *; rewrite A, B; auto).
  assert (Jb : junk_ok b j4) by (destruct Ib as (_ & A & B & _); unfold junk_ok in *; rewrite A, B; auto).
  destruct (parity_conj_image k' j2 a Oa Ja) as (r & Er & Ir & _).
  destruct (parity_conj_image k j4 b Ob Jb) as (r' & Er' & Ir' & _).
  exists a, b, r. split; auto. split; auto. split; auto. rewrite Er'. f_equal.
  pose proof (mode_image_comp _ _ _ _ _ Ia Ir) as I1. pose proof (mode_image_comp _ _ _ _ _ Ib Ir') as I2.
  symmetry. eapply mode_image_unique; [exact H|exact I1|exact I2|].
  intros f l m. destruct k, k'; cbn; rewrite ?Z.opp_involutive; apply C_eq; cbn; rewrite ?sgn_add, ?sgn_opp;
  repeat match goal with |- context [sgn ?x] => destruct (sgn_cases x) as [->| ->] end; ring.
Qed.

(** The full parity conjugate is the composition of the three reflections. *)
Theorem C18_full_is_composition : forall j1 j2 j3 j4 w, wave_ok w -> junk_ok w j1 -> junk_ok w j2 -> junk_ok w j3 -> junk_ok w j4 ->
  exists a b r, parity_conj PX j1 w = Ok a /\ parity_conj PY j2 a = Ok b /\ parity_conj PZ j3 b = Ok r /\ parity_conj PAll j4 w = Ok r.
Proof.
  intros j1 j2 j3 j4 w H J1 J2 J3 J4.
  destruct (parity_conj_image PX j1 w H J1) as (a & Ea & Ia & Oa).
  assert (Ja : junk_ok a j2) by (destruct Ia as (_ & A & B & _); unfold junk_ok in *; rewrite A, B; auto).
  destruct (parity_conj_image PY j2 a Oa Ja) as (b & Eb & Ib & Ob).
  assert (Jb : junk_ok b j3).
  { destruct Ia as (_ & A & B & _), Ib as (_ & A' & B' & _). unfold junk_ok in *. rewrite A', B', A, B. auto. }
  destruct (parity_conj_image PZ j3 b Ob Jb) as (r & Er & Ir & _).
  destruct (parity_conj_image PAll j4 w H J4) as (r' & Er' & Ir' & _).
  exists a, b, r. repeat (split; auto). rewrite Er'. f_equal.
  pose proof (mode_image_comp _ _ _ _ _ Ia Ib) as I1.
  assert (I2 : mode_image (fun f => parity_value PZ (spin w) (fun l m => parity_value PY (spin w) (parity_value PX (spin w) f) l m)) w r).
  { exact (mode_image_comp (fun f l m => parity_value PY (spin w) (parity_value PX (spin w) f) l m) PZ w b r I1 Ir). }
  symmetry. eapply mode_image_unique; [exact H|exact I2|exact Ir'|].
  intros f l m. cbn. apply C_eq; cbn; rewrite ?sgn_add, ?sgn_opp; ring.
Qed.

(** Without a data type, or with a single mode, there is no parity conjugate. *)
Theorem C18_undefined_cases : forall k junk w, (w_spin w = None \/ n_modes w < 2) -> parity_conj k junk w = Err ValueError.
Proof.
  intros k junk w [H|H]; unfold parity_conj; [rewrite H; auto|]. destruct (w_spin w); auto.
  destruct (Z.ltb_spec (n_modes w) 2); auto. lia.
Qed.

(** ** Symmetric and antisymmetric parts *)
Definition sym_value k s f l m := Cscale (/2) (f l m + parity_value k s f l m)%C.
Definition anti_value k s f l m := Cscale (/2) (f l m - parity_value k s f l m)%C.

Lemma parts_image : forall k junk w, wave_ok w -> junk_ok w junk ->
  exists ws wa, parity_sym k junk w = Ok ws /\ parity_anti k junk w = Ok wa /\
    mode_image (sym_value k (spin w)) w ws /\ mode_image (anti_value k (spin w)) w wa.
Proof.
  intros k junk w H J. destruct (parity_conj_image k junk w H J) as (c & E & I & O).
  unfold parity_sym, parity_anti. rewrite E. cbn. do 2 eexists. split; [reflexivity|]. split; [reflexivity|].
  destruct w as [sp lo hi rows], c as [sp' lo' hi' rows'], H as (Hlo & _ & _ & Hr), I as (A & B & C & D). cbn in *. subst.
  unfold mode_image. cbn.
  assert (X : Forall2 (fun row p => has_modes lo hi (half_sum (fst p) (snd p)) (sym_value k (spin (mkwave sp lo hi rows)) (mode lo row)) /\
      has_modes lo hi (half_diff (fst p) (snd p)) (anti_value k (spin (mkwave sp lo hi rows)) (mode lo row))) rows (combine rows rows')).
  { unfold spin in *. cbn in *. clear - D Hr Hlo. induction D; cbn; constructor; inversion Hr; subst; auto. destruct H as [L M]. cbn [fst snd].
    pose proof (has_modes_mode lo hi Hlo x H2) as Hx.
    assert (Hy : has_modes lo hi y (parity_value k (match sp with Some s => s | None => 0 end) (mode lo x))).
    { eapply has_modes_ext; [apply has_modes_mode; auto; congruence|]. auto. }
    apply half_modes; auto. }
  assert (HL : forall row, In row rows -> length row = length (LM_range lo hi)) by (apply Forall_forall; auto).
  split; repeat (split; auto); clear - X HL;
  revert X; generalize (combine rows rows'); induction rows; intros ps X; inversion X; subst; cbn; constructor;
  try (apply IHrows; auto; intros; apply HL; right; auto);
  destruct H1 as [[L1 M1] [L2 M2]]; (split; [rewrite (HL a) by (left; auto); auto|]); intros l m V; apply nth_error_nth; auto.
Qed.

(** symmetric + antisymmetric = waveform, and the parts are fixed resp. negated by the conjugation. *)
Theorem C18_parts_add_up : forall k junk w, wave_ok w -> junk_ok w junk ->
  exists ws wa, parity_sym k junk w = Ok ws /\ parity_anti k junk w = Ok wa /\
  length (w_rows ws) = length (w_rows w) /\ length (w_rows wa) = length (w_rows w) /\
  forall t row rs ra, nth_error (w_rows w) t = Some row -> nth_error (w_rows ws) t = Some rs -> nth_error (w_rows wa) t = Some ra ->
  forall l m, valid (w_lo w) (w_hi w) l m ->
    (mode (w_lo w) rs l m + mode (w_lo w) ra l m)%C = mode (w_lo w) row l m /\
    parity_value k (spin w) (mode (w_lo w) rs) l m = mode (w_lo w) rs l m /\
    parity_value k (spin w) (mode (w_lo w) ra) l m = (- mode (w_lo w) ra l m)%C.
Proof.
  intros k junk w H J. destruct (parts_image k junk w H J) as (ws & wa & E1 & E2 & I1 & I2).
  exists ws, wa. split; auto. split; auto.
  destruct I1 as (_ & _ & _ & D1), I2 as (_ & _ & _ & D2).
  split; [symmetry; eapply Forall2_length'; eauto|]. split; [symmetry; eapply Forall2_length'; eauto|].
  intros t row rs ra N1 N2 N3 l m V.
  assert (F : forall R rows rows', Forall2 R rows rows' -> forall t (a b : list C), nth_error rows t = Some a -> nth_error rows' t = Some b -> R a b).
  { clear. induction 1; intros [|t] a b; cbn; try discriminate; [congruence|eauto]. }
  destruct (F _ _ _ D1 _ _ _ N1 N2) as [_ M1]. destruct (F _ _ _ D2 _ _ _ N1 N3) as [_ M2].
  set (f := mode (w_lo w) row) in *.
  rewrite (parity_value_ext k (spin w) _ _ _ _ l m M1 V), (parity_value_ext k (spin w) _ _ _ _ l m M2 V).
  rewrite M1, M2 by auto. unfold sym_value, anti_value. split; [cx|].
  destruct k; cbn; rewrite ?Z.opp_involutive; split; apply C_eq; cbn; rewrite ?sgn_add, ?sgn_opp;
  repeat match goal with |- context [sgn ?x] => destruct (sgn_cases x) as [->| ->] end; field.
Qed.

(** * C19 *)
Lemma parity_norm : forall k s f l, rsum (fun m => norm2 (parity_value k s f l m)) (ms_of l) = rsum (fun m => norm2 (f l m)) (ms_of l).
Proof.
  intros k s f l. destruct k; cbn [parity_value].
  - apply rsum_ext. intros. rewrite norm2_scale, norm2_conj, sgn_sq. ring.
  - apply rsum_ext. intros. apply norm2_conj.
  - rewrite (ms_sum_opp (fun m => norm2 (f l m))). apply rsum_ext. intros. rewrite norm2_scale, norm2_conj, sgn_sq. ring.
  - rewrite (ms_sum_opp (fun m => norm2 (f l m))). apply rsum_ext. intros. rewrite norm2_scale, norm2_conj, sgn_sq. ring.
Qed.

(** Squared norms at one time of the two parts: they add up to the squared norm. *)
Lemma parts_norm_row : forall lo hi k s row rs ra, 0 <= lo -> length row = length (LM_range lo hi) ->
  has_modes lo hi rs (sym_value k s (mode lo row)) -> has_modes lo hi ra (anti_value k s (mode lo row)) ->
  (row_norm rs + row_norm ra = row_norm row)%R.
Proof.
  intros lo hi k s row rs ra Hlo HL Hs Ha. pose proof (has_modes_mode lo hi Hlo row HL) as Hr.
  rewrite (row_norm_modes lo hi Hlo _ _ Hs), (row_norm_modes lo hi Hlo _ _ Ha), (row_norm_modes lo hi Hlo _ _ Hr).
  rewrite <- rsum_add. apply rsum_ext. intros l _. rewrite <- rsum_add.
  set (f := mode lo row).
  transitivity (rsum (fun m => / 2 * (norm2 (f l m) + norm2 (parity_value k s f l m)))%R (ms_of l)).
  - apply rsum_ext. intros m _. unfold sym_value, anti_value. rewrite !norm2_scale. unfold norm2. cbn. field.
  - rewrite rsum_scale, rsum_add, parity_norm. lra.
Qed.

Theorem C19_norms_add_up : forall k junk w, wave_ok w -> junk_ok w junk ->
  exists ws wa, parity_sym k junk w = Ok ws /\ parity_anti k junk w = Ok wa /\
  forall t, (t < length (w_rows w))%nat ->
    (nth t (norm_of ws) 0 + nth t (norm_of wa) 0 = nth t (norm_of w) 0)%R.
Proof.
  intros k junk w H J. destruct (parts_image k junk w H J) as (ws & wa & E1 & E2 & I1 & I2).
  exists ws, wa. split; auto. split; auto. destruct w as [sp lo hi rows], ws as [sp1 lo1 hi1 rows1], wa as [sp2 lo2 hi2 rows2].
  destruct I1 as (A1 & B1 & C1 & D1), I2 as (A2 & B2 & C2 & D2), H as (Hlo & _ & _ & Hr). cbn in *. subst. unfold norm_of. cbn.
  clear J E1 E2. generalize dependent rows2. generalize dependent (spin (mkwave sp lo hi rows)).
  intros s D1. induction D1; intros rows2 D2 t Ht; inversion D2; subst; [cbn in Ht; lia|].
  inversion Hr; subst. destruct t; cbn [map nth].
  - destruct H as [L1 M1], H2 as [L2 M2]. eapply parts_norm_row; eauto.
    + eapply has_modes_ext; [apply has_modes_mode; auto; congruence|auto].
    + eapply has_modes_ext; [apply has_modes_mode; auto; congruence|auto].
  - apply IHD1; auto. cbn [length] in Ht. lia.
Qed.

(** Where the norm is nonzero the normalised violation lies in [0, 1]; it is 0 exactly when the
    waveform equals its symmetric part there and 1 exactly when it equals its antisymmetric part. *)
Theorem C19_violation_normalized : forall k junk w, wave_ok w -> junk_ok w junk ->
  exists v, violation_normalized k junk w = Ok v /\ length v = length (w_rows w) /\
  forall t row, nth_error (w_rows w) t = Some row -> row_norm row <> 0%R ->
    let f := mode (w_lo w) row in
    (0 <= nth t v 0 <= 1)%R /\
    (nth t v 0%R = 0%R <-> forall l m, valid (w_lo w) (w_hi w) l m -> parity_value k (spin w) f l m = f l m) /\
    (nth t v 0%R = 1%R <-> forall l m, valid (w_lo w) (w_hi w) l m -> parity_value k (spin w) f l m = (- f l m)%C).
Proof.
  intros k junk w H J. destruct (parts_image k junk w H J) as (ws & wa & E1 & E2 & I1 & I2).
  unfold violation_normalized. rewrite E2. cbn. eexists. split; [reflexivity|].
  assert (Lw : length (norm_of w) = length (w_rows w)) by (unfold norm_of; rewrite map_length; auto).
  assert (La : length (norm_of wa) = length (w_rows w)).
  { unfold norm_of. rewrite map_length. destruct I2 as (_ & _ & _ & D2). symmetry. eapply Forall2_length'; eauto. }
  split; [rewrite map_length, combine_length; lia|].
  intros t row Ht Hn. set (f := mode (w_lo w) row).
  assert (Hi : (t < length (w_rows w))%nat) by (apply nth_error_Some; congruence).
  destruct w as [sp lo hi rows], ws as [sp1 lo1 hi1 rows1], wa as [sp2 lo2 hi2 rows2]. cbn in *.
  destruct I1 as (A1 & B1 & C1 & D1), I2 as (A2 & B2 & C2 & D2), H as (Hlo & _ & _ & Hr). cbn in *. subst.
  set (s := spin (mkwave sp lo hi rows)) in *.
  assert (F : forall R rows rows', Forall2 R rows rows' -> forall t (a : list C), nth_error rows t = Some a -> exists b : list C, nth_error rows' t = Some b /\ R a b).
  { clear. induction 1; intros [|t] a; cbn; try discriminate; [intros [= <-]; eauto|eauto]. }
  destruct (F _ _ _ D1 _ _ Ht) as (rs & Ns & Ls & Ms). destruct (F _ _ _ D2 _ _ Ht) as (ra & Na & Lra & Ma).
  assert (HL : length row = length (LM_range lo hi)) by (rewrite Forall_forall in Hr; apply Hr; eapply nth_error_In; eauto).
  fold f in Ms, Ma. pose proof (has_modes_mode lo hi Hlo row HL) as Hrow. fold f in Hrow.
  assert (Hs : has_modes lo hi rs (sym_value k s f)) by (eapply has_modes_ext; [apply has_modes_mode; auto; congruence|auto]).
  assert (Ha : has_modes lo hi ra (anti_value k s f)) by (eapply has_modes_ext; [apply has_modes_mode; auto; congruence|auto]).
  pose proof (parts_norm_row lo hi k s row rs ra Hlo HL Hs Ha) as Hsum.
  assert (NN : forall r, (0 <= row_norm r)%R).
  { intros r. rewrite row_norm_rsum. apply rsum_nonneg. intros; apply norm2_nonneg. }
  pose proof (NN rs) as P1. pose proof (NN ra) as P2.
  assert (Hpos : (0 < row_norm row)%R) by (pose proof (NN row); lra).
  match goal with |- context [nth t ?v 0%R] => assert (Ev : nth t v 0%R = sqrt (row_norm ra / row_norm row)) end.
  { apply nth_error_nth. rewrite nth_error_map.
    assert (NC : forall A B (a : list A) (b : list B) i x y, nth_error a i = Some x -> nth_error b i = Some y -> nth_error (combine a b) i = Some (x, y)).
    { clear. induction a; intros [|z b] [|i] x y; cbn; try discriminate; [congruence|auto]. }
    unfold norm_of. cbn [w_rows]. rewrite (NC _ _ _ _ t (row_norm ra) (row_norm row)); [reflexivity| |];
    rewrite nth_error_map; [rewrite Na|rewrite Ht]; reflexivity. }
  rewrite Ev.
  assert (Q1 : (0 <= row_norm ra / row_norm row)%R) by (apply Rmult_le_pos; [lra|apply Rlt_le, Rinv_0_lt_compat; lra]).
  assert (Q2 : (row_norm ra / row_norm row <= 1)%R).
  { apply Rmult_le_reg_r with (row_norm row); auto. unfold Rdiv. rewrite Rmult_assoc, Rinv_l by lra. lra. }
  assert (Hzero : forall r g, has_modes lo hi r g -> row_norm r = 0%R <-> forall l m, valid lo hi l m -> g l m = C0).
  { intros r g [Lr Hg]. rewrite row_norm_rsum. split.
    - intros Hz l m V. apply norm2_zero. eapply (rsum_zero norm2 r); auto. intros; apply norm2_nonneg.
      eapply nth_error_In. apply Hg; auto.
    - intros Hz. apply rsum_const0. intros x Hx. rewrite (row_is_map lo hi Hlo r g (conj Lr Hg)) in Hx.
      apply in_map_iff in Hx as ([l m] & <- & Hin). apply LM_range_In in Hin. cbn. rewrite Hz by exact Hin.
      unfold norm2. cbn. ring. }
  split; [split; [apply sqrt_pos|rewrite <- sqrt_1; apply sqrt_le_1_alt; auto]|].
  split.
  - transitivity (row_norm ra = 0%R).
    + split; intros Hx.
      * apply sqrt_eq_0 in Hx; auto. apply Rmult_eq_compat_r with (r := row_norm row) in Hx. unfold Rdiv in Hx.
        rewrite Rmult_assoc, Rinv_l, Rmult_1_r, Rmult_0_l in Hx by lra. auto.
      * rewrite Hx. unfold Rdiv. rewrite Rmult_0_l. apply sqrt_0.
    + rewrite (Hzero ra _ Ha). split; intros Hx l m V; specialize (Hx l m V); unfold anti_value in *.
      * apply C_eq; [apply (f_equal re) in Hx|apply (f_equal im) in Hx]; cbn in Hx; lra.
      * rewrite Hx. cx.
  - transitivity (row_norm rs = 0%R).
    + split; intros Hx.
      * assert (K : (row_norm ra / row_norm row = 1)%R).
        { rewrite <- (sqrt_def _ Q1), Hx. ring. }
        assert (row_norm ra = row_norm row).
        { apply Rmult_eq_compat_r with (r := row_norm row) in K. unfold Rdiv in K. rewrite Rmult_assoc, Rinv_l in K by lra. lra. }
        lra.
      * replace (row_norm ra / row_norm row)%R with 1%R; [apply sqrt_1|]. replace (row_norm ra) with (row_norm row) by lra. field. lra.
    + rewrite (Hzero rs _ Hs). split; intros Hx l m V; specialize (Hx l m V); unfold sym_value in *.
      * apply C_eq; [apply (f_equal re) in Hx|apply (f_equal im) in Hx]; cbn in *; lra.
      * rewrite Hx. cx.
Qed.

(** A concrete waveform: spin weight -2, ell = 2, two times. *)
Definition w_case : wave := mkwave (Some (-2)) 2 2
  [[C1; C0; Ci; C0; RtoC 2]; [C0; Ci; C0; Ci; C0]].
Example C18_case : wave_ok w_case /\ junk_ok w_case (fun _ => [Ci; Ci; Ci; Ci; Ci]) /\
  exists w', parity_conj PZ (fun _ => [Ci; Ci; Ci; Ci; Ci]) w_case = Ok w' /\ w' <> w_case.
Proof.
  assert (W : wave_ok w_case).
  { split; [cbn; lia|]. split; [vm_compute; discriminate|]. split; [eexists; reflexivity|]. repeat constructor. }
  assert (J : junk_ok w_case (fun _ => [Ci; Ci; Ci; Ci; Ci])) by (intros i; reflexivity).
  split; auto. split; auto.
  destruct (C18_parity_action PZ _ w_case W J) as (w' & E & I). exists w'. split; auto. intros ->.
  destruct I as (_ & _ & _ & D). cbn in D. inversion D as [|? ? ? ? [_ M] ?]; subst.
  specialize (M 2 2 ltac:(split; lia)). apply (f_equal re) in M. cbn in M.
  change (Pos.to_nat 4) with 4%nat in M. cbn in M. lra.
Qed.
