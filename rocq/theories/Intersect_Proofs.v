(** C12: the common time array built by [extrapolation.intersection]. *)
From Coq Require Import Reals List Lia Lra Bool Arith.
From Verif Require Import Common Times_Model Times_Proofs.
Import ListNotations.
Open Scope R_scope.

(** Specification: [d] is the step of the samples [l] at the instant [x]. *)
Definition local_step (l : list R) (x d : R) : Prop :=
  exists k, (1 <= k < length l)%nat /\ d = nth k l 0 - nth (k - 1) l 0 /\
            x <= nth k l 0 /\ (nth (k - 1) l 0 < x \/ (k = 1%nat /\ x = nth 0 l 0)).

(** The step is determined by the samples and the instant. *)
Lemma local_step_unique : forall l x d d', strictly_up l -> local_step l x d -> local_step l x d' -> d = d'.
Proof.
  intros l x d d' Hs (k & Hk & -> & Hx & Ho) (k' & Hk' & -> & Hx' & Ho').
  assert (forall a b, (1 <= a < length l)%nat -> (1 <= b < length l)%nat -> x <= nth a l 0 ->
     (nth (b - 1) l 0 < x \/ (b = 1%nat /\ x = nth 0 l 0)) -> (b <= a)%nat).
  { intros a b Ha Hb H1 H2. destruct (le_lt_dec b a); auto. exfalso.
    destruct H2 as [H2|[-> H2]]; [|lia].
    destruct (Nat.eq_dec a (b - 1)); [subst; lra|].
    specialize (Hs a (b - 1)%nat ltac:(lia)). lra. }
  assert (k = k') by (apply Nat.le_antisymm; eauto). subst. reflexivity.
Qed.

Lemma strictly_up_le : forall l i j, strictly_up l -> (i <= j < length l)%nat -> nth i l 0 <= nth j l 0.
Proof. intros l i j H Hij. destruct (Nat.eq_dec i j); [subst; lra|]. specialize (H i j ltac:(lia)). lra. Qed.

Lemma nth_error_nth_some : forall (l : list R) i, (i < length l)%nat -> nth_error l i = Some (nth i l 0).
Proof. intros. apply nth_error_nth'. auto. Qed.

Lemma advance_spec : forall l x, strictly_up l -> l <> [] -> x < last l 0 ->
  forall fuel i, (1 <= i < length l)%nat -> (length l - i <= fuel)%nat ->
  (i = 1%nat \/ nth (i - 1) l 0 < x) ->
  exists i', advance l x i fuel = Ok i' /\ (i <= i' < length l)%nat /\ x <= nth i' l 0 /\
     (i' = 1%nat \/ nth (i' - 1) l 0 < x) /\ (nth i l 0 < x -> (i < i')%nat).
Proof.
  intros l x Hs Hne Hlast. rewrite (last_nth _ Hne) in Hlast.
  induction fuel; intros i Hi Hf Hp; [lia|].
  cbn [advance]. rewrite nth_error_nth_some by lia.
  destruct (Rltb_spec (nth i l 0) x) as [H|H]; cbn [andb].
  - destruct (Nat.ltb_spec i (length l)); [|lia].
    assert (S i < length l)%nat.
    { destruct (Nat.eq_dec i (length l - 1)); [subst; lra|lia]. }
    destruct (IHfuel (S i)) as (i' & E & G1 & G2 & G3 & G4); try lia.
    { right. replace (S i - 1)%nat with i by lia. auto. }
    exists i'. rewrite E. repeat split; auto; lia.
  - exists i. repeat split; auto; try lia; lra.
Qed.

Lemma adjust_spec : forall l x i, strictly_up l -> l <> [] -> nth 0 l 0 <= x -> x < last l 0 ->
  (i < length l)%nat -> ((i <= 1)%nat \/ nth (i - 1) l 0 < x) ->
  exists i', adjust l (nth 0 l 0) (last l 0) x i = Ok i' /\
     (1 <= i' < length l)%nat /\ (i <= i')%nat /\ x <= nth i' l 0 /\
     (i' = 1%nat \/ nth (i' - 1) l 0 < x) /\ ((1 <= i)%nat -> nth i l 0 < x -> (i < i')%nat).
Proof.
  intros l x i Hs Hne Hlo Hhi Hi Hp. unfold adjust.
  destruct (Rltb_spec x (nth 0 l 0)); [lra|]. destruct (Rltb_spec (last l 0) x); [lra|]. cbn [orb].
  assert (Hlen : (2 <= length l)%nat).
  { destruct l as [|a [|b l]]; [contradiction| |simpl; lia]. cbn in *. lra. }
  destruct (advance_spec l x Hs Hne Hhi (length l) (Nat.max i 1)) as (i' & E & H1 & H2 & H3 & H4); try lia.
  { destruct (Nat.le_gt_cases i 1); [left; lia|]. right. replace (Nat.max i 1) with i by lia.
    destruct Hp; [lia|auto]. }
  exists i'. rewrite E. repeat split; auto; try lia.
  intros Hi1 Hx. replace (Nat.max i 1) with i in H4 by lia. auto.
Qed.

Lemma diff_at_spec : forall l i, (1 <= i < length l)%nat -> diff_at l i = Ok (nth i l 0 - nth (i - 1) l 0).
Proof.
  intros l i Hi. unfold diff_at. destruct i; [lia|]. rewrite !nth_error_nth_some by lia.
  replace (S i - 1)%nat with i by lia. reflexivity.
Qed.

Section Loop.
  Variables (t1 t2 : list R) (maxt ms : R).
  Hypothesis S1 : strictly_up t1.
  Hypothesis S2 : strictly_up t2.
  Hypothesis N1 : t1 <> [].
  Hypothesis N2 : t2 <> [].
  Hypothesis M1 : maxt <= last t1 0.
  Hypothesis M2 : maxt <= last t2 0.

  (** The list starting at [x] obtained by repeatedly adding the prescribed step while below [maxt]. *)
  Inductive marches : R -> list R -> Prop :=
  | march_stop : forall x, maxt <= x -> marches x []
  | march_step : forall x d1 d2 s, x < maxt -> local_step t1 x d1 -> local_step t2 x d2 ->
      marches (x + Rmax (Rmin d1 d2) ms) s -> marches x (x :: s).

  Lemma inter_loop_spec : forall fuel acc x I1 I2,
    nth 0 t1 0 <= x -> nth 0 t2 0 <= x -> (I1 < length t1)%nat -> (I2 < length t2)%nat ->
    ((I1 <= 1)%nat \/ nth (I1 - 1) t1 0 < x) -> ((I2 <= 1)%nat \/ nth (I2 - 1) t2 0 < x) ->
    (length acc = 0%nat \/ (1 <= I1 /\ 1 <= I2 /\ length acc <= I1 + I2)%nat) ->
    ((1 <= length acc)%nat -> nth 0 t1 0 < x /\ nth 0 t2 0 < x) ->
    ((2 <= length acc)%nat -> nth I1 t1 0 < x \/ nth I2 t2 0 < x) ->
    (length t1 + length t2 <= fuel + length acc)%nat ->
    exists s, inter_loop t1 t2 fuel (length t1 + length t2) (nth 0 t1 0) (last t1 0) (nth 0 t2 0) (last t2 0)
                maxt ms acc x I1 I2 = Ok (rev acc ++ s) /\ marches x s.
  Proof.
    induction fuel; intros acc x I1 I2 L1 L2 B1 B2 P1 P2 Hphi Hst Hadv Hfuel.
    - (* fuel exhausted: impossible while pointers stay in range *)
      exfalso. lia.
    - cbn [inter_loop]. destruct (Rltb_spec x maxt) as [Hx|Hx].
      2:{ exists []. rewrite app_nil_r. split; auto. constructor. lra. }
      destruct (adjust_spec t1 x I1 S1 N1 L1 ltac:(lra) B1 P1) as (I1' & E1 & A1 & A2 & A3 & A4 & A5).
      destruct (adjust_spec t2 x I2 S2 N2 L2 ltac:(lra) B2 P2) as (I2' & E2 & C1 & C2 & C3 & C4 & C5).
      rewrite E1. cbn [rbind]. rewrite E2. cbn [rbind].
      rewrite (diff_at_spec t1 I1' A1). cbn [rbind]. rewrite (diff_at_spec t2 I2' C1). cbn [rbind].
      set (d1 := nth I1' t1 0 - nth (I1' - 1) t1 0). set (d2 := nth I2' t2 0 - nth (I2' - 1) t2 0).
      assert (D1 : 0 < d1) by (specialize (S1 (I1' - 1)%nat I1' ltac:(lia)); unfold d1; lra).
      assert (D2 : 0 < d2) by (specialize (S2 (I2' - 1)%nat I2' ltac:(lia)); unfold d2; lra).
      assert (LS1 : local_step t1 x d1).
      { exists I1'. repeat split; auto; try lia. destruct A4 as [->|A4]; [|left; auto].
        replace (1 - 1)%nat with 0%nat by lia. destruct L1; [left; auto|right; auto]. }
      assert (LS2 : local_step t2 x d2).
      { exists I2'. repeat split; auto; try lia. destruct C4 as [->|C4]; [|left; auto].
        replace (1 - 1)%nat with 0%nat by lia. destruct L2; [left; auto|right; auto]. }
      set (x' := x + Rmax (Rmin d1 d2) ms).
      assert (Hmin : Rmin d1 d2 <= Rmax (Rmin d1 d2) ms) by apply Rmax_l.
      assert (Hpos : 0 < Rmin d1 d2) by (apply Rmin_glb_lt; auto).
      (* the pointers have used at least [length acc + 1] positions *)
      assert (Hphi' : (S (length acc) <= I1' + I2')%nat).
      { destruct Hphi as [Hz|(H1 & H2 & H3)]; [lia|].
        destruct (Nat.le_gt_cases 2 (length acc)) as [H4|H4]; [|lia].
        destruct (Hadv H4) as [H5|H5]; [specialize (A5 H1 H5)|specialize (C5 H2 H5)]; lia. }
      destruct (Nat.ltb_spec (S (length acc)) (length t1 + length t2)) as [Hcap|Hcap]; [|lia].
      destruct (Rltb_spec maxt x') as [Hb|Hb].
      + exists [x]. split; [reflexivity|]. eapply march_step; eauto. constructor. fold x'. lra.
      + destruct (IHfuel (x :: acc) x' I1' I2') as (s & E & Hm).
        * unfold x'; lra.
        * unfold x'; lra.
        * lia.
        * lia.
        * destruct A4 as [->|A4]; [left; lia|right; unfold x'; lra].
        * destruct C4 as [->|C4]; [left; lia|right; unfold x'; lra].
        * right. cbn [length]. lia.
        * intros _. unfold x'. lra.
        * cbn [length]. intros H2. destruct (Hst ltac:(lia)) as [G1 G2].
          assert (F1 : nth (I1' - 1) t1 0 < x) by (destruct A4 as [->|A4]; [exact G1|auto]).
          assert (F2 : nth (I2' - 1) t2 0 < x) by (destruct C4 as [->|C4]; [exact G2|auto]).
          assert (Hor : Rmin d1 d2 = d1 \/ Rmin d1 d2 = d2) by (unfold Rmin; destruct (Rle_dec d1 d2); auto).
          unfold x'. destruct Hor as [Hm|Hm]; rewrite Hm in *; [left; unfold d1 in *; lra|right; unfold d2 in *; lra].
        * cbn [length]. lia.
        * exists (x :: s). split.
          -- rewrite E. cbn [rev]. rewrite <- app_assoc. reflexivity.
          -- eapply march_step; eauto.
  Qed.

  Lemma marches_facts : forall x s, marches x s ->
    (x < maxt -> nth 0 s 0 = x /\ s <> []) /\ (maxt <= x -> s = []) /\
    (forall k, (k < length s)%nat -> x <= nth k s 0 < maxt) /\
    (forall k, (k < length s)%nat -> exists d1 d2, local_step t1 (nth k s 0) d1 /\ local_step t2 (nth k s 0) d2 /\
       let next := nth k s 0 + Rmax (Rmin d1 d2) ms in
       nth k s 0 < next /\
       (if (S k <? length s)%nat then nth (S k) s 0 = next else maxt <= next)).
  Proof.
    induction 1 as [x Hx|x d1 d2 s Hx H1 H2 Hm IH].
    - repeat split; auto; try lra; cbn in *; lia.
    - destruct IH as (IH1 & IH2 & IH3 & IH4).
      assert (Hpos : 0 < Rmax (Rmin d1 d2) ms).
      { assert (Rmin d1 d2 <= Rmax (Rmin d1 d2) ms) by apply Rmax_l.
        assert (0 < Rmin d1 d2); [|lra]. apply Rmin_glb_lt.
        - destruct H1 as (k & Hk & -> & _). specialize (S1 (k - 1)%nat k ltac:(lia)). lra.
        - destruct H2 as (k & Hk & -> & _). specialize (S2 (k - 1)%nat k ltac:(lia)). lra. }
      split; [intros _; split; [reflexivity|discriminate]|]. split; [intros; lra|]. split.
      + intros [|k] Hk; cbn [nth]; [lra|]. specialize (IH3 k ltac:(cbn in Hk; lia)). lra.
      + intros [|k] Hk.
        * exists d1, d2. cbn [nth length]. split; auto. split; auto. cbv zeta. split; [lra|].
          destruct (Nat.ltb_spec 1 (S (length s))) as [Hl|Hl].
          -- destruct (Rlt_dec (x + Rmax (Rmin d1 d2) ms) maxt) as [H|H].
             ++ apply IH1; auto.
             ++ rewrite IH2 in Hl by lra. cbn in Hl. lia.
          -- destruct (Rlt_dec (x + Rmax (Rmin d1 d2) ms) maxt) as [H|H]; [|lra].
             destruct (IH1 H) as [_ Hn]. destruct s; [contradiction|]. cbn in Hl. lia.
        * cbn [length] in Hk. destruct (IH4 k ltac:(lia)) as (e1 & e2 & F1 & F2 & F3).
          exists e1, e2. cbn [nth length]. split; auto.
  Qed.
End Loop.

Definition opt_max (a : R) (b : option R) : R := match b with None => a | Some m => Rmax a m end.
Definition opt_min (a : R) (b : option R) : R := match b with None => a | Some m => Rmin a m end.

(** [m] is a least element of the consecutive differences of [l]. *)
Definition least_gap (l : list R) (m : R) : Prop :=
  (exists k, (S k < length l)%nat /\ m = nth (S k) l 0 - nth k l 0) /\
  (forall k, (S k < length l)%nat -> m <= nth (S k) l 0 - nth k l 0).

Lemma diffs_length : forall l, length (diffs l) = (length l - 1)%nat.
Proof. induction l as [|a [|b l] IH]; try reflexivity. cbn [diffs length] in *. lia. Qed.
Lemma diffs_nth : forall l k, (S k < length l)%nat -> nth k (diffs l) 0 = nth (S k) l 0 - nth k l 0.
Proof.
  induction l as [|a [|b l] IH]; intros k Hk; try (cbn in Hk; lia).
  destruct k; [reflexivity|]. cbn [diffs nth]. rewrite IH by (cbn in *; lia). reflexivity.
Qed.

Lemma fold_min_spec : forall l a, In (fold_left Rmin l a) (a :: l) /\ forall x, In x (a :: l) -> fold_left Rmin l a <= x.
Proof.
  induction l as [|b l IH]; intros a; cbn [fold_left].
  - split; [left; auto|]. intros x [<-|[]]. lra.
  - destruct (IH (Rmin a b)) as [H1 H2]. split.
    + destruct H1 as [H1|H1]; [|right; right; auto]. rewrite <- H1. unfold Rmin. destruct (Rle_dec a b); [left|right; left]; auto.
    + intros x [<-|[<-|Hx]].
      * eapply Rle_trans; [apply H2; left; reflexivity|apply Rmin_l].
      * eapply Rle_trans; [apply H2; left; reflexivity|apply Rmin_r].
      * apply H2. right; auto.
Qed.

Lemma np_min_diffs : forall l, (2 <= length l)%nat -> exists m, np_min (diffs l) = Ok m /\ least_gap l m.
Proof.
  intros l Hl. assert (HL := diffs_length l). destruct (diffs l) as [|a t] eqn:E; [cbn in HL; lia|].
  eexists. split; [reflexivity|]. destruct (fold_min_spec t a) as [H1 H2]. rewrite <- E in H1, H2.
  split.
  - apply (In_nth _ _ 0) in H1 as (k & Hk & Ek). exists k. rewrite E in Hk. rewrite diffs_nth in Ek by lia. split; [lia|auto].
  - intros k Hk. rewrite <- diffs_nth by auto. apply H2. apply nth_In. rewrite E. lia.
Qed.

(** The step bound actually used. *)
Definition step_bound (t1 t2 : list R) (o : option R) (ms : R) : Prop :=
  match o with
  | Some s => ms = s
  | None => exists a b, least_gap t1 a /\ least_gap t2 b /\ ms = Rmin a b
  end.

Theorem C12_intersection : forall t1 t2 min_step min_time max_time fuel,
  strictly_up t1 -> strictly_up t2 -> (2 <= length t1)%nat -> (2 <= length t2)%nat ->
  (length t1 + length t2 <= fuel)%nat ->
  let mint := opt_max (Rmax (nth 0 t1 0) (nth 0 t2 0)) min_time in
  let maxt := opt_min (Rmin (last t1 0) (last t2 0)) max_time in
  mint <= last t1 0 -> mint <= last t2 0 -> nth 0 t1 0 <= maxt -> nth 0 t2 0 <= maxt ->
  exists t ms, intersection t1 t2 fuel min_step min_time max_time = Ok t /\ step_bound t1 t2 min_step ms /\
    (length t < length t1 + length t2)%nat /\
    (mint < maxt -> t <> [] /\ nth 0 t 0 = mint) /\ (maxt <= mint -> t = []) /\
    (forall k, (k < length t)%nat -> mint <= nth k t 0 < maxt) /\ strictly_up t /\
    (forall k, (k < length t)%nat -> exists d1 d2,
       local_step t1 (nth k t 0) d1 /\ local_step t2 (nth k t 0) d2 /\
       let next := nth k t 0 + Rmax (Rmin d1 d2) ms in
       if (S k <? length t)%nat then nth (S k) t 0 = next else maxt <= next).
Proof.
  intros t1 t2 min_step min_time max_time fuel S1 S2 L1 L2 Hfuel mint maxt Hm1 Hm2 HM1 HM2.
  assert (N1 : t1 <> []) by (destruct t1; [cbn in L1; lia|discriminate]).
  assert (N2 : t2 <> []) by (destruct t2; [cbn in L2; lia|discriminate]).
  assert (Hms : exists ms, match min_step with
                     | Some s => Ok s
                     | None => let? a := np_min (diffs t1) in let? b := np_min (diffs t2) in Ok (Rmin a b)
                     end = Ok ms /\ step_bound t1 t2 min_step ms).
  { destruct min_step as [s|]; [exists s; split; reflexivity|].
    destruct (np_min_diffs t1 L1) as (a & Ea & Ha). destruct (np_min_diffs t2 L2) as (b & Eb & Hb).
    rewrite Ea, Eb. cbn. eexists. split; [reflexivity|]. exists a, b. auto. }
  destruct Hms as (ms & Ems & Hms).
  assert (HmM1 : maxt <= last t1 0).
  { unfold maxt, opt_min. assert (Rmin (last t1 0) (last t2 0) <= last t1 0) by apply Rmin_l.
    destruct max_time; [|auto]. eapply Rle_trans; [apply Rmin_l|auto]. }
  assert (HmM2 : maxt <= last t2 0).
  { unfold maxt, opt_min. assert (Rmin (last t1 0) (last t2 0) <= last t2 0) by apply Rmin_r.
    destruct max_time; [|auto]. eapply Rle_trans; [apply Rmin_l|auto]. }
  assert (Hn1 : nth 0 t1 0 <= mint).
  { unfold mint, opt_max. assert (nth 0 t1 0 <= Rmax (nth 0 t1 0) (nth 0 t2 0)) by apply Rmax_l.
    destruct min_time; [|auto]. eapply Rle_trans; [eauto|apply Rmax_l]. }
  assert (Hn2 : nth 0 t2 0 <= mint).
  { unfold mint, opt_max. assert (nth 0 t2 0 <= Rmax (nth 0 t1 0) (nth 0 t2 0)) by apply Rmax_r.
    destruct min_time; [|auto]. eapply Rle_trans; [eauto|apply Rmax_l]. }
  destruct (inter_loop_spec t1 t2 maxt ms S1 S2 N1 N2 HmM1 HmM2 fuel [] mint 0 0) as (s & E & Hmarch);
    try (cbn [length]; lia); auto; try (left; reflexivity); try (left; lia).
  cbn [rev app] in E.
  assert (Elen : (length s < length t1 + length t2)%nat).
  { destruct (inter_loop_spec t1 t2 maxt ms S1 S2 N1 N2 HmM1 HmM2 (length t1 + length t2) [] mint 0 0) as (s' & E' & _);
      try (cbn [length]; lia); auto; try (left; reflexivity); try (left; lia).
    assert (Hcap : forall fuel acc x I1 I2 r,
      inter_loop t1 t2 fuel (length t1 + length t2) (nth 0 t1 0) (last t1 0) (nth 0 t2 0) (last t2 0) maxt ms acc x I1 I2 = Ok r ->
      (length acc < length t1 + length t2)%nat -> (length r < length t1 + length t2)%nat).
    { clear. induction fuel; intros acc x I1 I2 r H Hacc; cbn [inter_loop] in H.
      - destruct (Rltb x maxt); [discriminate|]. injection H as <-. rewrite rev_length. auto.
      - destruct (Rltb x maxt); [|injection H as <-; rewrite rev_length; auto].
        destruct (adjust t1 _ _ x I1) as [i1|]; cbn [rbind] in H; [|discriminate].
        destruct (adjust t2 _ _ x I2) as [i2|]; cbn [rbind] in H; [|discriminate].
        destruct (diff_at t1 i1) as [e1|]; cbn [rbind] in H; [|discriminate].
        destruct (diff_at t2 i2) as [e2|]; cbn [rbind] in H; [|discriminate].
        destruct (Nat.ltb_spec (S (length acc)) (length t1 + length t2)) as [Hc|Hc]; [|discriminate].
        destruct (Rltb maxt _).
        + injection H as <-. cbn [rev]. rewrite app_length, rev_length. cbn. lia.
        + apply IHfuel in H; auto. }
    eapply Hcap; [exact E|cbn; lia]. }
  destruct (marches_facts t1 t2 maxt ms S1 S2 _ _ Hmarch) as (F1 & F2 & F3 & F4).
  exists s, ms. split.
  { unfold intersection. destruct t1 as [|a1 r1]; [contradiction|]. destruct t2 as [|a2 r2]; [contradiction|].
    change (nth 0 (a1 :: r1) 0) with a1 in *. change (nth 0 (a2 :: r2) 0) with a2 in *.
    fold (opt_max (Rmax a1 a2) min_time). fold mint.
    fold (opt_min (Rmin (last (a1 :: r1) 0) (last (a2 :: r2) 0)) max_time). fold maxt.
    destruct (Rltb_spec (last (a1 :: r1) 0) mint); [lra|]. destruct (Rltb_spec (last (a2 :: r2) 0) mint); [lra|]. cbn [orb].
    destruct (Rltb_spec maxt a1); [lra|]. destruct (Rltb_spec maxt a2); [lra|]. cbn [orb].
    rewrite Ems. cbn [rbind]. exact E. }
  split; auto. split; auto. split; [intros H; destruct (F1 H); auto|]. split; auto. split; auto.
  split.
  { assert (Hsucc : forall k, (S k < length s)%nat -> nth k s 0 < nth (S k) s 0).
    { intros k Hk. destruct (F4 k ltac:(lia)) as (d1 & d2 & _ & _ & F). cbv zeta in F.
      destruct F as [Fa Fb]. destruct (Nat.ltb_spec (S k) (length s)); [|lia]. lra. }
    intros i j Hij. destruct Hij as [Hij Hj]. revert Hj. induction Hij; intros Hj; [apply Hsucc; auto|].
    specialize (IHHij ltac:(lia)). specialize (Hsucc m Hj). lra. }
  intros k Hk. destruct (F4 k Hk) as (d1 & d2 & G1 & G2 & G3). exists d1, d2. split; auto. split; auto.
  cbv zeta in *. tauto.
Qed.

(** Disjoint ranges, or empty inputs, are reported as ValueError rather than extrapolated. *)
Theorem C12_disjoint_rejected : forall t1 t2 min_step min_time max_time fuel,
  t1 = [] \/ t2 = [] \/
  last t1 0 < opt_max (Rmax (nth 0 t1 0) (nth 0 t2 0)) min_time \/
  last t2 0 < opt_max (Rmax (nth 0 t1 0) (nth 0 t2 0)) min_time \/
  opt_min (Rmin (last t1 0) (last t2 0)) max_time < nth 0 t1 0 \/
  opt_min (Rmin (last t1 0) (last t2 0)) max_time < nth 0 t2 0 ->
  intersection t1 t2 fuel min_step min_time max_time = Err ValueError.
Proof.
  intros t1 t2 o mi ma fuel H. unfold intersection.
  destruct t1 as [|a1 r1]; [reflexivity|]. destruct t2 as [|a2 r2]; [reflexivity|].
  change (nth 0 (a1 :: r1) 0) with a1 in H. change (nth 0 (a2 :: r2) 0) with a2 in H.
  fold (opt_max (Rmax a1 a2) mi). fold (opt_min (Rmin (last (a1 :: r1) 0) (last (a2 :: r2) 0)) ma).
  cbv zeta.
  set (l1 := last (a1 :: r1) 0) in *. set (l2 := last (a2 :: r2) 0) in *.
  set (mint := opt_max _ _) in *. set (maxt := opt_min _ _) in *.
  destruct (Rltb_spec l1 mint); [reflexivity|]. destruct (Rltb_spec l2 mint); [reflexivity|]. cbn [orb].
  destruct (Rltb_spec maxt a1); [reflexivity|]. destruct (Rltb_spec maxt a2); [reflexivity|].
  destruct H as [H|[H|[H|[H|[H|H]]]]]; try discriminate; contradiction.
Qed.

(** Two samplings on [0,4] and [1,3]: hypotheses are satisfiable. *)
Example C12_case :
  let t1 := [0; 2; 4] in let t2 := [1; (3/2); 3] in
  strictly_up t1 /\ strictly_up t2 /\ (2 <= length t1)%nat /\ (2 <= length t2)%nat /\
  opt_max (Rmax (nth 0 t1 0) (nth 0 t2 0)) None < opt_min (Rmin (last t1 0) (last t2 0)) None.
Proof.
  cbv zeta. repeat split; try (cbn; lia).
  - intros i j Hij. cbn in Hij. destruct i as [|[|[|]]], j as [|[|[|]]]; try lia; cbn; lra.
  - intros i j Hij. cbn in Hij. destruct i as [|[|[|]]], j as [|[|[|]]]; try lia; cbn; lra.
  - cbn. unfold Rmax, Rmin. destruct (Rle_dec 0 1), (Rle_dec 4 3); lra.
Qed.
