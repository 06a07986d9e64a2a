(** C10, C11: monotonic filtering of time arrays. *)
From Coq Require Import Reals List Lia Lra Bool Arith.
From Verif Require Import Common Times_Model.
Import ListNotations.
Open Scope R_scope.

Lemma Rltb_spec : forall x y, reflect (x < y) (Rltb x y).
Proof. intros. unfold Rltb. destruct (Rlt_dec x y); constructor; auto. Qed.
Lemma Rleb_spec : forall x y, reflect (x <= y) (Rleb x y).
Proof. intros. unfold Rleb. destruct (Rle_dec x y); constructor; auto. Qed.

(** * C10 *)
(** Specification.  A sample is an up-record if it exceeds every earlier one. *)
Definition up_record (y : list R) (i : nat) : Prop := forall j, (j < i)%nat -> nth j y 0 < nth i y 0.
Definition down_record (y : list R) (i : nat) : Prop := forall j, (j < i)%nat -> nth i y 0 < nth j y 0.
Definition strictly_up (y : list R) : Prop :=
  forall i j, (i < j < length y)%nat -> nth i y 0 < nth j y 0.
Definition strictly_down (y : list R) : Prop :=
  forall i j, (i < j < length y)%nat -> nth j y 0 < nth i y 0.

Lemma mono_up_spec : forall ys pre m,
  In m pre -> (forall x, In x pre -> x <= m) ->
  forall i, (i < length ys)%nat ->
  (nth i (mono_up m ys) false = true <-> up_record (pre ++ ys) (length pre + i)).
Proof.
  induction ys as [|y t IH]; intros pre m Hm Hmax i Hi; simpl in Hi; [lia|].
  assert (Hnth : forall j, (j < length pre)%nat -> nth j (pre ++ y :: t) 0 <= m).
  { intros j Hj. rewrite app_nth1 by auto. apply Hmax. apply nth_In; auto. }
  destruct i.
  - rewrite Nat.add_0_r. cbn [mono_up]. destruct (Rleb_spec y m).
    + cbn [nth]. split; [discriminate|]. intros H.
      apply In_nth with (d := 0) in Hm as (j & Hj & Ej). specialize (H j Hj).
      rewrite app_nth1 in H by auto. rewrite app_nth2, Nat.sub_diag in H by auto. cbn in H. lra.
    + cbn [nth]. split; auto. intros _ j Hj. rewrite (app_nth2 _ _ _ (le_n _)), Nat.sub_diag. cbn [nth].
      specialize (Hnth j Hj). lra.
  - assert (E : forall b : bool, nth (S i) (if b then false :: mono_up m t else true :: mono_up y t) false
             = nth i (mono_up (if b then m else y) t) false) by (intros []; reflexivity).
    cbn [mono_up]. rewrite E.
    replace (pre ++ y :: t) with ((pre ++ [y]) ++ t) by (rewrite <- app_assoc; reflexivity).
    replace (length pre + S i)%nat with (length (pre ++ [y]) + i)%nat by (rewrite app_length; simpl; lia).
    apply IH; [| |lia].
    + destruct (Rleb_spec y m); apply in_or_app; [left; auto|right; left; auto].
    + intros x Hx. apply in_app_or in Hx. destruct (Rleb_spec y m); destruct Hx as [Hx|[<-|[]]]; auto; try lra.
      specialize (Hmax x Hx). lra.
Qed.

Lemma mono_down_spec : forall ys pre m,
  In m pre -> (forall x, In x pre -> m <= x) ->
  forall i, (i < length ys)%nat ->
  (nth i (mono_down m ys) false = true <-> down_record (pre ++ ys) (length pre + i)).
Proof.
  induction ys as [|y t IH]; intros pre m Hm Hmax i Hi; simpl in Hi; [lia|].
  assert (Hnth : forall j, (j < length pre)%nat -> m <= nth j (pre ++ y :: t) 0).
  { intros j Hj. rewrite app_nth1 by auto. apply Hmax. apply nth_In; auto. }
  destruct i.
  - rewrite Nat.add_0_r. cbn [mono_down]. destruct (Rleb_spec m y).
    + cbn [nth]. split; [discriminate|]. intros H.
      apply In_nth with (d := 0) in Hm as (j & Hj & Ej). specialize (H j Hj).
      rewrite (app_nth1 _ _ _ Hj) in H. rewrite app_nth2, Nat.sub_diag in H by auto. cbn in H. lra.
    + cbn [nth]. split; auto. intros _ j Hj. rewrite (app_nth2 _ _ _ (le_n _)), Nat.sub_diag. cbn [nth].
      specialize (Hnth j Hj). lra.
  - assert (E : forall b : bool, nth (S i) (if b then false :: mono_down m t else true :: mono_down y t) false
             = nth i (mono_down (if b then m else y) t) false) by (intros []; reflexivity).
    cbn [mono_down]. rewrite E.
    replace (pre ++ y :: t) with ((pre ++ [y]) ++ t) by (rewrite <- app_assoc; reflexivity).
    replace (length pre + S i)%nat with (length (pre ++ [y]) + i)%nat by (rewrite app_length; simpl; lia).
    apply IH; [| |lia].
    + destruct (Rleb_spec m y); apply in_or_app; [left; auto|right; left; auto].
    + intros x Hx. apply in_app_or in Hx. destruct (Rleb_spec m y); destruct Hx as [Hx|[<-|[]]]; auto; try lra.
      specialize (Hmax x Hx). lra.
Qed.

Lemma mono_length : forall ys m, length (mono_up m ys) = length ys /\ length (mono_down m ys) = length ys.
Proof.
  induction ys; intros; split; cbn [mono_up mono_down]; auto.
  - destruct (Rleb a m); cbn; f_equal; apply IHys.
  - destruct (Rleb m a); cbn; f_equal; apply IHys.
Qed.

(** Records are decidable (comparison of reals is). *)
Lemma classic_dec_records : forall y k,
  up_record y k \/ exists j, (j < k)%nat /\ nth k y 0 <= nth j y 0.
Proof.
  intros y k. unfold up_record. set (v := nth k y 0). clearbody v. induction k.
  - left. intros; lia.
  - destruct IHk as [H|(j & Hj & H)]; [|right; exists j; split; auto; lia].
    destruct (Rlt_dec (nth k y 0) v) as [Hl|Hl].
    + left. intros j Hj. destruct (Nat.eq_dec j k); [subst; auto|apply H; lia].
    + right. exists k. split; [lia|lra].
Qed.
Lemma classic_dec_records_down : forall y k,
  down_record y k \/ exists j, (j < k)%nat /\ nth j y 0 <= nth k y 0.
Proof.
  intros y k. unfold down_record. set (v := nth k y 0). clearbody v. induction k.
  - left. intros; lia.
  - destruct IHk as [H|(j & Hj & H)]; [|right; exists j; split; auto; lia].
    destruct (Rlt_dec v (nth k y 0)) as [Hl|Hl].
    + left. intros j Hj. destruct (Nat.eq_dec j k); [subst; auto|apply H; lia].
    + right. exists k. split; [lia|lra].
Qed.

(** Complete functional specification: the kept samples are exactly the strict records in the
    direction of (last - first). *)
Theorem C10_flags_are_records : forall y, y <> [] ->
  exists m, index_is_monotonic y = Ok m /\ length m = length y /\
  forall i, (i < length y)%nat ->
    (nth i m false = true <->
      (if Rltb 0 (last y 0 - hd 0 y) then up_record y i else down_record y i)).
Proof.
  intros [|y0 t] Hne; [contradiction|]. unfold index_is_monotonic.
  eexists. split; [reflexivity|]. split.
  { cbn [length]. f_equal. destruct (Rltb 0 (last (y0 :: t) 0 - y0)); apply mono_length. }
  intros i Hi. cbn [hd].
  destruct i.
  { cbn [nth]. split; auto. intros _. destruct (Rltb _ _); intros j Hj; lia. }
  cbn [nth]. cbn [length] in Hi.
  destruct (Rltb 0 (last (y0 :: t) 0 - y0)).
  - apply (mono_up_spec t [y0] y0); [left; auto| |lia]. intros x [<-|[]]; lra.
  - apply (mono_down_spec t [y0] y0); [left; auto| |lia]. intros x [<-|[]]; lra.
Qed.

Lemma mask_select_seq_In : forall m s i,
  In i (mask_select m (seq s (length m))) <-> (s <= i < s + length m)%nat /\ nth (i - s) m false = true.
Proof.
  induction m as [|b m IH]; intros s i; cbn [mask_select length seq]; [split; [intros []|intros [? _]; lia]|].
  specialize (IH (S s) i). destruct b; cbn [In]; rewrite ?IH.
  - split.
    + intros [<-|[H1 H2]]; [rewrite Nat.sub_diag; split; auto; lia|].
      replace (i - s)%nat with (S (i - S s)) by lia. split; [lia|auto].
    + intros [H1 H2]. destruct (Nat.eq_dec s i); [left; auto|]. right.
      replace (i - s)%nat with (S (i - S s)) in H2 by lia. split; [lia|auto].
  - split.
    + intros [H1 H2]. replace (i - s)%nat with (S (i - S s)) by lia. split; [lia|auto].
    + intros [H1 H2]. destruct (Nat.eq_dec s i); [subst; rewrite Nat.sub_diag in H2; discriminate|].
      replace (i - s)%nat with (S (i - S s)) in H2 by lia. split; [lia|auto].
Qed.

Lemma mask_select_sorted : forall m s i j,
  (i < j < length (mask_select m (seq s (length m))))%nat ->
  (nth i (mask_select m (seq s (length m))) 0 < nth j (mask_select m (seq s (length m))) 0)%nat.
Proof.
  induction m as [|b m IH]; intros s i j H; cbn [mask_select length seq] in *; [lia|].
  destruct b; [|apply IH; auto]. cbn [length] in H. destruct j; [lia|]. destruct i; cbn [nth].
  - assert (In (nth j (mask_select m (seq (S s) (length m))) 0%nat) (mask_select m (seq (S s) (length m))))
      by (apply nth_In; lia).
    apply mask_select_seq_In in H0. lia.
  - apply IH. lia.
Qed.

(** The selected samples: first index kept, indices increasing, values strictly monotone in the
    overall direction, and a sample is dropped only if an earlier one already reached it. *)
Theorem C10_monotonic_indices : forall y, y <> [] ->
  exists idx, spec_monotonic_indices y = Ok idx /\ hd 1%nat idx = 0%nat /\
  (forall i j, (i < j < length idx)%nat -> (nth i idx 0 < nth j idx 0)%nat) /\
  (forall k, In k idx -> (k < length y)%nat) /\
  let kept := map (fun i => nth i y 0) idx in
  if Rltb 0 (last y 0 - hd 0 y) then
    strictly_up kept /\ (forall k, (k < length y)%nat -> ~ In k idx -> exists j, (j < k)%nat /\ nth k y 0 <= nth j y 0)
  else
    strictly_down kept /\ (forall k, (k < length y)%nat -> ~ In k idx -> exists j, (j < k)%nat /\ nth j y 0 <= nth k y 0).
Proof.
  intros y Hne. destruct (C10_flags_are_records y Hne) as (m & E & L & Hrec).
  unfold spec_monotonic_indices. rewrite E. cbn [rmap]. eexists. split; [reflexivity|].
  rewrite <- L. rewrite <- L in Hrec.
  assert (HIn : forall k, In k (mask_select m (seq 0 (length m))) <->
            (k < length m)%nat /\ (if Rltb 0 (last y 0 - hd 0 y) then up_record y k else down_record y k)).
  { intros k. rewrite mask_select_seq_In, Nat.sub_0_r. split.
    - intros [H1 H2]. split; [lia|]. apply Hrec; auto. lia.
    - intros [H1 H2]. split; [lia|]. apply Hrec; auto. }
  split.
  { destruct y; [contradiction|]. destruct m; [discriminate|]. cbn in E. injection E as E.
    cbn in *. inversion E; subst. reflexivity. }
  split; [apply mask_select_sorted|].
  split; [intros k Hk; apply HIn in Hk; lia|].
  assert (Hval : forall i d, (i < length (mask_select m (seq 0 (length m))))%nat ->
     nth i (map (fun i => nth i y 0) (mask_select m (seq 0 (length m)))) d
     = nth (nth i (mask_select m (seq 0 (length m))) 0%nat) y 0).
  { intros i d Hi. rewrite (nth_indep _ d (nth 0%nat y 0)) by (rewrite map_length; auto).
    apply (map_nth (fun i => nth i y 0)). }
  cbv zeta. destruct (Rltb 0 (last y 0 - hd 0 y)).
  - split.
    + intros i j Hij. rewrite map_length in Hij. rewrite !Hval by lia.
      assert (Hj : In (nth j (mask_select m (seq 0 (length m))) 0%nat) (mask_select m (seq 0 (length m))))
        by (apply nth_In; lia).
      apply HIn in Hj as [_ Hj]. apply Hj. apply mask_select_sorted; auto.
    + intros k Hk Hnot. rewrite HIn in Hnot.
      destruct (classic_dec_records y k) as [H|H]; [exfalso; tauto|exact H].
  - split.
    + intros i j Hij. rewrite map_length in Hij. rewrite !Hval by lia.
      assert (Hj : In (nth j (mask_select m (seq 0 (length m))) 0%nat) (mask_select m (seq 0 (length m))))
        by (apply nth_In; lia).
      apply HIn in Hj as [_ Hj]. apply Hj. apply mask_select_sorted; auto.
    + intros k Hk Hnot. rewrite HIn in Hnot.
      destruct (classic_dec_records_down y k) as [H|H]; [exfalso; tauto|exact H].
Qed.

Lemma mask_select_all : forall A (l : list A) m, length m = length l ->
  (forall i, (i < length m)%nat -> nth i m false = true) -> mask_select m l = l.
Proof.
  induction l; destruct m; simpl; intros; try discriminate; auto.
  specialize (H0 0%nat ltac:(lia)) as H1. cbn in H1. subst b. f_equal. apply IHl; [lia|].
  intros i Hi. apply (H0 (S i)). lia.
Qed.

Lemma last_nth : forall (l : list R), l <> [] -> last l 0 = nth (length l - 1) l 0.
Proof.
  induction l as [|a l IH]; intros H; [contradiction|]. destruct l as [|r l]; [reflexivity|].
  change (last (a :: r :: l) 0) with (last (r :: l) 0). rewrite IH by discriminate.
  cbn [length]. replace (S (S (length l)) - 1)%nat with (S (S (length l) - 1)) by lia. reflexivity.
Qed.

(** Nothing is dropped from an array that is already strictly monotone. *)
Theorem C10_keeps_monotone : forall y, y <> [] -> strictly_up y \/ strictly_down y ->
  spec_monotonic_indices y = Ok (seq 0 (length y)) /\ monotonize y = Ok y.
Proof.
  intros y Hne Hmono.
  assert (E : spec_monotonic_indices y = Ok (seq 0 (length y))).
  { destruct (C10_flags_are_records y Hne) as (m & E & L & Hrec).
    unfold spec_monotonic_indices. rewrite E. cbn [rmap]. f_equal.
    apply mask_select_all; [rewrite seq_length; auto|].
    intros i Hi. rewrite L in Hi. apply Hrec; auto.
    assert (Hlast : last y 0 = nth (length y - 1) y 0) by (apply last_nth; auto).
    assert (Hhd : hd 0 y = nth 0 y 0) by (destruct y; auto).
    rewrite Hlast, Hhd.
    destruct Hmono as [Hu|Hd].
    - destruct (Rltb_spec 0 (nth (length y - 1) y 0 - nth 0 y 0)) as [H|H].
      + intros j Hj. apply Hu. lia.
      + intros j Hj. exfalso. specialize (Hu 0%nat (length y - 1)%nat ltac:(lia)). lra.
    - destruct (Rltb_spec 0 (nth (length y - 1) y 0 - nth 0 y 0)) as [H|H].
      + intros j Hj. exfalso. specialize (Hd 0%nat (length y - 1)%nat ltac:(lia)). lra.
      + intros j Hj. apply Hd. lia. }
  split; auto. unfold monotonize. rewrite E. cbn [rmap]. f_equal.
  apply (nth_ext _ _ 0 0); [rewrite map_length, seq_length; auto|].
  intros n Hn. rewrite map_length, seq_length in Hn.
  rewrite (nth_indep _ 0 (nth 0%nat y 0)) by (rewrite map_length, seq_length; auto).
  rewrite (map_nth (fun i => nth i y 0)). rewrite seq_nth by auto. reflexivity.
Qed.

Theorem C10_idempotent : forall y z, monotonize y = Ok z -> monotonize z = Ok z.
Proof.
  intros y z H. assert (Hne : y <> []) by (intros ->; discriminate).
  destruct (C10_monotonic_indices y Hne) as (idx & E & Hhd & _ & _ & Hk).
  unfold monotonize in H. rewrite E in H. cbn [rmap] in H. injection H as <-.
  apply C10_keeps_monotone.
  - destruct idx; [discriminate|]. discriminate.
  - cbv zeta in Hk. destruct (Rltb 0 (last y 0 - hd 0 y)); tauto.
Qed.

Theorem C10_empty_input_fails : spec_monotonic_indices [] = Err IndexError.
Proof. reflexivity. Qed.

Ltac rdec := repeat (unfold Rltb, Rleb;
  match goal with
  | |- context [Rlt_dec ?a ?b] => destruct (Rlt_dec a b); try lra
  | |- context [Rle_dec ?a ?b] => destruct (Rle_dec a b); try lra
  end).

Example C10_case : spec_monotonic_indices [0; 1; 1; (1/2); 3] = Ok [0; 1; 4]%nat.
Proof. unfold spec_monotonic_indices, index_is_monotonic. cbn -[Rltb Rleb Rminus]. rdec. reflexivity. Qed.

(** * C11: extrapolation.monotonic_indices *)
Section C11.
  Variable T : list R.
  Variable step : R.
  Notation tt := (tt T).

  (** Specification: consecutive selected times differ by more than the minimal step. *)
  Definition gaps (Ind : list nat) (n : nat) : Prop :=
    forall k, (S k < n)%nat -> (S k < length Ind)%nat ->
      tt (nth k Ind 0%nat) + step < tt (nth (S k) Ind 0%nat).

  Lemma find_j_spec : forall Ind ti i, (i < length Ind)%nat -> ti <= tt (nth i Ind 0%nat) + step ->
    exists j, find_j T step Ind ti = Some j /\ (j <= i)%nat /\
      ti <= tt (nth j Ind 0%nat) + step /\
      forall k, (k < j)%nat -> tt (nth k Ind 0%nat) + step < ti.
  Proof.
    induction Ind as [|a Ind IH]; intros ti i Hi Ht; cbn [length] in Hi; [lia|].
    cbn [find_j]. destruct (Rltb_spec (tt a + step) ti) as [H|H].
    - destruct i; [cbn in Ht; lra|]. destruct (IH ti i ltac:(lia) Ht) as (j & E & Hj & H1 & H2).
      exists (S j). rewrite E. cbn. repeat split; auto; [lia|].
      intros [|k] Hk; [auto|]. apply H2. lia.
    - exists 0%nat. cbn. repeat split; auto; try lia; lra.
  Qed.

  Lemma del_length : forall (Ind : list nat) j i, (j <= i <= length Ind)%nat ->
    length (del Ind j i) = (length Ind - (i - j))%nat.
  Proof. intros. unfold del. rewrite app_length, firstn_length, skipn_length. lia. Qed.

  Lemma del_nth : forall (Ind : list nat) j i k, (j <= i <= length Ind)%nat ->
    nth k (del Ind j i) 0%nat = if Nat.ltb k j then nth k Ind 0%nat else nth (k + (i - j)) Ind 0%nat.
  Proof.
    intros. unfold del. destruct (Nat.ltb_spec k j).
    - rewrite app_nth1 by (rewrite firstn_length; lia). apply nth_firstn_lt; auto.
    - rewrite app_nth2 by (rewrite firstn_length; lia). rewrite firstn_length.
      rewrite nth_skipn. f_equal. lia.
  Qed.

  (** Invariant of the terminating runs. *)
  Definition inv (Ind : list nat) (i : nat) : Prop :=
    (1 <= i <= length Ind)%nat /\ gaps Ind i /\
    (nth 0 Ind 0 = 0)%nat /\
    (forall a b, (a < b < length Ind)%nat -> (nth a Ind 0 < nth b Ind 0)%nat) /\
    (nth (length Ind - 1) Ind 0 = length T - 1)%nat /\ (length Ind <= length T)%nat.

  Hypothesis Hlater : forall k, (1 <= k < length T)%nat -> tt 0 + step < tt k.

  Lemma inv_bound : forall Ind i k, inv Ind i -> (k < length Ind)%nat -> (nth k Ind 0 < length T)%nat.
  Proof.
    intros Ind i k (H1 & _ & _ & Hs & Hl & Hle) Hk.
    destruct (Nat.eq_dec k (length Ind - 1)); [subst; lia|].
    specialize (Hs k (length Ind - 1)%nat ltac:(lia)). lia.
  Qed.

  Lemma mi_step_inv : forall Ind i, inv Ind i -> (i < length Ind)%nat ->
    exists Ind' i', mi_step T step Ind i = Some (Ind', i') /\ inv Ind' i' /\
      (2 * length Ind' - i' < 2 * length Ind - i)%nat.
  Proof.
    intros Ind i Hinv Hi. assert (Hinv' := Hinv).
    destruct Hinv' as ((H1 & H1') & Hg & H0 & Hs & Hl & Hle).
    unfold mi_step. destruct i as [|i']; [lia|]. cbn [prev]. set (i := S i') in *.
    destruct (Rleb_spec (tt (nth i Ind 0%nat)) (tt (nth i' Ind 0%nat) + step)) as [Hc|Hc].
    - destruct (find_j_spec Ind (tt (nth i Ind 0%nat)) i' ltac:(unfold i in *; lia) Hc) as (j & E & Hj & Hj1 & Hj2).
      rewrite E. exists (del Ind j i), j. split; [reflexivity|].
      assert (Hj0 : (1 <= j)%nat).
      { destruct j; [|lia]. exfalso. rewrite H0 in Hj1.
        assert (nth i Ind 0 < length T)%nat by (eapply inv_bound; eauto).
        assert (0 < nth i Ind 0)%nat by (rewrite <- H0 at 1; apply Hs; unfold i; lia).
        specialize (Hlater (nth i Ind 0%nat) ltac:(lia)). lra. }
      assert (Hji : (j <= i <= length Ind)%nat) by (unfold i in *; lia).
      split.
      + unfold inv. rewrite del_length by auto.
        split; [unfold i in *; lia|]. split.
        { intros k Hk Hk2. rewrite !del_nth by auto.
          destruct (Nat.ltb_spec k j); [|lia]. destruct (Nat.ltb_spec (S k) j); [|lia].
          apply Hg; unfold i in *; lia. }
        split. { rewrite del_nth by auto. destruct (Nat.ltb_spec 0 j); [auto|lia]. }
        split.
        { intros a b Hab. rewrite !del_nth by auto.
          destruct (Nat.ltb_spec a j), (Nat.ltb_spec b j); apply Hs; unfold i in *; lia. }
        split; [|unfold i in *; lia].
        rewrite del_nth by auto. destruct (Nat.ltb_spec (length Ind - (i - j) - 1) j); [unfold i in *; lia|].
        rewrite <- Hl. f_equal. unfold i in *; lia.
      + rewrite del_length by auto. unfold i in *. lia.
    - exists Ind, (S i). split; [reflexivity|]. split; [|unfold i in *; lia].
      unfold inv. repeat split; auto; try (unfold i in *; lia).
      intros k Hk Hk2. destruct (Nat.eq_dec k i'); [subst; fold i; lra|]. apply Hg; unfold i in *; lia.
  Qed.

  Lemma mi_loop_ok : forall fuel Ind i, inv Ind i -> (2 * length Ind - i < fuel)%nat ->
    exists Ind', mi_loop T step fuel Ind i = Ok Ind' /\ inv Ind' (length Ind').
  Proof.
    induction fuel; intros Ind i Hinv Hf; [lia|]. cbn [mi_loop].
    destruct (Nat.ltb_spec i (length Ind)).
    - destruct (mi_step_inv Ind i Hinv H) as (Ind' & i' & E & Hinv' & Hm). rewrite E.
      apply IHfuel; auto. lia.
    - exists Ind. split; auto. destruct Hinv as ((H1 & H1') & Hr). replace (length Ind) with i by lia.
      replace i with (length Ind) at 1 by lia. unfold inv. replace (length Ind) with i in * by lia. auto.
  Qed.
End C11.

(** When every later time exceeds the first by more than the step, the function returns, and the
    result starts with index 0, ends with the last index, is increasing, and all gaps exceed the step. *)
Theorem C11_terminates_and_correct : forall T step, T <> [] ->
  (forall k, (1 <= k < length T)%nat -> nth 0 T 0 + step < nth k T 0) ->
  exists fuel0 Ind, (forall fuel, (fuel0 <= fuel)%nat -> monotonic_indices T step fuel = Ok Ind) /\
    Ind <> [] /\ (nth 0 Ind 0 = 0)%nat /\ (nth (length Ind - 1) Ind 0 = length T - 1)%nat /\
    (forall a b, (a < b < length Ind)%nat -> (nth a Ind 0 < nth b Ind 0)%nat) /\
    (forall k, (S k < length Ind)%nat ->
       nth (nth k Ind 0%nat) T 0 + step < nth (nth (S k) Ind 0%nat) T 0).
Proof.
  intros T step Hne Hlater.
  assert (Hlen : (1 <= length T)%nat) by (destruct T; [contradiction|simpl; lia]).
  assert (Hinv : inv T step (seq 0 (length T)) 1).
  { unfold inv. rewrite seq_length. split; [lia|]. split; [intros k Hk; lia|].
    split; [rewrite seq_nth; lia|]. split; [intros a b Hab; rewrite !seq_nth; lia|].
    split; [rewrite seq_nth; lia|lia]. }
  destruct (mi_loop_ok T step Hlater (2 * length T + 1) (seq 0 (length T)) 1 Hinv) as (Ind & E & Hi).
  { rewrite seq_length. lia. }
  exists (2 * length T + 1)%nat, Ind. split.
  { intros fuel Hf.
    assert (Hmono : forall f1 f2 I i r, (f1 <= f2)%nat -> mi_loop T step f1 I i = Ok r -> mi_loop T step f2 I i = Ok r).
    { clear. induction f1; intros f2 I i r Hle H.
      - cbn [mi_loop] in H. destruct f2; cbn [mi_loop]; destruct (Nat.ltb i (length I)); auto; discriminate.
      - destruct f2; [lia|]. cbn [mi_loop] in *. destruct (Nat.ltb i (length I)); auto.
        destruct (mi_step T step I i) as [[I' i']|]; [|discriminate]. apply IHf1; auto. lia. }
    eapply Hmono; eauto. }
  destruct Hi as ((H1 & _) & Hg & H0 & Hs & Hl & _).
  split; [intros ->; simpl in H1; lia|].
  split; [auto|]. split; [auto|]. split; [auto|].
  intros k Hk. apply Hg; lia.
Qed.

(** A single later time at or before (first + step) makes the function loop forever: no number of
    iterations is enough. *)
Theorem C11_diverges_otherwise_refuted : forall T step, 0 <= step ->
  (exists k, (1 <= k < length T)%nat /\ nth k T 0 <= nth 0 T 0 + step) ->
  forall fuel, monotonic_indices T step fuel = Err OutOfFuel.
Proof.
  intros T step Hstep Hbad.
  set (Bad := fun (Ind : list nat) (i : nat) =>
    (i = 0%nat /\ (0 < length Ind)%nat) \/
    ((1 <= i)%nat /\ gaps T step Ind i /\
     exists p, (i <= p < length Ind)%nat /\ tt T (nth p Ind 0%nat) <= tt T (nth 0 Ind 0%nat) + step)).
  assert (Hbadstep : forall Ind i, Bad Ind i -> (i < length Ind)%nat /\
     exists Ind' i', mi_step T step Ind i = Some (Ind', i') /\ Bad Ind' i').
  { intros Ind i [(-> & Hlen)|(Hi & Hg & p & Hp & Hpt)].
    - split; [lia|]. unfold mi_step. cbn [prev].
      destruct (Rleb_spec (tt T (nth 0 Ind 0%nat)) (tt T (nth (length Ind - 1) Ind 0%nat) + step)) as [Hc|Hc].
      + destruct (find_j_spec T step Ind (tt T (nth 0 Ind 0%nat)) 0 Hlen ltac:(lra)) as (j & E & Hj & _).
        assert (j = 0%nat) by lia. subst j. rewrite E. eexists _, _. split; [reflexivity|].
        left. split; auto. 
      + eexists _, _. split; [reflexivity|]. right. split; [lia|]. split; [intros k Hk; lia|].
        exists (length Ind - 1)%nat. split.
        * destruct (Nat.eq_dec (length Ind) 1); [|lia]. rewrite e in Hc. cbn in Hc. lra.
        * lra.
    - split; [lia|]. unfold mi_step. destruct i as [|i']; [lia|]. cbn [prev]. set (i := S i') in *.
      destruct (Rleb_spec (tt T (nth i Ind 0%nat)) (tt T (nth i' Ind 0%nat) + step)) as [Hc|Hc].
      + destruct (find_j_spec T step Ind (tt T (nth i Ind 0%nat)) i' ltac:(unfold i in *; lia) Hc) as (j & E & Hj & Hj1 & Hj2).
        rewrite E. eexists _, _. split; [reflexivity|].
        assert (Hji : (j <= i <= length Ind)%nat) by (unfold i in *; lia).
        destruct j as [|j'].
        * left. split; auto. rewrite del_length by auto. lia.
        * right. split; [lia|]. split.
          { intros k Hk Hk2. rewrite !del_nth by auto.
            destruct (Nat.ltb_spec k (S j')); [|lia]. destruct (Nat.ltb_spec (S k) (S j')); [|lia].
            rewrite del_length in Hk2 by auto. apply Hg; unfold i in *; lia. }
          exists (p - (i - S j'))%nat. rewrite del_length by auto. split; [unfold i in *; lia|].
          rewrite !del_nth by auto. destruct (Nat.ltb_spec (p - (i - S j')) (S j')); [unfold i in *; lia|].
          destruct (Nat.ltb_spec 0 (S j')); [|lia].
          replace (p - (i - S j') + (i - S j'))%nat with p by (unfold i in *; lia). auto.
      + eexists _, _. split; [reflexivity|]. right. split; [lia|]. split.
        { intros k Hk Hk2. destruct (Nat.eq_dec k i'); [subst; fold i; lra|]. apply Hg; unfold i in *; lia. }
        assert (Hmon : forall k, (k < i)%nat -> tt T (nth 0 Ind 0%nat) <= tt T (nth k Ind 0%nat)).
        { induction k; intros Hk; [lra|]. specialize (IHk ltac:(lia)).
          specialize (Hg k ltac:(lia) ltac:(lia)). lra. }
        specialize (Hmon i' ltac:(unfold i; lia)).
        exists p. split; auto. destruct (Nat.eq_dec p i); [|lia]. subst p. exfalso. lra. }
  assert (Hloop : forall fuel Ind i, Bad Ind i -> mi_loop T step fuel Ind i = Err OutOfFuel).
  { induction fuel; intros Ind i HB; destruct (Hbadstep Ind i HB) as (Hlt & Ind' & i' & E & HB');
      cbn [mi_loop]; (destruct (Nat.ltb_spec i (length Ind)); [|lia]); auto.
    rewrite E. auto. }
  intros fuel. apply Hloop. right. split; [lia|]. split; [intros k Hk; lia|].
  destruct Hbad as (k & Hk & Ht). exists k. rewrite seq_length. split; [lia|].
  rewrite !seq_nth by lia. exact Ht.
Qed.

Example C11_case : monotonic_indices [0; 1; (1/2); 2] 0 9 = Ok [0; 2; 3]%nat.
Proof.
  assert (E1 : mi_step [0; 1; (1/2); 2] 0 [0;1;2;3]%nat 1 = Some ([0;1;2;3]%nat, 2%nat)).
  { unfold mi_step, tt. cbn -[Rltb Rleb Rplus]. rdec. reflexivity. }
  assert (E2 : mi_step [0; 1; (1/2); 2] 0 [0;1;2;3]%nat 2 = Some ([0;2;3]%nat, 1%nat)).
  { unfold mi_step, tt. cbn [nth prev find_j]. unfold tt. cbn [nth]. rdec. reflexivity. }
  assert (E3 : mi_step [0; 1; (1/2); 2] 0 [0;2;3]%nat 1 = Some ([0;2;3]%nat, 2%nat)).
  { unfold mi_step, tt. cbn [nth prev]. rdec. reflexivity. }
  assert (E4 : mi_step [0; 1; (1/2); 2] 0 [0;2;3]%nat 2 = Some ([0;2;3]%nat, 3%nat)).
  { unfold mi_step, tt. cbn [nth prev]. rdec. reflexivity. }
  unfold monotonic_indices. cbn [length seq].
  cbn [mi_loop length Nat.ltb Nat.leb]. rewrite E1.
  cbn [mi_loop length Nat.ltb Nat.leb]. rewrite E2.
  cbn [mi_loop length Nat.ltb Nat.leb]. rewrite E3.
  cbn [mi_loop length Nat.ltb Nat.leb]. rewrite E4.
  reflexivity.
Qed.

Example C11_divergence_case : forall fuel, monotonic_indices [0; 0; 1] (1/1000) fuel = Err OutOfFuel.
Proof. apply C11_diverges_otherwise_refuted; [lra|]. exists 1%nat. split; [simpl; lia|]. cbn. lra. Qed.
