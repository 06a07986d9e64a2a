(** C01, C02, C46: mode indexing and slicing. *)
From Coq Require Import ZArith List Lia Bool FinFun.
From Verif Require Import Common Modes_Model.
Import ListNotations.
Open Scope Z_scope.
Local Arguments Z.pow : simpl never.
Local Arguments Z.max : simpl never.

(** * LM_range *)
Lemma LM_range_snoc : forall a b, a <= b + 1 ->
  LM_range a (b + 1) = LM_range a b ++ map (fun m => (b + 1, m)) (zrange (- (b + 1)) (b + 2)).
Proof.
  intros. unfold LM_range. rewrite zrange_snoc by lia. rewrite flat_map_app. simpl.
  rewrite app_nil_r. do 2 f_equal. f_equal; lia.
Qed.

Lemma LM_range_empty : forall a b, b < a -> LM_range a b = [].
Proof. intros. unfold LM_range. rewrite zrange_empty by lia. reflexivity. Qed.

Lemma LM_range_split : forall a b c, a <= b -> b <= c + 1 ->
  LM_range a c = LM_range a (b - 1) ++ LM_range b c.
Proof.
  intros. unfold LM_range. rewrite (zrange_split a b (c + 1)) by lia.
  rewrite flat_map_app. f_equal. f_equal. f_equal. lia.
Qed.

Lemma LM_range_length_aux : forall n a, 0 <= a ->
  Z.of_nat (length (LM_range a (a - 1 + Z.of_nat n))) = (a + Z.of_nat n) ^ 2 - a ^ 2.
Proof.
  induction n; intros.
  - rewrite LM_range_empty by lia. simpl length. rewrite Z.add_0_r. lia.
  - replace (a - 1 + Z.of_nat (S n)) with ((a - 1 + Z.of_nat n) + 1) by lia.
    rewrite LM_range_snoc by lia. rewrite app_length, map_length, zrange_length, Nat2Z.inj_add, IHn by lia.
    rewrite Z2Nat.id by lia. rewrite Nat2Z.inj_succ. lia.
Qed.

Lemma LM_range_length : forall a b, 0 <= a -> a <= b + 1 ->
  Z.of_nat (length (LM_range a b)) = (b + 1) ^ 2 - a ^ 2.
Proof.
  intros. replace b with (a - 1 + Z.of_nat (Z.to_nat (b + 1 - a))) at 1 by lia.
  rewrite LM_range_length_aux by lia. f_equal. f_equal. lia.
Qed.

Lemma LM_range_In : forall a b l m, In (l, m) (LM_range a b) <-> a <= l <= b /\ - l <= m <= l.
Proof.
  intros. unfold LM_range. rewrite in_flat_map. split.
  - intros (x & Hx & H). apply zrange_In in Hx. apply in_map_iff in H as (y & E & Hy).
    apply zrange_In in Hy. injection E as <- <-. lia.
  - intros H. exists l. split; [apply zrange_In; lia|]. apply in_map_iff. exists m. split; auto.
    apply zrange_In; lia.
Qed.

(** * C01 *)
Theorem C01_index_is_position : forall ell_min ell_max ell m,
  0 <= ell_min -> ell_min <= ell <= ell_max -> - ell <= m <= ell ->
  0 <= LM_index ell m ell_min < Z.of_nat (length (LM_range ell_min ell_max)) /\
  nth_error (LM_range ell_min ell_max) (Z.to_nat (LM_index ell m ell_min)) = Some (ell, m).
Proof.
  intros a b l m Ha Hl Hm. unfold LM_index.
  assert (Hlt : a ^ 2 <= l ^ 2) by nia.
  assert (Hb : (l + 1) ^ 2 <= (b + 1) ^ 2) by nia.
  split.
  - rewrite LM_range_length by lia. split; nia.
  - rewrite (LM_range_split a l b) by lia. rewrite (LM_range_split l (l + 1) b) by lia.
    assert (L1 : Z.of_nat (length (LM_range a (l - 1))) = l ^ 2 - a ^ 2)
      by (rewrite LM_range_length by lia; f_equal; f_equal; lia).
    rewrite nth_error_app2 by nia.
    replace (Z.to_nat (l * (l + 1) - a ^ 2 + m) - length (LM_range a (l - 1)))%nat
      with (Z.to_nat (l + m)) by nia.
    replace (l + 1 - 1) with l by lia.
    assert (E : LM_range l l = map (fun m => (l, m)) (zrange (- l) (l + 1))).
    { unfold LM_range. rewrite zrange_cons by lia. rewrite zrange_empty by lia.
      simpl. apply app_nil_r. }
    rewrite E.
    rewrite nth_error_app1 by (rewrite map_length, zrange_length; lia).
    rewrite nth_error_map.
    rewrite (nth_error_nth' _ 0) by (rewrite zrange_length; lia).
    rewrite zrange_nth by lia. simpl. do 2 f_equal. lia.
Qed.

Theorem C01_every_column_is_named : forall ell_min ell_max i l m,
  0 <= ell_min -> nth_error (LM_range ell_min ell_max) i = Some (l, m) ->
  ell_min <= l <= ell_max /\ - l <= m <= l /\ LM_index l m ell_min = Z.of_nat i.
Proof.
  intros a b i l m Ha H.
  assert (HI := nth_error_In _ _ H). apply LM_range_In in HI. destruct HI as [Hl Hm].
  split; [lia|]. split; [lia|].
  destruct (C01_index_is_position a b l m Ha Hl Hm) as [Hr Hn].
  assert (ND : NoDup (LM_range a b)).
  { clear. unfold LM_range. generalize (zrange_NoDup a (b + 1)).
    induction (zrange a (b + 1)) as [|x xs IH]; intros HN; simpl; [constructor|].
    inversion HN; subst. specialize (IH H2).
    assert (NM : NoDup (map (fun m : Z => (x, m)) (zrange (- x) (x + 1)))).
    { apply FinFun.Injective_map_NoDup; [|apply zrange_NoDup]. intros p q E; injection E; auto. }
    revert NM. induction (zrange (- x) (x + 1)); simpl; intros; auto.
    inversion NM; subst. constructor; auto.
    rewrite in_app_iff. intros [|HH]; [contradiction|].
    apply in_flat_map in HH as (y & Hy & HH). apply in_map_iff in HH as (z & E & _).
    injection E as -> _. contradiction. }
  rewrite NoDup_nth_error in ND.
  assert (Z.to_nat (LM_index l m a) = i).
  { apply ND; [|congruence]. apply Nat2Z.inj_lt. rewrite Z2Nat.id; lia. }
  lia.
Qed.

Theorem C01_index_injective : forall ell_min l m l' m',
  0 <= ell_min -> ell_min <= l -> - l <= m <= l -> ell_min <= l' -> - l' <= m' <= l' ->
  LM_index l m ell_min = LM_index l' m' ell_min -> l = l' /\ m = m'.
Proof.
  intros a l m l' m' Ha Hl Hm Hl' Hm' E.
  destruct (C01_index_is_position a (Z.max l l') l m Ha ltac:(lia) Hm) as [_ H1].
  destruct (C01_index_is_position a (Z.max l l') l' m' Ha ltac:(lia) Hm') as [_ H2].
  rewrite E in H1. rewrite H1 in H2. injection H2; auto.
Qed.

Theorem C01_mode_count : forall ell_min ell_max, 0 <= ell_min -> ell_min <= ell_max + 1 ->
  Z.of_nat (length (LM_range ell_min ell_max)) = (ell_max + 1) ^ 2 - ell_min ^ 2.
Proof. exact LM_range_length. Qed.

(** [indices(w.LM)] is [0, 1, ..., n_modes-1]. *)
Theorem C01_indices_of_LM : forall ell_min ell_max, 0 <= ell_min ->
  indices ell_min (LM_range ell_min ell_max)
  = map Z.of_nat (seq 0 (length (LM_range ell_min ell_max))).
Proof.
  intros a b Ha. apply nth_error_ext.
  intro i. unfold indices. rewrite !nth_error_map.
  destruct (nth_error (LM_range a b) i) as [[l m]|] eqn:E.
  - destruct (C01_every_column_is_named a b i l m Ha E) as (_ & _ & H). simpl.
    assert (Hi : (i < length (LM_range a b))%nat) by (apply nth_error_Some; congruence).
    rewrite (nth_error_nth' _ 0%nat) by (rewrite seq_length; auto).
    rewrite seq_nth by auto. simpl. unfold LM_index in H. f_equal. lia.
  - apply nth_error_None in E. rewrite (proj2 (nth_error_None (seq 0 _) i)); [reflexivity|].
    rewrite seq_length; auto.
Qed.

Example C01_case : LM_index 3 (-2) 2 = 6 /\ nth_error (LM_range 2 8) 6 = Some (3, -2).
Proof. split; reflexivity. Qed.

(** * C02 specification: keep the columns whose mode has [a <= ell < b]. *)
Definition wanted (a b : Z) (lm : Z * Z) : bool := (a <=? fst lm) && (fst lm <? b).
Definition spec_row {C} (a b : Z) (LM : list (Z * Z)) (row : list C) : list ((Z * Z) * C) :=
  filter (fun p => wanted a b (fst p)) (combine LM row).

(** Well-formed mode data: every row has one entry per mode. *)
Definition wf_ok {T Q C} (w : wf T Q C) : Prop :=
  0 <= wlmin w /\ wlmin w <= wlmax w + 1 /\ wLM w = LM_range (wlmin w) (wlmax w) /\
  Forall (fun row => length row = length (wLM w)) (wdata w).

Lemma combine_app : forall A B (l1 l2 : list A) (r1 r2 : list B), length l1 = length r1 ->
  combine (l1 ++ l2) (r1 ++ r2) = combine l1 r1 ++ combine l2 r2.
Proof.
  induction l1; destruct r1; simpl; intros; try discriminate; auto. f_equal. apply IHl1. lia.
Qed.

Lemma filter_all : forall A (f : A -> bool) l, (forall x, In x l -> f x = true) -> filter f l = l.
Proof.
  induction l; intros; simpl; auto. rewrite H by (left; auto). f_equal. apply IHl.
  intros; apply H; right; auto.
Qed.
Lemma filter_none : forall A (f : A -> bool) l, (forall x, In x l -> f x = false) -> filter f l = [].
Proof.
  induction l; intros; simpl; auto. rewrite H by (left; auto). apply IHl.
  intros; apply H; right; auto.
Qed.

Lemma slice_row_spec : forall C (lo hi a b : Z) (row : list C),
  0 <= lo -> lo <= a -> a <= hi + 1 -> lo <= b -> b <= hi + 1 ->
  length row = length (LM_range lo hi) ->
  combine (LM_range a (b - 1)) (py_slice (Some (a ^ 2 - lo ^ 2)) (Some (b ^ 2 - lo ^ 2)) row)
    = spec_row a b (LM_range lo hi) row
  /\ length (py_slice (Some (a ^ 2 - lo ^ 2)) (Some (b ^ 2 - lo ^ 2)) row)
     = length (LM_range a (b - 1)).
Proof.
  intros C lo hi a b row Hlo Ha Ha' Hb Hb' Hrow.
  assert (Hn : Z.of_nat (length row) = (hi + 1) ^ 2 - lo ^ 2)
    by (rewrite Hrow; apply LM_range_length; lia).
  destruct (Z_le_gt_dec a b) as [Hab|Hab].
  - rewrite py_slice_nonneg by nia.
    set (r1 := firstn (Z.to_nat (a ^ 2 - lo ^ 2)) row).
    set (r' := skipn (Z.to_nat (a ^ 2 - lo ^ 2)) row).
    set (r2 := firstn (Z.to_nat (b ^ 2 - lo ^ 2 - (a ^ 2 - lo ^ 2))) r').
    set (r3 := skipn (Z.to_nat (b ^ 2 - lo ^ 2 - (a ^ 2 - lo ^ 2))) r').
    assert (Erow : row = r1 ++ r2 ++ r3).
    { unfold r1, r2, r3, r'. rewrite firstn_skipn. rewrite firstn_skipn. reflexivity. }
    assert (L1 : length r1 = length (LM_range lo (a - 1))).
    { apply Nat2Z.inj. rewrite LM_range_length by lia. unfold r1. rewrite firstn_length_le by nia. nia. }
    assert (L2 : length r2 = length (LM_range a (b - 1))).
    { apply Nat2Z.inj. rewrite LM_range_length by lia. unfold r2.
      rewrite firstn_length_le; [nia|]. unfold r'. rewrite skipn_length. nia. }
    split; [|exact L2].
    unfold spec_row. rewrite (LM_range_split lo a hi) by lia.
    rewrite (LM_range_split a b hi) by lia.
    rewrite Erow. rewrite combine_app by auto. rewrite combine_app by auto.
    rewrite !filter_app.
    rewrite filter_none. rewrite filter_all. rewrite filter_none.
    + simpl. rewrite app_nil_r. reflexivity.
    + intros [[l m] c] HI. apply in_combine_l in HI. apply LM_range_In in HI.
      unfold wanted; simpl. apply andb_false_iff. right. apply Z.ltb_ge. lia.
    + intros [[l m] c] HI. apply in_combine_l in HI. apply LM_range_In in HI.
      unfold wanted; simpl. apply andb_true_iff. split; [apply Z.leb_le|apply Z.ltb_lt]; lia.
    + intros [[l m] c] HI. apply in_combine_l in HI. apply LM_range_In in HI.
      unfold wanted; simpl. apply andb_false_iff. left. apply Z.leb_gt. lia.
  - rewrite LM_range_empty by lia.
    assert (E : py_slice (Some (a ^ 2 - lo ^ 2)) (Some (b ^ 2 - lo ^ 2)) row = []).
    { unfold py_slice, py_bound.
      destruct (a ^ 2 - lo ^ 2 <? 0) eqn:E1; [apply Z.ltb_lt in E1; nia|].
      destruct (b ^ 2 - lo ^ 2 <? 0) eqn:E2; [apply Z.ltb_lt in E2; nia|].
      apply Z.ltb_ge in E1, E2.
      replace (Z.to_nat (Z.max 0 (Z.min (Z.of_nat (length row)) (b ^ 2 - lo ^ 2)) -
         Z.max 0 (Z.min (Z.of_nat (length row)) (a ^ 2 - lo ^ 2)))) with 0%nat by nia.
      reflexivity. }
    rewrite E. split; [|reflexivity].
    unfold spec_row. rewrite filter_none; [reflexivity|].
    intros [[l m] c] HI. apply in_combine_l in HI. apply LM_range_In in HI.
    unfold wanted; simpl.
    destruct (Z.leb_spec a l); simpl; auto. apply Z.ltb_ge. lia.
Qed.

(** Requested half-open ell range of a mode key on a waveform with range [lo..hi]
    (an omitted bound means "to the end", as in Python). *)
Definition requested (lo hi : Z) (k : mode_key) : Z * Z :=
  match k with
  | MInt l => (l, l + 1)
  | MSlice s e _ => (match s with None => lo | Some a => a end,
                     match e with None => hi + 1 | Some b => b end)
  end.

(** Keys for which the implementation behaves: unit step, and the upper bound is
    neither below the stored range nor a zero following a nonzero lower bound. *)
Definition key_ok (lo : Z) (k : mode_key) : Prop :=
  match k with
  | MInt _ => True
  | MSlice s e st =>
      (st = None \/ st = Some 0 \/ st = Some 1) /\
      match e with
      | None => True
      | Some b => lo <= b /\ (b = 0 -> s = None \/ s = Some 0)
      end
  end.

(** Requests that the documentation says are outside the stored range. *)
Definition out_of_range (lo hi : Z) (k : mode_key) : Prop :=
  match k with
  | MInt l => l < lo \/ hi < l
  | MSlice s e _ => (exists a, s = Some a /\ a <> 0 /\ a < lo) \/ (exists b, e = Some b /\ hi + 1 < b)
  end.

Definition result_ok {T Q C} (a b : Z) (w : wf T Q C) (tk : option Z * option Z) (w' : wf T Q C) : Prop :=
  wf_ok w' /\
  wt w' = py_slice (fst tk) (snd tk) (wt w) /\
  wframe w' = py_slice (fst tk) (snd tk) (wframe w) /\
  map (fun row => combine (wLM w') row) (wdata w')
    = map (spec_row a b (wLM w)) (py_slice (fst tk) (snd tk) (wdata w)).

Lemma py_slice_incl : forall A s e (l : list A) x, In x (py_slice s e l) -> In x l.
Proof.
  intros. unfold py_slice in H. apply In_nth_error in H as [i Hi].
  assert (In x (skipn (Z.to_nat (py_bound (Z.of_nat (length l)) 0 s)) l)).
  { rewrite <- (firstn_skipn (Z.to_nat
      (py_bound (Z.of_nat (length l)) (Z.of_nat (length l)) e -
       py_bound (Z.of_nat (length l)) 0 s))
      (skipn (Z.to_nat (py_bound (Z.of_nat (length l)) 0 s)) l)).
    apply in_or_app. left. eapply nth_error_In; eauto. }
  rewrite <- (firstn_skipn (Z.to_nat (py_bound (Z.of_nat (length l)) 0 s)) l).
  apply in_or_app; auto.
Qed.

Lemma getitem_pair_ok_aux : forall T Q C (w : wf T Q C) tk a b,
  wf_ok w -> wlmin w <= a -> a <= wlmax w + 1 -> wlmin w <= b -> b <= wlmax w + 1 ->
  a <= b ->
  result_ok a b w tk
    (set_ells {| wt := sl tk (wt w); wframe := sl tk (wframe w);
       wdata := map (sl (Some (a ^ 2 - wlmin w ^ 2), Some (b ^ 2 - wlmin w ^ 2))) (sl tk (wdata w));
       wlmin := wlmin w; wlmax := wlmax w; wLM := wLM w |} a (b - 1)).
Proof.
  intros T Q C w tk a b (H0 & H1 & HLM & HF) Ha Ha' Hb Hb' Hab.
  assert (HF' : forall row, In row (sl tk (wdata w)) -> length row = length (LM_range (wlmin w) (wlmax w))).
  { intros row Hr. apply py_slice_incl in Hr. rewrite Forall_forall in HF. rewrite <- HLM. auto. }
  unfold result_ok, wf_ok, set_ells; simpl.
  split; [|split; [reflexivity|split; [reflexivity|]]].
  - split; [lia|]. split; [lia|]. split; [reflexivity|].
    apply Forall_forall. intros x Hx. apply in_map_iff in Hx as (row & <- & Hr).
    apply (slice_row_spec C (wlmin w) (wlmax w) a b row); auto.
  - rewrite map_map. apply map_ext_in. intros row Hr.
    rewrite HLM. apply (slice_row_spec C (wlmin w) (wlmax w) a b row); auto.
Qed.

(** Any unit-step request by ell, with a numpy data array of at least two columns, either
    is rejected with ValueError -- exactly when it reaches outside the stored range -- or
    returns precisely the requested modes together with the matching ell range, times and frame.
    Only the ell label of an empty result ([b < a]) is left open. *)
Theorem C02_slice_returns_requested_modes : forall T Q C n_data_sets (w : wf T Q C) tk k,
  wf_ok w -> 2 <= n_data_sets -> key_ok (wlmin w) k ->
  let '(a, b) := requested (wlmin w) (wlmax w) k in
  match getitem_pair n_data_sets w tk k with
  | Ok w' =>
      ~ out_of_range (wlmin w) (wlmax w) k /\
      map (fun row => combine (wLM w') row) (wdata w')
        = map (spec_row a b (wLM w)) (py_slice (fst tk) (snd tk) (wdata w)) /\
      (Z.max a (wlmin w) <= b -> result_ok a b w tk w')
  | Err e => e = ValueError /\ out_of_range (wlmin w) (wlmax w) k
  end.
Proof.
  intros T Q C n w tk k Hok Hn Hk.
  assert (Hok' := Hok). destruct Hok' as (H0 & H1 & HLM & HF).
  assert (HF' : forall row, In row (sl tk (wdata w)) -> length row = length (LM_range (wlmin w) (wlmax w))).
  { intros row Hr. apply py_slice_incl in Hr. rewrite Forall_forall in HF. rewrite <- HLM. auto. }
  assert (Hbase : forall ck, base_getitem_pair T Q C n w tk ck =
     Ok {| wt := sl tk (wt w); wframe := sl tk (wframe w);
               wdata := map (sl ck) (sl tk (wdata w));
               wlmin := wlmin w; wlmax := wlmax w; wLM := wLM w |}).
  { intros. unfold base_getitem_pair. destruct (Z.leb_spec 2 n); [reflexivity|lia]. }
  assert (Hwide : forall a b, wlmin w <= a -> a <= wlmax w + 1 -> wlmin w <= b -> b <= wlmax w + 1 ->
    let w' := set_ells {| wt := sl tk (wt w); wframe := sl tk (wframe w);
       wdata := map (sl (Some (a ^ 2 - wlmin w ^ 2), Some (b ^ 2 - wlmin w ^ 2))) (sl tk (wdata w));
       wlmin := wlmin w; wlmax := wlmax w; wLM := wLM w |} a (b - 1) in
    map (fun row => combine (wLM w') row) (wdata w')
        = map (spec_row a b (wLM w)) (py_slice (fst tk) (snd tk) (wdata w)) /\
      (a <= b -> result_ok a b w tk w')).
  { intros a b A1 A2 A3 A4 w'. split.
    - unfold w', set_ells; simpl. rewrite map_map. apply map_ext_in. intros row Hr.
      rewrite HLM. apply (slice_row_spec C (wlmin w) (wlmax w) a b row); auto.
    - intros; apply getitem_pair_ok_aux; auto. }
  destruct k as [l|s e st]; simpl requested; cbv iota beta.
  - unfold getitem_pair, mode_slice.
    destruct (Z.ltb_spec l (wlmin w)); simpl; [split; auto|].
    destruct (Z.ltb_spec (wlmax w) l); simpl; [split; auto; lia|].
    rewrite Hbase. simpl. split; [lia|].
    rewrite Z.max_l by lia.
    specialize (Hwide l (l + 1) ltac:(lia) ltac:(lia) ltac:(lia) ltac:(lia)).
    replace (l * (l + 2) + 1 - wlmin w ^ 2) with ((l + 1) ^ 2 - wlmin w ^ 2) by lia.
    replace (l + 1 - 1) with l in Hwide by lia. exact Hwide.
  - destruct Hk as [Hst He].
    unfold getitem_pair, mode_slice.
    assert (Est : negb (falsy st) && negb (match st with Some z => z =? 1 | None => false end) = false).
    { destruct Hst as [->|[->| ->]]; reflexivity. }
    rewrite Est. clear Est.
    set (a := match s with None => wlmin w | Some a => a end).
    set (b := match e with None => wlmax w + 1 | Some b => b end).
    destruct (falsy s && match e with Some z => z =? 0 | None => false end) eqn:Ez.
    + apply andb_true_iff in Ez as [Ez1 Ez2]. destruct e as [z|]; [|discriminate].
      apply Z.eqb_eq in Ez2. subst z. destruct He as [He _]. unfold b.
      assert (wlmin w = 0) by lia.
      assert (a = 0) as Ea. { unfold a. destruct s as [z|]; simpl in Ez1; [apply Z.eqb_eq in Ez1|]; lia. }
      rewrite Ea. simpl. rewrite Hbase. simpl. split.
      { intros [(x & -> & Hx & _)|(x & Hx & Hx')]; [unfold a in Ea; lia|injection Hx as <-; lia]. }
      rewrite H. simpl Z.max.
      specialize (Hwide 0 0 ltac:(lia) ltac:(lia) ltac:(lia) ltac:(lia)).
      simpl in Hwide. rewrite H in Hwide. simpl in Hwide.
      assert (Es : forall row : list C, sl (None, Some 0) row = sl (Some 0, Some 0) row).
      { intros row.
        assert (Eb0 : py_bound (Z.of_nat (length row)) 0 (Some 0) = 0).
        { unfold py_bound. change (0 <? 0) with false. cbv iota zeta. lia. }
        unfold sl, py_slice. cbv zeta. simpl fst; simpl snd. rewrite Eb0. reflexivity. }
      rewrite (map_ext _ _ Es). exact Hwide.
    + set (a' := if falsy s then wlmin w else match s with Some s => s | None => 0 end).
      set (m' := if falsy e then wlmax w else match e with Some s => s - 1 | None => 0 end).
      assert (Eb : m' = b - 1).
      { unfold m', b. destruct e as [z|]; simpl; [|lia]. destruct (Z.eqb_spec z 0); [|reflexivity].
        subst z. exfalso. destruct He as [_ He]. specialize (He eq_refl).
        apply andb_false_iff in Ez. destruct Ez as [Ez|Ez]; [|discriminate].
        destruct He as [->| ->]; discriminate. }
      assert (Ea : a' = Z.max a (wlmin w) /\ (a < wlmin w -> a = 0) \/ (a' = a /\ a < wlmin w /\ a <> 0)).
      { unfold a', a. destruct s as [z|]; simpl; [|left; lia]. destruct (Z.eqb_spec z 0); simpl; lia. }
      destruct (Z.ltb_spec a' (wlmin w)); simpl; [split; auto; left|].
      { unfold a in Ea. destruct s as [z|]; [exists z; repeat split; lia|lia]. }
      destruct (Z.ltb_spec (wlmax w) m'); simpl; [split; auto; right|].
      { unfold b in Eb. destruct e as [z|]; [exists z; split; auto; lia|lia]. }
      assert (Hnot : ~ ((exists a0, s = Some a0 /\ a0 <> 0 /\ a0 < wlmin w) \/
                        (exists b0, e = Some b0 /\ wlmax w + 1 < b0))).
      { intros [(x & Hx & Hx1 & Hx2)|(x & Hx & Hx1)]; subst; unfold a, b in *; simpl in *; lia. }
      destruct Ea as [[Ea Ea0]|Ea]; [|lia].
      assert (Hb : wlmin w <= b) by (unfold b; destruct e; lia).
      destruct (Z_gt_dec a' (wlmax w + 1)) as [Hbig|Hsmall].
      * (* a beyond the stored range: numpy clamps, result is empty *)
        rewrite Hbase. simpl. split; [exact Hnot|]. split.
        -- rewrite LM_range_empty by lia. rewrite map_map. apply map_ext_in. intros row Hr.
           simpl. symmetry. unfold spec_row. apply filter_none.
           intros [[l m] c] HI. apply in_combine_l in HI. rewrite HLM in HI. apply LM_range_In in HI.
           unfold wanted; simpl. apply andb_false_iff. left. apply Z.leb_gt. lia.
        -- intros; lia.
      * rewrite Hbase. simpl. split; [exact Hnot|].
        replace (m' * (m' + 2) + 1 - wlmin w ^ 2) with (b ^ 2 - wlmin w ^ 2) by (rewrite Eb; lia).
        rewrite Eb. rewrite Ea in *.
        specialize (Hwide (Z.max a (wlmin w)) b ltac:(lia) ltac:(lia) ltac:(lia) ltac:(lia)).
        cbv zeta in Hwide. destruct Hwide as [W1 W2].
        assert (Esp : forall row, spec_row (Z.max a (wlmin w)) b (wLM w) row
                     = spec_row (C := C) a b (wLM w) row).
        { intros row. unfold spec_row. apply filter_ext_in. intros [[l m] c] HI.
          apply in_combine_l in HI. rewrite HLM in HI. apply LM_range_In in HI.
          unfold wanted; simpl. f_equal.
          destruct (Z.leb_spec a l), (Z.leb_spec (Z.max a (wlmin w)) l); lia. }
        rewrite (map_ext _ _ Esp) in W1. split; [exact W1|].
        intros Hab. specialize (W2 Hab). unfold result_ok in *.
        rewrite (map_ext _ _ Esp) in W2. exact W2.
Qed.

(** Same request on a one-column waveform (ell_min = ell_max = 0) is refused although the key is
    legitimate: waveform_base.py:930 compares the number of keys with the number of data columns. *)
Theorem C02_single_mode_slice_refuted :
  exists (w : wf Z Z Z) k, wf_ok w /\ key_ok (wlmin w) k /\
    requested (wlmin w) (wlmax w) k = (0, 1) /\ wlmin w = 0 /\ wlmax w = 0 /\
    getitem_pair 1 w (None, None) k = Err ValueError.
Proof.
  exists (mkwf [10; 20] [] [[5]; [6]] 0 0 (LM_range 0 0)), (MInt 0).
  repeat split; try reflexivity; try (simpl; lia); simpl; repeat constructor.
Qed.

(** An upper bound of 0 after a nonzero lower bound returns modes although none was requested. *)
Theorem C02_zero_stop_refuted :
  exists (w : wf Z Z Z) w', wf_ok w /\
    getitem_pair 5 w (None, None) (MSlice (Some 2) (Some 0) None) = Ok w' /\
    map (spec_row 2 0 (wLM w)) (wdata w) = [[]] /\
    wdata w' = [[1; 2; 3; 4; 5]].
Proof.
  exists (mkwf [10] [] [[1; 2; 3; 4; 5]] 2 2 (LM_range 2 2)). eexists.
  split; [repeat split; simpl; try lia; repeat constructor|].
  split; [reflexivity|]. split; reflexivity.
Qed.

(** An upper bound below ell_min returns columns of other modes, with an LM that does not match. *)
Theorem C02_low_stop_refuted :
  exists (w : wf Z Z Z) w', wf_ok w /\
    getitem_pair 12 w (None, None) (MSlice None (Some 1) None) = Ok w' /\
    map (spec_row 2 1 (wLM w)) (wdata w) = [[]] /\
    wdata w' = [[1; 2; 3; 4; 5; 6; 7; 8; 9]] /\ wLM w' = [].
Proof.
  exists (mkwf [10] [] [[1; 2; 3; 4; 5; 6; 7; 8; 9; 10; 11; 12]] 2 3 (LM_range 2 3)). eexists.
  split; [repeat split; simpl; try lia; repeat constructor|].
  split; [reflexivity|]. repeat split; reflexivity.
Qed.

Example C02_case : exists w',
  getitem_pair 12 (mkwf [10; 20] [7; 8] [[1;2;3;4;5;6;7;8;9;10;11;12]; [0;0;0;0;0;0;0;0;0;0;0;0]] 2 3 (LM_range 2 3))
     (Some 0, Some 1) (MSlice (Some 3) None None) = Ok w' /\
  wdata w' = [[6;7;8;9;10;11;12]] /\ wlmin w' = 3 /\ wlmax w' = 3 /\ wframe w' = [7] /\ wt w' = [10].
Proof. eexists. repeat split; reflexivity. Qed.

(** * C46: time slicing keeps rows together *)
Lemma py_slice_length_eq : forall A B s e (l : list A) (r : list B),
  length l = length r -> length (py_slice s e l) = length (py_slice s e r).
Proof.
  intros. unfold py_slice. rewrite H. rewrite !firstn_length, !skipn_length, H. reflexivity.
Qed.

Lemma py_slice_combine : forall A B s e (l : list A) (r : list B), length l = length r ->
  combine (py_slice s e l) (py_slice s e r) = py_slice s e (combine l r).
Proof.
  intros. unfold py_slice. rewrite combine_length, <- H, Nat.min_id.
  assert (HS : forall n, skipn n (combine l r) = combine (skipn n l) (skipn n r)).
  { revert r H. induction l; destruct r; simpl; intros HH n; try discriminate; destruct n; simpl; auto. }
  rewrite HS, combine_firstn. reflexivity.
Qed.

(** Rows of (time, data) -- and of (time, rotor) for a per-time frame -- stay aligned, and the
    result is again a valid waveform with unchanged ell range. *)
Theorem C46_time_slice_aligned : forall T Q C (w : wf T Q C) tk,
  wf_ok w -> length (wt w) = length (wdata w) ->
  let w' := getitem_slice w tk in
  combine (wt w') (wdata w') = py_slice (fst tk) (snd tk) (combine (wt w) (wdata w)) /\
  length (wt w') = length (wdata w') /\
  (length (wframe w) = length (wt w) ->
     combine (wt w') (wframe w') = py_slice (fst tk) (snd tk) (combine (wt w) (wframe w)) /\
     length (wframe w') = length (wt w')) /\
  (wframe w = [] -> wframe w' = []) /\
  wlmin w' = wlmin w /\ wlmax w' = wlmax w /\ wLM w' = wLM w /\ wf_ok w'.
Proof.
  intros T Q C w tk Hok Hlen. simpl. unfold sl.
  split; [apply py_slice_combine; auto|].
  split; [apply py_slice_length_eq; auto|].
  split. { intros HF. split; [apply py_slice_combine; auto|apply py_slice_length_eq; auto]. }
  split. { intros ->. unfold py_slice. simpl. rewrite skipn_nil, firstn_nil. reflexivity. }
  destruct Hok as (H0 & H1 & HLM & HF).
  repeat split; auto. simpl. rewrite <- HLM. apply Forall_forall. intros row Hr.
  apply py_slice_incl in Hr. rewrite Forall_forall in HF. apply HF; auto.
Qed.

(** A constant frame (one rotor, several times) is kept exactly when index 0 is selected
    and at least one sample is requested; otherwise the frame is silently dropped. *)
Theorem C46_constant_frame : forall T Q C (w : wf T Q C) q a b,
  wframe w = [q] -> 0 <= a < b ->
  wframe (getitem_slice w (Some a, Some b)) = if a =? 0 then [q] else [].
Proof.
  intros T Q C w q a b Hq Hab. simpl. rewrite Hq. unfold sl. cbn [fst snd]. unfold py_slice, py_bound. cbv zeta. cbn [length].
  destruct (Z.ltb_spec a 0); [lia|]. destruct (Z.ltb_spec b 0); [lia|].
  replace (Z.max 0 (Z.min (Z.of_nat 1) b)) with 1 by lia.
  destruct (Z.eqb_spec a 0).
  - subst. replace (Z.max 0 (Z.min (Z.of_nat 1) 0)) with 0 by lia. reflexivity.
  - replace (Z.max 0 (Z.min (Z.of_nat 1) a)) with 1 by lia. reflexivity.
Qed.

Theorem C46_constant_frame_refuted :
  exists (w : wf Z Z Z), wf_ok w /\ length (wt w) = length (wdata w) /\ wframe w = [42] /\
    wframe (getitem_slice w (Some 1, None)) = [] /\ wt (getitem_slice w (Some 1, None)) = [20].
Proof.
  exists (mkwf [10; 20] [42] [[5]; [6]] 0 0 (LM_range 0 0)).
  repeat split; try reflexivity; try (simpl; lia); simpl; repeat constructor.
Qed.

Example C46_case :
  wt (getitem_slice (mkwf [1;2;3;4] [5;6;7;8] [[0];[0];[0];[1]] 0 0 (LM_range 0 0)) (Some 1, Some (-1)))
  = [2;3].
Proof. reflexivity. Qed.
