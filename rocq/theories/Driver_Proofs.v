(** * The extrapolation driver: orders, common times, common frame, output files *)
From Coq Require Import String Ascii ZArith Reals List Bool Lia Lra Permutation Sorting.Sorted.
From Verif Require Import Common Cplx Quat Times_Model Times_Proofs Intersect_Proofs Tables_Model Extrap_Model
  Validity_Model Validity_Proofs H5_Model H5Names_Proofs H5_Proofs H5Main_Proofs Finite_Model Driver_Model Accept_Proofs.
Import ListNotations.
Open Scope string_scope.

(** ** Orders *)
Lemma fold_max_spec : forall r a n, (fold_left Z.max r a < n <-> (a < n /\ forall x, In x r -> x < n))%Z.
Proof.
  induction r as [|b r IH]; intros a n; cbn [fold_left]; [split; [intros H; split; auto; intros ? []|tauto]|].
  rewrite IH. split.
  - intros [H1 H2]. split; [lia|]. intros x [<-|Hx]; [lia|auto].
  - intros [H1 H2]. split; [specialize (H2 b (or_introl eq_refl)); lia|]. intros x Hx. apply H2. right; auto.
Qed.
Lemma fold_min_spec : forall r a n, (n <= fold_left Z.min r a <-> (n <= a /\ forall x, In x r -> n <= x))%Z.
Proof.
  induction r as [|b r IH]; intros a n; cbn [fold_left]; [split; [intros H; split; auto; intros ? []|tauto]|].
  rewrite IH. split.
  - intros [H1 H2]. split; [lia|]. intros x [<-|Hx]; [lia|auto].
  - intros [H1 H2]. split; [specialize (H2 b (or_introl eq_refl)); lia|]. intros x Hx. apply H2. right; auto.
Qed.

(** With n data sets exactly the orders -n, ..., n-1 are possible; no orders at all are an error. *)
Theorem C60_orders : forall n orders, (1 <= n)%nat ->
  (order_checks n orders = Ok Datatypes.tt <-> orders <> [] /\ forall N, In N orders -> (- Z.of_nat n <= N < Z.of_nat n)%Z).
Proof.
  intros n [|a r] Hn; unfold order_checks; cbn [zmax zmin].
  - split; [discriminate|]. intros [H _]. contradiction.
  - pose proof (fold_max_spec r a (Z.of_nat n)) as HM. pose proof (fold_min_spec r a (- Z.of_nat n)) as Hm.
    set (mx := fold_left Z.max r a) in *. set (mn := fold_left Z.min r a) in *.
    split.
    + intros H. split; [discriminate|].
      destruct ((Z.of_nat n <=? mx) && (-1 <? mx))%Z eqn:E1; [discriminate|].
      destruct (Z.ltb_spec mn (- Z.of_nat n)) as [|E2]; [discriminate|].
      assert (Hmx : (mx < Z.of_nat n)%Z).
      { apply andb_false_iff in E1. destruct E1 as [E1|E1]; [apply Z.leb_gt in E1; lia|apply Z.ltb_ge in E1; lia]. }
      apply HM in Hmx. apply Hm in E2. intros N [<-|HN]; [lia|]. destruct Hmx as [_ A], E2 as [_ B]. specialize (A N HN). specialize (B N HN). lia.
    + intros [_ H].
      assert (Hmx : (mx < Z.of_nat n)%Z).
      { apply HM. split; [apply (H a); left; auto|]. intros x Hx. apply (H x). right; auto. }
      assert (Hmn : (- Z.of_nat n <= mn)%Z).
      { apply Hm. split; [apply (H a); left; auto|]. intros x Hx. apply (H x). right; auto. }
      destruct (Z.leb_spec (Z.of_nat n) mx); [lia|]. cbn [andb]. destruct (Z.ltb_spec mn (- Z.of_nat n)); [lia|]. reflexivity.
Qed.

(** All other lists of orders are refused with ValueError. *)
Theorem C60_orders_refused : forall n orders, (1 <= n)%nat ->
  (orders = [] \/ exists N, In N orders /\ ~ (- Z.of_nat n <= N < Z.of_nat n)%Z) -> order_checks n orders = Err ValueError.
Proof.
  intros n orders Hn H. destruct (order_checks n orders) as [[]|e] eqn:E.
  - exfalso. apply C60_orders in E; [|exact Hn]. destruct E as [E1 E2]. destruct H as [H|(N & H1 & H2)]; [contradiction|]. apply H2. auto.
  - unfold order_checks in E. destruct (zmax orders); [|congruence]. destruct (zmin orders); [|congruence].
    destruct (_ && _); [congruence|]. destruct (_ <? _)%Z; congruence.
Qed.

(** ** Common times *)
Open Scope R_scope.
Definition total (ts : list (list R)) : nat := fold_right (fun t s => (length t + s)%nat) 0%nat ts.
Lemma opt_max_none : forall a, opt_max a None = a. Proof. reflexivity. Qed.

Lemma strictly_up_nth : forall t x, strictly_up t -> In x t -> nth 0 t 0 <= x <= last t 0.
Proof.
  intros t x Hs Hx. apply (In_nth _ _ 0) in Hx. destruct Hx as (k & Hk & <-).
  assert (HL : last t 0 = nth (length t - 1) t 0).
  { clear. induction t as [|a [|b t] IH]; try reflexivity. change (last (a :: b :: t) 0) with (last (b :: t) 0). rewrite IH.
    cbn [length]. replace (S (S (length t)) - 1)%nat with (S (S (length t) - 1))%nat by lia. reflexivity. }
  rewrite HL. split.
  - destruct k; [lra|]. left. apply Hs. lia.
  - destruct (Nat.eq_dec k (length t - 1)) as [->|]; [lra|]. left. apply Hs. lia.
Qed.

(** One intersection without limits of its own. *)
Lemma one_step : forall fuel T t T', strictly_up T -> strictly_up t -> (2 <= length t)%nat ->
  (length T + length t <= fuel)%nat -> intersection T t fuel None None None = Ok T' ->
  strictly_up T' /\ (length T' < length T + length t)%nat /\
  (forall x, In x T' -> nth 0 T 0 <= x < last T 0 /\ nth 0 t 0 <= x < last t 0) /\
  (T' <> [] -> nth 0 T' 0 = nth 0 T 0 \/ nth 0 T' 0 = nth 0 t 0).
Proof.
  intros fuel T t T' ST St Lt Hf H.
  destruct (Nat.le_gt_cases 2 (length T)) as [LT|LT].
  - destruct (Rlt_le_dec (last T 0) (Rmax (nth 0 T 0) (nth 0 t 0))) as [C|C1].
    { rewrite C12_disjoint_rejected in H; [discriminate|]. right; right; left; auto. }
    destruct (Rlt_le_dec (last t 0) (Rmax (nth 0 T 0) (nth 0 t 0))) as [C|C2].
    { rewrite C12_disjoint_rejected in H; [discriminate|]. right; right; right; left; auto. }
    destruct (Rlt_le_dec (Rmin (last T 0) (last t 0)) (nth 0 T 0)) as [C|C3].
    { rewrite C12_disjoint_rejected in H; [discriminate|]. do 4 right; left; auto. }
    destruct (Rlt_le_dec (Rmin (last T 0) (last t 0)) (nth 0 t 0)) as [C|C4].
    { rewrite C12_disjoint_rejected in H; [discriminate|]. do 5 right; auto. }
    destruct (C12_intersection T t None None None fuel ST St LT Lt Hf C1 C2 C3 C4) as (t' & ms & E & _ & HL & H1 & H2 & H3 & H4 & _).
    rewrite E in H. assert (t' = T') by congruence. subst t'. unfold opt_max, opt_min in *.
    pose proof (Rmax_l (nth 0 T 0) (nth 0 t 0)). pose proof (Rmax_r (nth 0 T 0) (nth 0 t 0)).
    pose proof (Rmin_l (last T 0) (last t 0)). pose proof (Rmin_r (last T 0) (last t 0)).
    split; auto. split; auto. split.
    + intros x Hx. apply (In_nth _ _ 0) in Hx. destruct Hx as (k & Hk & <-). specialize (H3 k Hk). lra.
    + intros HN. destruct (Rlt_le_dec (Rmax (nth 0 T 0) (nth 0 t 0)) (Rmin (last T 0) (last t 0))) as [C|C].
      * destruct (H1 C) as [_ ->]. unfold Rmax. destruct (Rle_dec _ _); auto.
      * rewrite (H2 C) in HN. contradiction.
  - exfalso. destruct T as [|a [|b T]]; [| |cbn in LT; lia].
    + discriminate.
    + unfold intersection in H. destruct t as [|c t]; [discriminate|]. cbv zeta in H.
      destruct (Rltb _ _ || Rltb _ _); [discriminate|]. destruct (Rltb _ _ || Rltb _ _); [discriminate|].
      cbn [diffs np_min rbind] in H. discriminate.
Qed.

Lemma common_times_spec : forall rest fuel T T', strictly_up T ->
  (forall t, In t rest -> strictly_up t /\ (2 <= length t)%nat) -> (length T + total rest <= fuel)%nat ->
  common_times fuel T rest = Ok T' ->
  strictly_up T' /\
  (forall x, In x T' -> (nth 0 T 0 <= x <= last T 0) /\ forall t, In t rest -> nth 0 t 0 <= x < last t 0) /\
  (forall x, In x T' -> rest = [] \/ x < last T 0) /\
  (T' <> [] -> nth 0 T' 0 = nth 0 T 0 \/ exists t, In t rest /\ nth 0 T' 0 = nth 0 t 0).
Proof.
  induction rest as [|t rest IH]; intros fuel T T' ST HR Hf H; cbn [common_times] in H.
  - injection H as <-. split; auto. split; [intros x Hx; split; [apply strictly_up_nth; auto|intros ? []]|]. split; auto.
  - destruct (intersection T t fuel None None None) as [T1|] eqn:E; [|discriminate]. cbn [rbind] in H.
    destruct (HR t (or_introl eq_refl)) as [St Lt]. change (total (t :: rest)) with (length t + total rest)%nat in Hf.
    assert (Hf1 : (length T + length t <= fuel)%nat) by lia.
    destruct (one_step _ _ _ _ ST St Lt Hf1 E) as (S1 & L1 & B1 & F1).
    destruct (IH fuel T1 T' S1) as (A & B & B' & F); auto; [intros; apply HR; right; auto|lia|].
    assert (NE : T' <> [] -> T1 <> []).
    { intros HN. destruct T1; [|discriminate]. exfalso. destruct rest as [|t2 rest2]; cbn [common_times] in H; [congruence|].
      unfold intersection in H. discriminate. }
    assert (HB : forall x, In x T' -> (nth 0 T 0 <= x < last T 0) /\ nth 0 t 0 <= x < last t 0).
    { intros x Hx. assert (HN : T1 <> []) by (apply NE; intros ->; destruct Hx).
      destruct (B x Hx) as [[Q1 Q2] _].
      assert (H0 : In (nth 0 T1 0) T1) by (apply nth_In; destruct T1; [contradiction|cbn; lia]).
      assert (HL : In (last T1 0) T1).
      { destruct (@exists_last _ T1 HN) as (l' & a & ->). rewrite last_last. apply in_or_app. right; left; auto. }
      destruct (B1 _ H0), (B1 _ HL). lra. }
    split; auto. split; [|split].
    + intros x Hx. destruct (HB x Hx). split; [lra|]. intros t' [<-|Ht]; [lra|]. apply (proj2 (B x Hx)); auto.
    + intros x Hx. right. apply HB; auto.
    + intros HN. destruct (F HN) as [->|(t' & Ht & ->)].
      * destruct (F1 (NE HN)) as [->| ->]; [left; auto|right; exists t; split; [left|]; auto].
      * right. exists t'. split; [right|]; auto.
Qed.

(** All waveforms and radii are interpolated to increasing times at which every one of them has data, from
    the requested range; they begin where the last of them begins, or at the requested time. *)
Theorem C60_common_times : forall fuel times ms earliest latest T,
  (forall t, In t times -> strictly_up t /\ (2 <= length t)%nat) -> earliest < latest ->
  (2 + total times <= fuel)%nat -> set_common_time fuel times ms earliest latest = Ok T ->
  strictly_up T /\
  (forall x, In x T -> earliest <= x <= latest /\ forall t, In t times -> nth 0 t 0 <= x < last t 0) /\
  (T <> [] -> nth 0 T 0 = earliest \/ exists t, In t times /\ nth 0 T 0 = nth 0 t 0).
Proof.
  intros fuel [|t0 rest] ms e l T HT Hel Hf H; [discriminate|]. cbn [set_common_time] in H.
  destruct (intersection [e; l] t0 fuel (Some ms) (Some e) (Some l)) as [T1|] eqn:E; [|discriminate]. cbn [rbind] in H.
  destruct (HT t0 (or_introl eq_refl)) as [S0 L0]. change (total (t0 :: rest)) with (length t0 + total rest)%nat in Hf.
  assert (SL : strictly_up [e; l]). { intros i j Hij. cbn in Hij |- *. destruct i as [|[|]], j as [|[|]]; try lia; cbn; lra. }
  assert (Q : strictly_up T1 /\ (length T1 < 2 + length t0)%nat /\
    (forall x, In x T1 -> e <= x < l /\ nth 0 t0 0 <= x < last t0 0) /\
    (T1 <> [] -> nth 0 T1 0 = e \/ nth 0 T1 0 = nth 0 t0 0)).
  { set (mint := opt_max (Rmax (nth 0 [e; l] 0) (nth 0 t0 0)) (Some e)) in *.
    set (maxt := opt_min (Rmin (last [e; l] 0) (last t0 0)) (Some l)) in *.
    assert (Em : mint = Rmax e (nth 0 t0 0)).
    { unfold mint, opt_max. cbn [nth]. apply Rmax_left. apply Rmax_l. }
    assert (EM : maxt = Rmin l (last t0 0)).
    { unfold maxt, opt_min. cbn [last]. apply Rmin_left. apply Rmin_l. }
    destruct (Rlt_le_dec (last [e; l] 0) mint) as [C|C1].
    { rewrite C12_disjoint_rejected in E; [discriminate|]. right; right; left; auto. }
    destruct (Rlt_le_dec (last t0 0) mint) as [C|C2].
    { rewrite C12_disjoint_rejected in E; [discriminate|]. right; right; right; left; auto. }
    destruct (Rlt_le_dec maxt (nth 0 [e; l] 0)) as [C|C3].
    { rewrite C12_disjoint_rejected in E; [discriminate|]. do 4 right; left; auto. }
    destruct (Rlt_le_dec maxt (nth 0 t0 0)) as [C|C4].
    { rewrite C12_disjoint_rejected in E; [discriminate|]. do 5 right; auto. }
    destruct (C12_intersection [e; l] t0 (Some ms) (Some e) (Some l) fuel SL S0 (le_n 2) L0 ltac:(cbn [length]; lia) C1 C2 C3 C4)
      as (t' & ms' & E' & _ & HL & H1 & H2 & H3 & H4 & _).
    rewrite E' in E. assert (t' = T1) by congruence. subst t'. fold mint in H1, H2, H3. fold maxt in H1, H2, H3.
    pose proof (Rmax_l e (nth 0 t0 0)). pose proof (Rmax_r e (nth 0 t0 0)).
    pose proof (Rmin_l l (last t0 0)). pose proof (Rmin_r l (last t0 0)).
    split; auto. split; [exact HL|]. split.
    + intros x Hx. apply (In_nth _ _ 0) in Hx. destruct Hx as (k & Hk & <-). specialize (H3 k Hk). lra.
    + intros HN. destruct (Rlt_le_dec mint maxt) as [C|C].
      * destruct (H1 C) as [_ ->]. rewrite Em. unfold Rmax. destruct (Rle_dec _ _); auto.
      * rewrite (H2 C) in HN. contradiction. }
  destruct Q as (S1 & L1 & B1 & F1).
  destruct (common_times_spec rest fuel T1 T S1) as (A & B & _ & F); auto; [intros; apply HT; right; auto|lia|].
  assert (NE : T <> [] -> T1 <> []).
  { intros HN. destruct T1; [|discriminate]. exfalso. destruct rest as [|t2 rest2]; cbn [common_times] in H; [congruence|].
    unfold intersection in H. discriminate. }
  split; auto. split.
  - intros x Hx. assert (HN : T1 <> []) by (apply NE; intros ->; destruct Hx).
    destruct (B x Hx) as [[Q1 Q2] Q3].
    assert (H0 : In (nth 0 T1 0) T1) by (apply nth_In; destruct T1; [contradiction|cbn; lia]).
    assert (HL : In (last T1 0) T1).
    { destruct (@exists_last _ T1 HN) as (l' & a & ->). rewrite last_last. apply in_or_app. right; left; auto. }
    destruct (B1 _ H0), (B1 _ HL). split; [lra|]. intros t [<-|Ht]; [lra|auto].
  - intros HN. destruct (F HN) as [->|(t' & Ht & ->)].
    + destruct (F1 (NE HN)) as [->| ->]; [left; auto|right; exists t0; split; [left|]; auto].
    + right. exists t'. split; [right|]; auto.
Qed.

(** Two waveforms, on [0, 2] and [0, 3]. *)
Example C60_times_case : exists T, set_common_time 20 [[0; 1; 2]; [0; 1; 3]] (1/200) (-10) 10 = Ok T /\ T <> [].
Proof.
  assert (Up : forall a b c, a < b < c -> strictly_up [a; b; c]).
  { intros a b c Hab i j Hij. cbn in Hij |- *. destruct i as [|[|[|]]], j as [|[|[|]]]; try lia; cbn; lra. }
  assert (SL : strictly_up [-10; 10]). { intros i j Hij. cbn in Hij |- *. destruct i as [|[|]], j as [|[|]]; try lia; cbn; lra. }
  assert (M1 : opt_max (Rmax (nth 0 [-10; 10] 0) (nth 0 [0; 1; 2] 0)) (Some (-10)) = 0).
  { unfold opt_max. cbn [nth]. rewrite (Rmax_right (-10) 0) by lra. apply Rmax_left. lra. }
  assert (M2 : opt_min (Rmin (last [-10; 10] 0) (last [0; 1; 2] 0)) (Some 10) = 2).
  { unfold opt_min. cbn [last]. rewrite (Rmin_right 10 2) by lra. apply Rmin_left. lra. }
  destruct (C12_intersection [-10; 10] [0; 1; 2] (Some (1/200)) (Some (-10)) (Some 10) 20) as (T1 & ms & E & Hms & HL & H1 & _ & H3 & H4 & H5);
    try (rewrite ?M1, ?M2; cbn [last nth length]; first [lra|lia]); auto; [apply Up; lra|].
  rewrite M1, M2 in *. destruct (H1 ltac:(lra)) as [HN H0]. cbn [step_bound] in Hms. subst ms.
  assert (P : (0 < length T1)%nat) by (destruct T1; [contradiction|cbn; lia]).
  destruct (H5 0%nat P) as (d1 & d2 & D1 & D2 & Hn). rewrite H0 in D1, D2, Hn.
  assert (E1 : d1 = 20).
  { destruct D1 as (k & Hk & -> & _). cbn [length] in Hk. assert (k = 1)%nat by lia. subst k. cbn. lra. }
  assert (E2 : d2 = 1).
  { destruct D2 as (k & Hk & -> & _ & [B|[-> _]]); [|cbn; lra]. cbn [length] in Hk.
    destruct k as [|[|[|]]]; try lia; cbn in B |- *; lra. }
  subst d1 d2. rewrite (Rmin_right 20 1) in Hn by lra. rewrite (Rmax_left 1 (1/200)) in Hn by lra.
  destruct (Nat.ltb_spec 1 (length T1)) as [L1|L1]; [|cbn beta zeta in Hn; lra].
  assert (HLast : 1 <= last T1 0 < 2).
  { assert (HI : In (last T1 0) T1).
    { destruct (@exists_last _ T1 HN) as (l' & a & ->). rewrite last_last. apply in_or_app. right; left; auto. }
    split.
    - assert (In (nth 1 T1 0) T1) by (apply nth_In; auto). pose proof (strictly_up_nth T1 _ H4 H). lra.
    - apply (In_nth _ _ 0) in HI. destruct HI as (k & Hk & <-). apply H3; auto. }
  assert (N1 : opt_max (Rmax (nth 0 T1 0) (nth 0 [0; 1; 3] 0)) None = 0) by (rewrite H0; cbn; apply Rmax_left; lra).
  assert (N2 : opt_min (Rmin (last T1 0) (last [0; 1; 3] 0)) None = last T1 0) by (cbn [opt_min last]; apply Rmin_left; lra).
  destruct (C12_intersection T1 [0; 1; 3] None None None 20) as (T & ms & E' & _ & _ & H1' & _);
    try (rewrite ?N1, ?N2, ?H0; cbn [last nth length] in *; first [lra|lia]); auto; [apply Up; lra|].
  rewrite N1, N2 in H1'.
  exists T. split; [|apply H1'; lra].
  unfold set_common_time. rewrite E. cbn [rbind common_times]. rewrite E'. reflexivity.
Qed.

(** ** Order of radii *)
Lemma insert_by_perm : forall key k l, Permutation (insert_by key k l) (k :: l).
Proof.
  induction l as [|j r IH]; cbn [insert_by]; [auto|]. destruct (Rleb _ _); auto.
  eapply perm_trans; [apply perm_skip; exact IH|]. apply perm_swap.
Qed.
Lemma sort_by_perm : forall key l, Permutation (sort_by key l) l.
Proof.
  induction l as [|k l IH]; [apply Permutation_refl|].
  change (sort_by key (k :: l)) with (insert_by key k (sort_by key l)).
  eapply perm_trans; [apply insert_by_perm|]. apply perm_skip. exact IH.
Qed.
Lemma insert_by_sorted : forall key k l, StronglySorted (fun a b => key a <= key b) l ->
  StronglySorted (fun a b => key a <= key b) (insert_by key k l).
Proof.
  induction l as [|j r IH]; intros H; cbn [insert_by]; [repeat constructor|].
  inversion H as [|? ? Hr Hj]; subst. destruct (Rleb_spec (key k) (key j)) as [L|L].
  - constructor; auto. constructor; auto. rewrite Forall_forall in *. intros x Hx. specialize (Hj x Hx). lra.
  - constructor; auto. rewrite Forall_forall in *. intros x Hx.
    apply (Permutation_in x (insert_by_perm key k r)) in Hx. destruct Hx as [<-|Hx]; [lra|auto].
Qed.
Lemma sort_by_sorted : forall (key : nat -> R) l, StronglySorted (fun a b => key a <= key b) (sort_by key l).
Proof. induction l as [|k l IH]; [constructor|]. apply insert_by_sorted. exact IH. Qed.
Lemma sorted_last : forall (key : nat -> R) l a x, StronglySorted (fun a b => key a <= key b) (l ++ [a]) -> In x (l ++ [a]) -> key x <= key a.
Proof.
  induction l as [|y l IH]; intros a x H Hx; cbn [app] in *.
  - destruct Hx as [<-|[]]. lra.
  - inversion H as [|? ? Hs Hf]; subst. destruct Hx as [<-|Hx]; [|apply IH; auto].
    rewrite Forall_forall in Hf. apply Hf. apply in_or_app. right; left; auto.
Qed.

Section Frames.
  Variable to_float : string -> option R.
  Definition parses (s : string) : Prop := to_float s <> None.
  Definition radius (s : string) : R := match to_float s with Some x => x | None => 0 end.

  Lemma sorted_indices_ok : forall radii, Forall parses radii ->
    exists idx, sorted_indices to_float radii = Ok idx /\ Permutation idx (seq 0 (length radii)) /\
      StronglySorted (fun a b => radius (nth a radii ""%string) <= radius (nth b radii ""%string)) idx.
  Proof.
    intros radii HP. unfold sorted_indices.
    assert (E : map_res (fun s => match to_float s with Some x => Ok x | None => Err ValueError end) radii = Ok (map radius radii)).
    { clear - HP. induction HP as [|s l Hs HP IH]; [reflexivity|]. cbn [map_res map]. unfold parses, radius in *.
      destruct (to_float s); [|contradiction]. cbn [rbind]. rewrite IH. reflexivity. }
    rewrite E. cbn [rbind]. eexists. split; [reflexivity|]. split; [apply sort_by_perm|].
    pose proof (sort_by_sorted (fun k => nth k (map radius radii) 0) (seq 0 (length radii))) as HS.
    assert (HI : forall k, In k (sort_by (fun k => nth k (map radius radii) 0) (seq 0 (length radii))) -> (k < length radii)%nat).
    { intros k Hk. apply (Permutation_in k (sort_by_perm _ _)) in Hk. apply in_seq in Hk. lia. }
    assert (HE : forall k, (k < length radii)%nat -> nth k (map radius radii) 0 = radius (nth k radii ""%string)).
    { intros k Hk. rewrite (nth_indep _ 0 (radius "")) by (rewrite map_length; auto). apply map_nth. }
    induction HS as [|a l HS IH HF]; constructor.
    - apply IH. intros k Hk. apply HI. right; auto.
    - rewrite Forall_forall in *. intros x Hx. rewrite <- !HE; [|apply HI; right; auto|apply HI; left; auto]. apply HF; auto.
  Qed.

  (** If there are as many radii as waveforms, all of them get the frame of one waveform, the one that
      stands where the list of radii has its greatest entry. *)
  Theorem C60_one_frame : forall radii, radii <> [] -> Forall parses radii ->
    exists i, (i < length radii)%nat /\ rotate_all to_float radii (length radii) = Ok (repeat (CorotatingWith i) (length radii)) /\
      forall r, In r radii -> radius r <= radius (nth i radii ""%string).
  Proof.
    intros radii HN HP. destruct (sorted_indices_ok radii HP) as (idx & E & P & S). unfold rotate_all. rewrite E. cbn [rbind].
    assert (HI : forall k, In k idx <-> (k < length radii)%nat).
    { intros k. split.
      - intros Hk. apply (Permutation_in k P) in Hk. apply in_seq in Hk. lia.
      - intros Hk. apply (Permutation_in k (Permutation_sym P)). apply in_seq. lia. }
    assert (NE : idx <> []).
    { intros ->. apply Permutation_nil in P. destruct radii; [contradiction|discriminate]. }
    destruct (exists_last NE) as (l & i & ->). rewrite rev_app_distr. cbn [rev app].
    assert (Hi : (i < length radii)%nat) by (apply HI; apply in_or_app; right; left; auto).
    exists i. split; auto. split.
    - destruct (Nat.ltb_spec i (length radii)); [|lia].
      assert (F : forallb (fun i => (i <? length radii)%nat) (rev l) = true).
      { apply forallb_forall. intros x Hx. apply Nat.ltb_lt. apply HI. apply in_or_app. left. apply in_rev. auto. }
      rewrite F. f_equal.
      assert (G : forall n s, (s + n <= length radii)%nat ->
         map (fun k => if existsb (Nat.eqb k) (l ++ [i]) then CorotatingWith i else Inert) (seq s n) = repeat (CorotatingWith i) n).
      { induction n as [|n IH]; intros s Hs; [reflexivity|]. cbn [seq map repeat]. rewrite IH by lia.
        replace (existsb (Nat.eqb s) (l ++ [i])) with true; [reflexivity|]. symmetry. apply existsb_exists. exists s.
        split; [apply HI; lia|apply Nat.eqb_refl]. }
      apply G. lia.
    - intros r Hr. apply (In_nth _ _ ""%string) in Hr. destruct Hr as (k & Hk & <-).
      apply (sorted_last (fun k => radius (nth k radii ""%string)) l i k); auto. apply HI; auto.
  Qed.
  (** In general: whatever stands beyond the list of radii stays in the inertial frame. *)
  Theorem C60_frames : forall radii n fs, Forall parses radii -> rotate_all to_float radii n = Ok fs ->
    (length radii <= n)%nat /\ exists i, (i < length radii)%nat /\
      forall k, (k < n)%nat -> nth k fs Inert = if (k <? length radii)%nat then CorotatingWith i else Inert.
  Proof.
    intros radii n fs HP H. destruct (sorted_indices_ok radii HP) as (idx & E & P & S). unfold rotate_all in H. rewrite E in H. cbn [rbind] in H.
    assert (HI : forall k, In k idx <-> (k < length radii)%nat).
    { intros k. split.
      - intros Hk. apply (Permutation_in k P) in Hk. apply in_seq in Hk. lia.
      - intros Hk. apply (Permutation_in k (Permutation_sym P)). apply in_seq. lia. }
    destruct (rev idx) as [|i inner] eqn:ER; [discriminate|].
    assert (Ei : idx = (rev inner ++ [i])%list) by (rewrite <- (rev_involutive idx), ER; reflexivity).
    destruct (Nat.ltb_spec i n) as [Li|]; [|discriminate].
    destruct (forallb (fun i => (i <? n)%nat) inner) eqn:EF; [|discriminate]. rewrite forallb_forall in EF.
    assert (HB : forall k, In k idx -> (k < n)%nat).
    { intros k Hk. rewrite Ei in Hk. apply in_app_or in Hk. destruct Hk as [Hk|[<-|[]]]; auto.
      apply in_rev in Hk. apply Nat.ltb_lt. auto. }
    split.
    - destruct (Nat.le_gt_cases (length radii) n); auto. specialize (HB n (proj2 (HI n) ltac:(auto))). lia.
    - exists i. split; [apply HI; rewrite Ei; apply in_or_app; right; left; auto|].
      intros k Hk. injection H as <-.
      set (g := fun k => if existsb (Nat.eqb k) idx then CorotatingWith i else Inert).
      rewrite (nth_indep _ Inert (g 0%nat)) by (rewrite map_length, seq_length; auto). rewrite (map_nth g), seq_nth by auto. unfold g.
      cbn [plus]. destruct (existsb (Nat.eqb k) idx) eqn:EX.
      + apply existsb_exists in EX. destruct EX as (x & Hx & Q). apply Nat.eqb_eq in Q. subst x. apply HI in Hx.
        destruct (Nat.ltb_spec k (length radii)); [reflexivity|lia].
      + destruct (Nat.ltb_spec k (length radii)) as [L|L]; [|reflexivity]. apply HI in L. exfalso.
        assert (existsb (Nat.eqb k) idx = true) by (apply existsb_exists; exists k; split; [auto|apply Nat.eqb_refl]). congruence.
  Qed.

  (** With no list of radii given, every waveform is rotated into the frame of the one with the greatest
      coordinate radius in its name. *)
  Theorem C60_outermost : forall re_search rotating listing names radii,
    select re_search rotating listing (Strings []) = Ok (names, radii) -> names <> [] ->
    (forall n, In n names -> exists r, radius_of n = Some r /\ to_float r <> None) ->
    exists i, (i < length names)%nat /\ rotate_all to_float radii (length names) = Ok (repeat (CorotatingWith i) (length names)) /\
      forall n r r', In n names -> radius_of n = Some r -> radius_of (nth i names ""%string) = Some r' -> radius r <= radius r'.
  Proof.
    intros re_search rotating listing names radii H HN HR.
    destruct (C59_all_radii _ _ _ _ _ H) as [_ HA].
    assert (HF : Forall2 (fun n r => radius_of n = Some r) names radii).
    { apply HA. intros n Hn. destruct (HR n Hn) as (r & -> & _). discriminate. }
    pose proof (Forall2_len _ _ _ _ _ HF) as HL.
    assert (HP : Forall parses radii).
    { clear - HF HR. induction HF as [|n r ns rs E HF IH]; constructor.
      - destruct (HR n (or_introl eq_refl)) as (r' & E' & P). unfold parses. congruence.
      - apply IH. intros; apply HR; right; auto. }
    assert (HNR : radii <> []) by (destruct radii; [destruct names; [contradiction|discriminate]|discriminate]).
    destruct (C60_one_frame radii HNR HP) as (i & Hi & E & M). rewrite HL. exists i. split; auto. split; auto.
    assert (HX : forall k, (k < length names)%nat -> radius_of (nth k names ""%string) = Some (nth k radii ""%string)).
    { clear - HF. induction HF as [|n r ns rs E HF IH]; intros k Hk; [cbn in Hk; lia|]. destruct k; cbn [nth]; auto. apply IH. cbn in Hk. lia. }
    intros n r r' Hn Er Er'. apply (In_nth _ _ ""%string) in Hn. destruct Hn as (k & Hk & <-).
    rewrite HX in Er by auto. injection Er as <-. rewrite HX in Er' by lia. injection Er' as <-.
    apply M. apply nth_In. lia.
  Qed.

  (** If the radii are listed in another order than the groups have in the file, the frame is that of
      the wrong waveform: here, of the inner one. *)
  Theorem C60_listed_order_refuted : forall re_search,
    to_float "0100" = Some 100 -> to_float "0300" = Some 300 ->
    re_search "0100" "R0100.dir" = true -> re_search "0300" "R0300.dir" = true ->
    re_search "0300" "R0100.dir" = false -> re_search "0100" "R0300.dir" = false ->
    exists names radii,
      select re_search false ["R0100.dir"; "R0300.dir"; "VersionHist.ver"]%string (Strings ["0300"; "0100"])%string = Ok (names, radii) /\
      rotate_all to_float radii (length names) = Ok [CorotatingWith 0; CorotatingWith 0] /\
      nth 0 names ""%string = "R0100.dir"%string /\ In "R0300.dir"%string names.
  Proof.
    intros rs F1 F3 M1 M2 M3 M4. cbn [select remove_first String.eqb Ascii.eqb Bool.eqb flat_map].
    rewrite M1, M2, M3, M4. cbn [app]. eexists _, _. split; [reflexivity|]. split; [|split; [reflexivity|right; left; reflexivity]].
    unfold rotate_all, sorted_indices. cbn [map_res]. rewrite F1, F3. cbn [rbind length seq sort_by fold_right insert_by nth].
    destruct (Rleb_spec 300 100); [lra|]. cbn. reflexivity.
  Qed.

  (** If one entry matches two groups, the second one stays in the inertial frame and is combined with the
      first one in a corotating frame. *)
  Theorem C60_two_matches_refuted : forall re_search, to_float "100" = Some 100 ->
    re_search "100" "R100.dir" = true -> re_search "100" "R1000.dir" = true ->
    exists names radii,
      select re_search false ["R100.dir"; "R1000.dir"; "VersionHist.ver"]%string (Strings ["100"])%string = Ok (names, radii) /\
      names = ["R100.dir"; "R1000.dir"]%string /\
      rotate_all to_float radii (length names) = Ok [CorotatingWith 0; Inert].
  Proof.
    intros rs F M1 M2. cbn [select remove_first String.eqb Ascii.eqb Bool.eqb flat_map].
    rewrite M1, M2. cbn [app]. eexists _, _. split; [reflexivity|]. split; [reflexivity|].
    unfold rotate_all, sorted_indices. cbn [map_res]. rewrite F. reflexivity.
  Qed.
End Frames.

(** ** Order -1 *)
(** "Extracted data, counting down from the outermost radius": it counts from the last one in the file. *)
Theorem C60_extracted : forall polyfit w W Radii k rows, (k < S (length W))%nat ->
  Extrapolate polyfit (w :: W) Radii [- Z.of_nat (S k)]%Z None false = Ok [rows] ->
  rows = f_data (nth (length W - k) (w :: W) w).
Proof.
  intros polyfit w W Radii k rows Hk H. unfold Extrapolate, checks in H. cbn [zmax zmin fold_left] in H.
  destruct (Z.ltb_spec (Z.of_nat (length (w :: W))) (Z.abs (- Z.of_nat (S k)))) as [A|A]; [cbn [length] in A; lia|].
  destruct (Z.ltb_spec 0 (- Z.of_nat (S k))) as [B|B]; [lia|]. cbn [andb] in H.
  destruct (negb (length Radii =? length (w :: W))%nat) eqn:ER; [discriminate|].
  destruct (forallb _ _) in H; [|discriminate]. cbn [rbind] in H.
  destruct (Z.ltb_spec (- Z.of_nat (S k)) 0) as [B'|B']; [|lia]. cbn [map] in H.
  assert (E : rows = f_data (nth (Z.to_nat (Z.of_nat (length (w :: W)) + - Z.of_nat (S k))) (w :: W) (mkfrw 0 []))) by congruence.
  rewrite E. replace (Z.to_nat (Z.of_nat (length (w :: W)) + - Z.of_nat (S k))) with (length W - k)%nat by (cbn [length]; lia).
  f_equal. apply nth_indep. cbn [length]. lia.
Qed.
(** In a file whose names are not padded with zeros, the last group is not the outermost one. *)
Theorem C60_outermost_extraction_refuted : forall to_float re_search,
  to_float "100"%string = Some 100 -> to_float "1000"%string = Some 1000 -> to_float "300"%string = Some 300 ->
  exists names radii,
    select re_search false ["R100.dir"; "R1000.dir"; "R300.dir"; "VersionHist.ver"]%string (Strings []) = Ok (names, radii) /\
    rotate_all to_float radii (length names) = Ok (repeat (CorotatingWith 1) 3) /\
    last names ""%string = "R300.dir"%string.
Proof.
  intros tf rs F1 F2 F3. cbn [select remove_first String.eqb Ascii.eqb Bool.eqb]. eexists _, _. split; [reflexivity|]. split; [|reflexivity].
  unfold rotate_all, sorted_indices. cbn. rewrite F1, F2, F3. cbn.
  destruct (Rleb_spec 1000 300); [lra|]. cbn.
  destruct (Rleb_spec 100 300); [|lra]. cbn. reflexivity.
Qed.

(** ** Alignment time *)
Theorem C60_alignment_time : forall given t0 t1, t0 < t1 ->
  (t0 <= alignment_time given t0 t1 < t1) /\
  (forall a, given = Some a -> a <> 0 -> t0 <= a < t1 -> alignment_time given t0 t1 = a) /\
  ((given = None \/ exists a, given = Some a /\ ~ (t0 <= a < t1)) -> alignment_time given t0 t1 = (t0 + t1) / 2).
Proof.
  intros given t0 t1 H. unfold alignment_time. destruct given as [a|].
  - destruct (Req_EM_T a 0) as [->|N].
    + split; [lra|]. split; [intros a E HN; congruence|auto].
    + destruct (Rltb_spec a t0), (Rleb_spec t1 a); cbn [orb]; (split; [lra|split; [intros b E ? ?; injection E as <-; lra|]]);
        intros [E|(b & E & NB)]; try discriminate; try reflexivity; injection E as <-; lra.
  - split; [lra|]. split; [discriminate|auto].
Qed.
(** A time of zero within the data is taken for a missing one. *)
Theorem C60_alignment_at_zero_refuted : forall t0 t1, t0 < 0 < t1 -> t0 + t1 <> 0 -> alignment_time (Some 0) t0 t1 <> 0.
Proof. intros t0 t1 H N. unfold alignment_time. destruct (Req_EM_T 0 0); [lra|contradiction]. Qed.

(** ** Keywords *)
Theorem C60_keywords : forall l, check_keywords l = Ok Datatypes.tt <-> forall k, In k l -> In k known_keywords.
Proof.
  intros l. unfold check_keywords.
  assert (Hmem : forall s l, mem s l = true <-> In s l).
  { intros s l'. unfold mem. rewrite existsb_exists. split.
    - intros (x & Hx & E). apply String.eqb_eq in E. subst. auto.
    - intros Hi. exists s. split; auto. apply String.eqb_refl. }
  destruct (forallb _ l) eqn:E.
  - split; auto. intros _ k Hk. rewrite forallb_forall in E. apply Hmem. auto.
  - split; [discriminate|]. intros H. exfalso.
    assert (forallb (fun k => mem k known_keywords) l = true) by (apply forallb_forall; intros; apply Hmem; auto). congruence.
Qed.

(** ** Output files *)
Section Out.
  Variable show : hwave -> string.
  Variable name : Z -> string.
  Notation write := (write_to_h5 show).
  Notation out := (output show name).

  Lemma write_elsewhere : forall d d' w nm mode attrs nrar file grp f, place w nm file grp ->
    write d w nm mode attrs nrar = Ok d' -> f <> file -> assoc f d' = assoc f d.
  Proof.
    intros d d' w nm mode attrs nrar file grp f (desc & D & T) H N. unfold write_to_h5 in H. rewrite D in H. cbn [rbind] in H.
    rewrite T in H. cbn [rbind] in H. destruct (open_for_write _ _) as [f0|]; [|discriminate]. cbn [rbind] in H.
    apply rbind_ok in H. destruct H as (f' & _ & H). injection H as <-. apply assoc_put_other. auto.
  Qed.
  Lemma write_same_file : forall d e d' w nm mode attrs nrar file grp, place w nm file grp ->
    assoc file d = assoc file e \/ mode = "w"%string ->
    write d w nm mode attrs nrar = Ok d' -> exists e', write e w nm mode attrs nrar = Ok e' /\ assoc file e' = assoc file d'.
  Proof.
    intros d e d' w nm mode attrs nrar file grp (desc & D & T) HE H. unfold write_to_h5 in *. rewrite D in *. cbn [rbind] in *.
    rewrite T in *. cbn [rbind] in *.
    assert (EO : open_for_write mode (assoc file e) = open_for_write mode (assoc file d)).
    { destruct HE as [->| ->]; reflexivity. }
    rewrite EO. destruct (open_for_write _ (assoc file d)) as [f0|]; [|discriminate]. cbn [rbind] in *.
    apply rbind_ok in H. destruct H as (f' & HF & H). injection H as <-. rewrite HF. cbn [rbind].
    eexists. split; [reflexivity|]. rewrite !assoc_put_same. reflexivity.
  Qed.

  Lemma create_keeps : forall A n (v : A) l l' m u, create n v l = Ok l' -> assoc m l = Some u -> assoc m l' = Some u.
  Proof. intros A n v l l' m u H Hm. apply create_ok in H. destruct H as [_ ->]. rewrite assoc_app, Hm. reflexivity. Qed.
  Lemma fill_history : forall w file attrs nrar g g', fill show w file attrs nrar g = Ok g' ->
    assoc "History.txt" (g_kids g) = None /\ assoc "History.txt" (g_kids g') <> None.
  Proof.
    intros w file attrs nrar g g' F. unfold fill in F. cbv zeta in F.
    apply rbind_ok in F. destruct F as (k1 & C1 & F). pose proof (create_ok _ _ _ _ _ C1) as [N E1]. split; auto.
    assert (H1 : exists u, assoc "History.txt" k1 = Some u).
    { rewrite E1, assoc_app, N. cbn. eauto. }
    destruct H1 as [u H1].
    apply rbind_ok in F. destruct F as (code & EC & F).
    apply rbind_ok in F. destruct F as (k2 & C2 & F).
    assert (H2 : assoc "History.txt" k2 = Some u).
    { destruct (w_versions w); [congruence|]. eapply create_keeps; eauto. }
    apply rbind_ok in F. destruct F as (k3 & C3 & F). injection F as <-. cbn [g_kids].
    assert (H3 : assoc "History.txt" k3 = Some u); [|congruence].
    destruct nrar; [eapply write_modes_keeps; eauto|].
    apply rbind_ok in C3. destruct C3 as (k4 & C4 & C3). apply rbind_ok in C3. destruct C3 as (k5 & C5 & C3).
    apply rbind_ok in C3. destruct C3 as (dk & _ & C3).
    eapply create_keeps; [exact C3|]. eapply create_keeps; [exact C5|]. eapply create_keeps; eauto.
  Qed.

  Definition has_history (d : fs) (file : string) : Prop := exists f, assoc file d = Some f /\ assoc "History.txt" (g_kids f) <> None.
  Lemma write_history : forall d d' w nm mode attrs nrar file, place w nm file ""%string ->
    write d w nm mode attrs nrar = Ok d' -> has_history d' file /\ (In mode ["a"; "r+"]%string -> ~ has_history d file).
  Proof.
    intros d d' w nm mode attrs nrar file (desc & D & T) H. unfold write_to_h5 in H. rewrite D in H. cbn [rbind] in H.
    rewrite T in H. cbn [rbind is_empty] in H. destruct (open_for_write mode (assoc file d)) as [f0|] eqn:EO; [|discriminate]. cbn [rbind] in H.
    apply rbind_ok in H. destruct H as (f' & HF & H). injection H as <-. destruct (fill_history _ _ _ _ _ _ HF) as [H0 H1]. split.
    - exists f'. split; [apply assoc_put_same|auto].
    - intros HM (f & Ef & Hh). rewrite Ef in EO. destruct HM as [<-|[<-|[]]]; cbn in EO; assert (f0 = f) by congruence; congruence.
  Qed.

  (** Each order in a file of its own. *)
  Definition own_files (l : list (Z * hwave)) : Prop :=
    forall N w, In (N, w) l -> exists file, place w (name N) file ""%string.

  Lemma place_unique : forall w nm f g f' g', place w nm f g -> place w nm f' g' -> f = f' /\ g = g'.
  Proof. intros w nm f g f' g' (d1 & D1 & T1) (d2 & D2 & T2). assert (d1 = d2) by congruence. subst. split; congruence. Qed.

  Lemma output_history : forall l nrar d d' i, own_files l -> out nrar d i l = Ok d' -> (1 <= i)%nat ->
    (forall file, has_history d file -> has_history d' file) /\
    (forall N w file, In (N, w) l -> place w (name N) file ""%string -> has_history d' file).
  Proof.
    induction l as [|[N w] l IH]; intros nrar d d' i HO H Hi; cbn [output] in H.
    - injection H as <-. split; auto. intros N w file [].
    - destruct (Nat.eqb_spec i 0); [lia|]. apply rbind_ok in H. destruct H as (d1 & HW & H).
      destruct (HO N w (or_introl eq_refl)) as (f & P).
      assert (HO' : own_files l) by (intros N' w' Hin; apply HO; right; auto).
      destruct (IH _ _ _ _ HO' H ltac:(lia)) as [K1 K2]. destruct (write_history _ _ _ _ _ _ _ _ P HW) as [W1 W2].
      split.
      + intros file HH. apply K1. destruct (string_dec file f) as [->|NE]; auto.
        destruct HH as (g & Eg & Hg). exists g. split; auto. rewrite (write_elsewhere _ _ _ _ _ _ _ _ _ _ P HW NE). auto.
      + intros N' w' file [E|Hin] P'; [|eapply K2; eauto]. injection E as <- <-.
        destruct (place_unique _ _ _ _ _ _ P P') as [<- _]. apply K1. auto.
  Qed.

  (** Repeating an extrapolation in the same directory fails, whichever of the two formats is used: only
      the file of the first order is overwritten. *)
  Theorem C60_rerun_refuted : forall nrar nrar' d d' l, (2 <= length l)%nat -> own_files l ->
    out nrar d 0 l = Ok d' -> exists e, out nrar' d' 0 l = Err e.
  Proof.
    intros nrar nrar' d d' [|[N0 w0] [|[N1 w1] l]] HL HO H; try (cbn in HL; lia).
    cbn [output Nat.eqb] in H. apply rbind_ok in H. destruct H as (d1 & HW & H).
    assert (HO1 : own_files ((N1, w1) :: l)) by (intros N w Hin; apply HO; right; auto).
    destruct (output_history ((N1, w1) :: l) nrar d1 d' 1 HO1 H (le_n 1)) as [_ K].
    destruct (HO N0 w0 (or_introl eq_refl)) as (f0 & P0).
    destruct (HO N1 w1 (or_intror (or_introl eq_refl))) as (f1 & P1).
    specialize (K N1 w1 f1 (or_introl eq_refl) P1).
    cbn [output Nat.eqb].
    destruct (write d' w0 (name N0) "w" [] nrar') as [d2|e] eqn:E2; [|exists e; reflexivity]. cbn [rbind].
    destruct (write d2 w1 (name N1) "a" [] nrar') as [d3|e] eqn:E3; [|exists e; reflexivity]. exfalso.
    destruct (write_history _ _ _ _ _ _ _ _ P1 E3) as [_ W]. apply W; [left; auto|].
    destruct (string_dec f1 f0) as [->|NE].
    - apply (write_history _ _ _ _ _ _ _ _ P0 E2).
    - destruct K as (g & Eg & Hg). exists g. split; auto. rewrite (write_elsewhere _ _ _ _ _ _ _ _ _ _ P0 E2 NE). auto.
  Qed.

  (** If all orders go to groups of one file, the result does not depend on what was there before. *)
  Theorem C60_one_file : forall nrar d e d' l file, l <> [] ->
    (forall N w, In (N, w) l -> exists grp, place w (name N) file grp) ->
    out nrar d 0 l = Ok d' -> exists e', out nrar e 0 l = Ok e' /\ assoc file e' = assoc file d'.
  Proof.
    intros nrar d e d' l file HN HP H.
    assert (G : forall l i d e d', (forall N w, In (N, w) l -> exists grp, place w (name N) file grp) ->
      (assoc file d = assoc file e \/ (i = 0%nat /\ l <> [])) -> out nrar d i l = Ok d' -> exists e', out nrar e i l = Ok e' /\ assoc file e' = assoc file d').
    { clear. induction l as [|[N w] l IH]; intros i d e d' HP HE H; cbn [output] in *.
      - injection H as <-. exists e. split; auto. destruct HE as [HE|[_ HE]]; [auto|contradiction].
      - apply rbind_ok in H. destruct H as (d1 & HW & H). destruct (HP N w (or_introl eq_refl)) as (grp & P).
        destruct (write_same_file d e d1 w (name N) (if (i =? 0)%nat then "w" else "a")%string [] nrar file grp P) as (e1 & E1 & Q); auto.
        { destruct HE as [HE|[-> _]]; [left; auto|right; reflexivity]. }
        rewrite E1. cbn [rbind]. apply (IH (S i) d1 e1); auto. intros N' w' Hin. apply HP. right; auto. }
    apply (G l 0%nat d e d'); auto.
  Qed.

  (** In a directory that has none of the files (but possibly the first), every order is written, and reading each
      file gives back its waveform. *)
  Section Read.
    Variable born : string -> list string.
    Variable listing : list string -> list string.
    Hypothesis listing_perm : forall l, Permutation (listing l) l.
    Variable from_history : string -> string -> option (list R).
    Variable as_quat_array : Validity_Model.arr -> option Validity_Model.attr.
    Variable diff_nd : Validity_Model.arr -> res bool.
    Notation read := (read_from_h5 born listing from_history as_quat_array diff_nd).

    Lemma read_local : forall d e nm kw, assoc (fst (read_target nm)) d = assoc (fst (read_target nm)) e -> read d nm kw = read e nm kw.
    Proof. intros d e nm kw H. unfold read_from_h5. destruct (read_target nm) as [f r]. cbn [fst] in H. rewrite H. reflexivity. Qed.

    Theorem C60_fresh_directory : forall (l : list (Z * hwave)) files d i,
      Forall2 (fun p f => place (snd p) (name (fst p)) f ""%string /\ contains ".h5" (name (fst p)) = true /\
                          well_formed (snd p) /\ strictly_up (w_times (snd p))) l files ->
      NoDup files -> (forall f, In f (if (i =? 0)%nat then tl files else files) -> assoc f d = None) ->
      exists d', out true d i l = Ok d' /\
        (forall f, ~ In f files -> assoc f d' = assoc f d) /\
        Forall2 (fun p f => forall kw, exists w', read d' f kw = Ok w' /\ same_content (snd p) w') l files.
    Proof.
      intros l files d i HF. revert d i. induction HF as [|[N w] f l files (P & C & W & U) HF IH]; intros d i ND HA.
      - exists d. split; [reflexivity|]. split; auto.
      - cbn [fst snd] in *. inversion ND as [|? ? Hnin ND']; subst. cbn [output].
        set (mode := if (i =? 0)%nat then "w"%string else "a"%string).
        assert (MO : mode = "w"%string \/ In mode ["a"; "w-"; "x"]%string /\ assoc f d = None).
        { unfold mode. destruct (i =? 0)%nat; [left; auto|right; split; [left; auto|apply HA; left; auto]]. }
        destruct (C48_write_succeeds show d w (name N) mode [] f ""%string W P MO (or_introl eq_refl)) as (d1 & E1).
        rewrite E1. cbn [rbind].
        assert (HA1 : forall g, In g files -> assoc g d1 = None).
        { intros g Hg. rewrite (write_elsewhere _ _ _ _ _ _ _ _ _ g P E1) by (intros ->; contradiction).
          destruct (i =? 0)%nat; apply HA; [auto|right; auto]. }
        destruct (IH d1 (S i) ND') as (d' & E & K & R); [exact HA1|].
        exists d'. split; auto. split.
        + intros g Hg. rewrite K by (intros Hi; apply Hg; right; auto).
          apply (write_elsewhere _ _ _ _ _ _ _ _ _ g P E1). intros ->. apply Hg. left; auto.
        + constructor; auto. intros kw. cbn [snd].
          destruct (C48_round_trip show born listing listing_perm from_history as_quat_array diff_nd d d1 w (name N) mode [] f ""%string)
            as (w' & R1 & SC & _); auto.
          { right. destruct MO as [->|[_ MO]]; auto. }
          { intros n _. reflexivity. }
          exists w'. split; auto. specialize (R1 kw). rewrite app_nil_s in R1. rewrite <- R1. apply read_local.
          destruct P as (desc & D & T). pose proof (read_target_spec desc (name N) f ""%string C T) as RT. rewrite app_nil_s in RT.
          rewrite RT. cbn [fst]. apply K. auto.
    Qed.
  End Read.
End Out.

(** Two orders, each in a file of its own. *)
Definition case_name (N : Z) : string := ("out/Extrapolated_N" ++ dec N ++ ".h5")%string.
Example C60_output_case : let l := [(2%Z, case_wave [0; 1; 3] []); (3%Z, case_wave [0; 1; 3] [])] in
  Forall2 (fun p f => place (snd p) (case_name (fst p)) f ""%string /\ contains ".h5" (case_name (fst p)) = true /\
                      well_formed (snd p) /\ strictly_up (w_times (snd p))) l
    ["out/rhOverM_Extrapolated_N2.h5"; "out/rhOverM_Extrapolated_N3.h5"]%string /\
  NoDup ["out/rhOverM_Extrapolated_N2.h5"; "out/rhOverM_Extrapolated_N3.h5"]%string /\ own_files case_name l /\ (2 <= length l)%nat.
Proof.
  assert (U : strictly_up [0; 1; 3]). { intros i j Hij. cbn in Hij |- *. destruct i as [|[|[|]]], j as [|[|[|]]]; try lia; cbn; lra. }
  cbv zeta. split; [|split; [|split]].
  - repeat constructor; cbn [fst snd]; try (vm_compute; reflexivity); auto; try (apply case_well_formed; discriminate);
      try (eexists; split; vm_compute; reflexivity).
  - repeat constructor; cbn; intuition discriminate.
  - intros N w [E|[E|[]]]; injection E as <- <-; eexists; eexists; split; vm_compute; reflexivity.
  - cbn. lia.
Qed.
