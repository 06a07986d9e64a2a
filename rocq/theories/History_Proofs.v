(** C15, C16, C51: theorems about user programs over waveform objects. *)
From Coq Require Import List Arith Lia Bool String ZArith.
From Verif Require Import Common Objects_Model Objects_Proofs.
Import ListNotations.
Open Scope nat_scope.

Lemma skipn_skipn : forall (A : Type) (a b : nat) (l : list A), skipn a (skipn b l) = skipn (b + a) l.
Proof. intros A a b. induction b; intros l; cbn; auto. destruct l; [destruct a; reflexivity|apply IHb]. Qed.

Section P.
Context {row : Type}.
Notation heap := (heap row).

(** * Specification vocabulary *)
(** The history text of an object, and the lines of it that are neither commented out nor blank: the
    script that is supposed to recreate the object. *)
Definition history (h : heap) (o : nat) : list entry := lists h (o_hist (objs h o)).
Definition runnable (e : entry) : bool :=
  Z.eqb (fst e) 0 && match snd e with TBlank => false | TLine _ _ => true end.
Definition script (h : heap) (o : nat) : list entry := filter runnable (history h o).
(** The rows seen through an object. *)
Definition data (h : heap) (o : nat) : list row :=
  firstn (o_len (objs h o)) (skipn (o_off (objs h o)) (bufs h (o_buf (objs h o)))).

Definition depths_zero (h : heap) : Prop := forall x, x < nobjs h -> o_depth (objs h x) = 0%Z.

(** Operations that give back a new object with its own history. *)
Definition is_make (p : op row) : bool :=
  match p with
  | OpCopy _ | OpDeepcopy _ | OpCopyWithoutData _ | OpSlice _ _ _ _ | OpRebuild _ _ _ | OpParity _ _ _
  | OpParityPart _ _ _ _ | OpCopyConstruct _ _ => true
  | _ => false
  end.
Definition is_grid (p : op row) : bool := match p with OpGridConversion _ _ _ _ => true | _ => false end.

(** A program running without exceptions on existing objects. *)
Inductive runs : heap -> list (op row) -> heap -> Prop :=
| runs_nil : forall h, runs h [] h
| runs_cons : forall h p r h1 ps h2, subject p < nobjs h -> run_op p h = (Ok r, h1) -> runs h1 ps h2 ->
    runs h (p :: ps) h2.

(** * One operation *)
Lemma construct_invalid : forall stmt l b off len (h : heap) r h', construct stmt l b off len false h = (Ok r, h') -> False.
Proof.
  intros. unfold construct, bind at 1 in H. destruct (alloc_obj _ h) as [[w|e] h0]; [|discriminate].
  unfold bind at 1 in H. destruct (append_history _ _ _ h0) as [[u|e] h1]; [|discriminate].
  unfold bind at 1 in H. destruct (set_depth _ _ h1) as [[v|e] h2]; [|discriminate].
  unfold bind at 1 in H. unfold ensure_validity_modes in H. rewrite decorated_unfold in H. cbn in H. discriminate.
Qed.
Lemma construct_copy_invalid : forall o (h : heap) r h', construct_copy o false h = (Ok r, h') -> False.
Proof.
  intros. unfold construct_copy in H. unfold bind at 1 in H. cbn [get_obj] in H. unfold bind at 1 in H. cbn [get_list] in H.
  unfold bind at 1 in H. cbn [get_buf] in H. unfold bind at 1 in H. cbn [alloc_list] in H.
  unfold bind at 1 in H. cbn [alloc_buf] in H. unfold bind at 1 in H. cbn [alloc_obj] in H.
  unfold bind at 1 in H. destruct (append_history _ _ _ _) as [[u|e] h1]; [|discriminate].
  unfold bind at 1 in H. destruct (set_depth _ _ h1) as [[v|e] h2]; [|discriminate].
  unfold bind at 1 in H. unfold ensure_validity_modes in H. rewrite decorated_unfold in H. cbn in H. discriminate.
Qed.

Definition copy_ctor_entries (o w : nat) : list entry :=
  [(0%Z, TBlank); (0%Z, TLine "Waveform(other)" [w; o])] ++ validity_entries w 1 true ++ info_entries.

Lemma construct_copy_run : forall o (h : heap), wf h -> o < nobjs h ->
  exists h', construct_copy o true h = (Ok (nobjs h), h') /\ wf h' /\
    grows false h h' o [] (o_depth (objs h o)) /\
    fresh h h' (nobjs h) 0 (history h o ++ copy_ctor_entries o (nobjs h)) /\
    data h' (nobjs h) = data h o /\ nbufs h <= o_buf (objs h' (nobjs h)).
Proof.
  intros o h Hwf Ho. destruct (Hwf o Ho) as [Hh Hb].
  unfold construct_copy. unfold bind at 1. cbn [get_obj]. unfold bind at 1. cbn [get_list].
  unfold bind at 1. cbn [get_buf]. unfold bind at 1. cbn [alloc_list].
  unfold bind at 1. cbn [alloc_buf nlists nbufs lists bufs objs nobjs]. unfold bind at 1. cbn [alloc_obj nlists nbufs lists bufs objs nobjs].
  set (w := nobjs h). set (x := objs h o). set (h0 := mkheap _ _ _ _ _ _).
  assert (N0 : nobjs h0 = S w) by reflexivity.
  assert (W0 : objs h0 w = mkobj (nlists h) 0 (nbufs h) 0 (o_len x)) by apply fupd_same.
  destruct (append_run w [TBlank; TLine "Waveform(other)" [w; o]] 0 h0) as (h1 & E1 & N1 & G1). rewrite W0 in G1. cbn [o_depth Z.add] in G1.
  destruct (set_depth_run w 1 h1 ltac:(lia)) as (h2 & E2 & N2 & G2).
  destruct (ensure_modes_run w true true h2 ltac:(lia) ltac:(discriminate)) as (h3 & E3 & N3 & G3).
  assert (D2 : o_depth (objs h2 w) = 1%Z) by (rewrite (g_self _ _ _ _ _ _ G2); reflexivity). rewrite D2 in G3.
  destruct (set_depth_run w 0 h3 ltac:(lia)) as (h4 & E4 & N4 & G4).
  destruct (append_run w info_lines 1 h4) as (h5 & E5 & N5 & G5).
  assert (D4 : o_depth (objs h4 w) = 0%Z) by (rewrite (g_self _ _ _ _ _ _ G4); reflexivity).
  rewrite D4 in G5. cbn [Z.add] in G5.
  unfold bind at 1. rewrite E1. unfold bind at 1. rewrite E2. unfold bind at 1. rewrite E3.
  unfold bind at 1. rewrite E4. unfold bind at 1. rewrite E5. cbn [ret].
  pose proof (grows_trans _ _ _ _ _ _ _ _ _ _ G1 (grows_trans _ _ _ _ _ _ _ _ _ _ G2
     (grows_trans _ _ _ _ _ _ _ _ _ _ G3 (grows_trans _ _ _ _ _ _ _ _ _ _ G4 G5)))) as G.
  cbn [orb app] in G.
  assert (F0 : fresh h h0 w 0 (history h o)).
  { constructor; auto; rewrite W0; cbn; try lia. apply fupd_same. }
  assert (G00 : grows false h h0 o [] (o_depth (objs h o))).
  { constructor; cbn; auto.
    - intros y Hy Hne. apply fupd_other. fold w in Hy. lia.
    - rewrite fupd_other by (fold w in Ho; lia). rewrite with_depth_self. auto.
    - intros l Hl. rewrite fupd_other by lia. rewrite app_nil_r. destruct (Nat.eqb l _); auto.
    - intros b Hb' _. apply fupd_other; lia. }
  assert (F5 : fresh h h5 w 0 (history h o ++ copy_ctor_entries o w)).
  { eapply fresh_step; [exact F0| |lia]. exact G. }
  assert (G05 : grows false h h5 o [] (o_depth (objs h o))).
  { refine (grows_frame _ _ h0 _ _ w _ _ _ _ Ho Hwf G00 (le_n _) _ G). rewrite W0. cbn. lia. }
  exists h5. split; [reflexivity|]. split; [exact (wf_fresh _ _ _ _ _ _ _ _ _ Hwf G05 Ho F5)|].
  split; auto. split; auto.
  destruct G as [_ _ _ _ Gs _ Gb]. unfold data. fold w. rewrite Gs, W0. cbn. split; [|lia].
  rewrite Gb by (cbn; auto; lia). cbn. rewrite fupd_same. fold x. rewrite firstn_firstn, Nat.min_id. reflexivity.
Qed.

(** Entries added to the new object by a making operation at top level (besides the inherited ones). *)
Definition make_entries (p : op row) (w : nat) : list entry :=
  let o := subject p in
  match p with
  | OpCopy _ => [(0%Z, TBlank)] ++ [(0%Z, TLine "copy" [w; o])]
  | OpDeepcopy _ => [(0%Z, TBlank)] ++ [(1%Z, TLine "copy" [w; o]); (0%Z, TLine "deepcopy" [w; o])]
  | OpCopyWithoutData _ => [(0%Z, TBlank)] ++ [(1%Z, TLine "copy_without_data" [w; o]); (0%Z, TLine "copy_without_data" [w; o])]
  | OpSlice _ _ _ _ => [(0%Z, TBlank)] ++ [(2%Z, TLine "copy_without_data" [w; o]); (0%Z, TLine "getitem" [w; o])]
  | OpRebuild name _ _ => [(0%Z, TBlank)] ++ [(1%Z, TLine "copy_without_data" [w; o]); (0%Z, TLine name [w; o])]
  | OpParity _ _ _ => [(0%Z, TBlank)] ++ parity_entries o w 0
  | OpParityPart _ _ _ _ => [(0%Z, TBlank)] ++ parity_entries o w 1 ++ [(0%Z, TLine "parity_part" [w; o])]
  | OpCopyConstruct _ _ => copy_ctor_entries o w
  | _ => []
  end.
(** Entries left in the subject by a making operation. *)
Definition make_residue (p : op row) : list entry :=
  match p with OpCopyConstruct _ _ => [] | _ => [(0%Z, TBlank)] end.

Lemma run_make : forall p h r h', is_make p = true -> wf h -> subject p < nobjs h ->
  o_depth (objs h (subject p)) = 0%Z -> run_op p h = (Ok r, h') ->
  r = nobjs h /\ wf h' /\ grows false h h' (subject p) (make_residue p) 0 /\
  fresh h h' r 0 (history h (subject p) ++ make_entries p r).
Proof.
  intros p h r h' Hm Hwf Ho Hd E.
  assert (Hpos : (0 <= o_depth (objs h (subject p)))%Z) by lia.
  assert (HH : forall (m : nat -> M row nat) ents, makes_pos m ents -> m (subject p) h = (Ok r, h') ->
     r = nobjs h /\ wf h' /\ grows false h h' (subject p) [(0%Z, TBlank)] 0 /\
     fresh h h' r 0 (history h (subject p) ++ [(0%Z, TBlank)] ++ ents (subject p) r 0%Z)).
  { intros m ents H E'. destruct (H (subject p) h Hwf Ho Hpos) as (h1 & E1 & W1 & G1 & F1).
    rewrite E1 in E'. injection E' as <- <-. rewrite Hd in G1, F1. auto. }
  destruct p; cbn in Hm; try discriminate; cbn [run_op subject make_residue make_entries] in *.
  - apply (HH _ _ (makes_makes_pos _ _ makes_copy) E).
  - apply (HH _ _ makes_deepcopy E).
  - apply (HH _ _ makes_cwd E).
  - destruct ok; [apply (HH _ _ (makes_getitem a n) E)|].
    unfold getitem in E. rewrite decorated_unfold in E. discriminate.
  - apply (HH _ _ (makes_rebuild name rows) E).
  - destruct ok; [apply (HH _ _ (makes_parity f) E)|].
    unfold parity_conjugate in E. rewrite decorated_unfold in E. discriminate.
  - destruct ok; [apply (HH _ _ (makes_parity_part f g) E)|].
    unfold parity_part in E. rewrite decorated_unfold in E. unfold bind at 1 in E.
    unfold parity_conjugate in E. rewrite decorated_unfold in E. discriminate.
  - destruct valid; [|exfalso; eapply construct_copy_invalid; eauto].
    destruct (construct_copy_run o h Hwf Ho) as (h1 & E1 & W1 & G1 & F1 & _).
    rewrite E1 in E. injection E as <- <-. rewrite Hd in G1. auto.
Qed.

(** Entries added to the subject by the operations that keep the object. *)
Definition edit_entries (p : op row) : list entry :=
  let o := subject p in
  match p with
  | OpInplace name _ _ => [(0%Z, TBlank); (1%Z, TLine name [o])]
  | OpRotate _ _ _ => [(0%Z, TBlank); (0%Z, TLine "rotate_decomposition_basis" [o])]
  | OpRotateBy name _ _ _ => [(0%Z, TBlank); (1%Z, TLine "rotate_decomposition_basis" [o]); (1%Z, TLine name [o])]
  | OpAlign _ _ _ => [(0%Z, TBlank); (1%Z, TLine "align_decomposition_frame_to_modes" [o]); (1%Z, TLine "rotate_decomposition_basis" [o])]
  | OpIsValid _ true pb => validity_entries o 0 pb
  | OpIsValid _ false pb => [(0%Z, TBlank)]
  | _ => []
  end.

Lemma run_edit : forall p h r h', is_make p = false -> is_grid p = false -> wf h -> subject p < nobjs h ->
  o_depth (objs h (subject p)) = 0%Z -> run_op p h = (Ok r, h') ->
  r = subject p /\ nobjs h' = nobjs h /\ grows true h h' r (edit_entries p) 0.
Proof.
  intros p h r h' Hm Hg Hwf Ho Hd E.
  assert (Hpos : (0 <= o_depth (objs h (subject p)))%Z) by lia.
  assert (HH : forall (m : nat -> M row nat) ents, edits m ents -> m (subject p) h = (Ok r, h') ->
     r = subject p /\ nobjs h' = nobjs h /\ grows true h h' r ([(0%Z, TBlank)] ++ ents (subject p) 0%Z) 0).
  { intros m ents H E'. destruct (H (subject p) h Hwf Ho Hpos) as (h1 & E1 & N1 & G1).
    rewrite E1 in E'. injection E' as <- <-. rewrite Hd in G1. auto. }
  destruct p; cbn in Hm, Hg; try discriminate; cbn [run_op subject edit_entries] in *.
  - apply (HH _ _ (edits_inplace name f) E).
  - destruct ok; [apply (HH _ _ (edits_rotate f) E)|].
    unfold rotate_decomposition_basis in E. rewrite decorated_unfold in E. discriminate.
  - destruct ok; [apply (HH _ _ (edits_rotate_by name f) E)|].
    unfold rotate_by in E. rewrite decorated_unfold in E. unfold bind at 1 in E.
    unfold rotate_decomposition_basis in E. rewrite decorated_unfold in E. discriminate.
  - destruct ok; [apply (HH _ _ (edits_align f) E)|].
    unfold align_frame in E. rewrite decorated_unfold in E. unfold bind at 1 in E.
    destruct (append_history _ _ _ (raised o h)) as [[u|e] h1]; [|discriminate].
    unfold rotate_decomposition_basis in E. rewrite decorated_unfold in E. discriminate.
  - unfold is_valid in E. destruct pm.
    + destruct (ensure_modes_run o pb false h Ho ltac:(auto)) as (h1 & E1 & N1 & G1).
      unfold bind in E. rewrite E1 in E. cbn in E. injection E as <- <-. rewrite Hd in G1.
      split; auto. split; auto. destruct G1. constructor; auto.
    + unfold bind, ensure_validity_modes in E. rewrite decorated_unfold in E. cbn [ret] in E.
      injection E as <- <-. destruct (raised_grows o h Ho) as (G0 & N0 & _). rewrite Hd in *.
      split; auto. split; [cbn; auto|].
      pose proof (lowered_grows _ _ _ _ _ 0%Z _ Ho G0) as G. 
      destruct G. constructor; auto.
Qed.

Lemma run_grid : forall name o rows v h r h', wf h -> o < nobjs h ->
  run_op (OpGridConversion name o rows v) h = (Ok r, h') ->
  r = nobjs h /\ wf h' /\ nobjs h' = S (nobjs h) /\
  (forall x, x < nobjs h -> objs h' x = objs h x) /\
  o_hist (objs h' r) = o_hist (objs h o) /\ o_depth (objs h' r) = 0%Z /\ data h' r = rows /\
  (forall l, l < nlists h -> lists h' l = if Nat.eqb l (o_hist (objs h o)) then lists h l ++ ctor_entries name r else lists h l) /\
  (forall b, b < nbufs h -> bufs h' b = bufs h b) /\ nbufs h <= nbufs h' /\ (true = true -> nbufs h <= o_buf (objs h' r)).
Proof.
  intros name o rows v h r h' Hwf Ho E. cbn [run_op] in E. unfold grid_conversion in E.
  unfold bind at 1 in E. cbn [get_obj] in E. unfold bind at 1 in E. cbn [alloc_buf] in E.
  destruct v; [|exfalso; eapply construct_invalid; eauto].
  destruct (Hwf o Ho) as [Hh Hb].
  match type of E with construct _ _ _ _ _ _ ?hh = _ => set (h0 := hh) in * end.
  assert (W0 : wf h0). { intros x Hx. cbn in *. specialize (Hwf x Hx). lia. }
  destruct (construct_run name (o_hist (objs h o)) (nbufs h) 0 (List.length rows) h0 ltac:(cbn; lia) ltac:(cbn; lia) W0)
    as (h1 & E1 & N & L & B & W & O1 & O2 & LL & BB).
  rewrite E1 in E. injection E as <- <-. cbn in N, L, B, O1, O2, LL, BB.
  change (nobjs h0) with (nobjs h). rewrite O2. split; auto. split; auto. split; auto. split; auto. split; auto. split; auto. split.
  - unfold data. rewrite O2. cbn. rewrite BB, fupd_same. apply firstn_all.
  - split; [auto|]. split; [intros b Hb'; rewrite BB; apply fupd_other; lia|]. split; [lia|cbn; auto].
Qed.

(** * C15 *)
Lemma step_depths : forall p h r h', wf h -> depths_zero h -> subject p < nobjs h -> run_op p h = (Ok r, h') ->
  wf h' /\ depths_zero h' /\ nobjs h <= nobjs h' /\ r < nobjs h'.
Proof.
  intros p h r h' Hwf Hz Ho E. assert (Hd := Hz _ Ho).
  destruct (is_make p) eqn:Em.
  - destruct (run_make p h r h' Em Hwf Ho Hd E) as (-> & W & G & F). split; auto.
    destruct F. subst. split; [|lia].
    intros x Hx. rewrite f_no in Hx. destruct (Nat.eq_dec x (nobjs h)); [subst; auto|].
    destruct (Nat.eq_dec x (subject p)); [subst; rewrite (g_self _ _ _ _ _ _ G); reflexivity|].
    rewrite (g_other _ _ _ _ _ _ G) by lia. apply Hz. lia.
  - destruct (is_grid p) eqn:Eg.
    + destruct p; try discriminate. cbn [subject] in *.
      destruct (run_grid _ _ _ _ _ _ _ Hwf Ho E) as (-> & W & N & O1 & O2 & O3 & _). split; auto. split; [|lia].
      intros x Hx. rewrite N in Hx. destruct (Nat.eq_dec x (nobjs h)); [subst; auto|]. rewrite O1 by lia. apply Hz; lia.
    + destruct (run_edit p h r h' Em Eg Hwf Ho Hd E) as (-> & N & G).
      split; [eapply wf_grows; eauto|]. split; [|lia].
      intros x Hx. rewrite N in Hx. destruct (Nat.eq_dec x (subject p)); [subst; rewrite (g_self _ _ _ _ _ _ G); reflexivity|].
      rewrite (g_other _ _ _ _ _ _ G) by lia. apply Hz; auto.
Qed.

(** Any program of recording operations that runs without exception leaves every object (old or new)
    at history depth zero. *)
Theorem C15_depth_balanced : forall h ps h', wf h -> depths_zero h -> runs h ps h' -> wf h' /\ depths_zero h'.
Proof.
  intros h ps h' Hwf Hz H. induction H; auto.
  destruct (step_depths _ _ _ _ Hwf Hz H H0) as (W & Z & _). auto.
Qed.

Lemma script_app : forall (a b : list entry), filter runnable (a ++ b) = filter runnable a ++ filter runnable b.
Proof. intros. apply filter_app. Qed.

(** An operation that returns a new object adds exactly one runnable line, to the new object's history
    only; the subject's own script is unchanged, and its history only gains a blank separator. *)
Theorem C15_new_object_script : forall p h r h', is_make p = true -> wf h -> depths_zero h -> subject p < nobjs h ->
  run_op p h = (Ok r, h') ->
  (exists what args, script h' r = script h (subject p) ++ [(0%Z, TLine what args)] /\ hd_error args = Some r) /\
  (exists tail, history h' (subject p) = history h (subject p) ++ tail /\ filter runnable tail = []) /\
  (forall x, x < nobjs h -> script h' x = script h x \/ o_hist (objs h x) = o_hist (objs h (subject p))).
Proof.
  intros p h r h' Em Hwf Hz Ho E.
  destruct (run_make p h r h' Em Hwf Ho (Hz _ Ho) E) as (Er & W & G & F).
  destruct (grows_own_list _ _ _ _ _ _ G (proj1 (Hwf _ Ho))) as (A1 & A2 & A3 & A4).
  split; [|split].
  - unfold script at 1, history at 1. rewrite (f_list _ _ _ _ _ F), script_app. fold (script h (subject p)).
    clear - Em. destruct p; cbn in Em; try discriminate Em; cbn; eauto.
  - exists (make_residue p). split; [exact A4|]. destruct p; reflexivity.
  - intros x Hx. destruct (Nat.eq_dec (o_hist (objs h x)) (o_hist (objs h (subject p)))); [right; auto|left].
    destruct (Nat.eq_dec x (subject p)); [subst; contradiction|].
    unfold script, history. rewrite (g_other _ _ _ _ _ _ G) by auto.
    rewrite (g_lists _ _ _ _ _ _ G) by (apply Hwf; auto).
    destruct (Nat.eqb_spec (o_hist (objs h x)) (o_hist (objs h (subject p)))); [contradiction|auto].
Qed.

(** `rotate_decomposition_basis` records itself with exactly one runnable line. *)
Theorem C15_rotation_recorded : forall o f h r h', wf h -> depths_zero h -> o < nobjs h ->
  run_op (OpRotate o f true) h = (Ok r, h') ->
  script h' o = script h o ++ [(0%Z, TLine "rotate_decomposition_basis" [o])].
Proof.
  intros o f h r h' Hwf Hz Ho E.
  destruct (run_edit (OpRotate o f true) h r h' eq_refl eq_refl Hwf Ho (Hz _ Ho) E) as (-> & N & G). cbn [subject] in G.
  destruct (grows_own_list _ _ _ _ _ _ G (proj1 (Hwf _ Ho))) as (_ & _ & _ & A4).
  unfold script, history. rewrite A4, script_app. reflexivity.
Qed.

(** The documented aim "the history should be a script that could be run to reproduce the waveform" is
    not met by truncate, convert_to/from_conjugate_pairs, to_inertial_frame, to_corotating_frame,
    to_coprecessing_frame, rotate_physical_system and align_decomposition_frame_to_modes: whatever they
    do to the data, they add no runnable line. *)
Theorem C15_unrecorded_methods_refuted : forall p h r h',
  match p with OpInplace _ _ _ | OpRotateBy _ _ _ _ | OpAlign _ _ _ => True | _ => False end ->
  wf h -> depths_zero h -> subject p < nobjs h -> run_op p h = (Ok r, h') ->
  script h' (subject p) = script h (subject p).
Proof.
  intros p h r h' Hp Hwf Hz Ho E.
  assert (Em : is_make p = false) by (destruct p; tauto || reflexivity).
  assert (Eg : is_grid p = false) by (destruct p; tauto || reflexivity).
  destruct (run_edit p h r h' Em Eg Hwf Ho (Hz _ Ho) E) as (-> & N & G).
  destruct (grows_own_list _ _ _ _ _ _ G (proj1 (Hwf _ Ho))) as (_ & _ & _ & A4).
  unfold script, history. rewrite A4, script_app.
  destruct p; try contradiction; cbn; apply app_nil_r.
Qed.

(** Merely asking for `is_valid` writes to the history of the object. *)
Theorem C15_is_valid_writes_history : forall o pm pb h r h', wf h -> depths_zero h -> o < nobjs h ->
  run_op (OpIsValid o pm pb) h = (Ok r, h') -> history h' o <> history h o.
Proof.
  intros o pm pb h r h' Hwf Hz Ho E.
  destruct (run_edit (OpIsValid o pm pb) h r h' eq_refl eq_refl Hwf Ho (Hz _ Ho) E) as (-> & N & G). cbn [subject] in G.
  destruct (grows_own_list _ _ _ _ _ _ G (proj1 (Hwf _ Ho))) as (_ & _ & _ & A4).
  unfold history. rewrite A4. intros H. apply (f_equal (@List.length entry)) in H. rewrite app_length in H.
  destruct pm, pb; cbn in H; lia.
Qed.

(** An exception inside a recording method leaves the depth raised, and from then on a successful
    rotation of that object is recorded only as a comment. *)
Theorem C15_exception_leaks_depth_refuted : forall o f g h, wf h -> depths_zero h -> o < nobjs h ->
  exists h1, run_op (OpRotate o f false) h = (Err ValueError, h1) /\ o_depth (objs h1 o) = 1%Z /\
  exists h2, run_op (OpRotate o g true) h1 = (Ok o, h2) /\ o_depth (objs h2 o) = 1%Z /\ script h2 o = script h o.
Proof.
  intros o f g h Hwf Hz Ho. cbn [run_op]. unfold rotate_decomposition_basis at 1. rewrite decorated_unfold. cbn [raise].
  destruct (raised_grows o h Ho) as (G0 & N0 & _). rewrite (Hz _ Ho) in *.
  destruct (grows_own_list _ _ _ _ _ _ G0 (proj1 (Hwf _ Ho))) as (B1 & B2 & B3 & B4).
  exists (raised o h). split; [reflexivity|]. split; [exact B2|].
  destruct (edits_rotate g o (raised o h) (wf_raised o h Ho Hwf) ltac:(lia) ltac:(rewrite B2; lia)) as (h2 & E2 & N2 & G2).
  rewrite B2 in G2. exists h2. split; auto.
  destruct (grows_own_list _ _ _ _ _ _ G2 ltac:(apply (wf_raised o h Ho Hwf); lia)) as (C1 & C2 & C3 & C4).
  split; auto. unfold script, history. rewrite C4, B4, !script_app. cbn. rewrite !app_nil_r. reflexivity.
Qed.

(** * C16: sharing of the history list *)
Definition separate (h : heap) : Prop := forall x y, x < nobjs h -> y < nobjs h ->
  o_hist (objs h x) = o_hist (objs h y) -> x = y.

Lemma step_separate : forall p h r h', is_grid p = false -> wf h -> depths_zero h -> separate h ->
  subject p < nobjs h -> run_op p h = (Ok r, h') ->
  separate h' /\ (forall y, y < nobjs h -> y <> subject p -> history h' y = history h y).
Proof.
  intros p h r h' Eg Hwf Hz Hs Ho E.
  assert (Hother : forall t add d, grows t h h' (subject p) add d ->
     forall y, y < nobjs h -> y <> subject p -> history h' y = history h y).
  { intros t add d G y Hy Hne. unfold history. rewrite (g_other _ _ _ _ _ _ G) by auto.
    rewrite (g_lists _ _ _ _ _ _ G) by (apply Hwf; auto).
    destruct (Nat.eqb_spec (o_hist (objs h y)) (o_hist (objs h (subject p)))) as [e|]; auto.
    apply Hs in e; auto. contradiction. }
  assert (Hh : forall t add d, grows t h h' (subject p) add d ->
     forall y, y < nobjs h -> o_hist (objs h' y) = o_hist (objs h y)).
  { intros t add d G y Hy. destruct (Nat.eq_dec y (subject p)).
    - subst. rewrite (g_self _ _ _ _ _ _ G). reflexivity.
    - rewrite (g_other _ _ _ _ _ _ G) by auto. auto. }
  destruct (is_make p) eqn:Em.
  - destruct (run_make p h r h' Em Hwf Ho (Hz _ Ho) E) as (Er & W & G & F). split; [|eapply Hother; eauto].
    destruct F. subst r. intros x y Hx Hy. rewrite f_no in Hx, Hy.
    destruct (Nat.eq_dec x (nobjs h)), (Nat.eq_dec y (nobjs h)); subst; auto.
    + rewrite (Hh _ _ _ G y) by lia. intros Heq. pose proof (Hwf y ltac:(lia)). lia.
    + rewrite (Hh _ _ _ G x) by lia. intros Heq. pose proof (Hwf x ltac:(lia)). lia.
    + rewrite (Hh _ _ _ G x), (Hh _ _ _ G y) by lia. apply Hs; lia.
  - destruct (run_edit p h r h' Em Eg Hwf Ho (Hz _ Ho) E) as (-> & N & G). split; [|eapply Hother; eauto].
    intros x y Hx Hy. rewrite N in Hx, Hy. rewrite (Hh _ _ _ G x), (Hh _ _ _ G y) by lia. apply Hs; auto.
Qed.

(** In any program without grid conversions, starting from objects with separate histories: histories
    stay separate, and an object the program does not operate on keeps its history unchanged. *)
Theorem C16_histories_stay_separate : forall h ps h', wf h -> depths_zero h -> separate h -> runs h ps h' ->
  Forall (fun p => is_grid p = false) ps ->
  separate h' /\ forall y, y < nobjs h -> Forall (fun p => subject p <> y) ps -> history h' y = history h y.
Proof.
  intros h ps h' Hwf Hz Hs H. induction H; intros HF; [auto|]. inversion HF; subst.
  destruct (step_depths _ _ _ _ Hwf Hz H H0) as (W & Z & Hle & _).
  destruct (step_separate _ _ _ _ H4 Hwf Hz Hs H H0) as (S1 & O1).
  destruct (IHruns W Z S1 H5) as (S2 & O2). split; auto.
  intros y Hy HFy. inversion HFy; subst. rewrite O2 by (auto; lia). apply O1; auto.
Qed.

(** copy() and the copy constructor: later operations on the copy never show up in the original's
    history, nor conversely. *)
Theorem C16_copy_independent : forall o (p : op row) h w h1 ps h2, (p = OpCopy o \/ p = OpDeepcopy o \/ p = OpCopyConstruct o true) ->
  wf h -> depths_zero h -> separate h -> o < nobjs h -> run_op p h = (Ok w, h1) -> runs h1 ps h2 ->
  Forall (fun q => is_grid q = false) ps ->
  w <> o /\
  (Forall (fun q => subject q <> o) ps -> history h2 o = history h1 o) /\
  (Forall (fun q => subject q <> w) ps -> history h2 w = history h1 w).
Proof.
  intros o p h w h1 ps h2 Hp Hwf Hz Hs Ho E R HF.
  assert (Hsub : subject p = o) by (destruct Hp as [->|[->| ->]]; reflexivity).
  assert (Em : is_make p = true) by (destruct Hp as [->|[->| ->]]; reflexivity).
  assert (Eg : is_grid p = false) by (destruct Hp as [->|[->| ->]]; reflexivity).
  rewrite <- Hsub in Ho.
  destruct (step_depths _ _ _ _ Hwf Hz Ho E) as (W & Z & Hle & Hr).
  destruct (step_separate _ _ _ _ Eg Hwf Hz Hs Ho E) as (S1 & _).
  destruct (run_make p h w h1 Em Hwf Ho (Hz _ Ho) E) as (Er & _).
  destruct (C16_histories_stay_separate _ _ _ W Z S1 R HF) as (_ & O2).
  rewrite Hsub in *. split; [lia|]. split; intros; apply O2; auto; lia.
Qed.

(** to_modes / from_modes share the history list with their input: recording anything on the result
    also appends it to the input (here: one more rotation). *)
Theorem C16_grid_conversion_shares_history_refuted : forall name o rows f h w h1, wf h -> depths_zero h -> o < nobjs h ->
  run_op (OpGridConversion name o rows true) h = (Ok w, h1) ->
  w <> o /\ history h1 o <> history h o /\
  exists h2, run_op (OpRotate w f true) h1 = (Ok w, h2) /\
    history h2 o = history h1 o ++ [(0%Z, TBlank); (0%Z, TLine "rotate_decomposition_basis" [w])].
Proof.
  intros name o rows f h w h1 Hwf Hz Ho E.
  destruct (step_depths (OpGridConversion name o rows true) h w h1 Hwf Hz Ho E) as (W & Z & Hle & Hr).
  destruct (run_grid _ _ _ _ _ _ _ Hwf Ho E) as (Ew & _ & N & O1 & O2 & O3 & O4 & LL & _).
  assert (Hl := proj1 (Hwf o Ho)).
  split; [lia|]. split.
  - unfold history. rewrite O1, LL, Nat.eqb_refl by auto. intros H.
    apply (f_equal (@List.length entry)) in H. rewrite app_length in H. cbn in H. lia.
  - destruct (edits_rotate f w h1 W Hr ltac:(rewrite O3; lia)) as (h2 & E2 & N2 & G2).
    exists h2. split; auto. rewrite O3 in G2.
    unfold history. rewrite (g_other _ _ _ _ _ _ G2) by lia.
    rewrite (g_lists _ _ _ _ _ _ G2) by (apply W; lia).
    rewrite O1 by auto. rewrite O2, Nat.eqb_refl. reflexivity.
Qed.

(** * C51: sharing of the data *)
Definition obj_data (x : obj) : nat * nat * nat := (o_buf x, o_off x, o_len x).
Definition same_data (h h' : heap) : Prop :=
  nobjs h' = nobjs h /\ nbufs h' = nbufs h /\
  (forall x, obj_data (objs h' x) = obj_data (objs h x)) /\ (forall b, bufs h' b = bufs h b).
Lemma same_data_refl : forall h, same_data h h.
Proof. intros. repeat split. Qed.
Lemma same_data_trans : forall h h1 h2, same_data h h1 -> same_data h1 h2 -> same_data h h2.
Proof. intros h h1 h2 (A1 & B1 & C1 & D1) (A2 & B2 & C2 & D2). repeat split; try congruence. Qed.
Lemma same_data_data : forall h h', same_data h h' -> forall x, data h' x = data h x.
Proof.
  intros h h' (_ & _ & C & D) x. unfold data. specialize (C x). unfold obj_data in C. injection C as -> -> ->.
  rewrite D. reflexivity.
Qed.
Lemma same_data_set_depth : forall o d h, same_data h (snd (set_depth o d h)).
Proof.
  intros. split; [reflexivity|]. split; [reflexivity|]. split; [|reflexivity].
  intros x. cbn. unfold fupd. destruct (Nat.eqb_spec x o); subst; reflexivity.
Qed.
Lemma same_data_raised : forall o h, same_data h (raised o h).
Proof.
  intros. unfold raised, bind.
  destruct (Z.eqb (o_depth (objs h o)) 0); cbn; (split; [reflexivity|]; split; [reflexivity|]; split; [|reflexivity]);
  intros x; cbn; unfold fupd; destruct (Nat.eqb_spec x o); subst; reflexivity.
Qed.
Lemma same_data_lowered : forall o d h, same_data h (lowered o d h).
Proof. intros. apply same_data_set_depth. Qed.
Lemma same_data_append : forall o ls e h, same_data h (snd (append_history o ls e h)).
Proof. intros. repeat split. Qed.
Lemma same_data_finish : forall w t h,
  exists h', bind (dec_depth w) (fun _ => bind (append_history w [t] 0) (fun _ => ret w)) h = (Ok w, h') /\ same_data h h'.
Proof.
  intros. eexists. split; [reflexivity|]. split; [reflexivity|]. split; [reflexivity|]. split; [|reflexivity].
  intros x. cbn. unfold fupd. destruct (Nat.eqb_spec x w); subst; reflexivity.
Qed.

(** Data flow of a decorated method that calls [inner], changes the data with [mid], and records. *)
Lemma nested_data : forall (inner : M row nat) (mid : nat -> M row unit) (t : nat -> text) o h w h',
  decorated o (bind inner (fun w => bind (mid w) (fun _ =>
     bind (dec_depth w) (fun _ => bind (append_history w [t w] 0) (fun _ => ret w))))) h = (Ok w, h') ->
  exists h1 h2, inner (raised o h) = (Ok w, h1) /\ mid w h1 = (Ok tt, h2) /\ same_data h2 h'.
Proof.
  intros inner mid t o h w h' E. rewrite decorated_unfold in E. unfold bind at 1 in E.
  destruct (inner (raised o h)) as [[w'|e] h1] eqn:E1; [|discriminate].
  unfold bind at 1 in E. destruct (mid w' h1) as [[[]|e] h2] eqn:E2; [|discriminate].
  destruct (same_data_finish w' (t w') h2) as (h3 & E3 & S3). rewrite E3 in E. injection E as <- <-.
  exists h1, h2. split; auto. split; auto. eapply same_data_trans; [exact S3|apply same_data_lowered].
Qed.

(** What an operation returning a new object does to the data: nothing to what existed, and the new
    object sees [rows]; [own] tells whether through a buffer of its own. *)
Record makes_data (own : bool) (h h' : heap) (w : nat) (rows : list row) : Prop := {
  md_w : w = nobjs h; md_no : nobjs h' = S (nobjs h); md_nb : nbufs h <= nbufs h';
  md_old : forall x, x < nobjs h -> obj_data (objs h' x) = obj_data (objs h x);
  md_bufs : forall b, b < nbufs h -> bufs h' b = bufs h b;
  md_new : data h' w = rows;
  md_own : own = true -> nbufs h <= o_buf (objs h' w) }.

Lemma makes_data_same : forall own h0 h h1 h' w rows, same_data h0 h -> makes_data own h h1 w rows -> same_data h1 h' ->
  makes_data own h0 h' w rows.
Proof.
  intros own h0 h h1 h' w rows (A & B & C & D) [] S. pose proof (same_data_data _ _ S) as Hd. destruct S as (A' & B' & C' & D').
  assert (Hn : data h' w = rows) by (rewrite Hd; auto).
  constructor; try exact Hn; try congruence; try lia.
  - intros x Hx. rewrite C', md_old0 by lia. apply C.
  - intros b Hb. rewrite D', md_bufs0 by lia. apply D.
  - intros e. specialize (md_own0 e). specialize (C' w). unfold obj_data in C'. injection C' as -> _ _. lia.
Qed.

Lemma raw_copy_data : forall o h w h1, wf h -> o < nobjs h -> raw_copy o h = (Ok w, h1) -> makes_data true h h1 w (data h o).
Proof.
  intros o h w h1 Hwf Ho E. destruct (raw_copy_run o h Hwf Ho) as (h1' & E1 & G & F & P1 & P2 & P3 & P4).
  rewrite E1 in E. injection E as <- <-. destruct F, G. constructor; auto.
  - intros x Hx. destruct (Nat.eq_dec x o); [subst; rewrite g_self; reflexivity|rewrite g_other; auto].
  - unfold data. rewrite P1, P2, P4. cbn [skipn]. rewrite firstn_firstn, Nat.min_id. reflexivity.
Qed.
Lemma copy_data : forall o h w h1, wf h -> o < nobjs h -> copy o h = (Ok w, h1) -> makes_data true h h1 w (data h o).
Proof.
  intros o h w h1 Hwf Ho E. rewrite copy_body_assoc in E.
  assert (E' : decorated o (bind (raw_copy o) (fun w => bind (ret tt) (fun _ => bind (dec_depth w) (fun _ =>
     bind (append_history w [TLine "copy" [w; o]] 0) (fun _ => ret w))))) h = (Ok w, h1)).
  { rewrite <- E. rewrite !decorated_unfold. unfold bind. destruct (raw_copy o (raised o h)) as [[v|e] g]; reflexivity. }
  apply nested_data in E'. destruct E' as (g1 & g2 & E1 & E2 & S). injection E2 as <-.
  pose proof (same_data_raised o h) as S0. destruct (raised_grows o h Ho) as (_ & N0 & _).
  rewrite <- (same_data_data _ _ S0).
  eapply makes_data_same; [exact S0| |exact S]. apply raw_copy_data; auto. apply wf_raised; auto. lia.
Qed.
Lemma deepcopy_data : forall o h w h1, wf h -> o < nobjs h -> deepcopy o h = (Ok w, h1) -> makes_data true h h1 w (data h o).
Proof.
  intros o h w h1 Hwf Ho E. rewrite deepcopy_eq in E. apply nested_data in E. destruct E as (g1 & g2 & E1 & E2 & S). injection E2 as <-.
  pose proof (same_data_raised o h) as S0. destruct (raised_grows o h Ho) as (_ & N0 & _).
  rewrite <- (same_data_data _ _ S0).
  eapply makes_data_same; [exact S0| |exact S]. apply copy_data; auto. apply wf_raised; auto. lia.
Qed.

Lemma cwd_base_data : forall o h w h1, wf h -> o < nobjs h -> copy_without_data_base o h = (Ok w, h1) -> makes_data true h h1 w [].
Proof.
  intros o h w h1 Hwf Ho E. rewrite cwd_body_assoc in E.
  assert (E' : decorated o (bind (raw_cwd o) (fun w => bind (ret tt) (fun _ => bind (dec_depth w) (fun _ =>
     bind (append_history w [TLine "copy_without_data" [w; o]] 0) (fun _ => ret w))))) h = (Ok w, h1)).
  { rewrite <- E. rewrite !decorated_unfold. unfold bind. destruct (raw_cwd o (raised o h)) as [[v|e] g]; reflexivity. }
  apply nested_data in E'. destruct E' as (g1 & g2 & E1 & E2 & S). injection E2 as <-.
  eapply makes_data_same; [apply (same_data_raised o h)| |exact S].
  destruct (raised_grows o h Ho) as (_ & N0 & _). pose proof (wf_raised o h Ho Hwf) as W0.
  set (h0 := raised o h) in *.
  destruct (construct_empty_run h0 W0) as (h2 & E0 & W & N & L & B & O1 & O2 & LL & BB).
  unfold raw_cwd, bind at 1 in E1. rewrite E0 in E1. cbn in E1. injection E1 as <- <-.
  constructor; cbn; auto; try lia.
  - intros x Hx. rewrite fupd_other by lia. rewrite O1; auto.
  - unfold data. cbn. rewrite fupd_same, O2. reflexivity.
  - intros _. rewrite fupd_same, O2. cbn. lia.
Qed.
Lemma cwd_data : forall o h w h1, wf h -> o < nobjs h -> copy_without_data o h = (Ok w, h1) -> makes_data true h h1 w [].
Proof.
  intros o h w h1 Hwf Ho E. rewrite cwd_eq in E. apply nested_data in E. destruct E as (g1 & g2 & E1 & E2 & S). injection E2 as <-.
  destruct (raised_grows o h Ho) as (_ & N0 & _).
  eapply makes_data_same; [apply (same_data_raised o h)| |exact S]. eapply cwd_base_data; eauto. apply wf_raised; auto. lia.
Qed.

(** Setting the data fields of the new object. *)
Lemma set_data_step : forall own own' h h1 w rows b off len h2, makes_data own h h1 w rows ->
  h2 = mkheap (lists h1) (nlists h1) (bufs h1) (nbufs h1) (fupd (objs h1) w (with_data (objs h1 w) b off len)) (nobjs h1) ->
  (own' = true -> nbufs h <= b) ->
  makes_data own' h h2 w (firstn len (skipn off (bufs h1 b))).
Proof.
  intros own own' h h1 w rows b off len h2 [] -> Hb. subst w. constructor; cbn; auto.
  - intros x Hx. rewrite fupd_other by lia. auto.
  - unfold data. cbn. rewrite fupd_same. reflexivity.
  - intros e. rewrite fupd_same. cbn. auto.
Qed.
Lemma alloc_step : forall own h h1 w rows new, makes_data own h h1 w rows -> (o_buf (objs h1 w) < nbufs h1) ->
  makes_data own h (snd (alloc_buf new h1)) w rows.
Proof.
  intros own h h1 w rows new [] Hb. constructor; cbn; auto; try lia.
  - intros b Hb'. rewrite fupd_other by lia. auto.
  - rewrite <- md_new0. unfold data. cbn. rewrite fupd_other by lia. reflexivity.
Qed.

(** A row slice shares the buffer of the object it is taken from. *)
Definition window (h h' : heap) (o w a n : nat) : Prop :=
  obj_data (objs h' w) = (o_buf (objs h o), o_off (objs h o) + a, Nat.min n (o_len (objs h o) - a)).

Lemma window_same : forall h0 h h1 h2 o w a n, same_data h0 h -> window h h1 o w a n -> same_data h1 h2 -> window h0 h2 o w a n.
Proof.
  intros h0 h h1 h2 o w a n (_ & _ & C & _) W (_ & _ & C' & _). unfold window in *. rewrite C', W.
  specialize (C o). unfold obj_data in C. injection C as -> -> ->. reflexivity.
Qed.

Lemma getitem_base_data : forall o a n h w h1, wf h -> o < nobjs h -> getitem_base o a n h = (Ok w, h1) ->
  makes_data false h h1 w (firstn n (skipn a (data h o))) /\ window h h1 o w a n.
Proof.
  intros o a n h w h1 Hwf Ho E. rewrite getitem_base_eq in E. apply nested_data in E. destruct E as (g1 & g2 & E1 & E2 & S).
  destruct (raised_grows o h Ho) as (_ & N0 & _). pose proof (wf_raised o h Ho Hwf) as W0.
  pose proof (same_data_raised o h) as S0.
  apply cwd_base_data in E1; auto; [|lia].
  cbn in E2. injection E2 as E2. symmetry in E2.
  pose proof (set_data_step _ false _ _ _ _ _ _ _ _ E1 E2 ltac:(discriminate)) as MD.
  assert (Ho1 : obj_data (objs g1 o) = obj_data (objs h o)).
  { rewrite (md_old _ _ _ _ _ E1) by lia. apply S0. }
  unfold obj_data in Ho1. injection Ho1 as e1 e2 e3.
  split.
  - eapply makes_data_same; [exact S0| |exact S].
    replace (firstn n (skipn a (data h o))) with (firstn (Nat.min n (o_len (objs g1 o) - a)) (skipn (o_off (objs g1 o) + a) (bufs g1 (o_buf (objs g1 o))))); auto.
    rewrite e1, e2, e3. rewrite (md_bufs _ _ _ _ _ E1).
    2:{ destruct (Hwf o Ho). destruct S0 as (_ & -> & _). auto. }
    destruct S0 as (_ & _ & _ & ->). unfold data.
    rewrite skipn_firstn_comm, firstn_firstn, skipn_skipn. reflexivity.
  - unfold window. destruct S as (_ & _ & -> & _). rewrite E2. cbn. rewrite fupd_same. unfold obj_data. cbn.
    rewrite e1, e2, e3. reflexivity.
Qed.

Lemma getitem_data : forall o a n h w h1, wf h -> o < nobjs h -> getitem o a n true h = (Ok w, h1) ->
  makes_data false h h1 w (firstn n (skipn a (data h o))) /\ window h h1 o w a n.
Proof.
  intros o a n h w h1 Hwf Ho E.
  assert (E' : decorated o (bind (getitem_base o a n) (fun w => bind (pop_history w) (fun _ => bind (dec_depth w) (fun _ =>
     bind (append_history w [TLine "getitem" [w; o]] 0) (fun _ => ret w))))) h = (Ok w, h1)) by exact E.
  apply nested_data in E'. destruct E' as (g1 & g2 & E1 & E2 & S).
  destruct (raised_grows o h Ho) as (_ & N0 & _). pose proof (wf_raised o h Ho Hwf) as W0.
  pose proof (same_data_raised o h) as S0.
  apply getitem_base_data in E1; auto; [|lia]. destruct E1 as [E1 V1].
  assert (S2 : same_data g1 g2) by (cbn in E2; injection E2 as <-; repeat split).
  pose proof (same_data_trans _ _ _ S2 S) as S3. rewrite <- (same_data_data _ _ S0).
  split; [eapply makes_data_same|eapply window_same]; eauto.
Qed.

Lemma rebuild_data : forall name o rows h w h1, wf h -> o < nobjs h -> rebuild name o rows h = (Ok w, h1) ->
  makes_data true h h1 w rows.
Proof.
  intros name o rows h w h1 Hwf Ho E. rewrite rebuild_eq in E. apply nested_data in E. destruct E as (g1 & g2 & E1 & E2 & S).
  destruct (raised_grows o h Ho) as (_ & N0 & _). pose proof (wf_raised o h Ho Hwf) as W0.
  pose proof (same_data_raised o h) as S0.
  assert (Hb : o_buf (objs g1 w) < nbufs g1).
  { destruct (makes_cwd_base o (raised o h) W0 ltac:(lia)) as (g & Eg & _ & _ & F). rewrite Eg in E1. injection E1 as <- <-. apply F. }
  apply cwd_base_data in E1; auto; [|lia].
  pose proof (alloc_step _ _ _ _ _ rows E1 Hb) as A.
  assert (Hnb := md_nb _ _ _ _ _ E1).
  cbn in E2. injection E2 as E2. symmetry in E2.
  pose proof (set_data_step _ true _ _ _ _ _ 0 (List.length rows) _ A E2 (fun _ => Hnb)) as MD.
  cbn in MD. rewrite fupd_same, firstn_all in MD.
  eapply makes_data_same; [exact S0|exact MD|exact S].
Qed.

Lemma parity_data : forall o f h w h1, wf h -> o < nobjs h -> (0 <= o_depth (objs h o))%Z -> parity_conjugate o f true h = (Ok w, h1) ->
  makes_data true h h1 w (map f (data h o)).
Proof.
  intros o f h w h1 Hwf Ho Hd E.
  assert (E' : decorated o (bind (getitem o 0 0 true) (fun w => bind (parity_step f o w) (fun _ => bind (dec_depth w) (fun _ =>
     bind (append_history w [TLine "parity_conjugate" [w; o]] 0) (fun _ => ret w))))) h = (Ok w, h1)).
  { rewrite <- E. unfold parity_conjugate. rewrite !decorated_unfold. unfold parity_step, bind.
    destruct (getitem o 0 0 true (raised o h)) as [[v|e] g]; reflexivity. }
  apply nested_data in E'. destruct E' as (g1 & g2 & E1 & E2 & S). clear E.
  destruct (raised_grows o h Ho) as (G0 & N0 & _). pose proof (wf_raised o h Ho Hwf) as W0.
  pose proof (same_data_raised o h) as S0.
  assert (Hb : o_buf (objs g1 w) < nbufs g1).
  { destruct (makes_getitem 0 0 o (raised o h) W0 ltac:(lia)) as (g & Eg & _ & _ & F).
    { rewrite (g_self _ _ _ _ _ _ G0). cbn. lia. }
    rewrite Eg in E1. injection E1 as <- <-. apply F. }
  apply getitem_data in E1; auto; [|lia]. destruct E1 as [E1 _].
  assert (Hnb := md_nb _ _ _ _ _ E1).
  assert (Ho1 : data g1 o = data h o).
  { rewrite <- (same_data_data _ _ S0). unfold data. pose proof (md_old _ _ _ _ _ E1 o ltac:(lia)) as e.
    unfold obj_data in e. injection e as -> -> ->. rewrite (md_bufs _ _ _ _ _ E1); auto. apply W0; lia. }
  pose proof (alloc_step _ _ _ _ _ (map f (data g1 o)) E1 Hb) as A.
  assert (Hlen : o_len (objs g1 o) = o_len (objs h o)).
  { pose proof (md_old _ _ _ _ _ E1 o ltac:(lia)) as e. unfold obj_data in e. injection e as _ _ ->.
    destruct S0 as (_ & _ & C & _). specialize (C o). unfold obj_data in C. injection C as _ _ ->. reflexivity. }
  cbn in E2. injection E2 as E2. symmetry in E2.
  pose proof (set_data_step _ true _ _ _ _ _ 0 (o_len (objs g1 o)) _ A E2 (fun _ => Hnb)) as MD.
  cbn in MD. rewrite fupd_same, Ho1 in MD.
  replace (firstn (o_len (objs g1 o)) (map f (data h o))) with (map f (data h o)) in MD.
  2:{ symmetry. apply firstn_all2. rewrite map_length, Hlen. unfold data. rewrite firstn_length. lia. }
  eapply makes_data_same; [exact S0|exact MD|exact S].
Qed.

Lemma part_data : forall o f g h w h1, wf h -> o < nobjs h -> (0 <= o_depth (objs h o))%Z -> parity_part o f g true h = (Ok w, h1) ->
  makes_data true h h1 w (map (fun r => g r (f r)) (data h o)).
Proof.
  intros o f g h w h1 Hwf Ho Hd E.
  assert (E' : decorated o (bind (parity_conjugate o f true) (fun w => bind (part_step g o w) (fun _ => bind (dec_depth w) (fun _ =>
     bind (append_history w [TLine "parity_part" [w; o]] 0) (fun _ => ret w))))) h = (Ok w, h1)).
  { rewrite <- E. unfold parity_part. rewrite !decorated_unfold. unfold part_step, bind.
    destruct (parity_conjugate o f true (raised o h)) as [[v|e] g']; reflexivity. }
  apply nested_data in E'. destruct E' as (g1 & g2 & E1 & E2 & S). clear E.
  destruct (raised_grows o h Ho) as (G0 & N0 & _). pose proof (wf_raised o h Ho Hwf) as W0.
  pose proof (same_data_raised o h) as S0.
  assert (Hd1 : (0 <= o_depth (objs (raised o h) o))%Z) by (rewrite (g_self _ _ _ _ _ _ G0); cbn; lia).
  assert (Hbuf : o_buf (objs g1 w) < nbufs g1).
  { destruct (makes_parity f o (raised o h) W0 ltac:(lia) Hd1) as (g' & Eg & _ & _ & F).
    rewrite Eg in E1. injection E1 as <- <-. apply F. }
  apply parity_data in E1; auto; [|lia].
  assert (Hnb := md_nb _ _ _ _ _ E1).
  assert (Ho1 : data g1 o = data h o).
  { rewrite <- (same_data_data _ _ S0). unfold data. pose proof (md_old _ _ _ _ _ E1 o ltac:(lia)) as e.
    unfold obj_data in e. injection e as -> -> ->. rewrite (md_bufs _ _ _ _ _ E1); auto. apply W0; lia. }
  assert (Hw1 : data g1 w = map f (data h o)) by (rewrite (md_new _ _ _ _ _ E1), (same_data_data _ _ S0); auto).
  set (new := map (fun p => g (fst p) (snd p)) (combine (data g1 o) (data g1 w))).
  assert (Enew : new = map (fun r => g r (f r)) (data h o)).
  { unfold new. rewrite Ho1, Hw1. clear. induction (data h o); cbn; congruence. }
  pose proof (alloc_step _ _ _ _ _ new E1 Hbuf) as A.
  assert (Hlen : o_len (objs g1 o) = o_len (objs h o)).
  { pose proof (md_old _ _ _ _ _ E1 o ltac:(lia)) as e. unfold obj_data in e. injection e as _ _ ->.
    destruct S0 as (_ & _ & C & _). specialize (C o). unfold obj_data in C. injection C as _ _ ->. reflexivity. }
  cbn in E2. injection E2 as E2. symmetry in E2.
  pose proof (set_data_step _ true _ _ _ _ (nbufs g1) 0 (o_len (objs g1 o)) _ A E2 (fun _ => Hnb)) as MD.
  cbn in MD. rewrite fupd_same, Enew in MD.
  rewrite firstn_all2 in MD by (rewrite map_length, Hlen; unfold data; rewrite firstn_length; lia).
  eapply makes_data_same; [exact S0|exact MD|exact S].
Qed.

(** Data effect of every operation that makes a new object. *)
Definition new_rows (p : op row) (d : list row) : list row :=
  match p with
  | OpCopy _ | OpDeepcopy _ | OpCopyConstruct _ _ => d
  | OpSlice _ a n _ => firstn n (skipn a d)
  | OpRebuild _ _ rows => rows
  | OpParity _ f _ => map f d
  | OpParityPart _ f g _ => map (fun r => g r (f r)) d
  | OpGridConversion _ _ rows _ => rows
  | _ => []
  end.
Definition is_slice (p : op row) : bool := match p with OpSlice _ _ _ _ => true | _ => false end.

Lemma run_make_data : forall p h r h', is_make p = true \/ is_grid p = true -> wf h -> subject p < nobjs h ->
  o_depth (objs h (subject p)) = 0%Z -> run_op p h = (Ok r, h') ->
  makes_data (negb (is_slice p)) h h' r (new_rows p (data h (subject p))).
Proof.
  intros p h r h' Hm Hwf Ho Hd E.
  assert (Hpos : (0 <= o_depth (objs h (subject p)))%Z) by lia.
  destruct p; cbn in Hm; try (destruct Hm; discriminate); cbn [run_op subject is_slice negb new_rows] in *.
  - apply copy_data; auto.
  - apply deepcopy_data; auto.
  - eapply cwd_data; eauto.
  - destruct ok; [apply getitem_data; auto|].
    unfold getitem in E. rewrite decorated_unfold in E. discriminate.
  - eapply rebuild_data; eauto.
  - destruct ok; [apply parity_data; auto|].
    unfold parity_conjugate in E. rewrite decorated_unfold in E. discriminate.
  - destruct ok; [apply part_data; auto|].
    unfold parity_part in E. rewrite decorated_unfold in E. unfold bind at 1 in E.
    unfold parity_conjugate in E. rewrite decorated_unfold in E. discriminate.
  - destruct valid; [|exfalso; eapply construct_copy_invalid; eauto].
    destruct (construct_copy_run o h Hwf Ho) as (h1 & E1 & W1 & G1 & F1 & D1 & B1).
    rewrite E1 in E. injection E as <- <-. destruct F1, G1. constructor; auto.
    intros x Hx. destruct (Nat.eq_dec x o); [subst; rewrite g_self; reflexivity|rewrite g_other; auto].
  - destruct (run_grid name o rows valid h r h' Hwf Ho E) as (Er & W & N & O1 & O2 & O3 & O4 & LL & BB & NB & OB).
    constructor; auto. intros x Hx. rewrite O1; auto.
Qed.

(** In-place effect on the rows of the subject. *)
Definition edit_fun (p : op row) : row -> row :=
  match p with
  | OpInplace _ _ f | OpRotate _ f _ | OpRotateBy _ _ f _ | OpAlign _ f _ => f
  | _ => fun r => r
  end.
Record edits_data (h h' : heap) (o : nat) (f : row -> row) : Prop := {
  ed_no : nobjs h' = nobjs h; ed_nb : nbufs h' = nbufs h;
  ed_objs : forall x, obj_data (objs h' x) = obj_data (objs h x);
  ed_bufs : forall b, b <> o_buf (objs h o) -> bufs h' b = bufs h b;
  ed_own : let bl := bufs h (o_buf (objs h o)) in let x := objs h o in
     bufs h' (o_buf x) = firstn (o_off x) bl ++ map f (firstn (o_len x) (skipn (o_off x) bl)) ++ skipn (o_off x + o_len x) bl }.

Lemma edits_data_same : forall h0 h h1 h' o f, same_data h0 h -> edits_data h h1 o f -> same_data h1 h' -> edits_data h0 h' o f.
Proof.
  intros h0 h h1 h' o f (A & B & C & D) [] (A' & B' & C' & D'). pose proof (C o) as Co. unfold obj_data in Co.
  injection Co as e1 e2 e3. cbn in ed_own0. rewrite e1, e2, e3, D in ed_own0. rewrite e1 in ed_bufs0.
  constructor; try congruence.
  - intros b Hb. rewrite D', ed_bufs0 by auto. apply D.
  - cbn. rewrite D'. exact ed_own0.
Qed.
Lemma inplace_data : forall o f h, exists h', inplace o f h = (Ok tt, h') /\ edits_data h h' o f.
Proof.
  intros. eexists. split; [reflexivity|]. constructor; cbn; auto.
  - intros. apply fupd_other. auto.
  - apply fupd_same.
Qed.
Lemma edits_data_id : forall h h' o, same_data h h' -> edits_data h h' o (fun r => r).
Proof.
  intros h h' o (A & B & C & D). constructor; auto. cbn. rewrite D, map_id.
  rewrite <- (firstn_skipn (o_off (objs h o)) (bufs h (o_buf (objs h o)))) at 1. f_equal.
  rewrite <- (firstn_skipn (o_len (objs h o)) (skipn (o_off (objs h o)) (bufs h (o_buf (objs h o))))) at 1. f_equal.
  apply skipn_skipn.
Qed.

Lemma rotate_data : forall o f h r h', rotate_decomposition_basis o f true h = (Ok r, h') -> edits_data h h' o f.
Proof.
  intros o f h r h' E. unfold rotate_decomposition_basis in E. rewrite decorated_unfold in E. unfold bind at 1 in E.
  destruct (inplace_data o f (raised o h)) as (h1 & E1 & D1). rewrite E1 in E.
  destruct (same_data_finish o (TLine "rotate_decomposition_basis" [o]) h1) as (h2 & E2 & S2). rewrite E2 in E.
  injection E as <- <-.
  eapply edits_data_same; [apply (same_data_raised o)|exact D1|]. eapply same_data_trans; [exact S2|apply same_data_lowered].
Qed.

Lemma same_data_ensure : forall o pm pb h r h', ensure_validity_modes o pm pb false h = (Ok r, h') -> same_data h h'.
Proof.
  assert (D : forall A o (m : M row A), (forall h r h', m h = (Ok r, h') -> same_data h h') ->
    forall h r h', decorated o m h = (Ok r, h') -> same_data h h').
  { intros A o m H h r h' E. rewrite decorated_unfold in E. destruct (m (raised o h)) as [[a|e] h2] eqn:E2; [|discriminate].
    injection E as <- <-. eapply same_data_trans; [apply (same_data_raised o)|]. eapply same_data_trans; [eapply H; eauto|apply same_data_lowered]. }
  assert (F : forall o t A (v : A) h r h', bind (dec_depth o) (fun _ => bind (append_history o [t] 0) (fun _ => ret v)) h = (Ok r, h') -> same_data h h').
  { intros o t A v h r h' E. cbn in E. injection E as <- <-. split; [reflexivity|]. split; [reflexivity|]. split; [|reflexivity].
    intros x. cbn. unfold fupd. destruct (Nat.eqb_spec x o); subst; reflexivity. }
  intros o pm pb h r h' E. unfold ensure_validity_modes in E. eapply D; [|exact E]. clear - D F.
  intros h r h' E. destruct pm.
  - unfold bind at 1 in E. destruct (ensure_validity_base o pb false h) as [[b|e] h1] eqn:E1; [|discriminate].
    eapply same_data_trans; [|eapply F; exact E].
    unfold ensure_validity_base in E1. eapply D; [|exact E1]. intros g r' g' E'. destruct pb; [eapply F; exact E'|].
    injection E' as <- <-. apply same_data_refl.
  - injection E as <- <-. apply same_data_refl.
Qed.

Lemma same_data_note : forall o t h, exists h', bind (append_history o [t] 0) (fun _ => ret o) h = (Ok o, h') /\ same_data h h'.
Proof. intros. eexists. split; [reflexivity|]. repeat split. Qed.

Lemma run_edit_data : forall p h r h', is_make p = false -> is_grid p = false -> run_op p h = (Ok r, h') ->
  edits_data h h' (subject p) (edit_fun p).
Proof.
  intros p h r h' Em Eg E. destruct p; try discriminate; cbn [run_op subject edit_fun] in *.
  - unfold inplace_method in E. rewrite decorated_unfold in E. unfold bind at 1 in E.
    destruct (inplace_data o f (raised o h)) as (h1 & E1 & D1). rewrite E1 in E.
    destruct (same_data_note o (TLine name [o]) h1) as (h2 & E2 & S2). rewrite E2 in E. injection E as <- <-.
    eapply edits_data_same; [apply (same_data_raised o)|exact D1|].
    eapply same_data_trans; [exact S2|apply same_data_lowered].
  - destruct ok; [eapply rotate_data; eauto|].
    unfold rotate_decomposition_basis in E. rewrite decorated_unfold in E. discriminate.
  - unfold rotate_by in E. rewrite decorated_unfold in E. unfold bind at 1 in E.
    destruct (rotate_decomposition_basis o f ok (raised o h)) as [[u|e] h1] eqn:E1; [|discriminate].
    destruct ok; [|unfold rotate_decomposition_basis in E1; rewrite decorated_unfold in E1; discriminate].
    apply rotate_data in E1.
    destruct (same_data_note o (TLine name [o]) h1) as (h2 & E2 & S2). rewrite E2 in E. injection E as <- <-.
    eapply edits_data_same; [apply (same_data_raised o)|exact E1|].
    eapply same_data_trans; [exact S2|apply same_data_lowered].
  - unfold align_frame in E. rewrite decorated_unfold in E. unfold bind at 1 in E.
    destruct (append_history o [TLine "align_decomposition_frame_to_modes" [o]] 0 (raised o h)) as [[u|e] h1] eqn:E0; [|discriminate].
    destruct (rotate_decomposition_basis o f ok h1) as [[v|e] h2] eqn:E1; [|discriminate].
    destruct ok; [|unfold rotate_decomposition_basis in E1; rewrite decorated_unfold in E1; discriminate].
    apply rotate_data in E1. injection E as <- <-.
    eapply edits_data_same; [|exact E1|apply same_data_lowered].
    eapply same_data_trans; [apply (same_data_raised o)|].
    pose proof (same_data_append o [TLine "align_decomposition_frame_to_modes" [o]] 0 (raised o h)) as S. rewrite E0 in S. exact S.
  - unfold is_valid, bind in E. destruct (ensure_validity_modes o pm pb false h) as [[b|e] h1] eqn:E1; [|discriminate].
    injection E as <- <-. apply edits_data_id. eapply same_data_ensure; eauto.
Qed.

Definition buf_separate (h : heap) : Prop := forall x y, x < nobjs h -> y < nobjs h ->
  o_buf (objs h x) = o_buf (objs h y) -> x = y.
(** Every object lies inside its buffer. *)
Definition in_bounds (h : heap) : Prop := forall x, x < nobjs h ->
  o_off (objs h x) + o_len (objs h x) <= List.length (bufs h (o_buf (objs h x))).

Lemma obj_data_buf : forall x y, obj_data x = obj_data y -> o_buf x = o_buf y.
Proof. unfold obj_data. congruence. Qed.

(** What one operation does to the data of the objects that existed before: nothing if it makes a new
    object; otherwise exactly the row function, on the subject's rows. *)
Lemma step_data : forall p h r h', wf h -> depths_zero h -> buf_separate h -> is_slice p = false -> subject p < nobjs h ->
  run_op p h = (Ok r, h') ->
  buf_separate h' /\ (forall y, y < nobjs h -> y <> subject p -> data h' y = data h y).
Proof.
  intros p h r h' Hwf Hz Hs Hsl Ho E.
  destruct (is_make p) eqn:Em; [|destruct (is_grid p) eqn:Eg].
  1,2: pose proof (run_make_data p h r h' ltac:(auto) Hwf Ho (Hz _ Ho) E) as MD; rewrite Hsl in MD; destruct MD; subst r;
    specialize (md_own0 eq_refl); split;
    [ intros x y Hx Hy; rewrite md_no0 in Hx, Hy;
      destruct (Nat.eq_dec x (nobjs h)) as [->|], (Nat.eq_dec y (nobjs h)) as [->|]; auto;
      [ rewrite (obj_data_buf _ _ (md_old0 y ltac:(lia))); pose proof (Hwf y ltac:(lia)); lia
      | rewrite (obj_data_buf _ _ (md_old0 x ltac:(lia))); pose proof (Hwf x ltac:(lia)); lia
      | rewrite (obj_data_buf _ _ (md_old0 x ltac:(lia))), (obj_data_buf _ _ (md_old0 y ltac:(lia))); apply Hs; lia ]
    | intros y Hy _; unfold data; specialize (md_old0 y Hy); unfold obj_data in md_old0; injection md_old0 as -> -> ->;
      rewrite md_bufs0 by (apply Hwf; auto); reflexivity ].
  pose proof (run_edit_data p h r h' Em Eg E) as [].
  split.
  - intros x y Hx Hy. rewrite ed_no0 in Hx, Hy. rewrite (obj_data_buf _ _ (ed_objs0 x)), (obj_data_buf _ _ (ed_objs0 y)). apply Hs; auto.
  - intros y Hy Hne. unfold data. specialize (ed_objs0 y). unfold obj_data in ed_objs0. injection ed_objs0 as -> -> ->.
    rewrite ed_bufs0; [reflexivity|]. intros e. apply Hs in e; auto.
Qed.

(** Programs without slicing: no two objects ever share data, and an object the program does not
    operate on keeps its data. *)
Theorem C51_data_stay_separate : forall h ps h', wf h -> depths_zero h -> buf_separate h -> runs h ps h' ->
  Forall (fun p => is_slice p = false) ps ->
  buf_separate h' /\ forall y, y < nobjs h -> Forall (fun p => subject p <> y) ps -> data h' y = data h y.
Proof.
  intros h ps h' Hwf Hz Hs H. induction H; intros HF; [auto|]. inversion HF; subst.
  destruct (step_depths _ _ _ _ Hwf Hz H H0) as (W & Z & Hle & _).
  destruct (step_data _ _ _ _ Hwf Hz Hs H4 H H0) as (S1 & O1).
  destruct (IHruns W Z S1 H5) as (S2 & O2). split; auto.
  intros y Hy HFy. inversion HFy; subst. rewrite O2 by (auto; lia). apply O1; auto.
Qed.

(** The new object of a making operation carries exactly the documented rows, and no old object's data
    change. *)
Theorem C51_new_object_data : forall p h r h', is_make p = true \/ is_grid p = true -> wf h -> depths_zero h ->
  subject p < nobjs h -> run_op p h = (Ok r, h') ->
  data h' r = new_rows p (data h (subject p)) /\ forall y, y < nobjs h -> data h' y = data h y.
Proof.
  intros p h r h' Hm Hwf Hz Ho E. destruct (run_make_data p h r h' Hm Hwf Ho (Hz _ Ho) E). split; auto.
  intros y Hy. unfold data. specialize (md_old0 y Hy). unfold obj_data in md_old0. injection md_old0 as -> -> ->.
  rewrite md_bufs0 by (apply Hwf; auto). reflexivity.
Qed.

Lemma splice_lens : forall (A : Type) (f : A -> A) (bl : list A) off len a n, off + len <= List.length bl -> a + n <= len ->
  firstn len (skipn off (firstn (off + a) bl ++ map f (firstn n (skipn (off + a) bl)) ++ skipn (off + a + n) bl)) =
  firstn a (firstn len (skipn off bl)) ++ map f (firstn n (skipn a (firstn len (skipn off bl)))) ++ skipn (a + n) (firstn len (skipn off bl)).
Proof.
  intros A f bl off len a n H1 H2.
  rewrite skipn_app, firstn_length_le by lia. replace (off - (off + a)) with 0 by lia. cbn [skipn].
  rewrite skipn_firstn_comm. replace (off + a - off) with a by lia.
  rewrite firstn_firstn, Nat.min_l by lia.
  rewrite firstn_app, firstn_firstn, Nat.min_r by lia.
  rewrite firstn_length_le by (rewrite skipn_length; lia).
  f_equal.
  rewrite firstn_app, map_length, firstn_length_le by (rewrite skipn_length; lia).
  rewrite (firstn_all2 (map _ _)) by (rewrite map_length, firstn_length_le; rewrite ?skipn_length; lia).
  f_equal.
  - f_equal. rewrite skipn_firstn_comm, firstn_firstn, skipn_skipn, Nat.min_l by lia. reflexivity.
  - rewrite skipn_firstn_comm, skipn_skipn. f_equal; [lia|f_equal; lia].
Qed.

(** Slices are views: changing a slice in place rewrites the corresponding rows of the original. *)
Theorem C51_slice_is_a_view_refuted : forall o a n f h w h1 h2, wf h -> depths_zero h -> in_bounds h -> o < nobjs h ->
  a + n <= o_len (objs h o) ->
  run_op (OpSlice o a n true) h = (Ok w, h1) -> run_op (OpInplace "truncate" w f) h1 = (Ok w, h2) ->
  w <> o /\
  data h2 o = firstn a (data h o) ++ map f (firstn n (skipn a (data h o))) ++ skipn (a + n) (data h o).
Proof.
  intros o a n f h w h1 h2 Hwf Hz Hb Ho Han E1 E2. cbn [run_op] in E1.
  destruct (getitem_data o a n h w h1 Hwf Ho E1) as [MD Wd].
  destruct (run_edit_data (OpInplace "truncate" w f) h1 w h2 eq_refl eq_refl E2). cbn [subject edit_fun] in *.
  destruct MD. split; [lia|].
  pose proof (ed_objs0 o) as D2. rewrite md_old0 in D2 by auto. unfold obj_data in D2. injection D2 as e1 e2 e3.
  unfold window, obj_data in Wd. injection Wd as f1 f2 f3.
  unfold data. rewrite e1, e2, e3. cbn in ed_own0. rewrite f1 in ed_own0. rewrite ed_own0, f2, f3.
  rewrite md_bufs0 by (apply Hwf; auto).
  replace (Nat.min n (o_len (objs h o) - a)) with n by lia.
  apply splice_lens; auto.
Qed.

(** copy() is independent: the same in-place change of the copy leaves the original alone. *)
Theorem C51_copy_is_not_a_view : forall o name f h w h1 h2, wf h -> depths_zero h -> o < nobjs h ->
  run_op (OpCopy o) h = (Ok w, h1) -> run_op (OpInplace name w f) h1 = (Ok w, h2) -> data h2 o = data h o.
Proof.
  intros o name f h w h1 h2 Hwf Hz Ho E1 E2. cbn [run_op] in E1.
  destruct (copy_data o h w h1 Hwf Ho E1). specialize (md_own0 eq_refl).
  destruct (run_edit_data (OpInplace name w f) h1 w h2 eq_refl eq_refl E2). cbn [subject edit_fun] in *.
  pose proof (ed_objs0 o) as D2. rewrite md_old0 in D2 by auto. unfold obj_data in D2. injection D2 as e1 e2 e3.
  unfold data. rewrite e1, e2, e3. pose proof (Hwf o Ho). rewrite ed_bufs0 by lia. rewrite md_bufs0 by lia. reflexivity.
Qed.
End P.

(** A concrete heap meeting the hypotheses: two objects with three and two rows. *)
Definition h0 : heap nat :=
  mkheap (fun l => match l with 0 => [(0%Z, TLine "W" [0])] | _ => [(0%Z, TLine "V" [1])] end) 2
         (fun b => match b with 0 => [10; 20; 30] | _ => [7; 8] end) 2
         (fun o => match o with 0 => mkobj 0 0 0 0 3 | _ => mkobj 1 0 1 0 2 end) 2.
Example case_h0 : wf h0 /\ depths_zero h0 /\ separate h0 /\ buf_separate h0 /\ in_bounds h0.
Proof.
  assert (H : forall x, x < nobjs h0 -> x = 0 \/ x = 1) by (cbn; lia).
  split; [|split; [|split; [|split]]].
  - intros x Hx. destruct (H x Hx); subst; cbn; lia.
  - intros x Hx. destruct (H x Hx); subst; reflexivity.
  - intros x y Hx Hy. destruct (H x Hx), (H y Hy); subst; cbn; lia.
  - intros x y Hx Hy. destruct (H x Hx), (H y Hy); subst; cbn; lia.
  - intros x Hx. destruct (H x Hx); subst; cbn; lia.
Qed.
(** Copy, rotate the copy, slice the original, scale the slice: the trace runs, and the original's rows
    1 and 2 are changed through the slice, while the rotation of the copy is not visible in it. *)
Example case_program :
  let p1 := [OpCopy 0; OpRotate 2 (fun r => r + 1) true; OpSlice 0 1 2 true; OpInplace "truncate" 3 (fun r => 2 * r)] in
  let h' := snd (run_ops false p1 h0) in
  fst (run_ops false p1 h0) = Ok tt /\ data h' 0 = [10; 40; 60] /\ data h' 2 = [11; 21; 31] /\
  script h' 2 = [(0%Z, TLine "W" [0]); (0%Z, TLine "copy" [2; 0]); (0%Z, TLine "rotate_decomposition_basis" [2])] /\
  script h' 3 = [(0%Z, TLine "W" [0]); (0%Z, TLine "getitem" [3; 0])] /\
  map (fun x => o_depth (objs h' x)) [0; 1; 2; 3] = [0; 0; 0; 0]%Z.
Proof. vm_compute. repeat split. Qed.
