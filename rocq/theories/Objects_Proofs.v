(** C15, C16, C51: history depth, history contents and sharing between waveform objects. *)
From Coq Require Import List Arith Lia Bool String ZArith.
From Verif Require Import Common Objects_Model.
Import ListNotations.
Open Scope nat_scope.

Section P.
Context {row : Type}.
Notation heap := (heap row).
Notation M := (M row).

Lemma fupd_same : forall A (f : nat -> A) k v, fupd f k v k = v.
Proof. intros. unfold fupd. rewrite Nat.eqb_refl. reflexivity. Qed.
Lemma fupd_other : forall A (f : nat -> A) k v x, x <> k -> fupd f k v x = f x.
Proof. intros. unfold fupd. destruct (Nat.eqb_spec x k); congruence. Qed.

(** All references are allocated. *)
Definition wf (h : heap) : Prop := forall x, x < nobjs h -> o_hist (objs h x) < nlists h /\ o_buf (objs h x) < nbufs h.

(** [h'] extends [h]: object [o] has its depth set to [d] and [add] appended to its history list, and
    nothing else that existed in [h] changed (buffers: only that of [o], and only if [touch]). *)
Record grows (touch : bool) (h h' : heap) (o : nat) (add : list entry) (d : Z) : Prop := {
  g_no : nobjs h <= nobjs h'; g_nl : nlists h <= nlists h'; g_nb : nbufs h <= nbufs h';
  g_other : forall x, x < nobjs h -> x <> o -> objs h' x = objs h x;
  g_self : objs h' o = with_depth (objs h o) d;
  g_lists : forall l, l < nlists h ->
     lists h' l = if Nat.eqb l (o_hist (objs h o)) then lists h l ++ add else lists h l;
  g_bufs : forall b, b < nbufs h -> (touch = false \/ b <> o_buf (objs h o)) -> bufs h' b = bufs h b }.

Record fresh (h h' : heap) (w : nat) (d : Z) (hl : list entry) : Prop := {
  f_w : w = nobjs h; f_no : nobjs h' = S (nobjs h);
  f_depth : o_depth (objs h' w) = d;
  f_hist : nlists h <= o_hist (objs h' w) < nlists h';
  f_list : lists h' (o_hist (objs h' w)) = hl;
  f_buf : o_buf (objs h' w) < nbufs h' }.

Lemma with_depth_twice : forall x a b, with_depth (with_depth x a) b = with_depth x b.
Proof. reflexivity. Qed.
Lemma with_depth_self : forall x, with_depth x (o_depth x) = x.
Proof. intros []. reflexivity. Qed.

Lemma grows_refl : forall t h o, grows t h h o [] (o_depth (objs h o)).
Proof.
  intros. constructor; auto. - rewrite with_depth_self. auto.
  - intros. rewrite app_nil_r. destruct (Nat.eqb l (o_hist (objs h o))); auto.
Qed.

Lemma grows_trans : forall t t' h h1 h2 o a b d e,
  grows t h h1 o a d -> grows t' h1 h2 o b e -> grows (t || t') h h2 o (a ++ b) e.
Proof.
  intros t t' h h1 h2 o a b d e [] [].
  assert (Eh : o_hist (objs h1 o) = o_hist (objs h o)) by (rewrite g_self0; reflexivity).
  assert (Eb : o_buf (objs h1 o) = o_buf (objs h o)) by (rewrite g_self0; reflexivity).
  constructor; try lia.
  - intros x Hx Hne. rewrite g_other1 by lia. auto.
  - rewrite g_self1, g_self0. reflexivity.
  - intros l Hl. rewrite g_lists1, g_lists0, Eh by lia. destruct (Nat.eqb l _); auto. rewrite app_assoc. auto.
  - intros x Hx Hd. rewrite g_bufs1, g_bufs0; auto; try lia.
    + destruct t; cbn in Hd; auto.
    + rewrite Eb. destruct t; cbn in Hd; destruct t'; auto.
Qed.

(** Steps on an object created later are invisible to the earlier heap. *)
Lemma grows_frame : forall t h h1 h2 o w a d b e,
  o < nobjs h -> wf h -> grows t h h1 o a d -> nobjs h <= w -> nlists h <= o_hist (objs h1 w) ->
  grows false h1 h2 w b e -> grows t h h2 o a d.
Proof.
  intros t h h1 h2 o w a d b e Ho Hwf [] Hw Hwl [].
  constructor; try lia.
  - intros x Hx Hne. rewrite g_other1 by lia. auto.
  - rewrite g_other1 by lia. auto.
  - intros l Hl. rewrite g_lists1 by lia. destruct (Nat.eqb_spec l (o_hist (objs h1 w))); [lia|]. auto.
  - intros x Hx Hd. rewrite g_bufs1; auto. lia.
Qed.

Lemma wf_grows : forall t h h' o a d, wf h -> grows t h h' o a d -> o < nobjs h -> nobjs h' = nobjs h -> wf h'.
Proof.
  intros t h h' o a d Hwf [] Ho En x Hx. rewrite En in Hx. specialize (Hwf x Hx).
  destruct (Nat.eq_dec x o).
  - subst. rewrite g_self0. cbn. lia.
  - rewrite g_other0 by auto. lia.
Qed.

Lemma wf_fresh : forall t h h' o a d w e hl, wf h -> grows t h h' o a d -> o < nobjs h ->
  fresh h h' w e hl -> wf h'.
Proof.
  intros t h h' o a d w e hl Hwf [] Ho [] x Hx. rewrite f_no0 in Hx. subst w.
  destruct (Nat.eq_dec x (nobjs h)); [subst; lia|].
  specialize (Hwf x ltac:(lia)). destruct (Nat.eq_dec x o).
  - subst. rewrite g_self0. cbn. lia.
  - rewrite g_other0 by lia. lia.
Qed.

(** Elementary steps. *)
Lemma dec_depth_run : forall o h, o < nobjs h -> exists h', dec_depth o h = (Ok tt, h') /\ nobjs h' = nobjs h /\
  grows false h h' o [] (o_depth (objs h o) - 1).
Proof.
  intros o h Ho. eexists. split; [reflexivity|]. split; [reflexivity|].
  constructor; cbn; auto.
  - intros. apply fupd_other; auto.
  - apply fupd_same.
  - intros. rewrite app_nil_r. destruct (Nat.eqb l _); auto.
Qed.

Lemma set_depth_run : forall o d h, o < nobjs h -> exists h', set_depth o d h = (Ok tt, h') /\ nobjs h' = nobjs h /\
  grows false h h' o [] d.
Proof.
  intros o d h Ho. eexists. split; [reflexivity|]. split; [reflexivity|].
  constructor; cbn; auto.
  - intros. apply fupd_other; auto.
  - apply fupd_same.
  - intros. rewrite app_nil_r. destruct (Nat.eqb l _); auto.
Qed.

Definition at_depth (d : Z) (ls : list text) : list entry := map (fun s => (d, s)) ls.

Lemma append_run : forall o ls e h, exists h', append_history o ls e h = (Ok tt, h') /\ nobjs h' = nobjs h /\
  grows false h h' o (at_depth (o_depth (objs h o) + e) ls) (o_depth (objs h o)).
Proof.
  intros o ls e h. eexists. split; [reflexivity|]. split; [reflexivity|].
  constructor; cbn; auto.
  - rewrite with_depth_self. auto.
  - intros l Hl. unfold fupd. destruct (Nat.eqb_spec l (o_hist (objs h o))); subst; auto.
Qed.

(** Effect of the same steps on the history of the object itself. *)
Lemma grows_own_list : forall t h h' o a d, grows t h h' o a d -> o_hist (objs h o) < nlists h ->
  o_hist (objs h' o) = o_hist (objs h o) /\ o_depth (objs h' o) = d /\ o_buf (objs h' o) = o_buf (objs h o) /\
  lists h' (o_hist (objs h' o)) = lists h (o_hist (objs h o)) ++ a.
Proof.
  intros t h h' o a d [] Hl. rewrite g_self0. cbn. repeat split; auto.
  rewrite g_lists0, Nat.eqb_refl by auto. auto.
Qed.

Definition blank (d : Z) : list entry := if Z.eqb d 0 then [(0%Z, TBlank)] else [].

(** The heap at the start of a decorated body. *)
Definition raised (o : nat) (h : heap) : heap :=
  snd (bind (if Z.eqb (o_depth (objs h o)) 0 then append_history o [TBlank] 0 else ret tt)
        (fun _ => set_depth o (o_depth (objs h o) + 1)) h).
Definition lowered (o : nat) (d : Z) (h : heap) : heap := snd (set_depth o d h).

Lemma decorated_unfold : forall A o (body : M A) h,
  decorated o body h =
  match body (raised o h) with
  | (Ok r, h2) => (Ok r, lowered o (o_depth (objs h o)) h2)
  | (Err e, h2) => (Err e, h2)
  end.
Proof.
  intros. unfold decorated, raised, bind, get_obj. cbn.
  destruct (Z.eqb (o_depth (objs h o)) 0); cbn; destruct (body _) as [[r|e] h2]; reflexivity.
Qed.

Lemma raised_grows : forall o h, o < nobjs h ->
  grows false h (raised o h) o (blank (o_depth (objs h o))) (o_depth (objs h o) + 1) /\
  nobjs (raised o h) = nobjs h /\ nlists (raised o h) = nlists h /\ nbufs (raised o h) = nbufs h /\
  (forall b, bufs (raised o h) b = bufs h b).
Proof.
  intros o h Ho. unfold raised, blank, bind. destruct (Z.eqb_spec (o_depth (objs h o)) 0) as [E|E]; cbn.
  - split; [|auto 6]. constructor; cbn; auto.
    + intros. apply fupd_other; auto.
    + rewrite fupd_same. reflexivity.
    + intros l Hl. unfold fupd. destruct (Nat.eqb_spec l (o_hist (objs h o))); subst; auto. rewrite E. reflexivity.
  - split; [|auto 6]. constructor; cbn; auto.
    + intros. apply fupd_other; auto.
    + rewrite fupd_same. reflexivity.
    + intros l Hl. rewrite app_nil_r. destruct (Nat.eqb l _); auto.
Qed.

Lemma lowered_grows : forall t h h2 o a d d', o < nobjs h -> grows t h h2 o a d' -> grows t h (lowered o d h2) o a d.
Proof.
  intros t h h2 o a d d' Ho []. constructor; cbn; auto.
  - intros x Hx Hne. rewrite fupd_other by auto. auto.
  - rewrite fupd_same, g_self0. reflexivity.
Qed.

Lemma lowered_fresh : forall h h2 o w d e hl, o < nobjs h -> fresh h h2 w e hl -> fresh h (lowered o d h2) w e hl.
Proof.
  intros h h2 o w d e hl Ho []. subst w. unfold lowered. cbn.
  constructor; cbn; auto; rewrite fupd_other by lia; auto.
Qed.

(** A new object created from a heap reached from [h] is fresh with respect to [h]. *)
Lemma fresh_back : forall t h h1 h2 o a d w e hl, grows t h h1 o a d -> nobjs h1 = nobjs h ->
  fresh h1 h2 w e hl -> fresh h h2 w e hl.
Proof. intros t h h1 h2 o a d w e hl [] En []. constructor; try lia; auto. Qed.

(** Continue working on a fresh object. *)
Lemma fresh_step : forall h h1 h2 w e hl b e', fresh h h1 w e hl -> grows false h1 h2 w b e' -> nobjs h2 = nobjs h1 ->
  fresh h h2 w e' (hl ++ b).
Proof.
  intros h h1 h2 w e hl b e' F G En. assert (F' := F). destruct F'.
  destruct (grows_own_list _ _ _ _ _ _ G ltac:(lia)) as (E1 & E2 & E3 & E4).
  destruct G. constructor; try lia; auto.
  rewrite E4, f_list0. auto.
Qed.

(** Validity checking of an object, assertions on, tests passing. *)
Lemma ensure_base_run : forall o asrt h, o < nobjs h ->
  exists h', ensure_validity_base o true asrt h = (Ok true, h') /\ nobjs h' = nobjs h /\
    grows false h h' o (blank (o_depth (objs h o)) ++ [(o_depth (objs h o), TLine "WaveformBase.ensure_validity" [o])])
      (o_depth (objs h o)).
Proof.
  intros o asrt h Ho. unfold ensure_validity_base. rewrite decorated_unfold.
  destruct (raised_grows o h Ho) as (G0 & N0 & _ & _ & _).
  destruct (dec_depth_run o (raised o h) ltac:(lia)) as (h1 & E1 & N1 & G1).
  destruct (append_run o [TLine "WaveformBase.ensure_validity" [o]] 0 h1) as (h2 & E2 & N2 & G2).
  unfold bind at 1. rewrite E1. unfold bind at 1. rewrite E2. cbn [ret].
  eexists. split; [reflexivity|]. split; [cbn; lia|].
  eapply lowered_grows; auto.
  assert (D1 : o_depth (objs (raised o h) o) = (o_depth (objs h o) + 1)%Z) by (rewrite (g_self _ _ _ _ _ _ G0); reflexivity).
  assert (D2 : o_depth (objs h1 o) = o_depth (objs h o)) by (rewrite (g_self _ _ _ _ _ _ G1); cbn; lia).
  rewrite D2 in G2. rewrite Z.add_0_r in G2.
  pose proof (grows_trans _ _ _ _ _ _ _ _ _ _ G0 (grows_trans _ _ _ _ _ _ _ _ _ _ G1 G2)) as G. exact G.
Qed.

Lemma ensure_base_fail_run : forall o h, o < nobjs h ->
  exists h', ensure_validity_base o false false h = (Ok false, h') /\ nobjs h' = nobjs h /\
    grows false h h' o (blank (o_depth (objs h o))) (o_depth (objs h o)).
Proof.
  intros o h Ho. unfold ensure_validity_base. rewrite decorated_unfold.
  destruct (raised_grows o h Ho) as (G0 & N0 & _ & _ & _). cbn [ret].
  eexists. split; [reflexivity|]. split; [cbn; lia|]. eapply lowered_grows; eauto.
Qed.

(** Entries written by a modes validity check at depth [d] when the tests pass. *)
Definition validity_entries (o : nat) (d : Z) (pass_base : bool) : list entry :=
  blank d ++ blank (d + 1) ++
  (if pass_base then [((d + 1)%Z, TLine "WaveformBase.ensure_validity" [o])] else []) ++
  [(d, TLine "WaveformModes.ensure_validity" [o])].

Lemma ensure_modes_run : forall o pb asrt h, o < nobjs h -> (pb = false -> asrt = false) ->
  exists h', ensure_validity_modes o true pb asrt h = (Ok true, h') /\ nobjs h' = nobjs h /\
    grows false h h' o (validity_entries o (o_depth (objs h o)) pb) (o_depth (objs h o)).
Proof.
  intros o pb asrt h Ho Hpb. unfold ensure_validity_modes. rewrite decorated_unfold.
  destruct (raised_grows o h Ho) as (G0 & N0 & _ & _ & _).
  set (d := o_depth (objs h o)) in *.
  assert (D1 : o_depth (objs (raised o h) o) = (d + 1)%Z) by (rewrite (g_self _ _ _ _ _ _ G0); reflexivity).
  assert (HB : exists h1 b, ensure_validity_base o pb asrt (raised o h) = (Ok b, h1) /\ nobjs h1 = nobjs h /\
     grows false (raised o h) h1 o (blank (d + 1) ++ (if pb then [((d + 1)%Z, TLine "WaveformBase.ensure_validity" [o])] else [])) (d + 1)).
  { destruct pb.
    - destruct (ensure_base_run o asrt (raised o h) ltac:(lia)) as (h1 & E1 & N1 & G1).
      rewrite D1 in G1. exists h1, true. split; auto. split; [lia|auto].
    - rewrite (Hpb eq_refl). destruct (ensure_base_fail_run o (raised o h) ltac:(lia)) as (h1 & E1 & N1 & G1).
      rewrite D1 in G1. exists h1, false. split; auto. split; [lia|]. rewrite app_nil_r. auto. }
  destruct HB as (h1 & b & E1 & N1 & G1).
  destruct (dec_depth_run o h1 ltac:(lia)) as (h2 & E2 & N2 & G2).
  destruct (append_run o [TLine "WaveformModes.ensure_validity" [o]] 0 h2) as (h3 & E3 & N3 & G3).
  unfold bind at 1. rewrite E1. unfold bind at 1. rewrite E2. unfold bind at 1. rewrite E3. cbn [ret].
  eexists. split; [reflexivity|]. split; [cbn; lia|]. eapply lowered_grows; auto.
  assert (D2 : o_depth (objs h1 o) = (d + 1)%Z) by (rewrite (g_self _ _ _ _ _ _ G1); reflexivity).
  assert (D3 : o_depth (objs h2 o) = d) by (rewrite (g_self _ _ _ _ _ _ G2), D2; cbn; lia).
  rewrite D3, Z.add_0_r in G3.
  pose proof (grows_trans _ _ _ _ _ _ _ _ _ _ G0 (grows_trans _ _ _ _ _ _ _ _ _ _ G1
     (grows_trans _ _ _ _ _ _ _ _ _ _ G2 G3))) as G.
  unfold validity_entries. fold d. cbn [orb] in G. cbn [app] in G |- *. rewrite <- !app_assoc in G. exact G.
Qed.

(** Computations that allocate nothing and leave every buffer alone. *)
Definition pres {A} (m : M A) : Prop := forall h r h', m h = (r, h') ->
  nlists h' = nlists h /\ nbufs h' = nbufs h /\ forall k, bufs h' k = bufs h k.
Lemma pres_bind : forall A B (m : M A) (k : A -> M B), pres m -> (forall a, pres (k a)) -> pres (bind m k).
Proof.
  intros A B m k Hm Hk h r h' E. unfold bind in E. destruct (m h) as [[a|e] h1] eqn:E1.
  - apply Hm in E1. apply Hk in E. destruct E1 as (? & ? & ?), E as (? & ? & ?). repeat split; try congruence.
  - injection E as <- <-. eapply Hm; eauto.
Qed.
Lemma pres_simple : forall A (m : M A), (forall h, nlists (snd (m h)) = nlists h /\ nbufs (snd (m h)) = nbufs h /\
   forall k, bufs (snd (m h)) k = bufs h k) -> pres m.
Proof. intros A m H h r h' E. specialize (H h). rewrite E in H. exact H. Qed.
Lemma pres_decorated : forall A o (m : M A), pres m -> pres (decorated o m).
Proof.
  intros A o m Hm. unfold decorated.
  apply pres_bind; [apply pres_simple; cbn; auto|]. intros x.
  apply pres_bind; [destruct (Z.eqb (o_depth x) 0); apply pres_simple; cbn; auto|]. intros _.
  apply pres_bind; [apply pres_simple; cbn; auto|]. intros _.
  apply pres_bind; auto. intros r.
  apply pres_bind; [apply pres_simple; cbn; auto|]. intros _. apply pres_simple; cbn; auto.
Qed.
Lemma pres_record : forall o t A (r : A), pres (bind (dec_depth o) (fun _ => bind (append_history o t 0) (fun _ => ret r))).
Proof.
  intros. apply pres_bind; [apply pres_simple; cbn; auto|]. intros _.
  apply pres_bind; [apply pres_simple; cbn; auto|]. intros _. apply pres_simple; cbn; auto.
Qed.
Lemma pres_ensure_modes : forall o pm pb asrt, pres (ensure_validity_modes o pm pb asrt).
Proof.
  intros. unfold ensure_validity_modes. apply pres_decorated. destruct pm.
  - apply pres_bind; [|intros; apply pres_record]. unfold ensure_validity_base. apply pres_decorated.
    destruct pb; [apply pres_record|]. destruct asrt; apply pres_simple; cbn; auto.
  - destruct asrt; apply pres_simple; cbn; auto.
Qed.

Definition info_entries : list entry := at_depth 1 info_lines.

(** Entries written by the keyword constructor. *)
Definition ctor_entries (stmt : string) (w : nat) : list entry :=
  [(0%Z, TLine stmt [w])] ++ validity_entries w 1 true ++ info_entries.

Lemma construct_run : forall stmt l b off len h, l < nlists h -> b < nbufs h -> wf h ->
  exists h', construct stmt l b off len true h = (Ok (nobjs h), h') /\
    nobjs h' = S (nobjs h) /\ nlists h' = nlists h /\ nbufs h' = nbufs h /\ wf h' /\
    (forall x, x < nobjs h -> objs h' x = objs h x) /\ objs h' (nobjs h) = mkobj l 0 b off len /\
    (forall k, k < nlists h -> lists h' k = if Nat.eqb k l then lists h k ++ ctor_entries stmt (nobjs h) else lists h k) /\
    (forall k, bufs h' k = bufs h k).
Proof.
  intros stmt l b off len h Hl Hb Hwf. unfold construct, bind at 1, alloc_obj.
  set (w := nobjs h). set (h0 := mkheap _ _ _ _ _ _).
  assert (N0 : nobjs h0 = S w) by reflexivity.
  assert (W0 : objs h0 w = mkobj l 0 b off len) by apply fupd_same.
  destruct (append_run w [TLine stmt [w]] 0 h0) as (h1 & E1 & N1 & G1). rewrite W0 in G1. cbn [o_depth Z.add] in G1.
  destruct (set_depth_run w 1 h1 ltac:(lia)) as (h2 & E2 & N2 & G2).
  destruct (ensure_modes_run w true true h2 ltac:(lia) ltac:(discriminate)) as (h3 & E3 & N3 & G3).
  assert (D2 : o_depth (objs h2 w) = 1%Z) by (rewrite (g_self _ _ _ _ _ _ G2); reflexivity). rewrite D2 in G3.
  destruct (set_depth_run w 0 h3 ltac:(lia)) as (h4 & E4 & N4 & G4).
  destruct (append_run w info_lines 1 h4) as (h5 & E5 & N5 & G5).
  assert (D4 : o_depth (objs h4 w) = 0%Z) by (rewrite (g_self _ _ _ _ _ _ G4); reflexivity).
  rewrite D4 in G5. cbn [Z.add] in G5.
  unfold bind at 1. rewrite E1. unfold bind at 1. rewrite E2. unfold bind at 1. rewrite E3.
  unfold bind at 1. rewrite E4. unfold bind at 1. rewrite E5. cbn [ret].
  exists h5. split; [reflexivity|].
  pose proof (grows_trans _ _ _ _ _ _ _ _ _ _ G1 (grows_trans _ _ _ _ _ _ _ _ _ _ G2
     (grows_trans _ _ _ _ _ _ _ _ _ _ G3 (grows_trans _ _ _ _ _ _ _ _ _ _ G4 G5)))) as G.
  cbn [orb app] in G.
  assert (Esz : nlists h5 = nlists h /\ nbufs h5 = nbufs h /\ forall k, bufs h5 k = bufs h k).
  { cbn in E1. injection E1 as <-. cbn in E2. injection E2 as <-.
    apply pres_ensure_modes in E3. cbn in E4. injection E4 as <-. cbn in E5. injection E5 as <-. cbn in *. 
    destruct E3 as (A & B & C). repeat split; auto. }
  destruct Esz as (S1 & S2 & S3).
  destruct G as [Ga Gb Gc Gd Ge Gf Gg].
  assert (Hold : forall x, x < nobjs h -> objs h5 x = objs h x).
  { intros x Hx. rewrite Gd by (cbn; lia). cbn. apply fupd_other. lia. }
  assert (Hw : objs h5 w = mkobj l 0 b off len) by (rewrite Ge, W0; reflexivity).
  split; [lia|]. split; [lia|]. split; [lia|]. split; [|split; [auto|split; [auto|split; [|auto]]]].
  - intros x Hx. rewrite N5, N4, N3, N2, N1, N0 in Hx. destruct (Nat.eq_dec x w).
    + subst. rewrite Hw. cbn. lia.
    + rewrite Hold by lia. specialize (Hwf x ltac:(lia)). lia.
  - intros k Hk. rewrite Gf by (cbn; auto). rewrite W0. cbn [o_hist]. cbn [lists].
    destruct (Nat.eqb_spec k l); auto.
Qed.

Lemma construct_empty_run : forall h, wf h ->
  exists h', construct_empty h = (Ok (nobjs h), h') /\ wf h' /\ nobjs h' = S (nobjs h) /\
    nlists h' = S (nlists h) /\ nbufs h' = S (nbufs h) /\
    (forall x, x < nobjs h -> objs h' x = objs h x) /\
    objs h' (nobjs h) = mkobj (nlists h) 0 (nbufs h) 0 0 /\
    (forall k, k < nlists h -> lists h' k = lists h k) /\ (forall b, b < nbufs h -> bufs h' b = bufs h b).
Proof.
  intros h Hwf. unfold construct_empty, bind at 1, alloc_list, bind at 1, alloc_buf. cbn [nlists nbufs lists bufs objs nobjs].
  set (h0 := mkheap _ _ _ _ _ _).
  destruct (construct_run "Waveform(**{})" (nlists h) (nbufs h) 0 0 h0) as (h1 & E & N & L & B & W & O1 & O2 & LL & BB).
  - cbn; lia.
  - cbn; lia.
  - intros x Hx. cbn in *. specialize (Hwf x Hx). lia.
  - exists h1. rewrite E. cbn in *. split; auto. split; auto. split; auto. split; auto. split; auto. split; auto. split; auto. split.
    + intros k Hk. rewrite LL by lia. destruct (Nat.eqb_spec k (nlists h)); [lia|]. apply fupd_other. lia.
    + intros k Hk. rewrite BB. apply fupd_other. lia.
Qed.

Lemma wf_raised : forall o h, o < nobjs h -> wf h -> wf (raised o h).
Proof. intros o h Ho Hwf. destruct (raised_grows o h Ho) as (G & N & _). eapply wf_grows; eauto. Qed.
Lemma wf_lowered : forall o d h, wf h -> o < nobjs h -> wf (lowered o d h).
Proof.
  intros o d h Hwf Ho x Hx. unfold lowered in *. cbn in *. specialize (Hwf x Hx).
  unfold fupd. destruct (Nat.eqb_spec x o); subst; cbn; auto.
Qed.

(** Shape of every method that returns a new object: the subject only gets its blank separator (at the
    outermost level), and the new object starts with the subject's history, followed by [ents]. *)
Definition makes (m : nat -> M nat) (ents : nat -> nat -> Z -> list entry) : Prop :=
  forall o h, wf h -> o < nobjs h ->
  exists h', m o h = (Ok (nobjs h), h') /\ wf h' /\
    grows false h h' o (blank (o_depth (objs h o))) (o_depth (objs h o)) /\
    fresh h h' (nobjs h) (o_depth (objs h o))
      (lists h (o_hist (objs h o)) ++ blank (o_depth (objs h o)) ++ ents o (nobjs h) (o_depth (objs h o))).

(** Decorated methods whose body obtains a fresh object [w] at depth+1 ... and finally lowers and records. *)
Lemma finish : forall (o w : nat) (t : text) h h1 a d e hl, o < nobjs h -> wf h ->
  grows false h h1 o a d -> fresh h h1 w e hl ->
  exists h2, bind (dec_depth w) (fun _ => bind (append_history w [t] 0) (fun _ => ret w)) h1 = (Ok w, h2) /\
    grows false h h2 o a d /\ fresh h h2 w (e - 1) (hl ++ [((e - 1)%Z, t)]).
Proof.
  intros o w t h h1 a d e hl Ho Hwf G F. assert (F' := F). destruct F'.
  destruct (dec_depth_run w h1 ltac:(lia)) as (h2 & E2 & N2 & G2).
  pose proof (fresh_step _ _ _ _ _ _ _ _ F G2 N2) as F2. rewrite f_depth0 in F2. rewrite app_nil_r in F2.
  destruct (append_run w [t] 0 h2) as (h3 & E3 & N3 & G3).
  rewrite (f_depth _ _ _ _ _ F2), Z.add_0_r in G3.
  pose proof (fresh_step _ _ _ _ _ _ _ _ F2 G3 N3) as F3.
  exists h3. unfold bind at 1. rewrite E2. unfold bind at 1. rewrite E3. cbn. split; auto.
  split; [|exact F3].
  eapply grows_frame with (h1 := h2) (w := w); eauto; try lia.
  - eapply grows_frame with (h1 := h1) (w := w); eauto; lia.
  - destruct F2. lia.
Qed.

Lemma makes_decorated : forall (m : nat -> M nat) ents (t : nat -> nat -> text),
  (forall o h, wf h -> o < nobjs h ->
     exists h1, m o h = (Ok (nobjs h), h1) /\ grows false h h1 o [] (o_depth (objs h o)) /\
       fresh h h1 (nobjs h) (o_depth (objs h o)) (lists h (o_hist (objs h o)) ++ ents o (nobjs h) (o_depth (objs h o)))) ->
  makes (fun o => decorated o (bind (m o) (fun w => bind (dec_depth w) (fun _ => bind (append_history w [t w o] 0) (fun _ => ret w)))))
    (fun o w d => ents o w (d + 1)%Z ++ [(d, t w o)]).
Proof.
  intros m ents t Hm o h Hwf Ho. rewrite decorated_unfold.
  destruct (raised_grows o h Ho) as (G0 & N0 & _ & _ & _).
  set (d := o_depth (objs h o)) in *.
  assert (Hwf0 := wf_raised o h Ho Hwf).
  destruct (Hm o (raised o h) Hwf0 ltac:(lia)) as (h1 & E1 & G1 & F1).
  destruct (grows_own_list _ _ _ _ _ _ G0 (proj1 (Hwf o Ho))) as (A1 & A2 & _ & A4).
  rewrite A2 in *. rewrite A4 in F1. rewrite N0 in *.
  assert (G01 : grows false h h1 o (blank d) (d + 1)%Z).
  { pose proof (grows_trans _ _ _ _ _ _ _ _ _ _ G0 G1) as G. rewrite app_nil_r in G. exact G. }
  assert (F01 : fresh h h1 (nobjs h) (d + 1)%Z ((lists h (o_hist (objs h o)) ++ blank d) ++ ents o (nobjs h) (d + 1)%Z)).
  { exact (fresh_back _ _ _ _ _ _ _ _ _ _ G0 N0 F1). }
  destruct (finish o (nobjs h) (t (nobjs h) o) h h1 _ _ _ _ Ho Hwf G01 F01) as (h2 & E2 & G2 & F2).
  unfold bind at 1. rewrite E1, E2.
  replace (d + 1 - 1)%Z with d in F2 by lia.
  eexists. split; [reflexivity|]. split.
  - apply wf_lowered; [|destruct F2; lia]. exact (wf_fresh _ _ _ _ _ _ _ _ _ Hwf G2 Ho F2).
  - split; [eapply lowered_grows; eauto|].
    rewrite <- !app_assoc in F2. apply lowered_fresh; auto.
Qed.

(** Raw step of copy: new object, deep copy of the dictionary. *)
Definition raw_copy (self : nat) : M nat :=
  bind construct_empty (fun w => bind (get_obj self) (fun x => bind (get_list (o_hist x)) (fun hl => bind (get_buf (o_buf x)) (fun bl =>
  bind (alloc_list hl) (fun l => bind (alloc_buf (firstn (o_len x) (skipn (o_off x) bl))) (fun b =>
  bind (set_obj w (mkobj l (o_depth x) b 0 (o_len x))) (fun _ => ret w))))))).

Lemma copy_body_assoc : forall self h, copy self h =
  decorated self (bind (raw_copy self) (fun w => bind (dec_depth w) (fun _ => bind (append_history w [TLine "copy" [w; self]] 0) (fun _ => ret w)))) h.
Proof.
  intros. unfold copy. rewrite !decorated_unfold. unfold raw_copy, bind.
  destruct (construct_empty (raised self h)) as [[w|e] h1]; reflexivity.
Qed.

Lemma raw_copy_run : forall o h, wf h -> o < nobjs h ->
  exists h1, raw_copy o h = (Ok (nobjs h), h1) /\ grows false h h1 o [] (o_depth (objs h o)) /\
    fresh h h1 (nobjs h) (o_depth (objs h o)) (lists h (o_hist (objs h o)) ++ []) /\
    o_off (objs h1 (nobjs h)) = 0 /\ o_len (objs h1 (nobjs h)) = o_len (objs h o) /\
    nbufs h <= o_buf (objs h1 (nobjs h)) /\
    bufs h1 (o_buf (objs h1 (nobjs h))) = firstn (o_len (objs h o)) (skipn (o_off (objs h o)) (bufs h (o_buf (objs h o)))).
Proof.
  intros o h Hwf Ho. destruct (construct_empty_run h Hwf) as (h0 & E & W & N & L & B & O1 & O2 & LL & BB).
  unfold raw_copy, bind at 1. rewrite E. cbn.
  eexists. split; [reflexivity|].
  destruct (Hwf o Ho) as [Hh Hb]. rewrite (O1 o Ho).
  split; [|split].
  - constructor; cbn; try lia.
    + intros x Hx Hne. rewrite fupd_other by lia. auto.
    + rewrite fupd_other by lia. rewrite O1 by auto. rewrite with_depth_self. auto.
    + intros l Hl. rewrite fupd_other by lia. rewrite app_nil_r. rewrite LL by auto. destruct (Nat.eqb l _); auto.
    + intros b Hb' _. rewrite fupd_other by lia. apply BB; auto.
  - constructor; cbn; auto; rewrite ?fupd_same; cbn; try lia.
    rewrite app_nil_r. apply LL; auto.
  - cbn. rewrite !fupd_same. cbn. rewrite ?fupd_same. rewrite BB by auto. repeat split; lia.
Qed.

Definition raw_cwd (self : nat) : M nat :=
  bind construct_empty (fun w => bind (get_obj self) (fun x => bind (get_list (o_hist x)) (fun hl =>
  bind (alloc_list hl) (fun l => bind (get_obj w) (fun y =>
  bind (set_obj w (mkobj l (o_depth x) (o_buf y) (o_off y) (o_len y))) (fun _ => ret w)))))).

Lemma cwd_body_assoc : forall self h, copy_without_data_base self h =
  decorated self (bind (raw_cwd self) (fun w => bind (dec_depth w) (fun _ => bind (append_history w [TLine "copy_without_data" [w; self]] 0) (fun _ => ret w)))) h.
Proof.
  intros. unfold copy_without_data_base. rewrite !decorated_unfold. unfold raw_cwd, bind.
  destruct (construct_empty (raised self h)) as [[w|e] h1]; reflexivity.
Qed.

Lemma raw_cwd_run : forall o h, wf h -> o < nobjs h ->
  exists h1, raw_cwd o h = (Ok (nobjs h), h1) /\ grows false h h1 o [] (o_depth (objs h o)) /\
    fresh h h1 (nobjs h) (o_depth (objs h o)) (lists h (o_hist (objs h o)) ++ []).
Proof.
  intros o h Hwf Ho. destruct (construct_empty_run h Hwf) as (h0 & E & W & N & L & B & O1 & O2 & LL & BB).
  unfold raw_cwd, bind at 1. rewrite E. cbn.
  eexists. split; [reflexivity|].
  destruct (Hwf o Ho) as [Hh Hb]. rewrite (O1 o Ho), O2.
  split.
  - constructor; cbn; try lia.
    + intros x Hx Hne. rewrite fupd_other by lia. auto.
    + rewrite fupd_other by lia. rewrite O1 by auto. rewrite with_depth_self. auto.
    + intros l Hl. rewrite fupd_other by lia. rewrite app_nil_r. rewrite LL by auto. destruct (Nat.eqb l _); auto.
    + intros b Hb' _. apply BB; auto.
  - constructor; cbn; auto; rewrite ?fupd_same; cbn; try lia.
    rewrite app_nil_r. apply LL; auto.
Qed.

Lemma makes_ext : forall m m' e e', (forall o h, m o h = m' o h) -> (forall o w d, e o w d = e' o w d) -> makes m e -> makes m' e'.
Proof.
  intros m m' e e' H He Hm o h Hwf Ho. destruct (Hm o h Hwf Ho) as (h' & E & W & G & F).
  exists h'. rewrite <- H. split; auto. split; auto. split; auto. rewrite <- He. auto.
Qed.

Definition copy_entries (o w : nat) (d : Z) : list entry := [(d, TLine "copy" [w; o])].
Lemma makes_copy : makes copy copy_entries.
Proof.
  eapply makes_ext; [| |apply (makes_decorated raw_copy (fun _ _ _ => []) (fun w o => TLine "copy" [w; o]))].
  - intros. symmetry. apply copy_body_assoc.
  - reflexivity.
  - intros o h Hwf Ho. destruct (raw_copy_run o h Hwf Ho) as (h1 & E & G & F & _). eauto.
Qed.

Definition cwd_entries (o w : nat) (d : Z) : list entry := [(d, TLine "copy_without_data" [w; o])].
Lemma makes_cwd_base : makes copy_without_data_base cwd_entries.
Proof.
  eapply makes_ext; [| |apply (makes_decorated raw_cwd (fun _ _ _ => []) (fun w o => TLine "copy_without_data" [w; o]))].
  - intros. symmetry. apply cwd_body_assoc.
  - reflexivity.
  - intros o h Hwf Ho. destruct (raw_cwd_run o h Hwf Ho) as (h1 & E & G & F). eauto.
Qed.

(** Nesting: a [makes] method called from a decorated body, then recorded.  The nested call runs at a
    nonzero depth, so it adds no blank line. *)
Lemma blank_nonzero : forall d, (d <> 0)%Z -> blank d = [].
Proof. intros d H. unfold blank. destruct (Z.eqb_spec d 0); congruence. Qed.

(** Depths are never negative at top level; nested depth is then positive. *)
Definition makes_pos (m : nat -> M nat) (ents : nat -> nat -> Z -> list entry) : Prop :=
  forall o h, wf h -> o < nobjs h -> (0 <= o_depth (objs h o))%Z ->
  exists h', m o h = (Ok (nobjs h), h') /\ wf h' /\
    grows false h h' o (blank (o_depth (objs h o))) (o_depth (objs h o)) /\
    fresh h h' (nobjs h) (o_depth (objs h o))
      (lists h (o_hist (objs h o)) ++ blank (o_depth (objs h o)) ++ ents o (nobjs h) (o_depth (objs h o))).

Lemma makes_makes_pos : forall m e, makes m e -> makes_pos m e.
Proof. intros m e H o h Hwf Ho _. auto. Qed.

(** Replacing the data of a fresh object ([W.t = ...; W.data = ...]). *)
Definition redata (w : nat) (k : obj -> nat * nat * nat) : M unit :=
  bind (get_obj w) (fun y => let '(b, off, len) := k y in set_obj w (with_data y b off len)).

(** General nesting lemma: body = inner method; arbitrary step [mid] that only changes the data fields of
    the new object (and allocates buffers); lower; record. *)
Definition data_step (mid : nat -> nat -> M unit) : Prop :=
  forall o w h0 h e hl a d, wf h0 -> o < nobjs h0 -> grows false h0 h o a d -> fresh h0 h w e hl ->
  exists h', mid o w h = (Ok tt, h') /\ grows false h0 h' o a d /\ fresh h0 h' w e hl.

Lemma makes_nested : forall inner mid ents (t : nat -> nat -> text),
  makes_pos inner ents -> data_step mid ->
  makes_pos (fun o => decorated o (bind (inner o) (fun w => bind (mid o w) (fun _ =>
       bind (dec_depth w) (fun _ => bind (append_history w [t w o] 0) (fun _ => ret w))))))
    (fun o w d => ents o w (d + 1)%Z ++ [(d, t w o)]).
Proof.
  intros inner mid ents t Hin Hmid o h Hwf Ho Hd. rewrite decorated_unfold.
  destruct (raised_grows o h Ho) as (G0 & N0 & _ & _ & _).
  set (d := o_depth (objs h o)) in *.
  assert (Hwf0 := wf_raised o h Ho Hwf).
  destruct (grows_own_list _ _ _ _ _ _ G0 (proj1 (Hwf o Ho))) as (A1 & A2 & _ & A4).
  destruct (Hin o (raised o h) Hwf0 ltac:(lia) ltac:(rewrite A2; lia)) as (h1 & E1 & W1 & G1 & F1).
  rewrite A2 in *. rewrite A4 in F1. rewrite N0 in *. rewrite (blank_nonzero (d + 1)) in G1, F1 by lia.
  assert (G01 : grows false h h1 o (blank d) (d + 1)%Z).
  { pose proof (grows_trans _ _ _ _ _ _ _ _ _ _ G0 G1) as G. rewrite app_nil_r in G. exact G. }
  assert (F01 : fresh h h1 (nobjs h) (d + 1)%Z ((lists h (o_hist (objs h o)) ++ blank d) ++ ents o (nobjs h) (d + 1)%Z)).
  { exact (fresh_back _ _ _ _ _ _ _ _ _ _ G0 N0 F1). }
  destruct (Hmid o (nobjs h) h h1 _ _ _ _ Hwf Ho G01 F01) as (h2 & E2 & G2 & F2).
  destruct (finish o (nobjs h) (t (nobjs h) o) h h2 _ _ _ _ Ho Hwf G2 F2) as (h3 & E3 & G3 & F3).
  unfold bind at 1. rewrite E1. unfold bind at 1. rewrite E2, E3.
  replace (d + 1 - 1)%Z with d in F3 by lia.
  eexists. split; [reflexivity|]. split.
  - apply wf_lowered; [|destruct F3; lia]. exact (wf_fresh _ _ _ _ _ _ _ _ _ Hwf G3 Ho F3).
  - split; [eapply lowered_grows; eauto|].
    rewrite <- !app_assoc in F3. apply lowered_fresh; auto.
Qed.

Lemma data_step_ret : data_step (fun _ _ => ret tt).
Proof. intros o w h0 h e hl a d Hwf Ho G F. exists h. split; [reflexivity|auto]. Qed.

(** Setting the data fields of [w] to an allocated buffer. *)
Lemma data_step_set : forall o w h0 h e hl a d b off len, wf h0 -> o < nobjs h0 -> grows false h0 h o a d -> fresh h0 h w e hl ->
  b < nbufs h ->
  exists h', set_obj w (with_data (objs h w) b off len) h = (Ok tt, h') /\ grows false h0 h' o a d /\ fresh h0 h' w e hl.
Proof.
  intros o w h0 h e hl a d b off len Hwf Ho [] [] Hb. eexists. split; [reflexivity|]. subst w. split.
  - constructor; cbn; auto.
    + intros x Hx Hne. rewrite fupd_other by lia. auto.
    + rewrite fupd_other by lia. auto.
  - constructor; cbn; auto; rewrite fupd_same; cbn; auto.
Qed.

Lemma data_step_alloc : forall o w h0 h e hl a d rows, grows false h0 h o a d -> fresh h0 h w e hl ->
  exists h', alloc_buf rows h = (Ok (nbufs h), h') /\ nbufs h' = S (nbufs h) /\ (forall x, objs h' x = objs h x) /\
    (forall b, b < nbufs h -> bufs h' b = bufs h b) /\ grows false h0 h' o a d /\ fresh h0 h' w e hl.
Proof.
  intros o w h0 h e hl a d rows [] []. eexists. split; [reflexivity|]. cbn. split; auto. split; auto. split.
  { intros. apply fupd_other. lia. }
  split; constructor; cbn; auto; try lia.
  intros b Hb Hd. rewrite fupd_other by lia. auto.
Qed.

Lemma cwd_eq : forall self (h : heap), copy_without_data self h =
  decorated self (bind (copy_without_data_base self) (fun w => bind (ret tt) (fun _ => bind (dec_depth w) (fun _ =>
    bind (append_history w [TLine "copy_without_data" [w; self]] 0) (fun _ => ret w))))) h.
Proof.
  intros. unfold copy_without_data. rewrite !decorated_unfold. unfold bind.
  destruct (copy_without_data_base self (raised self h)) as [[w|e] h1]; reflexivity.
Qed.

Lemma makes_pos_ext : forall m m' e e', (forall o h, m o h = m' o h) -> (forall o w d, e o w d = e' o w d) -> makes_pos m e -> makes_pos m' e'.
Proof.
  intros m m' e e' H He Hm o h Hwf Ho Hd. destruct (Hm o h Hwf Ho Hd) as (h' & E & W & G & F).
  exists h'. rewrite <- H. split; auto. split; auto. split; auto. rewrite <- He. auto.
Qed.

Lemma makes_cwd : makes_pos copy_without_data
  (fun o w d => [((d + 1)%Z, TLine "copy_without_data" [w; o]); (d, TLine "copy_without_data" [w; o])]).
Proof.
  eapply makes_pos_ext; [| |apply (makes_nested copy_without_data_base (fun _ _ => ret tt) cwd_entries
     (fun w o => TLine "copy_without_data" [w; o]) (makes_makes_pos _ _ makes_cwd_base) data_step_ret)].
  - intros. symmetry. apply cwd_eq.
  - reflexivity.
Qed.

Lemma deepcopy_eq : forall self (h : heap), deepcopy self h =
  decorated self (bind (copy self) (fun w => bind (ret tt) (fun _ => bind (dec_depth w) (fun _ =>
    bind (append_history w [TLine "deepcopy" [w; self]] 0) (fun _ => ret w))))) h.
Proof.
  intros. unfold deepcopy. rewrite !decorated_unfold. unfold bind.
  destruct (copy self (raised self h)) as [[w|e] h1]; reflexivity.
Qed.

Lemma makes_deepcopy : makes_pos deepcopy
  (fun o w d => [((d + 1)%Z, TLine "copy" [w; o]); (d, TLine "deepcopy" [w; o])]).
Proof.
  eapply makes_pos_ext; [| |apply (makes_nested copy (fun _ _ => ret tt) copy_entries
     (fun w o => TLine "deepcopy" [w; o]) (makes_makes_pos _ _ makes_copy) data_step_ret)].
  - intros. symmetry. apply deepcopy_eq.
  - reflexivity.
Qed.

Definition view_step (a n : nat) (o w : nat) : M unit :=
  bind (get_obj o) (fun x => bind (get_obj w) (fun y => set_obj w (with_data y (o_buf x) (o_off x + a) (Nat.min n (o_len x - a))))).

Lemma data_step_view : forall a n, data_step (view_step a n).
Proof.
  intros a n o w h0 h e hl a0 d Hwf Ho G F. unfold view_step, bind, get_obj.
  apply (data_step_set o w h0 h e hl a0 d (o_buf (objs h o)) (o_off (objs h o) + a) (Nat.min n (o_len (objs h o) - a)) Hwf Ho G F).
  destruct (Hwf o Ho) as [_ Hb]. destruct G. rewrite g_self0. cbn. lia.
Qed.

Lemma getitem_base_eq : forall self a n (h : heap), getitem_base self a n h =
  decorated self (bind (copy_without_data_base self) (fun w => bind (view_step a n self w) (fun _ => bind (dec_depth w) (fun _ =>
    bind (append_history w [TLine "getitem" [w; self]] 0) (fun _ => ret w))))) h.
Proof.
  intros. unfold getitem_base. rewrite !decorated_unfold. unfold view_step, bind.
  destruct (copy_without_data_base self (raised self h)) as [[w|e] h1]; reflexivity.
Qed.

Lemma makes_getitem_base : forall a n, makes_pos (fun o => getitem_base o a n)
  (fun o w d => [((d + 1)%Z, TLine "copy_without_data" [w; o]); (d, TLine "getitem" [w; o])]).
Proof.
  intros a n. eapply makes_pos_ext; [| |apply (makes_nested copy_without_data_base (view_step a n) cwd_entries
     (fun w o => TLine "getitem" [w; o]) (makes_makes_pos _ _ makes_cwd_base) (data_step_view a n))].
  - intros. symmetry. apply getitem_base_eq.
  - reflexivity.
Qed.

(** WaveformModes.__getitem__: pops the base entry. *)
Lemma makes_getitem : forall a n, makes_pos (fun o => getitem o a n true)
  (fun o w d => [((d + 1 + 1)%Z, TLine "copy_without_data" [w; o]); (d, TLine "getitem" [w; o])]).
Proof.
  intros a n o h Hwf Ho Hd. unfold getitem. rewrite decorated_unfold.
  destruct (raised_grows o h Ho) as (G0 & N0 & _ & _ & _).
  set (d := o_depth (objs h o)) in *.
  assert (Hwf0 := wf_raised o h Ho Hwf).
  destruct (grows_own_list _ _ _ _ _ _ G0 (proj1 (Hwf o Ho))) as (A1 & A2 & _ & A4).
  destruct (makes_getitem_base a n o (raised o h) Hwf0 ltac:(lia) ltac:(rewrite A2; lia)) as (h1 & E1 & W1 & G1 & F1).
  rewrite A2 in *. rewrite A4 in F1. rewrite N0 in *. rewrite (blank_nonzero (d + 1)) in G1, F1 by lia.
  assert (G01 : grows false h h1 o (blank d) (d + 1)%Z).
  { pose proof (grows_trans _ _ _ _ _ _ _ _ _ _ G0 G1) as G. rewrite app_nil_r in G. exact G. }
  eapply fresh_back in F1; [|exact G0|exact N0].
  set (w := nobjs h) in *. cbn [app] in F1.
  unfold bind at 1. rewrite E1. unfold bind at 1.
  assert (HP : exists h2, pop_history w h1 = (Ok tt, h2) /\ grows false h h2 o (blank d) (d + 1)%Z /\
     fresh h h2 w (d + 1)%Z ((lists h (o_hist (objs h o)) ++ blank d) ++ [((d + 1 + 1)%Z, TLine "copy_without_data" [w; o])])).
  { destruct F1. eexists. split; [reflexivity|]. split.
    - destruct G01. constructor; cbn; auto.
      intros l Hl. rewrite fupd_other by lia. auto.
    - constructor; cbn; auto. rewrite fupd_same, f_list0.
      change [((d + 1 + 1)%Z, TLine "copy_without_data" [w; o]); ((d + 1)%Z, TLine "getitem" [w; o])]
        with ([((d + 1 + 1)%Z, TLine "copy_without_data" [w; o])] ++ [((d + 1)%Z, TLine "getitem" [w; o])]).
      rewrite app_assoc, removelast_last. reflexivity. }
  destruct HP as (h2 & E2 & G2 & F2). rewrite E2.
  destruct (finish o w (TLine "getitem" [w; o]) h h2 _ _ _ _ Ho Hwf G2 F2) as (h3 & E3 & G3 & F3).
  rewrite E3. replace (d + 1 - 1)%Z with d in F3 by lia.
  eexists. split; [reflexivity|]. split.
  - apply wf_lowered; [|destruct F3; lia]. exact (wf_fresh _ _ _ _ _ _ _ _ _ Hwf G3 Ho F3).
  - split; [eapply lowered_grows; eauto|].
    rewrite <- !app_assoc in F3. apply lowered_fresh; auto.
Qed.

Definition rebuild_step (rows : list row) (o w : nat) : M unit :=
  bind (alloc_buf rows) (fun b => bind (get_obj w) (fun y => set_obj w (with_data y b 0 (List.length rows)))).
Lemma data_step_rebuild : forall rows, data_step (rebuild_step rows).
Proof.
  intros rows o w h0 h e hl a d Hwf Ho G F.
  destruct (data_step_alloc o w h0 h e hl a d rows G F) as (h1 & E1 & N1 & O1 & _ & G1 & F1).
  unfold rebuild_step, bind. rewrite E1. cbn [get_obj].
  apply (data_step_set o w h0 h1 e hl a d (nbufs h) 0 (List.length rows) Hwf Ho G1 F1). lia.
Qed.

Lemma rebuild_eq : forall name self rows (h : heap), rebuild name self rows h =
  decorated self (bind (copy_without_data_base self) (fun w => bind (rebuild_step rows self w) (fun _ => bind (dec_depth w) (fun _ =>
    bind (append_history w [TLine name [w; self]] 0) (fun _ => ret w))))) h.
Proof.
  intros. unfold rebuild. rewrite !decorated_unfold. unfold rebuild_step, bind.
  destruct (copy_without_data_base self (raised self h)) as [[w|e] h1]; reflexivity.
Qed.
Lemma makes_rebuild : forall name rows, makes_pos (fun o => rebuild name o rows)
  (fun o w d => [((d + 1)%Z, TLine "copy_without_data" [w; o]); (d, TLine name [w; o])]).
Proof.
  intros name rows. eapply makes_pos_ext; [| |apply (makes_nested copy_without_data_base (rebuild_step rows) cwd_entries
     (fun w o => TLine name [w; o]) (makes_makes_pos _ _ makes_cwd_base) (data_step_rebuild rows))].
  - intros. symmetry. apply rebuild_eq.
  - reflexivity.
Qed.

Definition parity_step (f : row -> row) (o w : nat) : M unit :=
  bind (get_obj o) (fun x => bind (get_buf (o_buf x)) (fun bl =>
  bind (alloc_buf (map f (firstn (o_len x) (skipn (o_off x) bl)))) (fun b =>
  bind (get_obj w) (fun y => set_obj w (with_data y b 0 (o_len x)))))).
Lemma data_step_parity : forall f, data_step (parity_step f).
Proof.
  intros f o w h0 h e hl a d Hwf Ho G F. unfold parity_step, bind at 1. cbn [get_obj]. unfold bind at 1. cbn [get_buf].
  match goal with |- context [alloc_buf ?r] =>
    destruct (data_step_alloc o w h0 h e hl a d r G F) as (h1 & E1 & N1 & O1 & _ & G1 & F1) end.
  unfold bind. rewrite E1. cbn [get_obj].
  apply (data_step_set o w h0 h1 e hl a d (nbufs h) 0 (o_len (objs h o)) Hwf Ho G1 F1). lia.
Qed.

Definition parity_entries (o w : nat) (d : Z) : list entry :=
  [((d + 1 + 1 + 1)%Z, TLine "copy_without_data" [w; o]); ((d + 1)%Z, TLine "getitem" [w; o]);
   (d, TLine "parity_conjugate" [w; o])].
Lemma makes_parity : forall f, makes_pos (fun o => parity_conjugate o f true) parity_entries.
Proof.
  intros f. eapply makes_pos_ext; [| |apply (makes_nested (fun o => getitem o 0 0 true) (parity_step f) _
     (fun w o => TLine "parity_conjugate" [w; o]) (makes_getitem 0 0) (data_step_parity f))].
  - intros. unfold parity_conjugate. rewrite !decorated_unfold. unfold parity_step, bind.
    destruct (getitem o 0 0 true (raised o h)) as [[w|e] h1]; reflexivity.
  - reflexivity.
Qed.

Definition part_step (g : row -> row -> row) (o w : nat) : M unit :=
  bind (get_obj o) (fun x => bind (get_buf (o_buf x)) (fun bl =>
  bind (get_obj w) (fun y => bind (get_buf (o_buf y)) (fun cl =>
  bind (alloc_buf (map (fun p => g (fst p) (snd p)) (combine (firstn (o_len x) (skipn (o_off x) bl)) (firstn (o_len y) (skipn (o_off y) cl))))) (fun b =>
  set_obj w (with_data y b 0 (o_len x))))))).
Lemma data_step_part : forall g, data_step (part_step g).
Proof.
  intros g o w h0 h e hl a d Hwf Ho G F. unfold part_step, bind at 1. cbn [get_obj]. unfold bind at 1. cbn [get_buf].
  unfold bind at 1. cbn [get_obj]. unfold bind at 1. cbn [get_buf].
  match goal with |- context [alloc_buf ?r] =>
    destruct (data_step_alloc o w h0 h e hl a d r G F) as (h1 & E1 & N1 & O1 & _ & G1 & F1) end.
  unfold bind. rewrite E1. rewrite <- (O1 w).
  apply (data_step_set o w h0 h1 e hl a d (nbufs h) 0 (o_len (objs h o)) Hwf Ho G1 F1). lia.
Qed.
Lemma makes_parity_part : forall f g, makes_pos (fun o => parity_part o f g true)
  (fun o w d => parity_entries o w (d + 1) ++ [(d, TLine "parity_part" [w; o])]).
Proof.
  intros f g. eapply makes_pos_ext; [| |apply (makes_nested (fun o => parity_conjugate o f true) (part_step g) _
     (fun w o => TLine "parity_part" [w; o]) (makes_parity f) (data_step_part g))].
  - intros. unfold parity_part. rewrite !decorated_unfold. unfold part_step, bind.
    destruct (parity_conjugate o f true (raised o h)) as [[w|e] h1]; reflexivity.
  - reflexivity.
Qed.

(** In-place methods: the object keeps its depth and gets [ents] appended. *)
Definition edits (m : nat -> M nat) (ents : nat -> Z -> list entry) : Prop :=
  forall o h, wf h -> o < nobjs h -> (0 <= o_depth (objs h o))%Z ->
  exists h', m o h = (Ok o, h') /\ nobjs h' = nobjs h /\
    grows true h h' o (blank (o_depth (objs h o)) ++ ents o (o_depth (objs h o))) (o_depth (objs h o)).

Lemma inplace_run : forall o f h, exists h', inplace o f h = (Ok tt, h') /\ nobjs h' = nobjs h /\
  grows true h h' o [] (o_depth (objs h o)).
Proof.
  intros. eexists. split; [reflexivity|]. split; [reflexivity|]. constructor; cbn; auto.
  - rewrite with_depth_self; auto.
  - intros. rewrite app_nil_r. destruct (Nat.eqb l _); auto.
  - intros b Hb [H|H]; [discriminate|]. apply fupd_other; auto.
Qed.

Lemma edits_inplace : forall name f, edits (fun o => inplace_method name o f) (fun o d => [((d + 1)%Z, TLine name [o])]).
Proof.
  intros name f o h Hwf Ho Hd. unfold inplace_method. rewrite decorated_unfold.
  destruct (raised_grows o h Ho) as (G0 & N0 & _ & _ & _).
  destruct (grows_own_list _ _ _ _ _ _ G0 (proj1 (Hwf o Ho))) as (A1 & A2 & _ & A4).
  destruct (inplace_run o f (raised o h)) as (h1 & E1 & N1 & G1). rewrite A2 in G1.
  destruct (append_run o [TLine name [o]] 0 h1) as (h2 & E2 & N2 & G2).
  rewrite (g_self _ _ _ _ _ _ G1) in G2. cbn [o_depth with_depth] in G2. rewrite Z.add_0_r in G2.
  unfold bind at 1. rewrite E1. unfold bind at 1. rewrite E2. cbn [ret].
  eexists. split; [reflexivity|]. split; [cbn; lia|]. eapply lowered_grows; auto.
  exact (grows_trans _ _ _ _ _ _ _ _ _ _ G0 (grows_trans _ _ _ _ _ _ _ _ _ _ G1 G2)).
Qed.

Lemma edits_rotate : forall f, edits (fun o => rotate_decomposition_basis o f true)
  (fun o d => [(d, TLine "rotate_decomposition_basis" [o])]).
Proof.
  intros f o h Hwf Ho Hd. unfold rotate_decomposition_basis. rewrite decorated_unfold.
  destruct (raised_grows o h Ho) as (G0 & N0 & _ & _ & _).
  destruct (grows_own_list _ _ _ _ _ _ G0 (proj1 (Hwf o Ho))) as (A1 & A2 & _ & A4).
  destruct (inplace_run o f (raised o h)) as (h1 & E1 & N1 & G1). rewrite A2 in G1.
  destruct (dec_depth_run o h1 ltac:(lia)) as (h2 & E2 & N2 & G2).
  rewrite (g_self _ _ _ _ _ _ G1) in G2. cbn [o_depth with_depth] in G2.
  destruct (append_run o [TLine "rotate_decomposition_basis" [o]] 0 h2) as (h3 & E3 & N3 & G3).
  rewrite (g_self _ _ _ _ _ _ G2) in G3. cbn [o_depth with_depth] in G3. rewrite Z.add_0_r in G3.
  replace (o_depth (objs h o) + 1 - 1)%Z with (o_depth (objs h o)) in * by lia.
  unfold bind at 1. rewrite E1. unfold bind at 1. rewrite E2. unfold bind at 1. rewrite E3. cbn [ret].
  eexists. split; [reflexivity|]. split; [cbn; lia|]. eapply lowered_grows; auto.
  exact (grows_trans _ _ _ _ _ _ _ _ _ _ G0 (grows_trans _ _ _ _ _ _ _ _ _ _ G1
      (grows_trans _ _ _ _ _ _ _ _ _ _ G2 G3))).
Qed.

Lemma edits_rotate_by : forall name f, edits (fun o => rotate_by name o f true)
  (fun o d => [((d + 1)%Z, TLine "rotate_decomposition_basis" [o]); ((d + 1)%Z, TLine name [o])]).
Proof.
  intros name f o h Hwf Ho Hd. unfold rotate_by. rewrite decorated_unfold.
  destruct (raised_grows o h Ho) as (G0 & N0 & _ & _ & _).
  destruct (grows_own_list _ _ _ _ _ _ G0 (proj1 (Hwf o Ho))) as (A1 & A2 & _ & A4).
  destruct (edits_rotate f o (raised o h) (wf_raised o h Ho Hwf) ltac:(lia) ltac:(rewrite A2; lia)) as (h1 & E1 & N1 & G1).
  rewrite A2 in G1. rewrite (blank_nonzero (o_depth (objs h o) + 1)) in G1 by lia. cbn [app] in G1.
  destruct (append_run o [TLine name [o]] 0 h1) as (h2 & E2 & N2 & G2).
  rewrite (g_self _ _ _ _ _ _ G1) in G2. cbn [o_depth with_depth] in G2. rewrite Z.add_0_r in G2.
  unfold bind at 1. rewrite E1. unfold bind at 1. rewrite E2. cbn [ret].
  eexists. split; [reflexivity|]. split; [cbn; lia|]. eapply lowered_grows; auto.
  exact (grows_trans _ _ _ _ _ _ _ _ _ _ G0 (grows_trans _ _ _ _ _ _ _ _ _ _ G1 G2)).
Qed.

Lemma edits_align : forall f, edits (fun o => align_frame o f true)
  (fun o d => [((d + 1)%Z, TLine "align_decomposition_frame_to_modes" [o]); ((d + 1)%Z, TLine "rotate_decomposition_basis" [o])]).
Proof.
  intros f o h Hwf Ho Hd. unfold align_frame. rewrite decorated_unfold.
  destruct (raised_grows o h Ho) as (G0 & N0 & NL & NB & _).
  destruct (grows_own_list _ _ _ _ _ _ G0 (proj1 (Hwf o Ho))) as (A1 & A2 & _ & A4).
  destruct (append_run o [TLine "align_decomposition_frame_to_modes" [o]] 0 (raised o h)) as (h1 & E1 & N1 & G1).
  rewrite A2, Z.add_0_r in G1.
  assert (W1 : wf h1) by (eapply wf_grows; [apply (wf_raised o h Ho Hwf)|exact G1|lia|lia]).
  assert (D1 : o_depth (objs h1 o) = (o_depth (objs h o) + 1)%Z) by (rewrite (g_self _ _ _ _ _ _ G1); reflexivity).
  destruct (edits_rotate f o h1 W1 ltac:(lia) ltac:(lia)) as (h2 & E2 & N2 & G2).
  rewrite D1 in G2. rewrite (blank_nonzero (o_depth (objs h o) + 1)) in G2 by lia. cbn [app] in G2.
  unfold bind at 1. rewrite E1, E2.
  eexists. split; [reflexivity|]. split; [cbn; lia|]. eapply lowered_grows; auto.
  exact (grows_trans _ _ _ _ _ _ _ _ _ _ G0 (grows_trans _ _ _ _ _ _ _ _ _ _ G1 G2)).
Qed.
End P.
