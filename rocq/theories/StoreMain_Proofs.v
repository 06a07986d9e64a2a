(** C47: the properties of Bondi data containers, stated over histories of commands. *)
From Coq Require Import Reals ZArith List Bool Arith Lia Lra.
From Verif Require Import Common Cplx Quat Store_Model Store_Proofs.
Import ListNotations.
Open Scope nat_scope.

(** What a user sees: `abd_i.t`, the modes of field k of `abd_i`, and `abd_i.psi_k.t`. *)
Definition time_of (w : world) (i : nat) : res (list R) := let? o := obj w i in Ok (get_time (w_heap w) o).
Definition data_of (w : world) (i k : nat) : res table := let? o := obj w i in get_field (w_heap w) o k.
Definition ftime_of (w : world) (i k : nat) : res (list R) := let? o := obj w i in field_time (w_heap w) o k.
Definition meta_of (w : world) (i : nat) : res (list quat * Z * Z) := let? o := obj w i in Ok (a_frame o, a_ftype o, a_ell o).
Definition count (w : world) : nat := length (w_objs w).

Lemma obj_in : forall w i, i < count w -> exists o, nth_error (w_objs w) i = Some o.
Proof. intros w i Hi. destruct (nth_error (w_objs w) i) as [o|] eqn:E; [exists o; reflexivity|]. apply nth_error_None in E. unfold count in Hi. lia. Qed.
Lemma obj_eq : forall w i o, nth_error (w_objs w) i = Some o -> obj w i = Ok o.
Proof. intros. apply obj_at; assumption. Qed.
Lemma run_app : forall shared cs ds, run shared (cs ++ ds) = after shared (run shared cs) ds.
Proof. intros. unfold run, after. apply fold_left_app. Qed.
Lemma after_cons : forall shared w c ds, after shared w (c :: ds) = after shared (exec shared w c) ds.
Proof. reflexivity. Qed.
Lemma shape_ok : forall H o k f, obj_ok H o -> nth_error (a_fields o) k = Some f -> m_tab f < h_next H /\ m_time f < h_next H.
Proof. intros H o k f (_ & _ & B) E. destruct (B k f E) as (X & Y & _). auto. Qed.

(** Old addresses after a step: tables change only at the table of an assigned field, times only at the array of
    an assigned time. *)
Lemma did_old_tab : forall shared w c w' a, inv w -> did shared w c w' -> a < h_next (w_heap w) ->
  h_tab (w_heap w') a = h_tab (w_heap w) a \/
  exists i k t o f, c = SetField i k t /\ nth_error (w_objs w) i = Some o /\ nth_error (a_fields o) k = Some f /\ m_tab f = a /\ h_tab (w_heap w') a = t.
Proof.
  intros shared w c w' a I D Ha. destruct D; cbn [w_heap].
  - left. apply construct_spec in H0. apply H0; exact Ha.
  - left. apply copy_spec in H1; [|eapply i_ok; eassumption]. apply H1; exact Ha.
  - left. destruct (translate_spec (w_heap w) o t0 (i_ok w I i o H0)) as (H2 & o2 & E & X). rewrite H1 in E. inversion E; subst. apply X; exact Ha.
  - left. reflexivity.
  - cbn. destruct (Nat.eqb_spec a (m_tab f)) as [E|_]; [|left; reflexivity]. right. exists i, k, t, o, f. auto.
  - left. reflexivity.
Qed.
Lemma did_old_time : forall shared w c w' a, inv w -> did shared w c w' -> a < h_next (w_heap w) ->
  h_time (w_heap w') a = h_time (w_heap w) a \/
  (exists i t o, c = SetTime i t /\ nth_error (w_objs w) i = Some o /\ a_time o = a /\ h_time (w_heap w') a = t) \/
  (exists i k t o f, c = SetFieldTime i k t /\ nth_error (w_objs w) i = Some o /\ nth_error (a_fields o) k = Some f /\ m_time f = a /\ h_time (w_heap w') a = t).
Proof.
  intros shared w c w' a I D Ha. destruct D; cbn [w_heap].
  - left. apply construct_spec in H0. apply H0; exact Ha.
  - left. apply copy_spec in H1; [|eapply i_ok; eassumption]. apply H1; exact Ha.
  - left. destruct (translate_spec (w_heap w) o t0 (i_ok w I i o H0)) as (H2 & o2 & E & X). rewrite H1 in E. inversion E; subst. apply X; exact Ha.
  - cbn. destruct (Nat.eqb_spec a (a_time o)) as [E|_]; [|left; reflexivity]. right. left. exists i, t, o. auto.
  - left. reflexivity.
  - cbn. destruct (Nat.eqb_spec a (m_time f)) as [E|_]; [|left; reflexivity]. right. right. exists i, k, t, o, f. auto.
Qed.

(** ** The modes of a field change only by assigning that field of that object. *)
Lemma data_step : forall shared w c i k, inv w -> i < count w -> (forall t, c <> SetField i k t) ->
  data_of (exec shared w c) i k = data_of w i k.
Proof.
  intros shared w c i k I Hi Hc. destruct (obj_in w i Hi) as (o & Ho).
  pose proof (exec_keeps shared w c i o Ho) as Ho'. unfold data_of. rewrite (obj_eq _ _ _ Ho), (obj_eq _ _ _ Ho'). cbn [rbind].
  destruct (nth_error (a_fields o) k) as [f|] eqn:Ef; [|rewrite !get_field_out by assumption; reflexivity].
  rewrite !(get_field_at _ _ _ _ Ef). f_equal. unfold exec in *. destruct (step shared w c) as [w'|] eqn:E; [|reflexivity].
  apply step_did in E. destruct (shape_ok _ _ _ _ (i_ok w I i o Ho) Ef) as [B _].
  destruct (did_old_tab _ _ _ _ _ I E B) as [X|(j & l & t & p & g & Ec & Hp & Hg & Em & _)]; [exact X|].
  destruct (i_tab w I j i p o l k g f Hp Ho Hg Ef Em) as [-> ->]. exfalso. apply (Hc t). exact Ec.
Qed.
Lemma count_exec : forall shared w c, count w <= count (exec shared w c).
Proof.
  intros shared w c. unfold exec. destruct (step shared w c) as [w'|] eqn:E; [|lia]. apply step_did in E. unfold count.
  destruct E; cbn [w_objs]; try lia; rewrite app_length; lia.
Qed.
Theorem C47_data : forall shared cs ds i k, i < count (run shared cs) -> (forall t, ~ In (SetField i k t) ds) ->
  data_of (run shared (cs ++ ds)) i k = data_of (run shared cs) i k.
Proof.
  intros shared cs ds i k Hi Hd. rewrite run_app. pose proof (run_inv shared cs) as I. revert I Hi. generalize (run shared cs).
  induction ds as [|c ds IH]; intros w I Hi; [reflexivity|]. rewrite after_cons, IH.
  - apply data_step; auto. intros t E. apply (Hd t). left. exact E.
  - intros t Ht. apply (Hd t). right. exact Ht.
  - apply exec_inv; exact I.
  - pose proof (count_exec shared w c). lia.
Qed.

(** ** Assignment: exactly when the shape agrees, and what is read back. *)
Theorem C47_assign_field : forall shared cs i k t d, let w := run shared cs in data_of w i k = Ok d ->
  (map (@length C) t = map (@length C) d -> exists w', step shared w (SetField i k t) = Ok w' /\ data_of w' i k = Ok t) /\
  (map (@length C) t <> map (@length C) d -> step shared w (SetField i k t) = Err ValueError).
Proof.
  intros shared cs i k t d w Hd. unfold data_of in Hd. destruct (obj w i) as [o|] eqn:Eo; [|discriminate]. cbn [rbind] in Hd.
  unfold get_field, field in Hd. destruct (nth_error (a_fields o) k) as [f|] eqn:Ef; [|discriminate]. cbn [rbind] in Hd.
  assert (Ed : h_tab (w_heap w) (m_tab f) = d) by congruence. unfold step. rewrite Eo. cbn [rbind]. unfold set_field, field. rewrite Ef. cbn [rbind].
  split; intro S.
  - destruct (list_eq_dec Nat.eq_dec (shape t) (shape (h_tab (w_heap w) (m_tab f)))) as [_|N]; [|exfalso; apply N; rewrite Ed; exact S].
    eexists; split; [reflexivity|]. unfold data_of, obj. cbn [w_objs w_heap]. apply obj_at in Eo. rewrite Eo. cbn [rbind].
    rewrite (get_field_at _ _ _ _ Ef). cbn. rewrite Nat.eqb_refl. reflexivity.
  - destruct (list_eq_dec Nat.eq_dec (shape t) (shape (h_tab (w_heap w) (m_tab f)))) as [E|_]; [|reflexivity]. exfalso. apply S. rewrite <- Ed. exact E.
Qed.
Theorem C47_assign_time : forall shared cs i t d, let w := run shared cs in time_of w i = Ok d ->
  (length t = length d -> exists w', step shared w (SetTime i t) = Ok w' /\ time_of w' i = Ok t) /\
  (length t <> length d -> step shared w (SetTime i t) = Err ValueError).
Proof.
  intros shared cs i t d w Hd. unfold time_of in Hd. destruct (obj w i) as [o|] eqn:Eo; [|discriminate]. cbn [rbind] in Hd.
  assert (Ed : get_time (w_heap w) o = d) by congruence. unfold step. rewrite Eo. cbn [rbind]. unfold set_time. rewrite Ed.
  split; intro S.
  - rewrite (proj2 (Nat.eqb_eq _ _) S). cbn [rbind]. eexists; split; [reflexivity|].
    unfold time_of, obj. cbn [w_objs w_heap]. apply obj_at in Eo. rewrite Eo. cbn [rbind]. unfold get_time. cbn. rewrite Nat.eqb_refl. reflexivity.
  - rewrite (proj2 (Nat.eqb_neq _ _) S). reflexivity.
Qed.

(** The same for the time of a field. *)
Theorem C47_assign_field_time : forall shared cs i k t d, let w := run shared cs in ftime_of w i k = Ok d ->
  (length t = length d -> exists w', step shared w (SetFieldTime i k t) = Ok w' /\ ftime_of w' i k = Ok t) /\
  (length t <> length d -> step shared w (SetFieldTime i k t) = Err ValueError).
Proof.
  intros shared cs i k t d w Hd. unfold ftime_of in Hd. destruct (obj w i) as [o|] eqn:Eo; [|discriminate]. cbn [rbind] in Hd.
  unfold field_time, field in Hd. destruct (nth_error (a_fields o) k) as [f|] eqn:Ef; [|discriminate]. cbn [rbind] in Hd.
  assert (Ed : h_time (w_heap w) (m_time f) = d) by congruence. unfold step. rewrite Eo. cbn [rbind]. unfold set_field_time, field. rewrite Ef. cbn [rbind]. rewrite Ed.
  split; intro S.
  - rewrite (proj2 (Nat.eqb_eq _ _) S). cbn [rbind]. eexists; split; [reflexivity|].
    unfold ftime_of, obj. cbn [w_objs w_heap]. apply obj_at in Eo. rewrite Eo. cbn [rbind]. unfold field_time, field. rewrite Ef. cbn. rewrite Nat.eqb_refl. reflexivity.
  - rewrite (proj2 (Nat.eqb_neq _ _) S). reflexivity.
Qed.

(** ** The time of an object changes only by assigning its time (or the time of a field, see below). *)
Theorem C47_time : forall shared cs ds i, i < count (run shared cs) -> (forall t, ~ In (SetTime i t) ds) ->
  (forall j k t, ~ In (SetFieldTime j k t) ds) ->
  time_of (run shared (cs ++ ds)) i = time_of (run shared cs) i.
Proof.
  intros shared cs ds i Hi Hd Hf. rewrite run_app. pose proof (run_inv shared cs) as I. revert I Hi. generalize (run shared cs).
  induction ds as [|c ds IH]; intros w I Hi; [reflexivity|]. rewrite after_cons, IH.
  - destruct (obj_in w i Hi) as (o & Ho). pose proof (exec_keeps shared w c i o Ho) as Ho'. unfold time_of.
    rewrite (obj_eq _ _ _ Ho), (obj_eq _ _ _ Ho'). cbn [rbind]. f_equal. unfold exec in *.
    destruct (step shared w c) as [w'|] eqn:E; [|reflexivity]. apply step_did in E. destruct (i_ok w I i o Ho) as [B _].
    destruct (did_old_time _ _ _ _ _ I E B) as [X|[(j & t & p & Ec & Hp & Em & _)|(j & k & t & p & f & Ec & _)]]; [exact X| |].
    + assert (j = i) by (eapply (i_time w I); eassumption). subst j. exfalso. apply (Hd t). left. exact Ec.
    + exfalso. apply (Hf j k t). left. exact Ec.
  - intros t Ht. apply (Hd t). right. exact Ht.
  - intros j k t Ht. apply (Hf j k t). right. exact Ht.
  - apply exec_inv; exact I.
  - pose proof (count_exec shared w c). lia.
Qed.

(** ** Fields of constructed and translated objects always show the object's own time. *)
Lemma follows_forever : forall shared w cs i o k f, nth_error (w_objs w) i = Some o -> nth_error (a_fields o) k = Some f -> m_time f = a_time o ->
  ftime_of (after shared w cs) i k = time_of (after shared w cs) i.
Proof.
  intros shared w cs i o k f Ho Hf Em. pose proof (after_keeps shared cs w i o Ho) as H. unfold ftime_of, time_of.
  rewrite (obj_eq _ _ _ H). cbn [rbind]. rewrite (field_time_at _ _ _ _ Hf), Em. reflexivity.
Qed.
Lemma added : forall (w : world) H o, nth_error (w_objs (mkw H (w_objs w ++ [o]))) (count w) = Some o.
Proof. intros. cbn. unfold count. rewrite nth_error_app2, Nat.sub_diag by lia. reflexivity. Qed.
Lemma translate_steps : forall shared w i t0, inv w -> i < count w ->
  exists o H o', nth_error (w_objs w) i = Some o /\ time_translation (w_heap w) o t0 = Ok (H, o') /\
    exec shared w (Translate i t0) = mkw H (w_objs w ++ [o']).
Proof.
  intros shared w i t0 I Hi. destruct (obj_in w i Hi) as (o & Ho).
  destruct (translate_spec (w_heap w) o t0 (i_ok w I i o Ho)) as (H & o' & E & _). exists o, H, o'. split; [exact Ho|]. split; [exact E|].
  unfold exec, step. rewrite (obj_eq _ _ _ Ho). cbn [rbind]. rewrite E. reflexivity.
Qed.
Theorem C47_fields_follow : forall shared cs ds c k, let i := count (run shared cs) in k < 6 ->
  (exists t ell ft, c = New t ell ft) \/ (exists j t0, c = Translate j t0 /\ j < i) ->
  exists t, ftime_of (run shared (cs ++ c :: ds)) i k = Ok t /\ time_of (run shared (cs ++ c :: ds)) i = Ok t.
Proof.
  intros shared cs ds c k i Hk Hc. rewrite run_app, after_cons. set (w := run shared cs) in *.
  assert (X : exists o f, nth_error (w_objs (exec shared w c)) i = Some o /\ nth_error (a_fields o) k = Some f /\ m_time f = a_time o).
  { destruct Hc as [(t & ell & ft & ->)|(j & t0 & -> & Hj)].
    - unfold exec, step. destruct (construct (w_heap w) t ell ft) as [H o] eqn:EC. cbn [fst snd].
      apply construct_spec in EC. destruct EC as (_ & (_ & L & _) & _ & _ & _ & _ & _ & FZ & _).
      destruct (nth_error (a_fields o) k) as [f|] eqn:Ef; [|apply nth_error_None in Ef; lia].
      exists o, f. split; [apply (added w H o)|]. split; [exact Ef|]. apply (FZ k f Ef).
    - destruct (translate_steps shared w j t0 (run_inv shared cs) Hj) as (p & H & o & Hp & E & ->).
      destruct (translate_spec (w_heap w) p t0 (i_ok w (run_inv shared cs) j p Hp)) as (H2 & o2 & E2 & _ & (_ & L & _) & _ & _ & _ & _ & _ & FZ & _).
      rewrite E in E2. inversion E2; subst H2 o2.
      destruct (nth_error (a_fields o) k) as [f|] eqn:Ef; [|apply nth_error_None in Ef; lia].
      exists o, f. split; [apply (added w H o)|]. split; [exact Ef|]. apply (FZ k f Ef). }
  destruct X as (o & f & Ho & Hf & Em). rewrite (follows_forever shared _ ds i o k f Ho Hf Em).
  unfold time_of. rewrite (obj_eq _ _ _ (after_keeps shared ds _ i o Ho)). cbn [rbind]. eexists; split; reflexivity.
Qed.

(** ** copy *)
Lemma copy_steps : forall shared w i, i < count w ->
  exists o H o', nth_error (w_objs w) i = Some o /\ copy shared (w_heap w) o = (H, o') /\ exec shared w (Copy i) = mkw H (w_objs w ++ [o']).
Proof.
  intros shared w i Hi. destruct (obj_in w i Hi) as (o & Ho). destruct (copy shared (w_heap w) o) as [H o'] eqn:E.
  exists o, H, o'. split; [exact Ho|]. split; [exact E|]. unfold exec, step. rewrite (obj_eq _ _ _ Ho). cbn [rbind]. rewrite E. reflexivity.
Qed.
(** The copy shows what the original showed; nothing else changes. *)
Theorem C47_copy_equal : forall shared cs i, let w := run shared cs in let w' := run shared (cs ++ [Copy i]) in let j := count w in i < j ->
  count w' = S j /\ time_of w' j = time_of w i /\ meta_of w' j = meta_of w i /\
  (forall k, data_of w' j k = data_of w i k /\ ftime_of w' j k = ftime_of w i k) /\
  (forall p, p < j -> time_of w' p = time_of w p /\ meta_of w' p = meta_of w p /\ forall k, data_of w' p k = data_of w p k /\ ftime_of w' p k = ftime_of w p k).
Proof.
  intros shared cs i w w' j Hi. unfold w'. rewrite run_app, after_cons. cbn [after fold_left]. fold w.
  destruct (copy_steps shared w i Hi) as (o & H & o' & Ho & E & ->).
  pose proof (run_inv shared cs) as I. fold w in I. pose proof (i_ok w I i o Ho) as OKo.
  destruct (copy_spec _ _ _ _ _ OKo E) as (G & (B & L6 & _) & _ & T & FR & FT & EL & _ & F).
  split; [unfold count; cbn; rewrite app_length; cbn; unfold j, count; lia|].
  unfold time_of, meta_of, data_of, ftime_of. unfold j at 1 2 3 4. rewrite (obj_eq _ _ _ (added w H o')), (obj_eq _ _ _ Ho). cbn [rbind w_heap].
  rewrite T, FR, FT, EL. split; [reflexivity|]. split; [reflexivity|]. split.
  - intro k. destruct (nth_error (a_fields o) k) as [f|] eqn:Ef.
    + destruct (F k f Ef) as (f' & Ef' & D & S & _).
      rewrite (get_field_at _ _ _ _ Ef), (get_field_at _ _ _ _ Ef'), (field_time_at _ _ _ _ Ef), (field_time_at _ _ _ _ Ef'), D, S. auto.
    + assert (nth_error (a_fields o') k = None) by (apply nth_error_None in Ef; apply nth_error_None; destruct OKo as (_ & ? & _); lia).
      rewrite !get_field_out, !field_time_out by assumption. auto.
  - intros p Hp. destruct (obj_in w p Hp) as (q & Hq).
    assert (Hq' : nth_error (w_objs (mkw H (w_objs w ++ [o']))) p = Some q) by (cbn; rewrite nth_error_app1 by exact Hp; exact Hq).
    rewrite (obj_eq _ _ _ Hq), (obj_eq _ _ _ Hq'). cbn [rbind w_heap].
    pose proof (i_ok w I p q Hq) as (Bq & Lq & Fq). split; [unfold get_time; rewrite (proj1 (proj2 G _ Bq)); reflexivity|]. split; [reflexivity|].
    intro k. destruct (nth_error (a_fields q) k) as [f|] eqn:Ef.
    + destruct (Fq k f Ef) as (X & Y & _). rewrite !(get_field_at _ _ _ _ Ef), !(field_time_at _ _ _ _ Ef).
      rewrite (proj1 (proj2 G _ Y)), (proj2 (proj2 G _ X)). auto.
    + rewrite !get_field_out, !field_time_out by assumption. auto.
Qed.

(** With the metadata dictionary shared, the fields of a copy show the time of the fields of the original, in
    every later history. *)
Theorem C47_copy_follows_original : forall cs ds i k, let j := count (run true cs) in i < j ->
  ftime_of (run true (cs ++ Copy i :: ds)) j k = ftime_of (run true (cs ++ Copy i :: ds)) i k.
Proof.
  intros cs ds i k j Hi. rewrite run_app, after_cons. set (w := run true cs) in *.
  destruct (copy_steps true w i Hi) as (o & H & o' & Ho & E & ->).
  pose proof (run_inv true cs) as I. fold w in I. pose proof (i_ok w I i o Ho) as OKo.
  destruct (copy_spec _ _ _ _ _ OKo E) as (G & (B & L6 & _) & _ & T & FR & FT & EL & _ & F).
  unfold ftime_of.
  assert (Hi' : nth_error (w_objs (mkw H (w_objs w ++ [o']))) i = Some o) by (cbn; rewrite nth_error_app1 by exact Hi; exact Ho).
  rewrite (obj_eq _ _ _ (after_keeps true ds _ j o' (added w H o'))), (obj_eq _ _ _ (after_keeps true ds _ i o Hi')). cbn [rbind].
  destruct (nth_error (a_fields o) k) as [f|] eqn:Ef.
  - destruct (F k f Ef) as (f' & Ef' & _ & _ & S). rewrite (field_time_at _ _ _ _ Ef), (field_time_at _ _ _ _ Ef'), S. reflexivity.
  - assert (nth_error (a_fields o') k = None) by (apply nth_error_None in Ef; apply nth_error_None; destruct OKo as (_ & ? & _); lia).
    rewrite !field_time_out by assumption. reflexivity.
Qed.

(** Assigning the time of a copy never reaches its fields: they keep the time at copying as long as no time of
    another object and no time of a field is assigned. *)
Theorem C47_copy_fields_are_stale : forall shared cs ds i k, let w := run shared cs in let j := count w in i < j ->
  (forall p t, In (SetTime p t) ds -> p = j) -> (forall p l t, ~ In (SetFieldTime p l t) ds) ->
  ftime_of (run shared (cs ++ Copy i :: ds)) j k = ftime_of w i k.
Proof.
  intros shared cs ds i k w j Hi Ht Hf.
  transitivity (ftime_of (run shared (cs ++ [Copy i])) j k); [|apply (proj1 (proj2 (proj2 (proj2 (C47_copy_equal shared cs i Hi)))) k)].
  rewrite !run_app, !after_cons. change (after shared (exec shared (run shared cs) (Copy i)) []) with (exec shared (run shared cs) (Copy i)). fold w.
  destruct (copy_steps shared w i Hi) as (o & H & o' & Ho & E & ->).
  pose proof (run_inv shared cs) as I. fold w in I. pose proof (i_ok w I i o Ho) as OKo.
  destruct (copy_spec _ _ _ _ _ OKo E) as (G & OK' & AB & T & FR & FT & EL & _ & F).
  assert (Hj : nth_error (w_objs (mkw H (w_objs w ++ [o']))) j = Some o') by apply added.
  pose proof (inv_add w H o' I G OK' AB) as I'.
  assert (Df : forall f', nth_error (a_fields o') k = Some f' -> m_time f' <> a_time o').
  { intros f' Ef'. destruct (nth_error (a_fields o) k) as [f|] eqn:Ef.
    - destruct (F k f Ef) as (f2 & Ef2 & _ & _ & S). assert (f2 = f') by congruence. subst f2. destruct shared; [|tauto].
      rewrite S. destruct (shape_ok _ _ _ _ OKo Ef) as [_ X]. destruct AB as [Y _]. lia.
    - apply nth_error_None in Ef. assert (k < length (a_fields o')) by (apply nth_error_Some; congruence). destruct OKo as (_ & ? & _). destruct OK' as (_ & ? & _). lia. }
  revert I' Hj. generalize (mkw H (w_objs w ++ [o'])). clearbody j. clear - Ht Hf Df.
  induction ds as [|c ds IH]; intros u I Hj; [reflexivity|]. rewrite after_cons, IH.
  - pose proof (exec_keeps shared u c j o' Hj) as Hj'. unfold ftime_of. rewrite (obj_eq _ _ _ Hj), (obj_eq _ _ _ Hj'). cbn [rbind].
    destruct (nth_error (a_fields o') k) as [f|] eqn:Ef; [|rewrite !field_time_out by assumption; reflexivity].
    rewrite !(field_time_at _ _ _ _ Ef). f_equal. unfold exec in *. destruct (step shared u c) as [u'|] eqn:E; [|reflexivity].
    apply step_did in E. destruct (shape_ok _ _ _ _ (i_ok u I j o' Hj) Ef) as [_ B].
    destruct (did_old_time _ _ _ _ _ I E B) as [X|[(p & t & q & Ec & Hp & Em & _)|(p & l & t & q & f2 & Ec & _)]]; [exact X| |].
    + assert (p = j) by (eapply Ht; left; exact Ec). subst p. assert (q = o') by congruence. subst q. exfalso. apply (Df f eq_refl). congruence.
    + exfalso. apply (Hf p l t). left. exact Ec.
  - intros p t Hp. eapply Ht. right. exact Hp.
  - intros p l t Hp. apply (Hf p l t). right. exact Hp.
  - apply exec_inv; exact I.
  - apply exec_keeps; exact Hj.
Qed.

(** ** Translation in time *)
Theorem C47_translate : forall shared cs i t0, let w := run shared cs in let w' := run shared (cs ++ [Translate i t0]) in let j := count w in i < j ->
  count w' = S j /\ (forall t, time_of w i = Ok t -> time_of w' j = Ok (map (fun x => x - t0)%R t)) /\
  (forall k, data_of w' j k = data_of w i k) /\ (forall F T L, meta_of w i = Ok (F, T, L) -> meta_of w' j = Ok ([], 1%Z, L)) /\
  (forall p, p < j -> time_of w' p = time_of w p /\ meta_of w' p = meta_of w p /\ forall k, data_of w' p k = data_of w p k /\ ftime_of w' p k = ftime_of w p k).
Proof.
  intros shared cs i t0 w w' j Hi. unfold w'. rewrite run_app, after_cons. cbn [after fold_left]. fold w.
  pose proof (run_inv shared cs) as I. fold w in I.
  destruct (translate_steps shared w i t0 I Hi) as (o & H & o' & Ho & E & ->). pose proof (i_ok w I i o Ho) as OKo.
  destruct (translate_spec (w_heap w) o t0 OKo) as (H2 & o2 & E2 & G & OK' & _ & T & FR & FT & EL & _ & D).
  rewrite E in E2. inversion E2; subst H2 o2. clear E2.
  split; [unfold count; cbn; rewrite app_length; cbn; unfold j, count; lia|].
  unfold time_of, meta_of, data_of, ftime_of. unfold j at 1 2 3 4. rewrite (obj_eq _ _ _ (added w H o')), (obj_eq _ _ _ Ho). cbn [rbind w_heap].
  rewrite T, FR, FT, EL. split; [intros t Et; inversion Et; reflexivity|]. split; [intro k; apply D|].
  split; [intros F T' L' Em; inversion Em; reflexivity|].
  intros p Hp. destruct (obj_in w p Hp) as (q & Hq).
  assert (Hq' : nth_error (w_objs (mkw H (w_objs w ++ [o']))) p = Some q) by (cbn; rewrite nth_error_app1 by exact Hp; exact Hq).
  rewrite (obj_eq _ _ _ Hq), (obj_eq _ _ _ Hq'). cbn [rbind w_heap].
  pose proof (i_ok w I p q Hq) as (Bq & Lq & Fq). split; [unfold get_time; rewrite (proj1 (proj2 G _ Bq)); reflexivity|]. split; [reflexivity|].
  intro k. destruct (nth_error (a_fields q) k) as [f|] eqn:Ef.
  - destruct (Fq k f Ef) as (X & Y & _). rewrite !(get_field_at _ _ _ _ Ef), !(field_time_at _ _ _ _ Ef).
    rewrite (proj1 (proj2 G _ Y)), (proj2 (proj2 G _ X)). auto.
  - rewrite !get_field_out, !field_time_out by assumption. auto.
Qed.
Lemma time_total : forall w i, i < count w -> exists t, time_of w i = Ok t.
Proof. intros w i Hi. destruct (obj_in w i Hi) as (o & Ho). unfold time_of. rewrite (obj_eq _ _ _ Ho). eexists; reflexivity. Qed.
(** Translating by a and then by b is translating by a + b. *)
Theorem C47_translations_compose : forall shared cs i a b, let j := count (run shared cs) in i < j ->
  let w2 := run shared (cs ++ [Translate i a; Translate j b]) in let w1 := run shared (cs ++ [Translate i (a + b)]) in
  time_of w2 (S j) = time_of w1 j /\ forall k, data_of w2 (S j) k = data_of w1 j k.
Proof.
  intros shared cs i a b j Hi w2 w1.
  destruct (C47_translate shared cs i a Hi) as (Ca & Ta & Da & _).
  destruct (C47_translate shared cs i (a + b) Hi) as (_ & Tab & Dab & _).
  destruct (time_total (run shared cs) i Hi) as (t & Et).
  assert (Hj : j < count (run shared (cs ++ [Translate i a]))) by (rewrite Ca; unfold j; lia).
  destruct (C47_translate shared (cs ++ [Translate i a]) j b Hj) as (_ & Tb & Db & _).
  assert (Ew : run shared ((cs ++ [Translate i a]) ++ [Translate j b]) = w2) by (unfold w2; rewrite <- app_assoc; reflexivity).
  rewrite Ew in Tb, Db. rewrite Ca in Tb, Db. fold j in Ta, Da, Tab, Dab, Tb, Db. fold w1 in Tab, Dab. split.
  - rewrite (Tb _ (Ta t Et)), (Tab t Et), map_map. f_equal. apply map_ext. intro x. ring.
  - intro k. rewrite Db, Da, Dab. reflexivity.
Qed.

(** ** Interpolation *)
Section Interp.
Variable spline : list R -> table -> list R -> table.
Variable squad : list quat -> list R -> list R -> list quat.
(** External: as many rows as new times, each as long as the rows of the table. *)
Hypothesis spline_shape : forall t d new n w, map (@length C) d = repeat w n -> map (@length C) (spline t d new) = repeat w (length new).

Theorem C47_interpolate : forall shared cs i new, let w := run shared cs in i < count w ->
  exists o H' o', obj w i = Ok o /\ interpolate spline squad (w_heap w) o new = Ok (H', o') /\
    get_time H' o' = new /\
    (forall k d t, data_of w i k = Ok d -> ftime_of w i k = Ok t -> get_field H' o' k = Ok (spline t d new) /\ field_time H' o' k = Ok new) /\
    (forall F T L t, meta_of w i = Ok (F, T, L) -> time_of w i = Ok t ->
       a_ftype o' = T /\ a_ell o' = L /\ a_frame o' = if Nat.eqb (length F) (length t) then squad F t new else []) /\
    grows (w_heap w) H'.
Proof.
  intros shared cs i new w Hi. pose proof (run_inv shared cs) as I. fold w in I. destruct (obj_in w i Hi) as (o & Ho).
  pose proof (i_ok w I i o Ho) as (OB & OL & OF). exists o. unfold interpolate.
  destruct (construct (w_heap w) new (a_ell o) Inertial) as [H1 o'] eqn:EC.
  apply construct_spec in EC. destruct EC as (G & (B1 & L6 & BF) & (AT & AF & AI) & GT & FR & FT & EL & FZ & _).
  set (T := fun k => match nth_error (a_fields o) k with Some f => spline (h_time (w_heap w) (m_time f)) (h_tab (w_heap w) (m_tab f)) new | None => [] end).
  destruct (set_fields_spec [5; 4; 3; 2; 1; 0] H1 o'
     (fun k => let? d := get_field (w_heap w) o k in let? t := field_time (w_heap w) o k in Ok (spline t d new)) T nodup6 AI) as (H2 & E2 & M2 & N2 & V2 & O2).
  { intros k Hk. apply six in Hk.
    destruct (nth_error (a_fields o) k) as [f|] eqn:Hf; [|apply nth_error_None in Hf; lia].
    destruct (nth_error (a_fields o') k) as [f'|] eqn:Hf'; [|apply nth_error_None in Hf'; lia].
    unfold T. rewrite Hf, (get_field_at _ _ _ _ Hf), (field_time_at _ _ _ _ Hf). split; [reflexivity|]. exists f'. split; [reflexivity|].
    unfold shape at 1. rewrite (spline_shape _ _ _ _ _ (proj2 (proj2 (OF k f Hf)))), (proj2 (proj2 (BF k f' Hf'))), EL, GT. reflexivity. }
  rewrite E2. cbn [rbind]. exists H2. eexists. split; [apply obj_eq; exact Ho|]. split; [reflexivity|].
  assert (GT2 : h_time H2 (a_time o') = new) by (rewrite M2; exact GT).
  split; [exact GT2|]. split; [|split].
  - intros k d t Hd Ht. unfold data_of in Hd. unfold ftime_of in Ht. rewrite (obj_eq _ _ _ Ho) in Hd, Ht. cbn [rbind] in Hd, Ht.
    destruct (nth_error (a_fields o) k) as [f|] eqn:Hf; [|rewrite get_field_out in Hd by exact Hf; discriminate].
    rewrite (get_field_at _ _ _ _ Hf) in Hd. rewrite (field_time_at _ _ _ _ Hf) in Ht.
    assert (Hk : k < 6) by (rewrite <- OL; apply nth_error_Some; congruence).
    destruct (nth_error (a_fields o') k) as [f'|] eqn:Hf'; [|apply nth_error_None in Hf'; lia].
    unfold get_field, field_time, field. cbn [a_fields]. rewrite Hf'. cbn [rbind]. rewrite (V2 k f' (proj2 (six k) Hk) Hf').
    unfold T. rewrite Hf. rewrite (proj1 (FZ k f' Hf')), GT2. inversion Hd. inversion Ht. auto.
  - intros F T' L' t Hm Ht. unfold meta_of in Hm. unfold time_of in Ht. rewrite (obj_eq _ _ _ Ho) in Hm, Ht. cbn [rbind] in Hm, Ht.
    inversion Hm; inversion Ht; subst. cbn [a_ftype a_ell a_frame]. auto.
  - destruct G as [GL G']. split; [lia|]. intros a Ha. destruct (G' a Ha) as [X Y]. rewrite M2. split; [exact X|].
    rewrite O2; [exact Y|]. intros k f _ Hf Em. specialize (AF k f Hf). lia.
Qed.
(** A copy whose time was assigned is interpolated as if it had not been. *)
Theorem C47_interpolate_ignores_copied_time : forall shared cs i t new k d u, let j := count (run shared cs) in i < j ->
  data_of (run shared cs) i k = Ok d -> ftime_of (run shared cs) i k = Ok u ->
  exists o H' o', obj (run shared (cs ++ [Copy i; SetTime j t])) j = Ok o /\
    interpolate spline squad (w_heap (run shared (cs ++ [Copy i; SetTime j t]))) o new = Ok (H', o') /\ get_field H' o' k = Ok (spline u d new).
Proof.
  intros shared cs i t new k d u j Hi Hd Hu.
  destruct (C47_copy_equal shared cs i Hi) as (Cn & _ & _ & Eq & _).
  assert (Ed : data_of (run shared (cs ++ [Copy i; SetTime j t])) j k = Ok d).
  { replace (cs ++ [Copy i; SetTime j t]) with ((cs ++ [Copy i]) ++ [SetTime j t]) by (rewrite <- app_assoc; reflexivity).
    rewrite C47_data; [unfold j; rewrite (proj1 (Eq k)); exact Hd|rewrite Cn; unfold j; lia|]. intros t' [E|[]]; discriminate. }
  assert (Eu : ftime_of (run shared (cs ++ [Copy i; SetTime j t])) j k = Ok u).
  { unfold j. rewrite C47_copy_fields_are_stale; [exact Hu|exact Hi| |].
    - intros p t' [E|[]]; inversion E; reflexivity.
    - intros p l t' [E|[]]; discriminate. }
  assert (Hc : j < count (run shared (cs ++ [Copy i; SetTime j t]))).
  { replace (cs ++ [Copy i; SetTime j t]) with ((cs ++ [Copy i]) ++ [SetTime j t]) by (rewrite <- app_assoc; reflexivity).
    rewrite run_app, after_cons. cbn [after fold_left]. pose proof (count_exec shared (run shared (cs ++ [Copy i])) (SetTime j t)). unfold j in *. lia. }
  destruct (C47_interpolate shared (cs ++ [Copy i; SetTime j t]) j new Hc) as (o & H' & o' & Eo & Ei & _ & V & _).
  exists o, H', o'. split; [exact Eo|]. split; [exact Ei|]. apply (V k d u Ed Eu).
Qed.
End Interp.

(** ** What does not hold *)
Ltac compute_run := lazy -[IZR Rminus C0 C1 Ci].
Definition demo : list cmd := [New [0; 1]%R 0 1; Copy 0].
(** "the fields of a copy show the copy's time" *)
Theorem C47_copy_fields_follow_refuted : forall shared, exists cs i k,
  ftime_of (run shared cs) i k <> time_of (run shared cs) i /\ exists t u, ftime_of (run shared cs) i k = Ok t /\ time_of (run shared cs) i = Ok u.
Proof.
  intro shared. exists (demo ++ [SetTime 1 [5; 6]%R]), 1, 4. destruct shared; compute_run; (split; [|do 2 eexists; split; reflexivity]); intro E; inversion E; lra.
Qed.
(** "changes to the original never reach a copy", "changes to a copy never reach the original": with a shared
    dictionary both fail for times of fields. *)
Theorem C47_copy_isolated_refuted :
  (exists t, ftime_of (run true demo) 1 0 = Ok [0; 1]%R /\ ftime_of (run true (demo ++ [SetTime 0 t])) 1 0 = Ok t /\ t = [7; 8]%R) /\
  (exists t, time_of (run true demo) 0 = Ok [0; 1]%R /\ time_of (run true (demo ++ [SetFieldTime 1 0 t])) 0 = Ok t /\ t = [7; 8]%R).
Proof. split; exists [7; 8]%R; compute_run; auto. Qed.
(** After a copy, `_raw_data` of the copy is no longer what its fields show. *)
Theorem C47_copy_raw_detached_refuted : forall shared, exists cs i o, obj (run shared cs) i = Ok o /\
  data_of (run shared cs) i 0 <> match nth_error (a_raw o) 0 with Some a => Ok (h_tab (w_heap (run shared cs)) a) | None => Err IndexError end.
Proof.
  intro shared. exists (demo ++ [SetField 1 0 [[C1]; [C1]]]), 1. destruct shared; (eexists; split; [vm_compute; reflexivity|]); intro E; vm_compute in E;
  inversion E; lra.
Qed.

(** A case: translation and later writes *)
Example C47_case : forall shared, let w := run shared [New [0; 1]%R 0 1; SetField 0 2 [[C1]; [Ci]]; Translate 0 1; SetTime 0 [3; 4]%R; SetField 0 2 [[C0]; [C0]]] in
  time_of w 0 = Ok [3; 4]%R /\ time_of w 1 = Ok [0 - 1; 1 - 1]%R /\ ftime_of w 1 2 = Ok [0 - 1; 1 - 1]%R /\
  data_of w 1 2 = Ok [[C1]; [Ci]] /\ data_of w 0 2 = Ok [[C0]; [C0]].
Proof. intro shared. destruct shared; compute_run; auto. Qed.
