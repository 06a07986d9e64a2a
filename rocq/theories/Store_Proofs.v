(** C47: containers of Bondi data, in every history of constructions, copies, translations and in-place writes. *)
From Coq Require Import Reals ZArith List Bool Arith Lia Lra.
From Verif Require Import Common Cplx Quat Store_Model.
Import ListNotations.
Open Scope nat_scope.

(** * Heaps *)
(** Everything that was allocated is unchanged. *)
Definition grows (H H' : heap) : Prop :=
  h_next H <= h_next H' /\ forall a, a < h_next H -> h_time H' a = h_time H a /\ h_tab H' a = h_tab H a.
Lemma grows_refl : forall H, grows H H.
Proof. intro H; split; auto. Qed.
Lemma grows_trans : forall H1 H2 H3, grows H1 H2 -> grows H2 H3 -> grows H1 H3.
Proof.
  intros H1 H2 H3 [A B] [A' B']; split; [lia|]. intros a Ha.
  destruct (B a Ha) as [E1 E2]. destruct (B' a ltac:(lia)) as [E3 E4]. split; congruence.
Qed.
Lemma new_time_spec : forall H t H' a, new_time H t = (H', a) ->
  grows H H' /\ a = h_next H /\ h_next H' = S (h_next H) /\ h_time H' a = t /\ h_tab H' = h_tab H.
Proof.
  intros H t H' a E. unfold new_time in E. inversion E; subst; clear E. cbn.
  repeat split; auto; try lia.
  - cbn; lia.
  - cbn. destruct (Nat.eqb_spec a (h_next H)); [lia|reflexivity].
  - rewrite Nat.eqb_refl; reflexivity.
Qed.
Lemma new_tab_spec : forall H t H' a, new_tab H t = (H', a) ->
  grows H H' /\ a = h_next H /\ h_next H' = S (h_next H) /\ h_tab H' a = t /\ h_time H' = h_time H.
Proof.
  intros H t H' a E. unfold new_tab in E. inversion E; subst; clear E. cbn.
  repeat split; auto; try lia.
  - cbn; lia.
  - cbn. destruct (Nat.eqb_spec a (h_next H)); [lia|reflexivity].
  - rewrite Nat.eqb_refl; reflexivity.
Qed.
Lemma new_tabs_spec : forall ts H H' l, new_tabs H ts = (H', l) ->
  grows H H' /\ l = seq (h_next H) (length ts) /\ h_next H' = h_next H + length ts /\ h_time H' = h_time H /\
  (forall k t, nth_error ts k = Some t -> h_tab H' (h_next H + k) = t).
Proof.
  induction ts as [|t ts IH]; intros H H' l E; cbn [new_tabs] in E.
  - inversion E; subst. repeat split; cbn; auto; try lia. intros [|k] t; discriminate.
  - destruct (new_tab H t) as [H1 a] eqn:E1. destruct (new_tabs H1 ts) as [H2 l2] eqn:E2. inversion E; subst; clear E.
    apply new_tab_spec in E1. destruct E1 as (G1 & A1 & N1 & T1 & M1).
    apply IH in E2. destruct E2 as (G2 & A2 & N2 & M2 & T2).
    split; [eapply grows_trans; eassumption|].
    split; [cbn; rewrite A1, A2, N1; reflexivity|].
    split; [cbn; lia|]. split; [congruence|].
    intros [|k] u Hu; cbn in Hu.
    + inversion Hu; subst u. rewrite Nat.add_0_r. rewrite <- A1. destruct (proj2 G2 a ltac:(lia)) as [_ X]. congruence.
    + rewrite <- (T2 k u Hu). f_equal. lia.
Qed.
Lemma new_times_spec : forall ts H H' l, new_times H ts = (H', l) ->
  grows H H' /\ l = seq (h_next H) (length ts) /\ h_next H' = h_next H + length ts /\ h_tab H' = h_tab H /\
  (forall k t, nth_error ts k = Some t -> h_time H' (h_next H + k) = t).
Proof.
  induction ts as [|t ts IH]; intros H H' l E; cbn [new_times] in E.
  - inversion E; subst. repeat split; cbn; auto; try lia. intros [|k] t; discriminate.
  - destruct (new_time H t) as [H1 a] eqn:E1. destruct (new_times H1 ts) as [H2 l2] eqn:E2. inversion E; subst; clear E.
    apply new_time_spec in E1. destruct E1 as (G1 & A1 & N1 & T1 & M1).
    apply IH in E2. destruct E2 as (G2 & A2 & N2 & M2 & T2).
    split; [eapply grows_trans; eassumption|].
    split; [cbn; rewrite A1, A2, N1; reflexivity|].
    split; [cbn; lia|]. split; [congruence|].
    intros [|k] u Hu; cbn in Hu.
    + inversion Hu; subst u. rewrite Nat.add_0_r. rewrite <- A1. destruct (proj2 G2 a ltac:(lia)) as [X _]. congruence.
    + rewrite <- (T2 k u Hu). f_equal. lia.
Qed.
Lemma nth_error_combine : forall (A B : Type) (l : list A) (m : list B) k,
  nth_error (combine l m) k = match nth_error l k, nth_error m k with Some a, Some b => Some (a, b) | _, _ => None end.
Proof.
  induction l as [|a l IH]; intros m k; [destruct k; reflexivity|].
  destruct m as [|b m]; [destruct k; cbn; [reflexivity|destruct (nth_error l k); reflexivity]|].
  destruct k; cbn; [reflexivity|apply IH].
Qed.
Lemma nth_error_seq' : forall n s k, k < n -> nth_error (seq s n) k = Some (s + k).
Proof.
  induction n as [|n IH]; intros s k Hk; [lia|]. destruct k; cbn; [f_equal; lia|].
  rewrite IH by lia. f_equal. lia.
Qed.

(** * Objects *)
(** An object lives below [n]; tables are its own. *)
Definition obj_ok (H : heap) (o : abd) : Prop :=
  a_time o < h_next H /\ length (a_fields o) = 6 /\
  (forall k f, nth_error (a_fields o) k = Some f ->
     m_tab f < h_next H /\ m_time f < h_next H /\
     shape (h_tab H (m_tab f)) = repeat (Z.to_nat ((a_ell o + 1) ^ 2)) (length (get_time H o))).
(** All addresses of [o] are at least [n] (except possibly the times of its fields). *)
Definition above (n : nat) (o : abd) : Prop :=
  n <= a_time o /\
  (forall k f, nth_error (a_fields o) k = Some f -> n <= m_tab f) /\
  (forall k k' f f', nth_error (a_fields o) k = Some f -> nth_error (a_fields o) k' = Some f' -> m_tab f = m_tab f' -> k = k').

Lemma construct_spec : forall H t ell ft H' o, construct H t ell ft = (H', o) ->
  grows H H' /\ obj_ok H' o /\ above (h_next H) o /\ get_time H' o = t /\ a_frame o = [] /\ a_ftype o = ft /\ a_ell o = ell /\
  (forall k f, nth_error (a_fields o) k = Some f -> m_time f = a_time o /\ h_tab H' (m_tab f) = zeros (length t) ell) /\
  map m_spin (a_fields o) = [2; 1; 0; -1; -2; 2]%Z.
Proof.
  intros H t ell ft H' o E. unfold construct in E.
  destruct (new_time H t) as [H1 ta] eqn:E1. destruct (new_tabs H1 (repeat (zeros (length t) ell) 6)) as [H2 raw] eqn:E2.
  inversion E; subst; clear E.
  apply new_time_spec in E1. destruct E1 as (G1 & A1 & N1 & T1 & M1).
  apply new_tabs_spec in E2. destruct E2 as (G2 & A2 & N2 & M2 & T2).
  assert (L : length (repeat (zeros (length t) ell) 6) = 6) by reflexivity. rewrite L in *.
  assert (TA : h_time H' ta = t) by (rewrite M2; exact T1).
  assert (F : forall k f, nth_error (map (fun rs => mkmts (fst rs) ta (snd rs)) (combine raw spins)) k = Some f ->
             k < 6 /\ m_tab f = h_next H1 + k /\ m_time f = ta).
  { intros k f Hf. subst raw. unfold spins in Hf.
    do 6 (destruct k as [|k]; [cbn in Hf; inversion Hf; subst; cbn; repeat split; lia|]).
    cbn in Hf. destruct k; discriminate. }
  split; [eapply grows_trans; eassumption|].
  assert (Z : forall k f, nth_error (map (fun rs => mkmts (fst rs) ta (snd rs)) (combine raw spins)) k = Some f ->
             h_tab H' (m_tab f) = zeros (length t) ell).
  { intros k f Hf. destruct (F k f Hf) as (Hk & Hm & _). rewrite Hm. apply T2. apply nth_error_repeat; exact Hk. }
  split; [|split].
  - split; [cbn; lia|]. split; [subst raw; reflexivity|].
    intros k f Hf. cbn [a_fields] in Hf. destruct (F k f Hf) as (Hk & Hm & Ht). rewrite Hm, Ht.
    split; [lia|]. split; [lia|]. rewrite <- Hm, (Z k f Hf). unfold get_time. cbn [a_time a_ell]. rewrite TA.
    unfold zeros, shape. clear. induction (length t); [reflexivity|]. cbn [repeat map]. rewrite repeat_length, IHn. reflexivity.
  - split; [cbn; lia|]. cbn [a_fields]. split.
    + intros k f Hf. destruct (F k f Hf) as (Hk & Hm & Ht). lia.
    + intros k k' f f' Hf Hf' Em. destruct (F k f Hf) as (Hk & Hm & _). destruct (F k' f' Hf') as (Hk' & Hm' & _). lia.
  - split; [exact TA|]. split; [reflexivity|]. split; [reflexivity|]. split; [reflexivity|]. split.
    + intros k f Hf. destruct (F k f Hf) as (_ & _ & Ht). split; [exact Ht|apply (Z k f Hf)].
    + subst raw. reflexivity.
Qed.

Lemma copy_spec : forall shared H o H' o', obj_ok H o -> copy shared H o = (H', o') ->
  grows H H' /\ obj_ok H' o' /\ above (h_next H) o' /\ get_time H' o' = get_time H o /\
  a_frame o' = a_frame o /\ a_ftype o' = a_ftype o /\ a_ell o' = a_ell o /\ map m_spin (a_fields o') = map m_spin (a_fields o) /\
  (forall k f, nth_error (a_fields o) k = Some f -> exists f', nth_error (a_fields o') k = Some f' /\
     h_tab H' (m_tab f') = h_tab H (m_tab f) /\ h_time H' (m_time f') = h_time H (m_time f) /\
     (if shared then m_time f' = m_time f else h_next H <= m_time f' /\ m_time f' <> a_time o')).
Proof.
  intros shared H o H' o' OK E. destruct OK as (B1 & L6 & BF). unfold copy in E.
  destruct (new_time H (get_time H o)) as [H1 ta] eqn:E1.
  destruct (new_tabs H1 (map (h_tab H) (a_raw o))) as [H2 raw] eqn:E2.
  destruct (new_tabs H2 (map (fun f => h_tab H (m_tab f)) (a_fields o))) as [H3 tabs] eqn:E3.
  apply new_time_spec in E1. destruct E1 as (G1 & A1 & N1 & T1 & M1).
  apply new_tabs_spec in E2. destruct E2 as (G2 & A2 & N2 & M2 & T2).
  apply new_tabs_spec in E3. destruct E3 as (G3 & A3 & N3 & M3 & T3).
  rewrite !map_length in *. rewrite L6 in *.
  destruct (if shared then (H3, map m_time (a_fields o)) else new_times H3 (map (fun f => h_time H (m_time f)) (a_fields o))) as [H4 tms] eqn:E4.
  inversion E; subst H' o'; clear E.
  assert (G13 : grows H H3) by (eapply grows_trans; [exact G1|eapply grows_trans; eassumption]).
  assert (S4 : grows H3 H4 /\ h_tab H4 = h_tab H3 /\ length tms = 6 /\
    (forall k f, nth_error (a_fields o) k = Some f -> exists m, nth_error tms k = Some m /\ m < h_next H4 /\ h_time H4 m = h_time H (m_time f) /\
       (if shared then m = m_time f else h_next H <= m /\ m <> ta))).
  { destruct shared.
    - inversion E4; subst. split; [apply grows_refl|]. split; [reflexivity|]. split; [rewrite map_length; exact L6|].
      intros k f Hf. exists (m_time f). split; [apply map_nth_error; exact Hf|].
      destruct (BF k f Hf) as (_ & Bt & _). split; [destruct G13; lia|]. split; [apply (proj2 G13); exact Bt|reflexivity].
    - apply new_times_spec in E4. destruct E4 as (G4 & A4 & N4 & M4 & T4). rewrite map_length, L6 in *.
      split; [exact G4|]. split; [exact M4|]. split; [rewrite A4; apply seq_length|].
      intros k f Hf. assert (Hk : k < 6) by (rewrite <- L6; apply nth_error_Some; congruence).
      exists (h_next H3 + k). split; [rewrite A4; apply nth_error_seq'; exact Hk|]. split; [lia|].
      split; [apply T4; exact (map_nth_error (fun f => h_time H (m_time f)) _ _ Hf)|]. destruct G13. lia. }
  clear E4. destruct S4 as (G4 & M4 & L4 & T4).
  assert (F : forall k f, nth_error (a_fields o) k = Some f -> exists m, nth_error tms k = Some m /\
     nth_error (map (fun x => mkmts (fst (fst x)) (snd (fst x)) (m_spin (snd x))) (combine (combine tabs tms) (a_fields o))) k
       = Some (mkmts (h_next H2 + k) m (m_spin f)) /\ k < 6).
  { intros k f Hf. assert (Hk : k < 6) by (rewrite <- L6; apply nth_error_Some; congruence).
    destruct (T4 k f Hf) as (m & Hm & _). exists m. split; [exact Hm|]. split; [|exact Hk].
    erewrite map_nth_error; [|rewrite !nth_error_combine, Hf, Hm, A3, nth_error_seq' by exact Hk; reflexivity]. reflexivity. }
  assert (LF : length (map (fun x => mkmts (fst (fst x)) (snd (fst x)) (m_spin (snd x))) (combine (combine tabs tms) (a_fields o))) = 6).
  { rewrite map_length, !combine_length, A3, seq_length, L4, L6. reflexivity. }
  assert (GI : forall k f', nth_error (map (fun x => mkmts (fst (fst x)) (snd (fst x)) (m_spin (snd x))) (combine (combine tabs tms) (a_fields o))) k = Some f' ->
     exists f, nth_error (a_fields o) k = Some f).
  { intros k f' Hf. assert (Hk : k < 6) by (rewrite <- LF; apply nth_error_Some; congruence).
    destruct (nth_error (a_fields o) k) as [f|] eqn:Ef; [exists f; reflexivity|]. apply nth_error_None in Ef. lia. }
  assert (TA : h_time H4 ta = get_time H o).
  { destruct G2 as [? G2']. destruct G3 as [? G3']. destruct G4 as [? G4'].
    rewrite (proj1 (G4' ta ltac:(lia))), M3, M2. exact T1. }
  assert (TB : forall k f, nth_error (a_fields o) k = Some f -> h_tab H4 (h_next H2 + k) = h_tab H (m_tab f)).
  { intros k f Hf. rewrite M4. apply T3. exact (map_nth_error (fun f => h_tab H (m_tab f)) _ _ Hf). }
  split; [eapply grows_trans; eassumption|]. cbn [a_time a_fields a_frame a_ftype a_ell].
  split; [|split].
  - split; [cbn; destruct G2; destruct G3; destruct G4; lia|]. split; [exact LF|]. cbn [a_fields a_ell].
    intros k f' Hf'. destruct (GI k f' Hf') as (f & Hf). destruct (F k f Hf) as (m & Hm & Hn & Hk). rewrite Hf' in Hn. inversion Hn; subst f'.
    cbn [m_tab m_time]. destruct (T4 k f Hf) as (m' & Hm' & Hlt & _). assert (m' = m) by congruence; subst m'.
    split; [destruct G4; lia|]. split; [exact Hlt|]. rewrite (TB k f Hf). unfold get_time at 1. cbn [a_time]. rewrite TA. apply (BF k f Hf).
  - split; [cbn; lia|]. cbn [a_fields]. split.
    + intros k f' Hf'. destruct (GI k f' Hf') as (f & Hf). destruct (F k f Hf) as (m & Hm & Hn & Hk). rewrite Hf' in Hn. inversion Hn; subst f'.
      cbn [m_tab]. lia.
    + intros k k' f' g' Hf' Hg' Em.
      destruct (GI k f' Hf') as (f & Hf). destruct (F k f Hf) as (m & Hm & Hn & Hk). rewrite Hf' in Hn. inversion Hn; subst f'.
      destruct (GI k' g' Hg') as (g & Hg). destruct (F k' g Hg) as (m' & Hm' & Hn' & Hk'). rewrite Hg' in Hn'. inversion Hn'; subst g'.
      cbn [m_tab] in Em. lia.
  - split; [exact TA|]. split; [reflexivity|]. split; [reflexivity|]. split; [reflexivity|]. split.
    + apply (nth_ext _ _ 0%Z 0%Z); [rewrite !map_length in *; lia|]. intros k Hk. rewrite map_length, LF in Hk.
      destruct (nth_error (a_fields o) k) as [f|] eqn:Hf; [|apply nth_error_None in Hf; lia].
      destruct (F k f Hf) as (m & Hm & Hn & _).
      erewrite nth_error_nth; [|apply map_nth_error; exact Hn]. erewrite nth_error_nth; [|apply map_nth_error; exact Hf]. reflexivity.
    + intros k f Hf. destruct (F k f Hf) as (m & Hm & Hn & _). exists (mkmts (h_next H2 + k) m (m_spin f)). split; [exact Hn|].
      cbn [m_tab m_time]. split; [apply TB; exact Hf|]. destruct (T4 k f Hf) as (m' & Hm' & _ & Ht & Hs). assert (m' = m) by congruence; subst m'.
      split; [exact Ht|exact Hs].
Qed.

(** Assigning fields one after the other *)
Lemma set_fields_spec : forall ks H o src (T : nat -> table), NoDup ks ->
  (forall k k' f f', nth_error (a_fields o) k = Some f -> nth_error (a_fields o) k' = Some f' -> m_tab f = m_tab f' -> k = k') ->
  (forall k, In k ks -> src k = Ok (T k) /\ exists f, nth_error (a_fields o) k = Some f /\ shape (T k) = shape (h_tab H (m_tab f))) ->
  exists H', set_fields H o ks src = Ok H' /\ h_time H' = h_time H /\ h_next H' = h_next H /\
    (forall k f, In k ks -> nth_error (a_fields o) k = Some f -> h_tab H' (m_tab f) = T k) /\
    (forall a, (forall k f, In k ks -> nth_error (a_fields o) k = Some f -> m_tab f <> a) -> h_tab H' a = h_tab H a).
Proof.
  induction ks as [|k ks IH]; intros H o src T ND Inj Src.
  - exists H. cbn. repeat split; auto. intros k f [].
  - inversion ND; subst. destruct (Src k (or_introl eq_refl)) as (Es & f & Hf & Sh).
    assert (E : set_field H o k (T k) = Ok (put_tab H (m_tab f) (T k))).
    { unfold set_field, field. rewrite Hf. cbn [rbind]. destruct (list_eq_dec Nat.eq_dec (shape (T k)) (shape (h_tab H (m_tab f)))); [reflexivity|contradiction]. }
    destruct (IH (put_tab H (m_tab f) (T k)) o src T) as (H' & E' & M' & N' & V' & O'); auto.
    { intros j Hj. destruct (Src j (or_intror Hj)) as (Ej & g & Hg & Sg). split; [exact Ej|]. exists g. split; [exact Hg|]. cbn.
      destruct (Nat.eqb_spec (m_tab g) (m_tab f)) as [Em|Em]; [|exact Sg]. assert (j = k) by (eapply Inj; eassumption). subst. contradiction. }
    exists H'. cbn [set_fields]. rewrite Es. cbn [rbind]. rewrite E. cbn [rbind]. split; [exact E'|].
    split; [exact M'|]. split; [exact N'|]. split.
    + intros j g [<-|Hj] Hg.
      * assert (g = f) by congruence. subst g. rewrite O'; [cbn; rewrite Nat.eqb_refl; reflexivity|].
        intros j g' Hj Hg' Em. assert (j = k) by (eapply Inj; eassumption). subst. contradiction.
      * apply V'; assumption.
    + intros a Ha. rewrite O'; [|intros; eapply Ha; [right; eassumption|eassumption]].
      cbn. destruct (Nat.eqb_spec a (m_tab f)) as [Em|_]; [|reflexivity]. exfalso. apply (Ha k f); [left; reflexivity|exact Hf|congruence].
Qed.
Lemma six : forall k, In k [5; 4; 3; 2; 1; 0] <-> k < 6.
Proof. intro k; cbn; lia. Qed.
Lemma nodup6 : NoDup [5; 4; 3; 2; 1; 0].
Proof. repeat constructor; cbn; lia. Qed.
Lemma get_field_at : forall H o k f, nth_error (a_fields o) k = Some f -> get_field H o k = Ok (h_tab H (m_tab f)).
Proof. intros H o k f E. unfold get_field, field. rewrite E. reflexivity. Qed.
Lemma field_time_at : forall H o k f, nth_error (a_fields o) k = Some f -> field_time H o k = Ok (h_time H (m_time f)).
Proof. intros H o k f E. unfold field_time, field. rewrite E. reflexivity. Qed.
Lemma get_field_out : forall H o k, nth_error (a_fields o) k = None -> get_field H o k = Err AttributeError.
Proof. intros H o k E. unfold get_field, field. rewrite E. reflexivity. Qed.
Lemma field_time_out : forall H o k, nth_error (a_fields o) k = None -> field_time H o k = Err AttributeError.
Proof. intros H o k E. unfold field_time, field. rewrite E. reflexivity. Qed.

Lemma translate_spec : forall H o t0, obj_ok H o -> exists H' o', time_translation H o t0 = Ok (H', o') /\
  grows H H' /\ obj_ok H' o' /\ above (h_next H) o' /\ get_time H' o' = map (fun t => t - t0)%R (get_time H o) /\
  a_frame o' = [] /\ a_ftype o' = Inertial /\ a_ell o' = a_ell o /\
  (forall k f, nth_error (a_fields o') k = Some f -> m_time f = a_time o') /\ (forall k, get_field H' o' k = get_field H o k).
Proof.
  intros H o t0 OK. unfold time_translation. destruct (construct H (get_time H o) (a_ell o) Inertial) as [H1 o'] eqn:EC.
  apply construct_spec in EC. destruct EC as (G & (B1 & L6 & BF) & (AT & AF & AI) & GT & FR & FT & EL & FZ & _).
  destruct OK as (OB & OL & OF).
  assert (CL : a_ell o' = a_ell o) by exact EL.
  set (T := fun k => match nth_error (a_fields o) k with Some f => h_tab H (m_tab f) | None => [] end).
  destruct (set_fields_spec [5; 4; 3; 2; 1; 0] H1 o' (fun k => get_field H o k) T nodup6 AI) as (H2 & E2 & M2 & N2 & V2 & O2).
  { intros k Hk. apply six in Hk.
    destruct (nth_error (a_fields o) k) as [f|] eqn:Hf; [|apply nth_error_None in Hf; lia].
    destruct (nth_error (a_fields o') k) as [f'|] eqn:Hf'; [|apply nth_error_None in Hf'; lia].
    unfold T. rewrite Hf. split; [apply get_field_at; exact Hf|]. exists f'. split; [reflexivity|].
    rewrite (proj2 (proj2 (OF k f Hf))), (proj2 (proj2 (BF k f' Hf'))), CL, GT. reflexivity. }
  rewrite E2. cbn [rbind]. unfold set_time.
  assert (GT2 : get_time H2 o' = get_time H o) by (unfold get_time at 1; rewrite M2; exact GT).
  rewrite GT2, map_length, Nat.eqb_refl. cbn [rbind].
  exists (put_time H2 (a_time o') (map (fun t => t - t0)%R (get_time H o))), o'. split; [reflexivity|].
  assert (GT3 : get_time (put_time H2 (a_time o') (map (fun t => t - t0)%R (get_time H o))) o' = map (fun t => t - t0)%R (get_time H o)).
  { unfold get_time at 1. cbn. rewrite Nat.eqb_refl. reflexivity. }
  split; [|split; [|split; [|split; [|split; [|split; [|split; [|split]]]]]]]; auto.
  - split; [cbn; destruct G; lia|]. intros a Ha. cbn. destruct G as [GL G']. destruct (G' a Ha) as [X Y]. split.
    + destruct (Nat.eqb_spec a (a_time o')); [lia|]. congruence.
    + rewrite O2; [exact Y|]. intros k f _ Hf Em. specialize (AF k f Hf). lia.
  - split; [cbn; lia|]. split; [exact L6|]. intros k f Hf. destruct (BF k f Hf) as (X & Y & Z). cbn [h_next put_time h_tab].
    split; [lia|]. split; [lia|]. rewrite GT3, map_length, EL.
    assert (Hk : k < 6) by (rewrite <- L6; apply nth_error_Some; congruence).
    rewrite (V2 k f (proj2 (six k) Hk) Hf). unfold T.
    destruct (nth_error (a_fields o) k) as [g|] eqn:Hg; [apply (OF k g Hg)|apply nth_error_None in Hg; lia].
  - split; [exact AT|]. split; [exact AF|exact AI].
  - intros k f Hf. apply (FZ k f Hf).
  - intro k. destruct (nth_error (a_fields o') k) as [f'|] eqn:Hf'.
    + assert (Hk : k < 6) by (rewrite <- L6; apply nth_error_Some; congruence).
      destruct (nth_error (a_fields o) k) as [f|] eqn:Hf; [|apply nth_error_None in Hf; lia].
      rewrite (get_field_at _ _ _ _ Hf'), (get_field_at _ _ _ _ Hf). cbn. rewrite (V2 k f' (proj2 (six k) Hk) Hf').
      unfold T. rewrite Hf. reflexivity.
    + assert (nth_error (a_fields o) k = None) by (apply nth_error_None in Hf'; apply nth_error_None; lia).
      rewrite !get_field_out by assumption. reflexivity.
Qed.

(** * Reachable worlds *)
Record inv (w : world) : Prop := mkinv {
  i_ok : forall i o, nth_error (w_objs w) i = Some o -> obj_ok (w_heap w) o;
  i_time : forall i j o p, nth_error (w_objs w) i = Some o -> nth_error (w_objs w) j = Some p -> a_time o = a_time p -> i = j;
  i_tab : forall i j o p k l f g, nth_error (w_objs w) i = Some o -> nth_error (w_objs w) j = Some p ->
     nth_error (a_fields o) k = Some f -> nth_error (a_fields p) l = Some g -> m_tab f = m_tab g -> i = j /\ k = l }.
Lemma nth_error_snoc' : forall (A : Type) (l : list A) x i y, nth_error (l ++ [x]) i = Some y ->
  (i < length l /\ nth_error l i = Some y) \/ (i = length l /\ y = x).
Proof.
  intros A l x i y E. destruct (Nat.lt_ge_cases i (length l)).
  - left. rewrite nth_error_app1 in E by assumption. auto.
  - right. rewrite nth_error_app2 in E by assumption. destruct (i - length l) as [|d] eqn:Ed; cbn in E.
    + inversion E. split; [lia|reflexivity].
    + destruct d; discriminate.
Qed.
Lemma obj_ok_grows : forall H H' o, grows H H' -> obj_ok H o -> obj_ok H' o.
Proof.
  intros H H' o [GL G] (B1 & L6 & BF). split; [lia|]. split; [exact L6|]. intros k f Hf. destruct (BF k f Hf) as (X & Y & Z).
  split; [lia|]. split; [lia|]. rewrite (proj2 (G _ X)). unfold get_time. rewrite (proj1 (G _ B1)). exact Z.
Qed.
Lemma inv_add : forall w H o, inv w -> grows (w_heap w) H -> obj_ok H o -> above (h_next (w_heap w)) o -> inv (mkw H (w_objs w ++ [o])).
Proof.
  intros w H o [I1 I2 I3] G OK (AT & AF & AI). constructor; cbn [w_heap w_objs].
  - intros i p Hp. apply nth_error_snoc' in Hp. destruct Hp as [[_ Hp]|[_ ->]]; [|exact OK]. eapply obj_ok_grows; [exact G|]. eapply I1; exact Hp.
  - intros i j p q Hp Hq E. apply nth_error_snoc' in Hp. apply nth_error_snoc' in Hq.
    destruct Hp as [[_ Hp]|[-> ->]], Hq as [[_ Hq]|[-> ->]].
    + eapply I2; eassumption.
    + destruct (I1 _ _ Hp) as (B & _). lia.
    + destruct (I1 _ _ Hq) as (B & _). lia.
    + reflexivity.
  - intros i j p q k l f g Hp Hq Hf Hg E. apply nth_error_snoc' in Hp. apply nth_error_snoc' in Hq.
    destruct Hp as [[_ Hp]|[-> ->]], Hq as [[_ Hq]|[-> ->]].
    + eapply I3; eassumption.
    + destruct (I1 _ _ Hp) as (_ & _ & B). destruct (B k f Hf) as (B' & _). specialize (AF l g Hg). lia.
    + destruct (I1 _ _ Hq) as (_ & _ & B). destruct (B l g Hg) as (B' & _). specialize (AF k f Hf). lia.
    + split; [reflexivity|]. eapply AI; eassumption.
Qed.
Lemma obj_at : forall w i o, obj w i = Ok o <-> nth_error (w_objs w) i = Some o.
Proof. intros w i o. unfold obj. destruct (nth_error (w_objs w) i); split; intro E; inversion E; reflexivity. Qed.
Lemma put_time_ok : forall H a t o, length t = length (h_time H a) -> obj_ok H o -> obj_ok (put_time H a t) o.
Proof.
  intros H a t o L (B1 & L6 & BF). split; [exact B1|]. split; [exact L6|]. intros k f Hf. destruct (BF k f Hf) as (X & Y & Z).
  split; [exact X|]. split; [exact Y|]. cbn [h_tab put_time]. rewrite Z. unfold get_time. cbn. destruct (Nat.eqb_spec (a_time o) a) as [->|_]; [rewrite L|]; reflexivity.
Qed.
Lemma put_tab_ok : forall H a t o, shape t = shape (h_tab H a) -> obj_ok H o -> obj_ok (put_tab H a t) o.
Proof.
  intros H a t o L (B1 & L6 & BF). split; [exact B1|]. split; [exact L6|]. intros k f Hf. destruct (BF k f Hf) as (X & Y & Z).
  split; [exact X|]. split; [exact Y|]. unfold get_time in *. cbn [put_tab h_tab h_time]. destruct (Nat.eqb_spec (m_tab f) a) as [Em|_]; [rewrite L, <- Em|]; exact Z.
Qed.

(** What a step does, in cases *)
Inductive did (shared : bool) (w : world) : cmd -> world -> Prop :=
| D_new : forall t ell ft H o, construct (w_heap w) t ell ft = (H, o) -> did shared w (New t ell ft) (mkw H (w_objs w ++ [o]))
| D_copy : forall i o H o', nth_error (w_objs w) i = Some o -> copy shared (w_heap w) o = (H, o') -> did shared w (Copy i) (mkw H (w_objs w ++ [o']))
| D_tr : forall i t0 o H o', nth_error (w_objs w) i = Some o -> time_translation (w_heap w) o t0 = Ok (H, o') ->
    did shared w (Translate i t0) (mkw H (w_objs w ++ [o']))
| D_time : forall i t o, nth_error (w_objs w) i = Some o -> length t = length (get_time (w_heap w) o) ->
    did shared w (SetTime i t) (mkw (put_time (w_heap w) (a_time o) t) (w_objs w))
| D_field : forall i k t o f, nth_error (w_objs w) i = Some o -> nth_error (a_fields o) k = Some f -> shape t = shape (h_tab (w_heap w) (m_tab f)) ->
    did shared w (SetField i k t) (mkw (put_tab (w_heap w) (m_tab f) t) (w_objs w))
| D_ftime : forall i k t o f, nth_error (w_objs w) i = Some o -> nth_error (a_fields o) k = Some f -> length t = length (h_time (w_heap w) (m_time f)) ->
    did shared w (SetFieldTime i k t) (mkw (put_time (w_heap w) (m_time f) t) (w_objs w)).
Lemma step_did : forall shared w c w', step shared w c = Ok w' -> did shared w c w'.
Proof.
  intros shared w c w' E. destruct c as [t ell ft|i|i t0|i t|i k t|i k t]; unfold step in E.
  - destruct (construct (w_heap w) t ell ft) as [H o] eqn:EC. cbn in E. inversion E; subst. constructor; exact EC.
  - destruct (obj w i) as [o|e] eqn:Eo; [|discriminate]. apply obj_at in Eo. cbn [rbind] in E.
    destruct (copy shared (w_heap w) o) as [H o'] eqn:EC. cbn in E. inversion E; subst. econstructor; eassumption.
  - destruct (obj w i) as [o|e] eqn:Eo; [|discriminate]. apply obj_at in Eo. cbn [rbind] in E.
    destruct (time_translation (w_heap w) o t0) as [[H o']|e] eqn:EC; [|discriminate]. cbn in E. inversion E; subst. econstructor; eassumption.
  - destruct (obj w i) as [o|e] eqn:Eo; [|discriminate]. apply obj_at in Eo. cbn [rbind] in E. unfold set_time in E.
    destruct (Nat.eqb_spec (length t) (length (get_time (w_heap w) o))) as [L|]; [|discriminate]. cbn in E. inversion E; subst. econstructor; eassumption.
  - destruct (obj w i) as [o|e] eqn:Eo; [|discriminate]. apply obj_at in Eo. cbn [rbind] in E. unfold set_field, field in E.
    destruct (nth_error (a_fields o) k) as [f|] eqn:Ef; [|discriminate]. cbn [rbind] in E.
    destruct (list_eq_dec Nat.eq_dec (shape t) (shape (h_tab (w_heap w) (m_tab f)))) as [L|]; [|discriminate]. cbn in E. inversion E; subst. econstructor; eassumption.
  - destruct (obj w i) as [o|e] eqn:Eo; [|discriminate]. apply obj_at in Eo. cbn [rbind] in E. unfold set_field_time, field in E.
    destruct (nth_error (a_fields o) k) as [f|] eqn:Ef; [|discriminate]. cbn [rbind] in E.
    destruct (Nat.eqb_spec (length t) (length (h_time (w_heap w) (m_time f)))) as [L|]; [|discriminate]. cbn in E. inversion E; subst. econstructor; eassumption.
Qed.
Lemma did_inv : forall shared w c w', inv w -> did shared w c w' -> inv w'.
Proof.
  intros shared w c w' I D. destruct D.
  - apply construct_spec in H0. apply inv_add; tauto.
  - apply copy_spec in H1; [|eapply i_ok; eassumption]. apply inv_add; tauto.
  - destruct (translate_spec (w_heap w) o t0 (i_ok w I i o H0)) as (H2 & o2 & E & X). rewrite H1 in E. inversion E; subst. apply inv_add; tauto.
  - destruct I as [I1 I2 I3]. constructor; cbn [w_heap w_objs]; auto. intros j p Hp. apply put_time_ok; [exact H0|]. eapply I1; exact Hp.
  - destruct I as [I1 I2 I3]. constructor; cbn [w_heap w_objs]; auto. intros j p Hp. apply put_tab_ok; [exact H1|]. eapply I1; exact Hp.
  - destruct I as [I1 I2 I3]. constructor; cbn [w_heap w_objs]; auto. intros j p Hp. apply put_time_ok; [exact H1|]. eapply I1; exact Hp.
Qed.
Lemma exec_inv : forall shared w c, inv w -> inv (exec shared w c).
Proof.
  intros shared w c I. unfold exec. destruct (step shared w c) eqn:E; [|exact I]. eapply did_inv; [exact I|]. apply step_did; exact E.
Qed.
Definition after (shared : bool) (w : world) (cs : list cmd) : world := fold_left (exec shared) cs w.
Lemma after_inv : forall shared cs w, inv w -> inv (after shared w cs).
Proof. intros shared cs. induction cs as [|c cs IH]; intros w I; [exact I|]. cbn. apply IH. apply exec_inv; exact I. Qed.
Lemma run_inv : forall shared cs, inv (run shared cs).
Proof.
  intros. apply after_inv. constructor; cbn; intros; destruct i; discriminate.
Qed.
(** Objects are never removed or replaced *)
Lemma exec_keeps : forall shared w c i o, nth_error (w_objs w) i = Some o -> nth_error (w_objs (exec shared w c)) i = Some o.
Proof.
  intros shared w c i o Hi. unfold exec. destruct (step shared w c) eqn:E; [|exact Hi]. apply step_did in E. destruct E; cbn [w_objs]; auto;
  rewrite nth_error_app1; auto; apply nth_error_Some; congruence.
Qed.
Lemma after_keeps : forall shared cs w i o, nth_error (w_objs w) i = Some o -> nth_error (w_objs (after shared w cs)) i = Some o.
Proof. intros shared cs. induction cs as [|c cs IH]; intros w i o Hi; [exact Hi|]. cbn. apply IH. apply exec_keeps; exact Hi. Qed.
