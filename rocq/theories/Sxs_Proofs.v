(** * C62: waveforms survive conversion to and from the sxs package *)
From Coq Require Import String Ascii ZArith Reals List Bool Lia Lra.
From Verif Require Import Common Cplx Quat Times_Model Modes_Model Tables_Model H5_Model Sxs_Model.
Import ListNotations.
Open Scope R_scope.

(** ** Specification *)
(** Two waveforms agree in everything but their histories and the extra attributes. *)
Definition same_contents (a b : swave) : Prop :=
  s_t a = s_t b /\ s_frame a = s_frame b /\ s_data a = s_data b /\ s_vh a = s_vh b /\ s_ftype a = s_ftype b /\
  s_dtype a = s_dtype b /\ s_r a = s_r b /\ s_m a = s_m b /\ s_min a = s_min b /\ s_max a = s_max b.
(** Case-insensitive equality of text. *)
Definition upper_code (c : ascii) : nat :=
  let n := nat_of_ascii c in if (97 <=? n)%nat && (n <=? 122)%nat then (n - 32)%nat else n.
Fixpoint same_text (a b : string) : Prop :=
  match a, b with
  | EmptyString, EmptyString => True
  | String c a', String d b' => upper_code c = upper_code d /\ same_text a' b'
  | _, _ => False
  end.

(** ** Helpers *)
Lemma quat_eqb_refl : forall q, quat_eqb q q = true.
Proof.
  intros q. unfold quat_eqb.
  repeat match goal with |- context [Req_EM_T ?x ?x] => destruct (Req_EM_T x x); [|congruence] end. reflexivity.
Qed.
Lemma quat_eqb_true : forall p q, quat_eqb p q = true -> p = q.
Proof.
  intros p q. unfold quat_eqb.
  repeat match goal with |- context [Req_EM_T ?x ?y] => destruct (Req_EM_T x y); [|discriminate] end.
  intros _. apply quat_eq; assumption.
Qed.
Definition lower_char (c : ascii) : ascii :=
  let n := nat_of_ascii c in if (65 <=? n)%nat && (n <=? 90)%nat then ascii_of_nat (n + 32) else c.
Lemma lower_char_same : forall c d, lower_char c = lower_char d <-> upper_code c = upper_code d.
Proof.
  intros c d. split.
  - intros H.
    assert (G : upper_code (lower_char c) = upper_code (lower_char d)) by (now rewrite H).
    assert (K : forall x, upper_code (lower_char x) = upper_code x).
    { intros [[] [] [] [] [] [] [] []]; vm_compute; reflexivity. }
    now rewrite !K in G.
  - intros H.
    assert (K : forall x, lower_char x = lower_char (ascii_of_nat (upper_code x))).
    { intros [[] [] [] [] [] [] [] []]; vm_compute; reflexivity. }
    rewrite (K c), (K d), H. reflexivity.
Qed.
Lemma lower_same : forall a b, lower a = lower b <-> same_text a b.
Proof.
  induction a as [|c a IH]; intros [|d b]; cbn [lower same_text]; split; intro H; try reflexivity; try easy.
  - injection H as H1 H2. split; [now apply lower_char_same|now apply IH].
  - destruct H as [H1 H2]. f_equal; [now apply lower_char_same|now apply IH].
Qed.
Lemma position_spec : forall names s k j, NoDup (map lower names) ->
  (position names s k = Some j <->
   exists i, nth_error names i <> None /\ j = (k + Z.of_nat i)%Z /\ lower (nth i names ""%string) = lower s).
Proof.
  induction names as [|n r IH]; intros s k j ND.
  - cbn. split; [discriminate|]. intros (i & H & _). destruct i; cbn in H; congruence.
  - inversion ND as [|? ? NI ND']; subst. cbn [position].
    destruct (String.eqb_spec (lower n) (lower s)) as [E|E].
    + split.
      * intros H. injection H as <-. exists 0%nat. cbn. repeat split; [discriminate|lia|exact E].
      * intros (i & H1 & H2 & H3). destruct i as [|i].
        -- cbn in H2. f_equal. lia.
        -- exfalso. apply NI. cbn in H3. rewrite E, <- H3. apply in_map.
           apply nth_In. cbn in H1. apply nth_error_Some. exact H1.
    + rewrite (IH s (k + 1)%Z j ND'). split.
      * intros (i & H1 & H2 & H3). exists (S i). cbn. repeat split; [exact H1|lia|exact H3].
      * intros (i & H1 & H2 & H3). destruct i as [|i]; [cbn in H3; congruence|].
        exists i. cbn in H1, H3. repeat split; [exact H1|lia|exact H3].
Qed.
Lemma lower_names_distinct : NoDup (map lower FrameNames) /\ NoDup (map lower DataNames).
Proof.
  split; vm_compute; repeat constructor; cbn; intuition discriminate.
Qed.

(** The type recorded is the one whose name is the given one, whatever the case of the letters. *)
Lemma type_code_spec : forall names s k, NoDup (map lower names) -> (0 < k < Z.of_nat (length names))%Z ->
  type_code names s = k <-> same_text s (nth (Z.to_nat k) names ""%string).
Proof.
  intros names s k ND Hk. unfold type_code.
  pose proof (position_spec names s 0 k ND) as P.
  rewrite <- lower_same. split.
  - intros H. destruct (position names s 0) as [j|] eqn:E; [|lia]. subst j.
    destruct (proj1 P eq_refl) as (i & H1 & H2 & H3).
    replace (Z.to_nat k) with i by lia. symmetry. exact H3.
  - intros H.
    assert (E : position names s 0 = Some k).
    { apply P. exists (Z.to_nat k). repeat split; [|lia|congruence]. apply nth_error_Some. lia. }
    now rewrite E.
Qed.
Lemma name_at_ok : forall names k, (0 <= k < Z.of_nat (length names))%Z ->
  name_at names k = Ok (nth (Z.to_nat k) names ""%string).
Proof.
  intros names k H. unfold name_at.
  replace (0 <=? k)%Z with true by (symmetry; apply Z.leb_le; lia).
  replace (k <? Z.of_nat (length names))%Z with true by (symmetry; apply Z.ltb_lt; lia). reflexivity.
Qed.
Lemma lower_char_idem : forall c, lower_char (lower_char c) = lower_char c.
Proof. intros [[] [] [] [] [] [] [] []]; vm_compute; reflexivity. Qed.
Lemma lower_idem : forall s, lower (lower s) = lower s.
Proof. induction s as [|c s IH]; [reflexivity|]. cbn [lower]. rewrite IH. f_equal. apply lower_char_idem. Qed.
Lemma type_code_back : forall names k, NoDup (map lower names) -> (0 <= k < Z.of_nat (length names))%Z ->
  type_code names (lower (nth (Z.to_nat k) names ""%string)) = k.
Proof.
  intros names k ND H. unfold type_code.
  assert (P : position names (lower (nth (Z.to_nat k) names ""%string)) 0 = Some k).
  { apply position_spec; [exact ND|]. exists (Z.to_nat k). repeat split.
    - apply nth_error_Some. lia.
    - lia.
    - now rewrite lower_idem. }
  now rewrite P.
Qed.
Lemma frame_in_A2 : forall bare l n, length l <> 1%nat ->
  frame_in bare (A2 l) n = if (length l =? n)%nat then Ok (F1 l) else Err NameError.
Proof. intros bare [|a [|b l]] n H; cbn in H |- *; try reflexivity. lia. Qed.

(** ** Theorems *)
Theorem C62_type_names : forall s,
  (forall k, (1 <= k <= 4)%Z -> type_code FrameNames s = k <-> same_text s (nth (Z.to_nat k) FrameNames ""%string)) /\
  (forall k, (1 <= k <= 10)%Z -> type_code DataNames s = k <-> same_text s (nth (Z.to_nat k) DataNames ""%string)) /\
  (0 <= type_code FrameNames s <= 4)%Z /\ (0 <= type_code DataNames s <= 10)%Z.
Proof.
  intros s. destruct lower_names_distinct as [N1 N2].
  assert (B : forall names, NoDup (map lower names) -> names <> [] ->
     (0 <= type_code names s <= Z.of_nat (length names) - 1)%Z).
  { intros names N NE. unfold type_code. destruct (position names s 0) as [j|] eqn:E.
    - apply position_spec in E; [|exact N]. destruct E as (i & H1 & H2 & _). apply nth_error_Some in H1. lia.
    - destruct names; [congruence|]. cbn [length]. lia. }
  split; [|split; [|split]].
  - intros k Hk. apply type_code_spec; [exact N1|]. cbn [length FrameNames]. lia.
  - intros k Hk. apply type_code_spec; [exact N2|]. cbn [length DataNames]. lia.
  - apply (B FrameNames N1). discriminate.
  - apply (B DataNames N2). discriminate.
Qed.

(** Converting there and back gives the same waveform; its history, and that of the original, are the
    old history followed by what the construction of a waveform records. *)
Theorem C62_round_trip : forall bare added fresh w st l,
  valid w = true -> s_frame w = F1 l -> (0 <= s_ftype w <= 4)%Z -> (0 <= s_dtype w <= 10)%Z ->
  exists m w' st', to_sxs w = Ok m /\ from_sxs bare added fresh m st = Ok (w', st') /\ same_contents w' w /\
    st' (s_hist w') = (st (s_hist w) ++ added)%list.
Proof.
  intros bare added fresh w st l V F Hf Hd.
  destruct lower_names_distinct as [N1 N2].
  assert (S : exists sp, spin_weight (s_dtype w) = Ok sp).
  { assert (D : (s_dtype w = 0 \/ s_dtype w = 1 \/ s_dtype w = 2 \/ s_dtype w = 3 \/ s_dtype w = 4 \/ s_dtype w = 5 \/
      s_dtype w = 6 \/ s_dtype w = 7 \/ s_dtype w = 8 \/ s_dtype w = 9 \/ s_dtype w = 10)%Z) by lia.
    decompose [or] D; match goal with H : s_dtype w = _ |- _ => rewrite H end; eexists; reflexivity. }
  destruct S as [sp S].
  unfold to_sxs. rewrite S. cbn [rbind].
  rewrite (name_at_ok DataNames) by (cbn [length DataNames]; lia). cbn [rbind].
  rewrite (name_at_ok FrameNames) by (cbn [length FrameNames]; lia). cbn [rbind].
  assert (FR : exists fr, frame_out (s_frame w) (length (s_t w)) = Ok fr /\
     forall b, frame_in b (match fr with Some f => f | None => A2 [q1] end) (length (s_t w)) = Ok (F1 l)).
  { unfold frame_out. rewrite F. cbn [frame_size frame_wrapped frame_floats].
    destruct (length l =? 1)%nat eqn:E1.
    - eexists. split; [reflexivity|]. intros b. reflexivity.
    - apply Nat.eqb_neq in E1. destruct (length l =? length (s_t w))%nat eqn:E2.
      + eexists. split; [reflexivity|]. intros b. cbv beta iota. rewrite frame_in_A2 by exact E1. now rewrite E2.
      + destruct l as [|a l].
        * cbn. eexists. split; [reflexivity|]. intros b. cbn. now rewrite quat_eqb_refl.
        * exfalso. unfold valid in V. rewrite F in V. rewrite !andb_true_iff, orb_true_iff in V.
          cbn [frame_size] in V. rewrite E2 in V. destruct V as [[_ [V|V]] _]; [|discriminate].
          apply Nat.leb_le in V. cbn [length] in V, E1. lia. }
  destruct FR as (fr & FR1 & FR2). rewrite FR1. cbn [rbind].
  eexists. eexists. eexists. split; [reflexivity|].
  unfold from_sxs. cbn [history_in x_hist x_ftype x_dtype x_t x_frame x_data x_vh x_r x_m x_min x_max meta_frame get_default].
  unfold meta_frame. cbn [x_frame]. rewrite FR2. cbn [rbind].
  rewrite (type_code_back FrameNames) by (try exact N1; cbn [length FrameNames]; lia).
  rewrite (type_code_back DataNames) by (try exact N2; cbn [length DataNames]; lia).
  match goal with |- context [valid ?x] => assert (VV : valid x = true) end.
  { unfold valid in V |- *. cbn [s_min s_max s_data s_t s_frame]. rewrite F in V. exact V. }
  rewrite VV. split; [reflexivity|]. split.
  - unfold same_contents. cbn. rewrite F. repeat split; reflexivity.
  - cbn [s_hist]. unfold sset. rewrite Nat.eqb_refl. reflexivity.
Qed.

(** The round trip writes into the history of the original. *)
Theorem C62_original_history_refuted : forall bare added fresh w st l,
  valid w = true -> s_frame w = F1 l -> (0 <= s_ftype w <= 4)%Z -> (0 <= s_dtype w <= 10)%Z -> added <> [] ->
  exists m w' st', to_sxs w = Ok m /\ from_sxs bare added fresh m st = Ok (w', st') /\
    st' (s_hist w) <> st (s_hist w).
Proof.
  intros bare added fresh w st l V F Hf Hd NE.
  destruct (C62_round_trip bare added fresh w st l V F Hf Hd) as (m & w' & st' & H1 & H2 & _ & H4).
  exists m, w', st'. split; [exact H1|]. split; [exact H2|].
  assert (E : s_hist w' = s_hist w).
  { unfold to_sxs in H1.
    destruct (spin_weight (s_dtype w)); [|discriminate]. cbn [rbind] in H1.
    destruct (name_at DataNames (s_dtype w)); [|discriminate]. cbn [rbind] in H1.
    destruct (name_at FrameNames (s_ftype w)); [|discriminate]. cbn [rbind] in H1.
    destruct (frame_out (s_frame w) (length (s_t w))); [|discriminate]. cbn [rbind] in H1.
    injection H1 as <-. unfold from_sxs in H2. cbn [history_in x_hist] in H2.
    destruct (frame_in _ _ _); [|discriminate]. cbn [rbind] in H2.
    match type of H2 with (if ?b then _ else _) = _ => destruct b end; [|discriminate].
    injection H2 as <- _. reflexivity. }
  rewrite <- E at 1. rewrite H4. intros K. apply NE.
  apply (f_equal (@length string)) in K. rewrite app_length in K. destruct added; [reflexivity|cbn in K; lia].
Qed.

(** The extra attributes are registered with the other object but do not come back. *)
Theorem C62_attributes : forall w m, to_sxs w = Ok m ->
  (forall r, s_radii w = Some r -> In (MExtrapolate r) (x_mods m)) /\
  (forall x, s_trans w = Some x -> In (MTransform x (match s_boost w with Some v => v | None => [0; 0; 0] end)) (x_mods m)) /\
  (forall v, s_boost w = Some v -> In (MTransform (match s_trans w with Some x => x | None => [0; 0; 0] end) v) (x_mods m)) /\
  (s_radii w = None -> s_trans w = None -> s_boost w = None -> x_mods m = []).
Proof.
  intros w m H. unfold to_sxs in H.
  destruct (spin_weight (s_dtype w)); [|discriminate]. cbn [rbind] in H.
  destruct (name_at DataNames (s_dtype w)); [|discriminate]. cbn [rbind] in H.
  destruct (name_at FrameNames (s_ftype w)); [|discriminate]. cbn [rbind] in H.
  destruct (frame_out (s_frame w) (length (s_t w))); [|discriminate]. cbn [rbind] in H.
  injection H as <-. cbn [x_mods]. unfold modifications, or_zeros, zeros3.
  repeat split.
  - intros r ->. left. reflexivity.
  - intros x ->. apply in_or_app. right. destruct (s_boost w); left; reflexivity.
  - intros v ->. apply in_or_app. right. destruct (s_trans w); left; reflexivity.
  - intros -> -> ->. reflexivity.
Qed.
Theorem C62_attributes_lost_refuted : forall bare added fresh m st w st',
  from_sxs bare added fresh m st = Ok (w, st') -> s_radii w = None /\ s_trans w = None /\ s_boost w = None.
Proof.
  intros bare added fresh m st w st' H. unfold from_sxs in H. destruct (history_in fresh m st).
  destruct (frame_in _ _ _); [|discriminate]. cbn [rbind] in H.
  destruct (valid _); [|discriminate]. injection H as <- _. auto.
Qed.

(** From the other package and back: everything is kept when there is a rotor per time (more than one
    time), or none was given, and the type names are known. *)
Definition known (names : list string) (s : string) : Prop :=
  exists n, In n names /\ s = lower n.
Lemma known_code : forall names s, NoDup (map lower names) -> known names s ->
  (0 <= type_code names s < Z.of_nat (length names))%Z /\
  name_at names (type_code names s) = Ok (nth (Z.to_nat (type_code names s)) names ""%string) /\
  lower (nth (Z.to_nat (type_code names s)) names ""%string) = s.
Proof.
  intros names s ND (n & I & ->). destruct (In_nth _ _ ""%string I) as (i & L & E).
  assert (K : type_code names (lower n) = Z.of_nat i).
  { rewrite <- E. rewrite <- (Nat2Z.id i) at 1. apply type_code_back; [exact ND|lia]. }
  rewrite K. split; [lia|]. split; [apply name_at_ok; lia|]. rewrite Nat2Z.id, E. reflexivity.
Qed.
Theorem C62_from_and_back : forall bare added fresh m st w st',
  from_sxs bare added fresh m st = Ok (w, st') -> known FrameNames (x_ftype m) -> known DataNames (x_dtype m) ->
  (x_frame m = None \/ exists l, x_frame m = Some (A2 l) /\ (length l > 1)%nat) -> (length (x_t m) > 1)%nat ->
  exists m', to_sxs w = Ok m' /\ x_t m' = x_t m /\ x_data m' = x_data m /\ x_frame m' = x_frame m /\
    x_ftype m' = x_ftype m /\ x_dtype m' = x_dtype m /\ x_min m' = x_min m /\ x_max m' = x_max m /\
    (x_r m <> None -> x_r m' = x_r m) /\ (x_m m <> None -> x_m m' = x_m m) /\ (x_vh m <> None -> x_vh m' = x_vh m).
Proof.
  intros bare added fresh m st w st' H KF KD FR NT.
  destruct lower_names_distinct as [N1 N2].
  destruct (known_code _ _ N1 KF) as (B1 & E1 & L1). destruct (known_code _ _ N2 KD) as (B2 & E2 & L2).
  unfold from_sxs in H. destruct (history_in fresh m st) as [hh st1].
  destruct (frame_in bare (meta_frame m) (length (x_t m))) as [f|] eqn:EF; [|discriminate]. cbn [rbind] in H.
  destruct (valid _) eqn:V; [|discriminate]. injection H as <- _.
  assert (S : exists sp, spin_weight (type_code DataNames (x_dtype m)) = Ok sp).
  { set (d := type_code DataNames (x_dtype m)) in *. cbn [length DataNames] in B2.
    assert (D : (d = 0 \/ d = 1 \/ d = 2 \/ d = 3 \/ d = 4 \/ d = 5 \/ d = 6 \/ d = 7 \/ d = 8 \/ d = 9 \/ d = 10)%Z) by lia.
    clearbody d. decompose [or] D; subst d; eexists; reflexivity. }
  destruct S as [sp S]. unfold to_sxs. cbn [s_dtype s_ftype s_frame s_t].
  rewrite S. cbn [rbind]. rewrite E2. cbn [rbind]. rewrite E1. cbn [rbind].
  assert (FO : frame_out f (length (x_t m)) = Ok (x_frame m)).
  { destruct FR as [FR|(l & FR & LL)]; unfold meta_frame in EF; rewrite FR in EF.
    - cbn in EF. rewrite quat_eqb_refl in EF. injection EF as <-. rewrite FR.
      unfold frame_out. cbn. destruct (length (x_t m)); [lia|reflexivity].
    - rewrite frame_in_A2 in EF by lia. destruct (length l =? length (x_t m))%nat eqn:E; [|discriminate].
      injection EF as <-. rewrite FR. unfold frame_out. cbn [frame_size frame_floats frame_wrapped].
      rewrite E. destruct (length l =? 1)%nat eqn:E3; [apply Nat.eqb_eq in E3; lia|reflexivity]. }
  rewrite FO. cbn [rbind]. eexists. split; [reflexivity|].
  cbn [x_t x_data x_frame x_ftype x_dtype x_min x_max x_r x_m x_vh s_t s_data s_min s_max s_r s_m s_vh get_default].
  rewrite L1, L2. repeat split.
  - destruct (x_r m); [reflexivity|congruence].
  - destruct (x_m m); [reflexivity|congruence].
  - destruct (x_vh m); [reflexivity|congruence].
Qed.

(** A constant rotor other than 1, given the way the other package stores it, does not become a frame
    with one rotor: construction fails when [as_quat_array] returns a bare rotor, and otherwise the frame has
    no axis. *)
Theorem C62_constant_frame_refuted : forall added fresh m st q,
  x_frame m = Some (A2 [q]) -> q <> q1 ->
  from_sxs true added fresh m st = Err AssertionError /\
  (forall w st', from_sxs false added fresh m st = Ok (w, st') -> s_frame w = F0 q /\ s_frame w <> F1 [q]).
Proof.
  intros added fresh m st q F NE. unfold from_sxs, meta_frame. rewrite F.
  destruct (history_in fresh m st) as [hh st1].
  cbn [frame_in]. destruct (quat_eqb q q1) eqn:E; [apply quat_eqb_true in E; congruence|]. cbn [rbind].
  split.
  - unfold valid at 1. cbn [s_frame is_vector_of_rotors]. rewrite !andb_false_r, !andb_false_l. reflexivity.
  - intros w st' H. destruct (valid _); [|discriminate]. injection H as <- _. cbn. split; [reflexivity|discriminate].
Qed.
(** A frame of any other length raises, but NameError instead of the message that was meant. *)
Theorem C62_frame_length_refuted : forall bare added fresh m st l,
  x_frame m = Some (A2 l) -> length l <> 1%nat -> length l <> length (x_t m) ->
  from_sxs bare added fresh m st = Err NameError.
Proof.
  intros bare added fresh m st l F H1 H2. unfold from_sxs, meta_frame. rewrite F.
  destruct (history_in fresh m st) as [hh st1]. rewrite frame_in_A2 by exact H1.
  destruct (length l =? length (x_t m))%nat eqn:E; [apply Nat.eqb_eq in E; congruence|]. reflexivity.
Qed.
(** Text for history is split into lines; the defaults say that radius and mass are scaled out. *)
Theorem C62_defaults : forall bare added fresh m st w st',
  from_sxs bare added fresh m st = Ok (w, st') ->
  (x_r m = None -> s_r w = true) /\ (x_m m = None -> s_m w = true) /\ (x_vh m = None -> s_vh w = []) /\
  (forall s, x_hist m = Some (HText s) -> st' (s_hist w) = (lines s ++ added)%list) /\
  (x_hist m = None -> st' (s_hist w) = added) /\
  (forall k, k <> s_hist w -> st' k = st k).
Proof.
  intros bare added fresh m st w st' H. unfold from_sxs in H.
  destruct (history_in fresh m st) as [hh st1] eqn:EH.
  destruct (frame_in _ _ _); [|discriminate]. cbn [rbind] in H.
  destruct (valid _); [|discriminate]. injection H as <- <-. cbn.
  unfold history_in in EH.
  split; [intros ->; reflexivity|]. split; [intros ->; reflexivity|]. split; [intros ->; reflexivity|].
  split; [|split].
  - intros s E. rewrite E in EH. injection EH as <- <-. unfold sset. rewrite !Nat.eqb_refl. reflexivity.
  - intros E. rewrite E in EH. injection EH as <- <-. unfold sset. rewrite !Nat.eqb_refl. reflexivity.
  - intros k Hk. unfold sset at 1. destruct (Nat.eqb_spec k hh); [congruence|].
    destruct (x_hist m) as [[s|j]|]; injection EH as <- <-; try reflexivity; unfold sset;
      (destruct (Nat.eqb_spec k fresh); [congruence|reflexivity]).
Qed.

(** What a waveform has to satisfy to be constructed *)
Lemma increasing_spec : forall l, increasing l = true <-> forall i, (S i < length l)%nat -> nth i l 0 < nth (S i) l 0.
Proof.
  induction l as [|a [|b l] IH].
  - split; [intros _ i H; cbn in H; lia|reflexivity].
  - split; [intros _ i H; cbn in H; lia|reflexivity].
  - change (increasing (a :: b :: l)) with (Rltb a b && increasing (b :: l)). rewrite andb_true_iff, IH. split.
    + intros [H1 H2] [|i] Hi; [cbn; unfold Rltb in H1; destruct (Rlt_dec a b); [assumption|discriminate]|]. apply (H2 i). cbn in *. lia.
    + intros H. split; [unfold Rltb; destruct (Rlt_dec a b) as [|N]; [reflexivity|]; exfalso; apply N; apply (H 0%nat); cbn; lia|].
      intros i Hi. apply (H (S i)). cbn in *. lia.
Qed.
Theorem C62_valid : forall w, valid w = true <->
  (0 <= s_min w)%Z /\ (s_min w - 1 <= s_max w)%Z /\ (forall r, In r (s_data w) -> length r = length (LM_range (s_min w) (s_max w))) /\
  (forall i, (S i < length (s_t w))%nat -> nth i (s_t w) 0 < nth (S i) (s_t w) 0) /\ (forall q, s_frame w <> FS q) /\
  (frame_size (s_frame w) = 0 \/ frame_size (s_frame w) = 1 \/ frame_size (s_frame w) = length (s_t w))%nat /\ length (s_data w) = length (s_t w).
Proof.
  intros w. unfold valid. rewrite !andb_true_iff, orb_true_iff, increasing_spec, forallb_forall, !Z.leb_le, Nat.leb_le, !Nat.eqb_eq.
  assert (A : (forall x, In x (s_data w) -> (length x =? length (LM_range (s_min w) (s_max w)))%nat = true) <->
              (forall r, In r (s_data w) -> length r = length (LM_range (s_min w) (s_max w)))).
  { split; intros H r I; apply Nat.eqb_eq; apply H; exact I. }
  assert (B : is_vector_of_rotors (s_frame w) = true <-> forall q, s_frame w <> FS q).
  { destruct (s_frame w) as [l|q|q]; cbn; split; intros H; try reflexivity; try discriminate; try (intros q'; discriminate). exfalso. apply (H _ eq_refl). }
  rewrite A, B. intuition lia.
Qed.
(** A type of frame outside the table cannot be exported; a negative one is read from the end of the table. *)
Theorem C62_frame_code : forall w s, spin_weight (s_dtype w) = Ok s -> (0 <= s_dtype w <= 10)%Z ->
  ((s_ftype w < -5 \/ 5 <= s_ftype w)%Z -> to_sxs w = Err IndexError) /\
  ((-5 <= s_ftype w < 0)%Z -> forall m, to_sxs w = Ok m -> x_ftype m = lower (nth (Z.to_nat (5 + s_ftype w)) FrameNames ""%string)).
Proof.
  intros w s Es Hd. unfold to_sxs. rewrite Es. cbn [rbind]. unfold name_at. change (Z.of_nat (length DataNames)) with 11%Z. change (Z.of_nat (length FrameNames)) with 5%Z.
  destruct (Z.leb_spec 0 (s_dtype w)); [|lia]. destruct (Z.ltb_spec (s_dtype w) 11); [|lia]. cbn [andb rbind]. change (- (5))%Z with (-5)%Z.
  destruct (Z.leb_spec 0 (s_ftype w)), (Z.ltb_spec (s_ftype w) 5), (Z.leb_spec (-5) (s_ftype w)), (Z.ltb_spec (s_ftype w) 0); cbn [andb rbind];
    (split; [intros; try lia; try reflexivity|intros ? m Hm; try lia; try discriminate]).
  destruct (frame_out _ _); [|discriminate]. cbn [rbind] in Hm. injection Hm as <-. reflexivity.
Qed.

(** ** A case meeting the hypotheses: two times, a corotating strain with the modes of ell = 0. *)
Definition case_w : swave :=
  mkswave [0; 1] (F1 [q1; qi]) [[C1]; [C0]] 3 [] 4 7 true false 0 0 (Some [100; 200]) None (Some [0; 0; 1/10]).
Example C62_case : valid case_w = true /\
  exists m, to_sxs case_w = Ok m /\ x_dtype m = "h"%string /\ x_ftype m = "corotating"%string /\
    x_spin m = Some (-2)%Z /\ x_mods m = [MExtrapolate [100; 200]; MTransform [0; 0; 0] [0; 0; 1/10]] /\
    exists w' st', from_sxs true ["new"%string] 9 m (fun _ => ["old"%string]) = Ok (w', st') /\
      s_frame w' = F1 [q1; qi] /\ st' 3%nat = ["old"; "new"]%string.
Proof.
  assert (V : valid case_w = true).
  { unfold valid. cbn [case_w s_min s_max s_data s_t s_frame frame_size length is_vector_of_rotors].
    replace (increasing [0; 1]) with true; [reflexivity|]. cbn. unfold Rltb. destruct (Rlt_dec 0 1); [reflexivity|lra]. }
  split; [exact V|]. eexists. split; [reflexivity|]. repeat split.
  eexists. eexists. split.
  - unfold from_sxs. cbn [history_in x_hist].
    match goal with |- context [frame_in ?b ?f ?n] => change (frame_in b f n) with (Ok (F1 [q1; qi])) end. cbn [rbind].
    match goal with |- context [valid ?x] => change (valid x) with (valid case_w) end. rewrite V. reflexivity.
  - split; reflexivity.
Qed.
