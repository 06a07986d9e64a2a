(** * C65: waveforms read from files in LVC format *)
From Coq Require Import String Ascii ZArith Reals List Bool Lia Lra Permutation.
From Verif Require Import Common Cplx Times_Model Times_Proofs Modes_Model Modes_Proofs H5_Model H5Names_Proofs Lvc_Model.
Import ListNotations.
Open Scope R_scope.

(** ** Specification *)
(** The file has amplitude and phase of all modes with ell from [lo] to [hi], and no phase of another ell. *)
Definition amplitude_at (f : lfile) (l m : Z) (X Y : list R) (k : Z) : Prop :=
  assoc ("amp_l" ++ dec l ++ "_m" ++ dec m)%string f = Some (LSpline X Y k).
Definition phase_at (f : lfile) (l m : Z) (X Y : list R) (k : Z) : Prop :=
  assoc ("phase_l" ++ dec l ++ "_m" ++ dec m)%string f = Some (LSpline X Y k).
Definition is_phase (n : string) : Prop := exists a b, n = ("phase_l" ++ a ++ "_m" ++ b)%string.
Definition complete (f : lfile) (lo hi : Z) : Prop :=
  (forall l m, (lo <= l <= hi)%Z -> (- l <= m <= l)%Z -> (exists X Y k, amplitude_at f l m X Y k) /\ exists X Y k, phase_at f l m X Y k) /\
  forall n, In n (map fst f) -> is_phase n -> exists l m, (lo <= l <= hi)%Z /\ n = ("phase_l" ++ dec l ++ "_m" ++ dec m)%string.
(** The value of a mode, by its place in the order (lo,-lo), (lo,1-lo), ... *)
Definition mode_place (lo l m : Z) : nat := Z.to_nat (l ^ 2 - lo ^ 2 + (l + m)).
Definition mode_value (w : lwave) (i : nat) (l m : Z) : C := nth (mode_place (l_min w) l m) (nth i (l_data w) []) C0.
(** One value for each time. *)
Definition gives_values (spline : list R -> list R -> Z -> list R -> res (list R)) (t X Y : list R) (k : Z) (v : list R) : Prop :=
  spline X Y k t = Ok v /\ length v = length t.

(** ** Names *)
Definition plain (c : ascii) : bool := is_signed c.
Lemma first_line_plain : forall a s, all_chars plain a = true -> first_line (a ++ s) = (a ++ first_line s)%string.
Proof.
  induction a as [|c a IH]; intros s H; [reflexivity|]. cbn in H. apply andb_true_iff in H. destruct H as [H1 H2].
  cbn [append first_line]. rewrite IH by exact H2. destruct (Ascii.eqb_spec c newline) as [->|]; [discriminate|reflexivity].
Qed.
Lemma rcut_none_plain : forall a, all_chars plain a = true -> rcut "_m" a = None.
Proof.
  induction a as [|c a IH]; intros H; [reflexivity|]. cbn in H. apply andb_true_iff in H. destruct H as [H1 H2].
  cbn [rcut]. rewrite IH by exact H2. cbn [strip]. destruct (Ascii.eqb_spec "_" c) as [<-|]; [discriminate|reflexivity].
Qed.
Lemma rcut_plain : forall a b, all_chars plain a = true -> all_chars plain b = true -> rcut "_m" (a ++ "_m" ++ b) = Some (a, b).
Proof.
  induction a as [|c a IH]; intros b Ha Hb.
  - cbn [append]. cbn [rcut].
    rewrite (rcut_none_plain b Hb). destruct (strip "_m" (String "m" b)) eqn:E; [discriminate|]. reflexivity.
  - cbn in Ha. apply andb_true_iff in Ha. destruct Ha as [_ Ha].
    change (rcut "_m" (String c (a ++ "_m" ++ b)) = Some (String c a, b)). cbn [rcut]. rewrite IH by assumption. reflexivity.
Qed.
Lemma phase_match_name : forall l m, phase_match (phase_name l m) = Some (dec l, dec m).
Proof.
  intros l m. unfold phase_match, phase_name. rewrite strip_app.
  assert (P : forall z, all_chars plain (dec z) = true) by (intros z; apply dec_signed).
  rewrite first_line_plain by apply P. change (first_line ("_m" ++ dec m)) with ("_m" ++ first_line (dec m))%string.
  rewrite <- (app_nil_s (dec m)) at 1. rewrite first_line_plain by apply P. cbn [first_line]. rewrite app_nil_s.
  apply rcut_plain; apply P.
Qed.
Lemma first_line_prefix : forall s, exists r, s = (first_line s ++ r)%string.
Proof.
  induction s as [|c s [r IH]]; [exists ""%string; reflexivity|]. cbn [first_line]. destruct (Ascii.eqb_spec c newline).
  - eexists. reflexivity.
  - exists r. cbn. now rewrite IH at 1.
Qed.
Lemma phase_match_is_phase : forall n a b, phase_match n = Some (a, b) -> is_phase n.
Proof.
  intros n a b H. unfold phase_match in H. destruct (strip "phase_l" n) as [r|] eqn:E; [|discriminate].
  apply strip_some in E. destruct (first_line_prefix r) as [q Hq]. apply rcut_some in H. exists a, (b ++ q)%string.
  rewrite E, Hq at 1. rewrite H. now rewrite !app_assoc_s.
Qed.
Lemma name_inj : forall l m l' m', phase_name l m = phase_name l' m' -> l = l' /\ m = m'.
Proof.
  intros l m l' m' E. pose proof (phase_match_name l m) as H. rewrite E, phase_match_name in H. injection H as H1 H2.
  pose proof (py_int_dec l). pose proof (py_int_dec m). pose proof (py_int_dec l'). pose proof (py_int_dec m'). split; congruence.
Qed.

Lemma ell_m_ok : forall names,
  (forall n, In n names -> is_phase n -> exists l m, n = phase_name l m) ->
  exists lm, ell_m names = Ok lm /\ forall l m, In (l, m) lm <-> In (phase_name l m) names.
Proof.
  induction names as [|n r IH]; intros H; [exists []; split; [reflexivity|intros; cbn; tauto]|].
  destruct IH as (lm & E & I); [intros; apply H; [right|]; assumption|]. cbn [ell_m].
  destruct (phase_match n) as [[a b]|] eqn:PM.
  - destruct (H n (or_introl eq_refl) (phase_match_is_phase _ _ _ PM)) as (l & m & ->).
    rewrite phase_match_name in PM. injection PM as <- <-. rewrite !py_int_dec. cbn [rbind]. rewrite E. cbn [rbind].
    eexists. split; [reflexivity|]. intros l' m'. cbn [In]. rewrite I. split.
    + intros [K|K]; [injection K as -> ->; now left|now right].
    + intros [K|K]; [apply name_inj in K as [-> ->]; now left|now right].
  - exists lm. split; [exact E|]. intros l m. rewrite I. cbn [In]. split; [now right|]. intros [->|K]; [|exact K].
    rewrite phase_match_name in PM. discriminate.
Qed.
Lemma fold_min : forall (l : list (Z * Z)) e, let r := fold_left (fun a p => Z.min a (fst p)) l e in
  (r <= e)%Z /\ (forall p, In p l -> (r <= fst p)%Z) /\ (r = e \/ exists p, In p l /\ r = fst p).
Proof.
  induction l as [|q l IH]; intros e; cbn zeta; cbn [fold_left]; [repeat split; [lia|contradiction|auto]|].
  destruct (IH (Z.min e (fst q))) as (H1 & H2 & H3). repeat split; [lia| |].
  - intros p [<-|K]; [lia|auto].
  - destruct H3 as [H3|(p & Hp & H3)]; [|right; exists p; split; [right|]; assumption].
    destruct (Z.min_spec e (fst q)) as [[_ M]|[_ M]]; rewrite M in *; [left; exact H3|right; exists q; split; [left; reflexivity|exact H3]].
Qed.
Lemma fold_max : forall (l : list (Z * Z)) e, let r := fold_left (fun a p => Z.max a (fst p)) l e in
  (e <= r)%Z /\ (forall p, In p l -> (fst p <= r)%Z) /\ (r = e \/ exists p, In p l /\ r = fst p).
Proof.
  induction l as [|q l IH]; intros e; cbn zeta; cbn [fold_left]; [repeat split; [lia|contradiction|auto]|].
  destruct (IH (Z.max e (fst q))) as (H1 & H2 & H3). repeat split; [lia| |].
  - intros p [<-|K]; [lia|auto].
  - destruct H3 as [H3|(p & Hp & H3)]; [|right; exists p; split; [right|]; assumption].
    destruct (Z.max_spec e (fst q)) as [[_ M]|[_ M]]; rewrite M in *; [right; exists q; split; [left; reflexivity|exact H3]|left; exact H3].
Qed.
Lemma ell_range_ok : forall lm lo hi, (exists m, In (lo, m) lm) -> (exists m, In (hi, m) lm) ->
  (forall l m, In (l, m) lm -> (lo <= l <= hi)%Z) -> ell_range lm = Ok (lo, hi).
Proof.
  intros [|[e k] r] lo hi [m1 H1] [m2 H2] H; [contradiction|]. cbn [ell_range].
  destruct (fold_min r e) as (A1 & A2 & A3). destruct (fold_max r e) as (B1 & B2 & B3).
  set (mn := fold_left (fun a p => Z.min a (fst p)) r e) in *. set (mx := fold_left (fun a p => Z.max a (fst p)) r e) in *.
  f_equal. f_equal.
  - assert (mn <= lo)%Z by (destruct H1 as [K|K]; [injection K as -> ->; exact A1|apply (A2 _ K)]).
    assert (lo <= mn)%Z.
    { destruct A3 as [->|([l m] & Hp & ->)]; [apply (H e k); now left|apply (H l m); now right]. }
    lia.
  - assert (hi <= mx)%Z by (destruct H2 as [K|K]; [injection K as -> ->; exact B1|apply (B2 _ K)]).
    assert (mx <= hi)%Z.
    { destruct B3 as [->|([l m] & Hp & ->)]; [apply (H e k); now left|apply (H l m); now right]. }
    lia.
Qed.
Lemma assoc_in : forall A n (f : list (string * A)) v, assoc n f = Some v -> In n (map fst f).
Proof.
  induction f as [|[k u] f IH]; intros v H; [discriminate|]. cbn in *. destruct (String.eqb_spec k n); [now left|right; eauto].
Qed.

(** ** Columns *)
Lemma set_at_length : forall A k (x : A) l, length (set_at k x l) = length l.
Proof. induction k; intros x [|y l]; cbn; auto. Qed.
Lemma set_at_nth : forall A k (x : A) l j d, nth j (set_at k x l) d = if (j =? k)%nat && (j <? length l)%nat then x else nth j l d.
Proof.
  induction k; intros x [|y l] j d.
  - now destruct j.
  - destruct j; reflexivity.
  - destruct j; cbn [nth set_at length]; [reflexivity|]. now rewrite andb_false_r.
  - destruct j; [reflexivity|]. cbn [set_at nth length]. rewrite IHk. reflexivity.
Qed.
Section Fill.
  Variable spline : list R -> list R -> Z -> list R -> res (list R).
  Lemma fill_ok : forall f t lo (val : Z -> Z -> list C) todo cols,
    NoDup todo ->
    (forall l m, In (l, m) todo -> (0 <= LM_index l m lo < Z.of_nat (length cols))%Z /\
       exists a p, get_spline spline f (amp_name l m) t = Ok a /\ get_spline spline f (phase_name l m) t = Ok p /\
                   val l m = map polar (combine a p)) ->
    (forall l m l' m', In (l, m) todo -> In (l', m') todo -> LM_index l m lo = LM_index l' m' lo -> (l, m) = (l', m')) ->
    exists out, fill_columns spline f t lo todo cols = Ok out /\ length out = length cols /\
      (forall l m, In (l, m) todo -> nth (Z.to_nat (LM_index l m lo)) out [] = val l m) /\
      (forall j, (forall l m, In (l, m) todo -> Z.to_nat (LM_index l m lo) <> j) -> nth j out [] = nth j cols []).
  Proof.
    intros f t lo val. induction todo as [|[l m] todo IH]; intros cols ND H INJ.
    - exists cols. split; [reflexivity|]. split; [reflexivity|]. split; [contradiction|reflexivity].
    - inversion ND as [|? ? N1 N2]; subst. cbn [fill_columns].
      destruct (H l m (or_introl eq_refl)) as (HI & a & p & Ea & Ep & Ev). rewrite Ea. cbn [rbind]. rewrite Ep. cbn [rbind].
      unfold set_column. destruct ((0 <=? LM_index l m lo)%Z && (LM_index l m lo <? Z.of_nat (length cols))%Z) eqn:B; [|lia].
      cbn [rbind]. set (cols' := set_at _ _ cols).
      assert (L' : length cols' = length cols) by apply set_at_length.
      destruct (IH cols' N2) as (out & E & LO & V & U).
      + intros l' m' K. rewrite L'. apply H. now right.
      + intros l' m' l'' m'' K1 K2. apply INJ; now right.
      + exists out. split; [exact E|]. split; [congruence|]. split.
        * intros l' m' [K|K]; [|now apply V]. injection K as -> ->. rewrite U.
          -- unfold cols'. rewrite set_at_nth, Nat.eqb_refl. destruct (Nat.ltb_spec (Z.to_nat (LM_index l' m' lo)) (length cols)); [|lia].
             cbn. now rewrite Ev.
          -- intros l'' m'' K E'. destruct (H l'' m'' (or_intror K)) as (HI' & _).
             assert (X : (l', m') = (l'', m'')) by (apply INJ; [now left|now right|lia]). rewrite <- X in K. contradiction.
        * intros j Hj. rewrite U.
          -- unfold cols'. rewrite set_at_nth. destruct (Nat.eqb_spec j (Z.to_nat (LM_index l m lo))); [|reflexivity].
             exfalso. apply (Hj l m); [now left|auto].
          -- intros l' m' K. apply Hj. now right.
  Qed.
End Fill.
Lemma LM_range_nodup : forall a b, (0 <= a)%Z -> NoDup (LM_range a b).
Proof.
  intros a b Ha. apply NoDup_nth_error. intros i j Hi E.
  destruct (nth_error (LM_range a b) i) as [[l m]|] eqn:El; [|apply nth_error_None in El; lia].
  symmetry in E. destruct (C01_every_column_is_named a b i l m Ha El) as (_ & _ & A).
  destruct (C01_every_column_is_named a b j l m Ha E) as (_ & _ & B). lia.
Qed.
Lemma rising_spec : forall t, strictly_up t -> rising t = true.
Proof.
  induction t as [|a [|b t] IH]; intros H; [reflexivity|reflexivity|].
  cbn [rising]. apply andb_true_iff. split.
  - unfold Rltb. destruct (Rlt_dec a b) as [|N]; [reflexivity|]. exfalso. apply N. apply (H 0%nat 1%nat). cbn. lia.
  - apply IH. intros i j Hij. apply (H (S i) (S j)). cbn in *. lia.
Qed.
Lemma place_index : forall lo l m, (0 <= lo <= l)%Z -> (- l <= m <= l)%Z -> mode_place lo l m = Z.to_nat (LM_index l m lo).
Proof. intros lo l m H Hm. unfold mode_place, LM_index. f_equal. ring. Qed.

(** ** Theorems *)
Section Read.
  Variable spline : list R -> list R -> Z -> list R -> res (list R).
  Variable junk : nat -> nat -> C.
  Variable added : list string.

  Lemma read_ok : forall f t lo hi, (0 <= lo <= hi)%Z -> assoc "NRtimes"%string f = Some (LTimes t) -> strictly_up t ->
    complete f lo hi ->
    (forall l m X Y k, (lo <= l <= hi)%Z -> (- l <= m <= l)%Z -> amplitude_at f l m X Y k \/ phase_at f l m X Y k ->
       exists v, gives_values spline t X Y k v) ->
    exists w, read_lvc spline junk added f = Ok w /\ l_t w = t /\ l_min w = lo /\ l_max w = hi /\
      l_frame w = 1%Z /\ l_type w = 7%Z /\ l_r w = true /\ l_m w = true /\ l_hist w = (history_of f ++ added)%list /\
      length (l_data w) = length t /\
      (forall r, In r (l_data w) -> Z.of_nat (length r) = ((hi + 1) ^ 2 - lo ^ 2)%Z) /\
      forall l m X Y k X' Y' k' a p i, (lo <= l <= hi)%Z -> (- l <= m <= l)%Z -> amplitude_at f l m X Y k -> phase_at f l m X' Y' k' ->
        spline X Y k t = Ok a -> spline X' Y' k' t = Ok p -> (i < length t)%nat ->
        mode_value w i l m = mkC (nth i a 0 * cos (nth i p 0)) (nth i a 0 * sin (nth i p 0)).
  Proof.
    intros f t lo hi HL HT HU [HC HN] HS. unfold read_lvc, get_times. rewrite HT. cbn [rbind].
    destruct (ell_m_ok (map fst f)) as (lm & E & I).
    { intros n Hn Hp. destruct (HN n Hn Hp) as (l & m & _ & ->). exists l, m. reflexivity. }
    rewrite E. cbn [rbind].
    assert (ER : ell_range lm = Ok (lo, hi)).
    { assert (P : forall l m, (lo <= l <= hi)%Z -> (- l <= m <= l)%Z -> In (l, m) lm).
      { intros l m H1 H2. apply I. destruct (HC l m H1 H2) as [_ (X & Y & k & K)]. apply assoc_in in K. exact K. }
      apply ell_range_ok.
      - exists 0%Z. apply P; lia.
      - exists 0%Z. apply P; lia.
      - intros l m K. apply I in K. destruct (HN _ K) as (l' & m' & H1 & H2).
        + exists (dec l), (dec m). reflexivity.
        + apply name_inj in H2. destruct H2 as [-> ->]. exact H1. }
    rewrite ER. cbn [rbind]. unfold total_size. destruct (Z.ltb_spec (hi * (hi + 2) - lo ^ 2 + 1) 0); [nia|].
    set (cols := map _ (seq 0 _)).
    assert (LC : Z.of_nat (length cols) = ((hi + 1) ^ 2 - lo ^ 2)%Z).
    { unfold cols. rewrite map_length, seq_length. nia. }
    set (val := fun l m => match assoc (amp_name l m) f, assoc (phase_name l m) f with
      | Some (LSpline X Y k), Some (LSpline X' Y' k') =>
          match spline X Y k t, spline X' Y' k' t with Ok a, Ok p => map polar (combine a p) | _, _ => [] end
      | _, _ => [] end).
    destruct (fill_ok spline f t lo val (LM_range lo hi) cols (LM_range_nodup lo hi ltac:(lia))) as (out & EF & LO & V & _).
    { intros l m K. apply LM_range_In in K. destruct K as [K1 K2]. split.
      - destruct (C01_index_is_position lo hi l m ltac:(lia) K1 K2) as [B _]. rewrite C01_mode_count in B by lia. lia.
      - destruct (HC l m K1 K2) as [(X & Y & k & A) (X' & Y' & k' & P)].
        destruct (HS l m X Y k K1 K2 (or_introl A)) as (a & Ea & _). destruct (HS l m X' Y' k' K1 K2 (or_intror P)) as (p & Ep & _).
        unfold get_spline, val. unfold amplitude_at in A. unfold phase_at in P. unfold amp_name, phase_name. rewrite A, P.
        rewrite Ea, Ep. eauto. }
    { intros l m l' m' K1 K2 EI. apply LM_range_In in K1. apply LM_range_In in K2.
      destruct (C01_index_injective lo l m l' m') as [-> ->]; auto; lia. }
    rewrite EF. cbn [rbind]. rewrite rising_spec by exact HU. destruct (Z.leb_spec 0 lo); [|lia]. cbn [andb].
    eexists. split; [reflexivity|]. cbn [l_t l_min l_max l_frame l_type l_r l_m l_hist l_data].
    repeat (split; [reflexivity|]). split; [rewrite map_length, seq_length; reflexivity|]. split.
    - intros r Hr. apply in_map_iff in Hr. destruct Hr as (i & <- & _). rewrite map_length. lia.
    - intros l m X Y k X' Y' k' a p i H1 H2 A P Ea Ep Hi. unfold mode_value. cbn [l_min l_data].
      rewrite (nth_indep _ [] (map (fun c => nth 0 c C0) out)) by (rewrite map_length, seq_length; exact Hi).
      rewrite (map_nth (fun i => map (fun c => nth i c C0) out) _ 0%nat). rewrite seq_nth by exact Hi. cbn [plus].
      rewrite place_index by lia.
      assert (B : (Z.to_nat (LM_index l m lo) < length out)%nat).
      { destruct (C01_index_is_position lo hi l m ltac:(lia) H1 H2) as [B _]. rewrite C01_mode_count in B by lia. lia. }
      rewrite (nth_indep _ C0 (nth i [] C0)) by (rewrite map_length; exact B).
      rewrite (map_nth (fun c => nth i c C0) out []). rewrite V by (apply LM_range_In; lia).
      unfold val, amp_name, phase_name. unfold amplitude_at in A. unfold phase_at in P. rewrite A, P, Ea, Ep.
      destruct (HS l m X Y k H1 H2 (or_introl A)) as (a' & Ea' & La). destruct (HS l m X' Y' k' H1 H2 (or_intror P)) as (p' & Ep' & Lp).
      assert (a' = a) by congruence. assert (p' = p) by congruence. subst a' p'.
      rewrite (nth_indep _ C0 (polar (0, 0))) by (rewrite map_length, combine_length; lia).
      rewrite (map_nth polar). rewrite combine_nth by congruence. reflexivity.
  Qed.
  (** A complete file is read, and each mode is amplitude times exp(i phase), at the times of the file. *)
  Theorem C65_read : forall f t lo hi, (0 <= lo <= hi)%Z -> assoc "NRtimes"%string f = Some (LTimes t) -> strictly_up t ->
    complete f lo hi ->
    (forall l m X Y k, (lo <= l <= hi)%Z -> (- l <= m <= l)%Z -> amplitude_at f l m X Y k \/ phase_at f l m X Y k ->
       exists v, gives_values spline t X Y k v) ->
    exists w, read_lvc spline junk added f = Ok w /\ l_t w = t /\ l_min w = lo /\ l_max w = hi /\
      l_frame w = 1%Z /\ l_type w = 7%Z /\ l_r w = true /\ l_m w = true /\
      length (l_data w) = length t /\
      (forall r, In r (l_data w) -> Z.of_nat (length r) = ((hi + 1) ^ 2 - lo ^ 2)%Z) /\
      forall l m X Y k X' Y' k' a p i, (lo <= l <= hi)%Z -> (- l <= m <= l)%Z -> amplitude_at f l m X Y k -> phase_at f l m X' Y' k' ->
        spline X Y k t = Ok a -> spline X' Y' k' t = Ok p -> (i < length t)%nat ->
        mode_value w i l m = mkC (nth i a 0 * cos (nth i p 0)) (nth i a 0 * sin (nth i p 0)).
  Proof.
    intros f t lo hi H1 H2 H3 H4 H5. destruct (read_ok f t lo hi H1 H2 H3 H4 H5) as (w & A & B).
    exists w. split; [exact A|]. tauto.
  Qed.
  (** Where a time of the file is a node of both splines, and these interpolate, the mode is the stored
      amplitude and phase, and its modulus is that of the amplitude. *)
  Theorem C65_at_nodes : forall f t lo hi w l m X Y k X' Y' k' i j j',
    (0 <= lo <= hi)%Z -> assoc "NRtimes"%string f = Some (LTimes t) -> strictly_up t -> complete f lo hi ->
    (forall l m X Y k, (lo <= l <= hi)%Z -> (- l <= m <= l)%Z -> amplitude_at f l m X Y k \/ phase_at f l m X Y k ->
       exists v, gives_values spline t X Y k v /\
         forall i j, (i < length t)%nat -> (j < length X)%nat -> nth i t 0 = nth j X 0 -> nth i v 0 = nth j Y 0) ->
    read_lvc spline junk added f = Ok w ->
    (lo <= l <= hi)%Z -> (- l <= m <= l)%Z -> amplitude_at f l m X Y k -> phase_at f l m X' Y' k' ->
    (i < length t)%nat -> (j < length X)%nat -> (j' < length X')%nat -> nth i t 0 = nth j X 0 -> nth i t 0 = nth j' X' 0 ->
    mode_value w i l m = mkC (nth j Y 0 * cos (nth j' Y' 0)) (nth j Y 0 * sin (nth j' Y' 0)) /\
    sqrt (re (mode_value w i l m) ^ 2 + im (mode_value w i l m) ^ 2) = Rabs (nth j Y 0).
  Proof.
    intros f t lo hi w l m X Y k X' Y' k' i j j' HL HT HU HC HS HR K1 K2 A P Hi Hj Hj' E E'.
    destruct (C65_read f t lo hi HL HT HU HC) as (w' & R & _ & _ & _ & _ & _ & _ & _ & _ & _ & V).
    { intros l0 m0 X0 Y0 k0 B1 B2 B3. destruct (HS l0 m0 X0 Y0 k0 B1 B2 B3) as (v & Gv & _). eauto. }
    assert (w' = w) by congruence. subst w'.
    destruct (HS l m X Y k K1 K2 (or_introl A)) as (a & [Ea _] & Ia). destruct (HS l m X' Y' k' K1 K2 (or_intror P)) as (p & [Ep _] & Ip).
    assert (VV : mode_value w i l m = mkC (nth j Y 0 * cos (nth j' Y' 0)) (nth j Y 0 * sin (nth j' Y' 0))).
    { rewrite (V l m X Y k X' Y' k' a p i K1 K2 A P Ea Ep Hi). rewrite (Ia i j), (Ip i j') by assumption. reflexivity. }
    split; [exact VV|]. rewrite VV. cbn [re im].
    replace ((nth j Y 0 * cos (nth j' Y' 0)) ^ 2 + (nth j Y 0 * sin (nth j' Y' 0)) ^ 2) with (Rsqr (nth j Y 0)).
    - apply sqrt_Rsqr_abs.
    - pose proof (sin2_cos2 (nth j' Y' 0)) as SC. unfold Rsqr in *. nra.
  Qed.
  (** The order of the members of the file does not matter. *)
  Theorem C65_order : forall f g t lo hi, Permutation f g -> NoDup (map fst f) ->
    (0 <= lo <= hi)%Z -> assoc "NRtimes"%string f = Some (LTimes t) -> strictly_up t -> complete f lo hi ->
    (forall l m X Y k, (lo <= l <= hi)%Z -> (- l <= m <= l)%Z -> amplitude_at f l m X Y k \/ phase_at f l m X Y k ->
       exists v, gives_values spline t X Y k v) ->
    read_lvc spline junk added f = read_lvc spline junk added g.
  Proof.
    intros f g t lo hi PM ND HL HT HU HC HS.
    assert (AS : forall n, assoc n g = assoc n f).
    { intros n. assert (U : forall l : lfile, NoDup (map fst l) -> forall v, assoc n l = Some v <-> In (n, v) l).
      { induction l as [|[k u] l IH]; intros N v; [split; [discriminate|contradiction]|]. cbn in N. inversion N as [|? ? N1 N2]; subst.
        cbn. destruct (String.eqb_spec k n) as [->|D].
        - split; [intros K; injection K as ->; now left|]. intros [K|K]; [congruence|]. exfalso. apply N1. now apply (in_map fst) in K.
        - rewrite (IH N2). split; [now right|]. intros [K|K]; [congruence|exact K]. }
      assert (NG : NoDup (map fst g)) by (eapply Permutation_NoDup; [apply Permutation_map; exact PM|exact ND]).
      destruct (assoc n g) as [v|] eqn:E.
      - apply U in E; [|exact NG]. symmetry. apply U; [exact ND|]. eapply Permutation_in; [symmetry; exact PM|exact E].
      - destruct (assoc n f) as [v|] eqn:E2; [|reflexivity]. apply U in E2; [|exact ND].
        apply (Permutation_in _ PM) in E2. apply U in E2; [congruence|exact NG]. }
    assert (HCg : complete g lo hi).
    { destruct HC as [H1 H2]. split.
      - intros l m K1 K2. unfold amplitude_at, phase_at. rewrite !AS. exact (H1 l m K1 K2).
      - intros n Hn. apply H2. eapply Permutation_in; [apply Permutation_map; symmetry; exact PM|exact Hn]. }
    assert (FG : forall t lo todo cols, fill_columns spline g t lo todo cols = fill_columns spline f t lo todo cols).
    { intros t0 lo0. induction todo as [|[l m] todo IH]; intros cols; [reflexivity|]. cbn [fill_columns]. unfold get_spline. rewrite !AS.
      destruct (assoc (amp_name l m) f) as [[]|]; try reflexivity. destruct (spline X Y deg t0); [|reflexivity]. cbn [rbind].
      destruct (assoc (phase_name l m) f) as [[]|]; try reflexivity. destruct (spline X0 Y0 deg0 t0); [|reflexivity]. cbn [rbind].
      destruct (set_column _ _ _); [|reflexivity]. cbn [rbind]. apply IH. }
    assert (RG : forall h, complete h lo hi -> exists lm, ell_m (map fst h) = Ok lm /\ ell_range lm = Ok (lo, hi)).
    { intros h [H1 H2]. destruct (ell_m_ok (map fst h)) as (lm & E & I).
      { intros n Hn Hp. destruct (H2 n Hn Hp) as (l & m & _ & ->). exists l, m. reflexivity. }
      exists lm. split; [exact E|].
      assert (P : forall l m, (lo <= l <= hi)%Z -> (- l <= m <= l)%Z -> In (l, m) lm).
      { intros l m K1 K2. apply I. destruct (H1 l m K1 K2) as [_ (X & Y & k & K)]. apply assoc_in in K. exact K. }
      apply ell_range_ok.
      - exists 0%Z. apply P; lia.
      - exists 0%Z. apply P; lia.
      - intros l m K. apply I in K. destruct (H2 _ K) as (l' & m' & K1 & K2).
        + exists (dec l), (dec m). reflexivity.
        + apply name_inj in K2. destruct K2 as [-> ->]. exact K1. }
    destruct (RG f HC) as (lf & E1 & E2). destruct (RG g HCg) as (lg & E3 & E4).
    unfold read_lvc, get_times. rewrite AS. destruct (assoc "NRtimes"%string f) as [[]|]; try reflexivity. cbn [rbind].
    rewrite E1, E3. cbn [rbind]. rewrite E2, E4. cbn [rbind]. rewrite FG. unfold history_of. rewrite AS. reflexivity.
  Qed.

  (** ** Failures *)
  Theorem C65_no_modes : forall f t, assoc "NRtimes"%string f = Some (LTimes t) -> (forall n, In n (map fst f) -> ~ is_phase n) ->
    read_lvc spline junk added f = Err IndexError.
  Proof.
    intros f t HT H. unfold read_lvc, get_times. rewrite HT. cbn [rbind].
    destruct (ell_m_ok (map fst f)) as (lm & E & I); [intros n Hn Hp; now apply H in Hn|].
    rewrite E. cbn [rbind]. destruct lm as [|[l m] lm]; [reflexivity|]. exfalso.
    apply (H (phase_name l m)); [apply I; now left|exists (dec l), (dec m); reflexivity].
  Qed.
  Theorem C65_no_times : forall f, assoc "NRtimes"%string f = None -> read_lvc spline junk added f = Err KeyError.
  Proof. intros f H. unfold read_lvc, get_times. rewrite H. reflexivity. Qed.
  (** Every mode between the least and the greatest ell with a phase must be there. *)
  Theorem C65_needs_all_modes : forall f w l1 m1 l2 m2 l m, read_lvc spline junk added f = Ok w ->
    In (phase_name l1 m1) (map fst f) -> In (phase_name l2 m2) (map fst f) -> (l1 <= l <= l2)%Z -> (- l <= m <= l)%Z ->
    (exists X Y k, amplitude_at f l m X Y k) /\ (exists X Y k, phase_at f l m X Y k).
  Proof.
    intros f w l1 m1 l2 m2 l m H I1 I2 Hl Hm. unfold read_lvc in H.
    destruct (get_times f) as [t|]; [|discriminate]. cbn [rbind] in H.
    destruct (ell_m (map fst f)) as [lm|] eqn:EL; [|discriminate]. cbn [rbind] in H.
    assert (IN : forall names lm l m, ell_m names = Ok lm -> In (phase_name l m) names -> In (l, m) lm).
    { clear. induction names as [|n r IH]; intros lm l m E I; [contradiction|]. cbn [ell_m] in E.
      destruct (phase_match n) as [[a b]|] eqn:PM.
      - destruct (py_int a) as [x|] eqn:Ex; [|discriminate]. cbn [rbind] in E.
        destruct (py_int b) as [y|] eqn:Ey; [|discriminate]. cbn [rbind] in E.
        destruct (ell_m r) as [rest|]; [|discriminate]. cbn [rbind] in E. injection E as <-.
        destruct I as [->|I]; [|right; now apply IH]. rewrite phase_match_name in PM. injection PM as <- <-.
        rewrite py_int_dec in Ex, Ey. left. congruence.
      - destruct I as [->|I]; [rewrite phase_match_name in PM; discriminate|now apply IH]. }
    destruct (ell_range lm) as [[a b]|] eqn:ER; [|discriminate]. cbn [rbind] in H.
    assert (AB : (a <= l1)%Z /\ (l2 <= b)%Z).
    { pose proof (IN _ _ _ _ EL I1) as J1. pose proof (IN _ _ _ _ EL I2) as J2.
      destruct lm as [|[e k] r]; [discriminate|]. cbn [ell_range] in ER.
      destruct (fold_min r e) as (A1 & A2 & _). destruct (fold_max r e) as (B1 & B2 & _).
      set (mn := fold_left (fun a p => Z.min a (fst p)) r e) in *. set (mx := fold_left (fun a p => Z.max a (fst p)) r e) in *.
      injection ER as <- <-. split.
      - destruct J1 as [K|K]; [injection K as -> _; exact A1|apply (A2 _ K)].
      - destruct J2 as [K|K]; [injection K as -> _; exact B1|apply (B2 _ K)]. }
    destruct (total_size a b <? 0)%Z; [discriminate|].
    destruct (fill_columns _ _ _ _ _ _) as [out|] eqn:EF; [|discriminate]. clear H.
    assert (FI : forall todo cols out, fill_columns spline f t a todo cols = Ok out -> In (l, m) todo ->
      (exists X Y k, amplitude_at f l m X Y k) /\ (exists X Y k, phase_at f l m X Y k)).
    { induction todo as [|[l' m'] todo IH]; intros cols out0 E I; [contradiction|]. cbn [fill_columns] in E. unfold get_spline in E.
      destruct (assoc (amp_name l' m') f) as [[]|] eqn:E1; try discriminate. destruct (spline X Y deg t); [|discriminate]. cbn [rbind] in E.
      destruct (assoc (phase_name l' m') f) as [[]|] eqn:E2; try discriminate. destruct (spline X0 Y0 deg0 t); [|discriminate]. cbn [rbind] in E.
      destruct (set_column _ _ _); [|discriminate]. cbn [rbind] in E. destruct I as [K|I]; [|eapply IH; eauto].
      injection K as -> ->. split; eauto. }
    apply (FI _ _ _ EF). apply LM_range_In. lia.
  Qed.
  (** Amplitudes whose phases are missing for all modes of their ell are dropped without notice. *)
  Theorem C65_lone_amplitude_refuted : forall f n x, strip "phase_l" n = None -> assoc n f = None -> n <> "NRtimes"%string ->
    n <> "auxiliary-info"%string ->
    (forall lm a b l m, ell_m (map fst f) = Ok lm -> ell_range lm = Ok (a, b) -> In (l, m) (LM_range a b) -> n <> amp_name l m) ->
    read_lvc spline junk added (f ++ [(n, x)])%list = read_lvc spline junk added f.
  Proof.
    intros f n x HP HN N1 N2 HA.
    assert (AS : forall k, k <> n -> assoc k (f ++ [(n, x)])%list = assoc k f).
    { intros k D. clear - D. induction f as [|[j u] f IH]; cbn.
      - destruct (String.eqb_spec n k); [congruence|reflexivity].
      - destruct (String.eqb j k); [reflexivity|exact IH]. }
    assert (EM : ell_m (map fst (f ++ [(n, x)]))%list = ell_m (map fst f)).
    { rewrite map_app. cbn. clear - HP. induction (map fst f) as [|k l IH]; cbn [app ell_m].
      - unfold phase_match. rewrite HP. reflexivity.
      - destruct (phase_match k) as [[a b]|]; [|exact IH]. rewrite IH. reflexivity. }
    unfold read_lvc, get_times. rewrite AS by congruence. destruct (assoc "NRtimes"%string f) as [[]|]; try reflexivity. cbn [rbind].
    rewrite EM. destruct (ell_m (map fst f)) as [lm|] eqn:EL; [|reflexivity]. cbn [rbind].
    destruct (ell_range lm) as [[a b]|] eqn:ER; [|reflexivity]. cbn [rbind]. destruct (total_size a b <? 0)%Z; [reflexivity|].
    unfold history_of. rewrite AS by congruence.
    assert (FG : forall todo cols, (forall l m, In (l, m) todo -> n <> amp_name l m) ->
      fill_columns spline (f ++ [(n, x)])%list t a todo cols = fill_columns spline f t a todo cols).
    { induction todo as [|[l m] todo IH]; intros cols K; [reflexivity|]. cbn [fill_columns]. unfold get_spline.
      rewrite AS by (intros Q; apply (K l m); [now left|congruence]).
      rewrite (AS (phase_name l m)) by (intros Q; rewrite <- Q in HP; unfold phase_name in HP; rewrite strip_app in HP; discriminate).
      destruct (assoc (amp_name l m) f) as [[]|]; try reflexivity. destruct (spline X Y deg t); [|reflexivity]. cbn [rbind].
      destruct (assoc (phase_name l m) f) as [[]|]; try reflexivity. destruct (spline X0 Y0 deg0 t); [|reflexivity]. cbn [rbind].
      destruct (set_column _ _ _); [|reflexivity]. cbn [rbind]. apply IH. intros; apply K; now right. }
    rewrite FG; [reflexivity|]. intros l m K. exact (HA lm a b l m eq_refl ER K).
  Qed.
End Read.

(** ** History *)
Lemma pieces_some : forall s, pieces newline s <> [].
Proof. destruct s as [|c s]; cbn [pieces]; [discriminate|]. destruct (Ascii.eqb c newline); [discriminate|]. destruct (pieces newline s); discriminate. Qed.
(** The history kept in the file is taken over line by line, marked as comments. *)
Theorem C65_history : forall spline junk added f s w, assoc "auxiliary-info"%string f = Some (LAux (Some s)) ->
  read_lvc spline junk added f = Ok w ->
  l_hist w = (map (fun line => "### " ++ line)%string (lines s) ++ added)%list.
Proof.
  intros spline junk added f s w HA H.
  assert (E : l_hist w = (history_of f ++ added)%list).
  { unfold read_lvc in H. destruct (get_times f) as [t|]; [|discriminate]. cbn [rbind] in H.
    destruct (ell_m (map fst f)) as [lm|]; [|discriminate]. cbn [rbind] in H.
    destruct (ell_range lm) as [[a b]|]; [|discriminate]. cbn [rbind] in H. destruct (total_size a b <? 0)%Z; [discriminate|].
    destruct (fill_columns _ _ _ _ _ _) as [cols|]; [|discriminate]. cbn [rbind] in H. destruct (_ && _); [|discriminate].
    injection H as <-. reflexivity. }
  rewrite E. f_equal. unfold history_of. rewrite HA.
  assert (G : forall p s, all_chars (fun c => negb (Ascii.eqb c newline)) p = true ->
     lines (p ++ comment_lines s) = match lines s with x :: r => (p ++ x)%string :: map (fun l => "### " ++ l)%string r | [] => [] end).
  { clear. intros p s. revert p. unfold lines. induction s as [|c s IH]; intros p HP.
    - cbn [comment_lines pieces]. induction p as [|d p IHp]; [reflexivity|]. cbn [all_chars] in HP. apply andb_true_iff in HP. destruct HP as [H1 H2].
      cbn [append pieces]. apply negb_true_iff in H1. rewrite H1. rewrite IHp by exact H2. reflexivity.
    - cbn [comment_lines pieces]. destruct (Ascii.eqb_spec c newline) as [->|N].
      + induction p as [|d p IHp].
        * assert (PN : forall q, pieces newline (String newline q) = ""%string :: pieces newline q) by reflexivity.
          change (pieces newline (String newline ("### " ++ comment_lines s)) =
                  ("" ++ "")%string :: map (fun l => "### " ++ l)%string (pieces newline s)). rewrite PN.
          rewrite IH by reflexivity. pose proof (pieces_some s) as EP. destruct (pieces newline s); [contradiction|reflexivity].
        * cbn [all_chars] in HP. apply andb_true_iff in HP. destruct HP as [H1 H2]. cbn [append pieces]. apply negb_true_iff in H1. rewrite H1.
          cbn [append] in IHp. rewrite IHp by exact H2. reflexivity.
      + assert (HP' : all_chars (fun c => negb (Ascii.eqb c newline)) (p ++ String c "") = true).
        { clear - HP N. induction p as [|d p IHp]; cbn [all_chars append] in *.
          - rewrite andb_true_r. apply negb_true_iff. now apply Ascii.eqb_neq.
          - apply andb_true_iff in HP. destruct HP as [H1 H2]. rewrite H1. cbn. now apply IHp. }
        specialize (IH _ HP'). rewrite app_assoc_s in IH. cbn [append] in IH. rewrite IH.
        pose proof (pieces_some s) as EP. destruct (pieces newline s) as [|x r]; [contradiction|]. rewrite app_assoc_s. reflexivity. }
  rewrite G by reflexivity. destruct (lines s) as [|x r]; reflexivity.
Qed.
(** Names that [int] accepts in another form are found but then looked for under the usual name. *)
Theorem C65_leading_zero_refuted : forall spline junk added t x y, let f := [("NRtimes"%string, LTimes t);
    ("amp_l00_m0"%string, x); ("phase_l00_m0"%string, y)] in
  read_lvc spline junk added f = Err KeyError.
Proof. intros spline junk added t x y f. reflexivity. Qed.

(** ** A case meeting the hypotheses *)
Definition case_file : lfile :=
  [("NRtimes"%string, LTimes [0; 1]); ("auxiliary-info"%string, LAux (Some "made by hand")); ("mass1"%string, LOther);
   ("amp_l0_m0"%string, LSpline [0; 1] [1; 2] 1); ("phase_l0_m0"%string, LSpline [0; 1] [0; PI] 1)].
Definition linear (X Y : list R) (k : Z) (t : list R) : res (list R) :=
  let x0 := nth 0 X 0 in let x1 := nth 1 X 0 in let y0 := nth 0 Y 0 in let y1 := nth 1 Y 0 in
  Ok (map (fun x => y0 + (x - x0) / (x1 - x0) * (y1 - y0)) t).
Example C65_case : strictly_up [0; 1] /\ complete case_file 0 0 /\
  (forall l m X Y k, (0 <= l <= 0)%Z -> (- l <= m <= l)%Z -> amplitude_at case_file l m X Y k \/ phase_at case_file l m X Y k ->
       exists v, gives_values linear [0; 1] X Y k v /\
         forall i j, (i < length [0; 1])%nat -> (j < length X)%nat -> nth i [0; 1] 0 = nth j X 0 -> nth i v 0 = nth j Y 0) /\
  NoDup (map fst case_file).
Proof.
  split; [|split; [|split]].
  - intros i j H. cbn in H. destruct i, j as [|[|j]]; cbn; try lia; try lra.
  - split.
    + intros l m H1 H2. assert (l = 0%Z) by lia. assert (m = 0%Z) by lia. subst. split; do 3 eexists; reflexivity.
    + intros n H (a & b & E). cbn in H. decompose [or] H; subst; try discriminate; try contradiction.
      exists 0%Z, 0%Z. split; [lia|]. rewrite <- H0. reflexivity.
  - intros l m X Y k H1 H2 HH. assert (l = 0%Z) by lia. assert (m = 0%Z) by lia. subst.
    destruct HH as [HH|HH]; vm_compute in HH; injection HH as <- <- <-; eexists; (split; [split; [reflexivity|reflexivity]|]);
      intros i j Hi Hj E; cbn in Hi, Hj; destruct i as [|[|i]]; destruct j as [|[|j]]; try lia; cbn in *; try lra; field.
  - cbn. repeat constructor; cbn; intuition discriminate.
Qed.
