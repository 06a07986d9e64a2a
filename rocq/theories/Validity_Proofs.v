(** C17: what a successful `ensure_validity` means. *)
From Coq Require Import Reals ZArith List Lia Lra Bool Arith.
From Verif Require Import Common Modes_Model Times_Model Times_Proofs Validity_Model.
Import ListNotations.

(** * Specification *)
Definition increasing (ts : list R) : Prop :=
  forall i j x y, (i < j)%nat -> nth_error ts i = Some x -> nth_error ts j = Some y -> (x < y)%R.
Definition all_finite (a : arr) : Prop := Forall (fun x => exists r, x = Fin r) (vals a).

Record base_ok (w : wave) : Prop := {
  ok_t : exists sh ts n, w_t w = Arr (mkarr DFloat sh (map Fin ts))
           /\ (ts = [] \/ length sh = 1%nat) /\ nth_error sh 0 = Some n /\ increasing ts
           /\ exists d, w_data w = Arr d /\ nth_error (shape d) 0 = Some n /\ all_finite d
           /\ exists f, w_frame w = Arr f /\ dt f = DQuat /\ all_finite f
                        /\ (length (vals f) = 0 \/ length (vals f) = 1 \/ length (vals f) = length ts)%nat;
  ok_hist : exists n, w_hist w = HList (S n) true;
  ok_ftype : exists z, w_ftype w = PyInt z /\ (0 <= z <= 4)%Z;
  ok_dtype : exists z, w_dtype w = PyInt z /\ (0 <= z <= 10)%Z;
  ok_flags : w_rbool w = true /\ w_mbool w = true /\ w_numint w = true }.

(** The mode-specific part. *)
Record mode_part_ok (w : modes) : Prop := {
  ok_ints : m_ints w = (true, true);
  ok_ells : (0 <= m_lmin w /\ m_lmin w - 1 <= m_lmax w)%Z;
  ok_LM : m_LM w = LM_range (m_lmin w) (m_lmax w);
  ok_cols : exists d n rest, w_data (m_base w) = Arr d /\ dt d = DComplex
            /\ shape d = n :: length (LM_range (m_lmin w) (m_lmax w)) :: rest }.
Record grid_part_ok (w : grid) : Prop := {
  okg_ints : g_ints w = (true, true);
  okg_sizes : (0 <= g_ntheta w /\ 0 <= g_nphi w)%Z;
  okg_cols : exists d n c rest, w_data (g_base w) = Arr d /\ dt d = DComplex
            /\ shape d = n :: c :: rest /\ (Z.of_nat c = g_ntheta w * g_nphi w)%Z }.

(** * Lemmas *)
Lemma test_spec : forall a n v n', test a n v = Ok n' ->
  (n' = n + (if v then 0 else 1))%nat /\ (a = true -> v = true).
Proof. intros [|] n [|] n'; simpl; intros H; inversion H; subst; split; auto; try lia; discriminate. Qed.

Lemma test_true : forall a n, test a n true = Ok n.
Proof. intros [|] n; reflexivity. Qed.

Lemma rbind_ok : forall A B (r : res A) (k : A -> res B) b, rbind r k = Ok b ->
  exists a, r = Ok a /\ k a = Ok b.
Proof. intros A B [a|e] k b H; simpl in H; [eauto|discriminate]. Qed.

Lemma finite_spec : forall l, forallb isfinite l = true <-> Forall (fun x => exists r, x = Fin r) l.
Proof.
  intros l. rewrite forallb_forall, Forall_forall. split; intros H x Hx; specialize (H x Hx).
  - destruct x; try discriminate. eauto.
  - destruct H as [r ->]. reflexivity.
Qed.

Lemma finite_map : forall l, Forall (fun x => exists r, x = Fin r) l -> exists ts, l = map Fin ts.
Proof.
  induction 1 as [|x l [r ->] _ [ts ->]].
  - exists []; reflexivity.
  - exists (r :: ts). reflexivity.
Qed.

Lemma inc_spec : forall ts, all_diff_pos (map Fin ts) = true <-> increasing ts.
Proof.
  induction ts as [|x ts IH].
  - split; [intros _ i j x y _ H; destruct i; discriminate | reflexivity].
  - destruct ts as [|y ts].
    + split; [|reflexivity]. intros _ i j a b Hij Ha Hb. destruct j as [|[|j]]; [lia|discriminate|discriminate].
    + change (all_diff_pos (map Fin (x :: y :: ts)))
        with (Rltb x y && all_diff_pos (map Fin (y :: ts))).
      rewrite andb_true_iff, IH. split.
      * intros [Hxy Hr] i j a b Hij Ha Hb.
        assert (x < y)%R by (revert Hxy; unfold Rltb; destruct (Rlt_dec x y); [auto|discriminate]).
        destruct i as [|i], j as [|j]; try lia.
        -- simpl in Ha. injection Ha as <-. simpl in Hb.
           destruct j as [|j]; [simpl in Hb; injection Hb as <-; assumption|].
           apply Rlt_trans with y; [assumption|].
           apply (Hr 0%nat (S j) y b); [lia|reflexivity|exact Hb].
        -- apply (Hr i j a b); [lia|exact Ha|exact Hb].
      * intros H. split.
        -- specialize (H 0%nat 1%nat x y ltac:(lia) eq_refl eq_refl).
           unfold Rltb. destruct (Rlt_dec x y); [reflexivity|contradiction].
        -- intros i j a b Hij Ha Hb. apply (H (S i) (S j) a b); [lia|exact Ha|exact Hb].
Qed.

Lemma inc_short : forall ts, (length ts <= 1)%nat -> increasing ts.
Proof.
  intros ts Hl i j x y Hij Hi Hj.
  assert (j < length ts)%nat by (apply nth_error_Some; congruence). lia.
Qed.

Lemma dtype_eqb_eq : forall a b, dtype_eqb a b = true <-> a = b.
Proof. intros [] []; simpl; split; congruence. Qed.

Lemma LM_eqb_eq : forall a b, LM_eqb a b = true <-> a = b.
Proof.
  induction a as [|[x y] a IH]; destruct b as [|[u v] b]; simpl; split; try congruence.
  - rewrite !andb_true_iff, IH, !Z.eqb_eq. intros [[-> ->] ->]. reflexivity.
  - intros H. injection H as <- <- <-. rewrite !Z.eqb_refl. simpl. apply IH. reflexivity.
Qed.

Ltac peel H :=
  repeat match type of H with
  | rbind (test _ _ _) _ = Ok _ =>
      let n := fresh "n" in let T := fresh "T" in
      apply rbind_ok in H; destruct H as [n [T H]]; apply test_spec in T
  | rbind _ _ = Ok _ =>
      let n := fresh "v" in let E := fresh "E" in
      apply rbind_ok in H; destruct H as [n [E H]]
  end.

Ltac bools :=
  repeat match goal with
  | T : (_ = _ + (if ?v then 0 else 1))%nat /\ (?a = true -> ?v = true) |- _ =>
      let B := fresh "B" in destruct T as [T B]
  end.

Section C17.
  Variable q : arr -> option attr.
  Variable dnd : arr -> res bool.
  Notation base := (base_ensure_validity q dnd).
  Notation modesv := (modes_ensure_validity q dnd).
  Notation gridv := (grid_ensure_validity q dnd).

  Lemma base_sound : forall al a w b w', base al a w = Ok (b, w') -> (b = true \/ a = true) ->
    b = true /\ base_ok w'.
  Proof.
    intros al a w b w' H Hb. unfold base_ensure_validity in H. cbv zeta in H.
    peel H. injection H as <- <-. bools.
    assert (Z : forall P : Prop, P -> P) by auto.
    (* every tested condition holds *)
    match type of Hb with (?n =? 0)%nat = true \/ _ => set (nn := n) in * end.
    assert (nn = 0%nat /\ True) as [Hn _].
    { split; auto. destruct Hb as [Hb|Hb]; [apply Nat.eqb_eq; exact Hb|].
      repeat match goal with B : a = true -> ?v = true, T : (_ = _ + (if ?v then _ else _))%nat |- _ =>
        rewrite (B Hb) in T; clear B end. lia. }
    split; [apply Nat.eqb_eq; exact Hn|].
    unfold nn in *. clear nn Hb Z.
    repeat match goal with
    | B : a = true -> ?v = true, T : (_ = _ + (if ?v then _ else _))%nat |- _ =>
        clear B; let C := fresh "C" in assert (C : v = true) by (destruct v; [reflexivity|lia]);
        rewrite C in T; rewrite Nat.add_0_r in T
    end.
    cbn [set_t set_frame set_hist w_t w_frame w_data w_hist w_ftype w_dtype w_rbool w_mbool w_numint] in *.
    repeat match goal with C : dtype_eqb _ _ = true |- _ => apply dtype_eqb_eq in C end.
    repeat match goal with C : forallb isfinite _ = true |- _ => apply finite_spec in C end.
    constructor; cbn [set_t set_frame set_hist w_t w_frame w_data w_hist w_ftype w_dtype w_rbool w_mbool w_numint].
    - match goal with E : as_arr (w_t w) = Ok ?t |- _ => rename t into t0 end.
      set (t := alter_t al t0) in *.
      assert (Ht : dt t = DFloat).
      { unfold t, alter_t. destruct (_ && _); assumption. }
      match goal with C : Forall _ (vals t) |- _ => rename C into Ft; destruct (finite_map _ Ft) as [ts Hts] end.
      match goal with E : as_arr (w_data w) = Ok ?d |- _ => rename d into dd;
         destruct (w_data w) as [| |d] eqn:Ed; try discriminate; injection E as -> end.
      match goal with E : shape_at t 0 = Ok ?n |- _ => rename E into Et0; rename n into nt end.
      match goal with E : shape_at dd 0 = Ok ?n |- _ => rename E into Ed0; rename n into nd end.
      match goal with C : (nd =? nt)%nat = true |- _ => apply Nat.eqb_eq in C; subst nd end.
      unfold shape_at in Et0, Ed0.
      destruct (nth_error (shape t) 0) eqn:Es; try discriminate. injection Et0 as ->.
      destruct (nth_error (shape dd) 0) eqn:Esd; try discriminate. injection Ed0 as ->.
      exists (shape t), ts, nt.
      split; [rewrite <- Hts, <- Ht; destruct t; reflexivity|].
      assert (Hsz : size t = length ts) by (unfold size; rewrite Hts; apply map_length).
      split.
      { match goal with C : ((size t =? 0)%nat || _)%bool = true |- _ => apply orb_true_iff in C; destruct C as [C|C]; apply Nat.eqb_eq in C end.
        - left. rewrite Hsz in *. apply length_zero_iff_nil. assumption.
        - right. assumption. }
      split; [exact Es|]. split.
      { match goal with E : times_increasing _ t = Ok ?v |- _ => unfold times_increasing in E; rename E into Ei end.
        destruct (size t <=? 1)%nat eqn:Esz.
        - apply Nat.leb_le in Esz. apply inc_short. lia.
        - match goal with C : ((size t =? 0)%nat || _)%bool = true |- _ => rename C into Cs end.
          apply Nat.leb_gt in Esz. apply orb_true_iff in Cs.
          destruct Cs as [Cs|Cs]; [apply Nat.eqb_eq in Cs; lia|]. rewrite Cs in Ei.
          injection Ei as Ei. apply inc_spec. rewrite <- Hts. congruence. }
      exists dd. split; [reflexivity|]. split; [assumption|]. split; [assumption|].
      match goal with E : as_arr (alter_frame_float _ _ ?x ?f0) = Ok ?f |- _ => rename f into ff;
        destruct (alter_frame_float q al x f0) as [| |f1] eqn:Ef; try discriminate; injection E as -> end.
      exists ff. split; [reflexivity|]. split; [assumption|]. split; [assumption|].
      match goal with C : ((size ff <=? 1)%nat || _)%bool = true |- _ => rename C into Cf end.
      apply orb_true_iff in Cf. destruct Cf as [Cf|Cf].
      + apply Nat.leb_le in Cf. unfold size in Cf. lia.
      + apply Nat.eqb_eq in Cf. unfold size in Cf, Hsz. lia.
    - match goal with C : is_list ?h = true |- _ => destruct h as [hn fs|k|]; try discriminate end.
      match goal with E : hist_first _ = Ok _ |- _ => destruct hn; try discriminate; simpl in E; injection E as E end.
      exists hn. congruence.
    - destruct (w_ftype w) as [z|]; try discriminate. exists z. split; [reflexivity|].
      unfold in_range in *. lia.
    - destruct (w_dtype w) as [z|]; try discriminate. exists z. split; [reflexivity|].
      unfold in_range in *. lia.
    - auto.
  Qed.

  Lemma base_complete : forall al a w, base_ok w -> exists w',
    base al a w = Ok (true, w')
    /\ (al = false \/ (forall t, w_t w = Arr t -> ndim t = 1%nat) -> w' = w).
  Proof.
    intros al a w [Ot [hn Oh] [zf [Of Hf]] [zd [Od Hd]] [Or [Om On]]].
    destruct Ot as (sh & ts & n & Et & Hnd & Hn & Hinc & d & Ed & Hd0 & Fd & f & Ef & Df & Ff & Hfs).
    destruct w as [wt wfr wd wh wf wdt wr wm wn]. cbn [w_t w_frame w_data w_hist w_ftype w_dtype w_rbool w_mbool w_numint] in *. subst.
    unfold base_ensure_validity. cbv zeta.
    cbn [w_t is_ndarray as_arr rbind dt dtype_eqb]. rewrite !test_true. cbn [set_t set_frame set_hist rbind as_arr dt dtype_eqb].
    rewrite !test_true. cbn [set_t set_frame set_hist rbind].
    set (t := alter_t al (mkarr DFloat sh (map Fin ts))).
    assert (Hv : vals t = map Fin ts) by (unfold t, alter_t; destruct (_ && _); reflexivity).
    assert (Hsz : size t = length ts) by (unfold size; rewrite Hv; apply map_length).
    assert (Hs0 : nth_error (shape t) 0 = Some n).
    { unfold t, alter_t. destruct (_ && _); [|assumption]. cbn. destruct sh; [discriminate|exact Hn]. }
    assert (Hnt : (ts = [] \/ ndim t = 1)%nat).
    { destruct Hnd as [->|Hnd]; [left; reflexivity|right]. unfold t, alter_t, ndim. cbn.
      rewrite Hnd. simpl. rewrite andb_false_r. simpl. exact Hnd. }
    replace ((size t =? 0)%nat || (ndim t =? 1)%nat)%bool with true.
    2:{ symmetry. destruct Hnt as [->|Hnt]; [rewrite Hsz; reflexivity|rewrite Hnt; apply orb_true_r]. }
    rewrite test_true. cbn [set_t set_frame set_hist rbind].
    replace (times_increasing dnd t) with (@Ok bool true).
    2:{ symmetry. unfold times_increasing. destruct (size t <=? 1)%nat eqn:E; [reflexivity|].
        apply Nat.leb_gt in E. destruct Hnt as [->|Hnt]; [simpl in Hsz; lia|].
        rewrite Hnt. simpl. rewrite Hv. f_equal. apply inc_spec. assumption. }
    cbn [set_t set_frame set_hist rbind]. rewrite test_true. cbn [set_t set_frame set_hist rbind].
    replace (forallb isfinite (vals t)) with true.
    2:{ symmetry. rewrite Hv. clear. induction ts; simpl; auto. }
    rewrite test_true. cbn [set_t set_frame set_hist rbind w_frame set_t alter_frame_none is_ndarray set_frame as_arr].
    rewrite test_true. cbn [set_t set_frame set_hist rbind as_arr alter_frame_float].
    replace (alter_frame_float q al (Arr f) f) with (Arr f).
    2:{ unfold alter_frame_float. rewrite Df. simpl. rewrite andb_false_r. reflexivity. }
    cbn [set_t set_frame set_hist rbind as_arr w_frame set_frame]. rewrite Df. cbn [dtype_eqb]. rewrite test_true. cbn [set_t set_frame set_hist rbind].
    replace ((size f <=? 1)%nat || (size f =? size t)%nat)%bool with true.
    2:{ symmetry. rewrite Hsz. unfold size. apply orb_true_iff.
        destruct Hfs as [H|[H|H]]; rewrite H; auto. right. apply Nat.eqb_refl. }
    rewrite test_true. cbn [set_t set_frame set_hist rbind].
    apply finite_spec in Ff. rewrite Ff, test_true. cbn [set_t set_frame set_hist rbind w_data is_ndarray as_arr].
    rewrite test_true. cbn [set_t set_frame set_hist rbind as_arr].
    replace (1 <=? ndim d)%nat with true.
    2:{ symmetry. unfold ndim. destruct (shape d); [discriminate|reflexivity]. }
    rewrite test_true. cbn [set_t set_frame set_hist rbind]. unfold shape_at. rewrite Hd0, Hs0. cbn [set_t set_frame set_hist rbind].
    rewrite Nat.eqb_refl, test_true. cbn [set_t set_frame set_hist rbind].
    apply finite_spec in Fd. rewrite Fd, test_true.
    cbn [set_t set_frame set_hist rbind set_hist w_hist].
    replace (alter_hist al (HList (S hn) true)) with (HList (S hn) true) by (destruct al; reflexivity).
    cbn [is_list hist_first rbind]. rewrite test_true. cbn [set_t set_frame set_hist rbind]. rewrite test_true.
    cbn [set_t set_frame set_hist rbind w_ftype is_integral]. rewrite test_true. cbn [set_t set_frame set_hist rbind].
    replace (in_range 5 (PyInt zf)) with true by (symmetry; unfold in_range; lia).
    rewrite test_true. cbn [set_t set_frame set_hist rbind w_dtype is_integral]. rewrite test_true. cbn [set_t set_frame set_hist rbind].
    replace (in_range 11 (PyInt zd)) with true by (symmetry; unfold in_range; lia).
    rewrite test_true. cbn [set_t set_frame set_hist rbind w_rbool w_mbool w_numint].
    rewrite !test_true. cbn [set_t set_frame set_hist rbind]. rewrite !test_true. cbn [set_t set_frame set_hist rbind]. rewrite !test_true. cbn [set_t set_frame set_hist rbind].
    eexists. split; [reflexivity|].
    intros Hal. cbn. replace (Arr t) with (Arr (mkarr DFloat sh (map Fin ts))); [reflexivity|].
    f_equal. unfold t, alter_t. destruct Hal as [->|Hal]; [reflexivity|].
    specialize (Hal _ eq_refl). rewrite Hal. simpl. rewrite andb_false_r. reflexivity.
  Qed.

  (** What a returning call leaves behind. *)
  Lemma base_result : forall al a w b w', base al a w = Ok (b, w') -> exists t f,
    as_arr (w_t w) = Ok t /\ as_arr (alter_frame_none al (w_frame w)) = Ok f
    /\ w' = mkwave (Arr (alter_t al t)) (alter_frame_float q al (alter_frame_none al (w_frame w)) f)
              (w_data w) (alter_hist al (w_hist w)) (w_ftype w) (w_dtype w) (w_rbool w) (w_mbool w) (w_numint w).
  Proof.
    intros al a w b w' H. unfold base_ensure_validity in H. cbv zeta in H. peel H. injection H as _ <-.
    eexists _, _. split; [eassumption|]. split; [eassumption|]. reflexivity.
  Qed.

  (** Data that are not an array are reported as such (an AssertionError); without assertions the next use of
      them raises. *)
  Theorem C17_not_an_array : forall al w,
    (forall t, w_t w <> Arr t) -> base al true w = Err AssertionError /\ base al false w = Err AttributeError.
  Proof.
    intros al w H. unfold base_ensure_validity. destruct (w_t w) as [| |t]; [split; reflexivity|split; reflexivity|destruct (H t eq_refl)].
  Qed.
  Theorem C17_data_not_an_array : forall al w x, base_ok w -> (forall d, x <> Arr d) ->
    let w1 := mkwave (w_t w) (w_frame w) x (w_hist w) (w_ftype w) (w_dtype w) (w_rbool w) (w_mbool w) (w_numint w) in
    base al true w1 = Err AssertionError /\ base al false w1 = Err AttributeError.
  Proof.
    intros al w x B N w1.
    assert (A : forall a, base al a w1 = if a then Err AssertionError else Err AttributeError).
    2:{ split; apply A. }
    intros a. destruct (base_complete al a w B) as (w' & E & _). subst w1.
    unfold base_ensure_validity in *. cbv zeta in *. cbn [w_t w_frame w_data set_t set_frame] in *.
    repeat match type of E with rbind ?x ?k = _ => 
      match x with test _ ?n (is_ndarray (w_data w)) => fail 1 | _ => idtac end; destruct x eqn:?; [cbn [rbind] in *|discriminate] end.
    destruct x; [| |destruct (N _ eq_refl)]; destruct a; reflexivity.
  Qed.

  (** ** Theorems *)
  (** Without alteration the base-class check succeeds exactly on valid objects, whatever
      `assertions` is, and then changes nothing. *)
  Theorem C17_base_exact : forall a w w',
    base false a w = Ok (true, w') <-> base_ok w /\ w' = w.
  Proof.
    intros a w w'. split.
    - intros H. assert (O : base_ok w').
      { eapply base_sound in H; [|left; reflexivity]. tauto. }
      assert (w' = w); [|subst; auto].
      unfold base_ensure_validity in H. cbv zeta in H. peel H. injection H as _ <-.
      destruct w as [wt wfr wd wh wf wdt wr wm wn]. cbn in *.
      destruct wt; try discriminate. injection E as ->.
      destruct wfr; try discriminate. reflexivity.
    - intros [O ->]. destruct (base_complete false a w O) as (w2 & E & Hw). rewrite Hw in E; auto.
  Qed.

  (** With assertions, returning at all means that the (possibly repaired) object is valid. *)
  Theorem C17_base_assertions : forall al w b w', base al true w = Ok (b, w') -> b = true /\ base_ok w'.
  Proof. intros al w b w' H. eapply base_sound; eauto. Qed.

  Lemma modes_part_sound : forall al a w b w', modesv al a w = Ok (b, w') -> (b = true \/ a = true) ->
    b = true /\ exists wb, mode_part_ok (mkmodes wb (m_ints w') (m_lmin w') (m_lmax w') (m_LM w'))
                          /\ exists bb, base al a wb = Ok (bb, m_base w').
  Proof.
    intros al a w b w' H Hb. unfold modes_ensure_validity in H. cbv zeta in H.
    peel H.
    match type of H with (if negb (?n =? 0)%nat then _ else _) = _ => set (nn := n) in * end.
    assert (Hn : nn = 0%nat).
    { destruct Hb as [->|Ha].
      - destruct (nn =? 0)%nat eqn:E00; [apply Nat.eqb_eq; exact E00|discriminate].
      - bools. repeat match goal with B : a = true -> ?v = true, T : (_ = _ + (if ?v then _ else _))%nat |- _ =>
          rewrite (B Ha) in T; clear B end. unfold nn. lia. }
    rewrite Hn in H. simpl in H.
    apply rbind_ok in H. destruct H as [[bb wb'] [Eb H]]. simpl in H. injection H as <- <-.
    split; [reflexivity|]. cbn [m_ints m_lmin m_lmax m_LM m_base].
    bools. unfold nn in *. clear nn Hb.
    repeat match goal with
    | B : a = true -> ?v = true, T : (_ = _ + (if ?v then _ else _))%nat |- _ =>
        clear B; let C := fresh "C" in assert (C : v = true) by (destruct v; [reflexivity|lia]);
        rewrite C in T; rewrite Nat.add_0_r in T
    end.
    match type of Eb with base _ _ (m_base ?x) = _ => set (w1 := x) in * end.
    assert (Hsame : m_base w1 = m_base w /\ m_ints w1 = m_ints w /\ m_lmin w1 = m_lmin w /\ m_lmax w1 = m_lmax w).
    { unfold w1. destruct (_ && _); auto. }
    destruct Hsame as (S1 & S2 & S3 & S4).
    exists (m_base w1). split; [|eauto].
    match goal with C : LM_eqb _ _ = true |- _ => apply LM_eqb_eq in C; rename C into CL end.
    constructor; cbn [m_ints m_lmin m_lmax m_LM m_base]; rewrite ?S2, ?S3, ?S4.
    - destruct (m_ints w) as [x y]; simpl in *; congruence.
    - lia.
    - assumption.
    - match goal with E : as_arr (w_data (m_base w1)) = Ok ?d |- _ =>
        destruct (w_data (m_base w1)) as [| |d0] eqn:Ed; try discriminate; injection E as -> end.
      match goal with C : dtype_eqb (dt ?d) _ = true |- _ => apply dtype_eqb_eq in C; exists d end.
      match goal with E : shape_at ?d 1 = Ok ?n |- _ => unfold shape_at in E; rename n into c;
        destruct (shape d) as [|sn0 [|sn1 rest]] eqn:Es; try discriminate; simpl in E; injection E as -> end.
      exists sn0, rest. split; [reflexivity|]. split; [assumption|].
      match goal with C : (c =? _)%nat = true |- _ => apply Nat.eqb_eq in C; rewrite C, CL end. reflexivity.
  Qed.

  (** ** WaveformModes: with assertions every relation holds on return. *)
  Theorem C17_modes_assertions : forall al w b w', modesv al true w = Ok (b, w') ->
    b = true /\ mode_part_ok w' /\ base_ok (m_base w').
  Proof.
    intros al w b w' H. destruct (modes_part_sound _ _ _ _ _ H (or_intror eq_refl)) as (-> & wb & O & bb & E).
    split; [reflexivity|]. pose proof (base_sound _ _ _ _ _ E (or_intror eq_refl)) as [_ Ob].
    split; [|assumption].
    destruct O as [O1 O2 O3 (d & n & rest & Ed & Dd & Sd)]. cbn in *. constructor; auto.
    exists d, n, rest. split; [|auto].
    unfold base_ensure_validity in E. cbv zeta in E. peel E. injection E as _ <-.
    cbn [set_t set_frame set_hist w_data]. exact Ed.
  Qed.

  (** Without assertions, True means at least that the mode-specific relations hold. *)
  Theorem C17_modes_true_means : forall al a w w', modesv al a w = Ok (true, w') -> mode_part_ok w'.
  Proof.
    intros al a w w' H. destruct (modes_part_sound _ _ _ _ _ H (or_introl eq_refl)) as (_ & wb & O & bb & E).
    destruct O as [O1 O2 O3 (d & n & rest & Ed & Dd & Sd)]. cbn in *. constructor; auto.
    exists d, n, rest. split; [|auto].
    unfold base_ensure_validity in E. cbv zeta in E. peel E. injection E as _ <-.
    cbn [set_t set_frame set_hist w_data]. exact Ed.
  Qed.

  (** Valid objects are accepted, and left alone when times are a plain vector. *)
  Theorem C17_modes_complete : forall al a w, mode_part_ok w -> base_ok (m_base w) ->
    exists w', modesv al a w = Ok (true, w')
      /\ (al = false \/ (forall t, w_t (m_base w) = Arr t -> ndim t = 1%nat) -> w' = w).
  Proof.
    intros al a w [O1 [O2a O2b] O3 (d & n & rest & Ed & Dd & Sd)] Ob.
    destruct (base_complete al a _ Ob) as (wb & Eb & Hw).
    destruct w as [b ints lmin lmax LM]. cbn in *. subst ints LM.
    unfold modes_ensure_validity. cbv zeta. cbn [m_ints fst snd m_lmin m_lmax m_LM m_base].
    rewrite !test_true. cbn [rbind]. rewrite test_true. cbn [rbind].
    replace (0 <=? lmin)%Z with true by (symmetry; lia). rewrite test_true. cbn [rbind].
    replace (lmin - 1 <=? lmax)%Z with true by (symmetry; lia). rewrite test_true. cbn [rbind].
    assert (EL : LM_eqb (LM_range lmin lmax) (LM_range lmin lmax) = true) by (apply LM_eqb_eq; reflexivity).
    rewrite EL. simpl negb. rewrite andb_false_r. cbn [m_LM m_base m_ints m_lmin m_lmax].
    rewrite EL, test_true. cbn [rbind]. rewrite Ed. cbn [as_arr rbind].
    rewrite Dd. cbn [dtype_eqb]. rewrite test_true. cbn [rbind].
    unfold ndim, shape_at. rewrite Sd. cbn [length Nat.leb nth_error].
    rewrite test_true. cbn [rbind]. rewrite Nat.eqb_refl, test_true. cbn [rbind Nat.eqb negb].
    rewrite Eb. cbn [rbind]. eexists. split; [reflexivity|].
    intros Ha. rewrite (Hw Ha). reflexivity.
  Qed.

  (** Repairs are stable: on an object returned by a successful altering call, another altering
      call changes nothing and succeeds. *)
  Theorem C17_alter_idempotent : forall a a' w w', base true a w = Ok (true, w') ->
    base true a' w' = Ok (true, w').
  Proof.
    intros a a' w w' H. pose proof (base_sound _ _ _ _ _ H (or_introl eq_refl)) as [_ O].
    destruct (base_complete true a' w' O) as (w2 & E & _). rewrite E. f_equal. f_equal.
    destruct (base_result _ _ _ _ _ H) as (t & f & _ & _ & ->).
    destruct (base_result _ _ _ _ _ E) as (t' & f' & Et & Ef & ->). clear E H.
    destruct O as [(sh & ts & n1 & _ & _ & _ & _ & d & _ & _ & _ & f1 & Ef1 & Df & _) [hn Oh] _ _ _].
    cbn [w_t w_frame w_data w_hist w_ftype w_dtype w_rbool w_mbool w_numint] in *.
    rewrite Ef1 in *. cbn in Ef. injection Ef as <-. cbn in Et. injection Et as <-. rewrite Oh.
    f_equal.
    - f_equal. unfold alter_t. cbn [andb].
      destruct ((ndim t =? 2)%nat && match nth_error (shape t) 1 with Some 1%nat => true | _ => false end) eqn:Q.
      + apply andb_true_iff in Q. destruct Q as [Q _]. apply Nat.eqb_eq in Q.
        unfold ndim in *. destruct (shape t) as [|s0 [|s1 [|]]]; simpl in *; try discriminate Q. reflexivity.
      + rewrite Q. reflexivity.
    - unfold alter_frame_float, alter_frame_none. rewrite Df. reflexivity.
  Qed.

  (** ** WaveformGrid *)
  Lemma grid_part_sound : forall al a w b w', gridv al a w = Ok (b, w') -> b = true \/ a = true ->
    b = true /\ grid_part_ok w' /\ exists bb, base al a (g_base w) = Ok (bb, g_base w').
  Proof.
    intros al a w b w' H Hor. unfold grid_ensure_validity in H. cbv zeta in H. peel H. bools.
    match type of H with (if negb (?n =? 0)%nat then _ else _) = _ =>
      destruct (n =? 0)%nat eqn:En; simpl negb in H; cbv iota in H end.
    2: { exfalso. destruct Hor as [-> | ->]; [discriminate|].
         repeat match goal with B : true = true -> ?v = true |- _ => specialize (B eq_refl) end.
         repeat match goal with B : ?v = true, T : (_ = _ + (if ?v then _ else _))%nat |- _ =>
           rewrite B in T; rewrite Nat.add_0_r in T end.
         apply Nat.eqb_neq in En. lia. }
    apply Nat.eqb_eq in En.
    apply rbind_ok in H. destruct H as [[bb wb] [Eb H]]. simpl in H. injection H as <- <-.
    split; [reflexivity|]. split; [|exists bb; exact Eb].
    repeat match goal with T : (_ = _ + (if ?v then 0 else 1))%nat, B : a = true -> ?v = true |- _ =>
        clear B; let C := fresh "C" in assert (C : v = true) by (destruct v; [reflexivity|lia]);
        rewrite C in T; rewrite Nat.add_0_r in T
    end.
    constructor; cbn [g_ints g_ntheta g_nphi g_base].
    - destruct (g_ints w); simpl in *; congruence.
    - lia.
    - destruct (w_data (g_base w)) as [| |d] eqn:Ed; try discriminate. injection E as ->.
      match goal with B : dtype_eqb _ _ = true |- _ => apply dtype_eqb_eq in B end.
      match goal with E : shape_at ?d 1 = Ok ?n |- _ => unfold shape_at in E; rename n into c; rename d into d11;
        destruct (shape d11) as [|sn0 [|sn1 rest]] eqn:Es; try discriminate; simpl in E; injection E as -> end.
      exists d11, sn0, c, rest. split; [|split; [assumption|split; [assumption|lia]]].
      unfold base_ensure_validity in Eb. cbv zeta in Eb. peel Eb. injection Eb as _ <-.
      cbn [set_t set_frame set_hist w_data]. exact Ed.
  Qed.

  Theorem C17_grid_assertions : forall al w b w', gridv al true w = Ok (b, w') ->
    b = true /\ grid_part_ok w' /\ base_ok (g_base w').
  Proof.
    intros al w b w' H. destruct (grid_part_sound _ _ _ _ _ H (or_intror eq_refl)) as (-> & O & bb & E).
    pose proof (base_sound _ _ _ _ _ E (or_intror eq_refl)) as [_ Ob]. auto.
  Qed.

  (** Without assertions, True means at least that the grid-specific relations hold. *)
  Theorem C17_grid_true_means : forall al a w w', gridv al a w = Ok (true, w') -> grid_part_ok w'.
  Proof. intros al a w w' H. destruct (grid_part_sound _ _ _ _ _ H (or_introl eq_refl)) as (_ & O & _). exact O. Qed.

  (** Valid grids are accepted, and left alone when times are a plain vector. *)
  Theorem C17_grid_complete : forall al a w, grid_part_ok w -> base_ok (g_base w) ->
    exists w', gridv al a w = Ok (true, w')
      /\ (al = false \/ (forall t, w_t (g_base w) = Arr t -> ndim t = 1%nat) -> w' = w).
  Proof.
    intros al a w [O1 [O2a O2b] (d & n & c & rest & Ed & Dd & Sd & Ec)] Ob.
    destruct (base_complete al a _ Ob) as (wb & Eb & Hw).
    destruct w as [b ints nth0 nph]. cbn in *. subst ints.
    unfold grid_ensure_validity. cbv zeta. cbn [g_ints fst snd g_ntheta g_nphi g_base].
    rewrite !test_true. cbn [rbind]. rewrite test_true. cbn [rbind].
    replace (0 <=? nth0)%Z with true by (symmetry; lia). rewrite test_true. cbn [rbind].
    replace (0 <=? nph)%Z with true by (symmetry; lia). rewrite test_true. cbn [rbind].
    rewrite Ed. cbn [as_arr rbind].
    rewrite Dd. cbn [dtype_eqb]. rewrite test_true. cbn [rbind].
    unfold ndim, shape_at. rewrite Sd. cbn [length Nat.leb nth_error].
    rewrite test_true. cbn [rbind]. rewrite Ec, Z.eqb_refl, test_true. cbn [rbind Nat.eqb negb].
    rewrite Eb. cbn [rbind]. eexists. split; [reflexivity|].
    intros Ha. rewrite (Hw Ha). reflexivity.
  Qed.
End C17.

(** ** The value returned without assertions does not reflect the base-class checks:
    times 1, 0 (decreasing) and a frame of two rotors for... the mode object is called valid. *)
Definition bad_wave : wave :=
  mkwave (Arr (mkarr DFloat [2%nat] [Fin 1; Fin 0])) (Arr (mkarr DQuat [0%nat] []))
         (Arr (mkarr DComplex [2%nat; 5%nat] (repeat (Fin 0) 10))) (HList 1 true)
         (PyInt 1) (PyInt 7) true true true.
Definition bad_modes : modes := mkmodes bad_wave (true, true) 2 2 (LM_range 2 2).

Theorem C17_is_valid_ignores_base_refuted : forall q d,
  modes_is_valid q d bad_modes = Ok (true, bad_modes)
  /\ base_is_valid q d bad_wave = Ok (false, bad_wave)
  /\ ~ base_ok bad_wave
  /\ modes_ensure_validity q d false true bad_modes = Err AssertionError.
Proof.
  intros q d.
  assert (R : Rltb 1 0 = false) by (unfold Rltb; destruct (Rlt_dec 1 0); [exfalso; lra|reflexivity]).
  assert (B : forall a, base_ensure_validity q d false a bad_wave = if a then Err AssertionError else Ok (false, bad_wave)).
  { intros [|]; unfold base_ensure_validity; cbn; rewrite R; reflexivity. }
  split; [|split; [|split]].
  - unfold modes_is_valid, modes_ensure_validity. cbn -[base_ensure_validity]. rewrite B. reflexivity.
  - unfold base_is_valid. rewrite B. reflexivity.
  - intros O. pose proof (proj2 (C17_base_exact q d true bad_wave bad_wave) (conj O eq_refl)) as E.
    rewrite B in E. discriminate.
  - unfold modes_ensure_validity. cbn -[base_ensure_validity]. rewrite B. reflexivity.
Qed.

(** A concrete valid object (h modes with ell = 2 at two times). *)
Definition good_wave : wave :=
  mkwave (Arr (mkarr DFloat [2%nat] [Fin 0; Fin 1])) (Arr (mkarr DQuat [1%nat] [Fin 1]))
         (Arr (mkarr DComplex [2%nat; 5%nat] (repeat (Fin 3) 10))) (HList 1 true)
         (PyInt 1) (PyInt 7) true true true.
Example C17_case : forall q d,
  modes_is_valid q d (mkmodes good_wave (true, true) 2 2 (LM_range 2 2))
  = Ok (true, mkmodes good_wave (true, true) 2 2 (LM_range 2 2)) /\ base_ok good_wave.
Proof.
  intros q d.
  assert (R : Rltb 0 1 = true) by (unfold Rltb; destruct (Rlt_dec 0 1); [reflexivity|exfalso; lra]).
  assert (B : base_ensure_validity q d false false good_wave = Ok (true, good_wave)).
  { unfold base_ensure_validity; cbn; rewrite R; reflexivity. }
  split.
  - unfold modes_is_valid, modes_ensure_validity. cbn -[base_ensure_validity]. rewrite B. reflexivity.
  - apply (C17_base_exact q d) in B. tauto.
Qed.
