(** * C63: comparison of two waveforms *)
From Coq Require Import String Ascii ZArith Reals List Bool Lia Lra.
From Verif Require Import Common Cplx Quat Times_Model Modes_Model Modes_Proofs H5_Model Times_Proofs Intersect_Proofs
  Compare_Model.
Import ListNotations.
Open Scope R_scope.

(** ** Specification *)
(** A waveform as accepted by the constructor, with at least two times. *)
Definition good (w : cwave) : Prop :=
  strictly_up (c_t w) /\ (2 <= length (c_t w))%nat /\ (0 <= c_min w <= c_max w)%Z /\
  length (c_data w) = length (c_t w).
Definition same_range (a b : cwave) : Prop := c_min a = c_min b /\ c_max a = c_max b.
(** Samples of the mode (ell, m): its column counts the modes of smaller ell, then those of smaller m. *)
Definition place (w : cwave) (ell m : Z) : nat := Z.to_nat (ell ^ 2 - c_min w ^ 2 + (m + ell)).
Definition samples (w : cwave) (ell m : Z) : list C := map (fun r => nth (place w ell m) r C0) (c_data w).
(** Neither waveform, or both, have a frame that changes with time; or only one of them has any frame
    and it is not [b] with a single rotor. *)
Definition frames_allowed (b a : cwave) : Prop :=
  let na := length (c_frame a) in let nb := length (c_frame b) in
  (1 < na /\ 1 < nb)%nat \/ (nb = 0)%nat \/ (na = 0 /\ nb <> 1)%nat.
Definition overlap (b a : cwave) : Prop :=
  Rmax (nth 0 (c_t b) 0) (nth 0 (c_t a) 0) <= Rmin (last (c_t b) 0) (last (c_t a) 0).

(** ** Helpers *)
Lemma map_ok_nth : forall A B (f : A -> res B) l r, map_ok f l = Ok r ->
  length r = length l /\ forall i x, nth_error l i = Some x -> exists y, nth_error r i = Some y /\ f x = Ok y.
Proof.
  intros A B f. induction l as [|a l IH]; intros r H; cbn [map_ok] in H.
  - injection H as <-. split; [reflexivity|]. intros [|i] x; discriminate.
  - destruct (f a) as [b|] eqn:E; [|discriminate]. cbn [rbind] in H.
    destruct (map_ok f l) as [r'|] eqn:E'; [|discriminate]. cbn [rbind] in H. injection H as <-.
    destruct (IH _ eq_refl) as [IH1 IH2]. split; [cbn; congruence|].
    intros [|i] x Hx; cbn in Hx |- *.
    + injection Hx as <-. eauto.
    + apply IH2. exact Hx.
Qed.
Lemma map_ok_exists : forall A B (f : A -> res B) l, (forall x, In x l -> exists y, f x = Ok y) ->
  exists r, map_ok f l = Ok r.
Proof.
  intros A B f. induction l as [|a l IH]; intros H; cbn [map_ok]; [eauto|].
  destruct (H a (or_introl eq_refl)) as [y ->]. cbn [rbind].
  destruct IH as [r ->]; [intros x Hx; apply H; now right|]. cbn [rbind]. eauto.
Qed.
Lemma inter_loop_comm : forall fuel t1 t2 cap a1 b1 a2 b2 maxt ms acc x I1 I2 r,
  inter_loop t1 t2 fuel cap a1 b1 a2 b2 maxt ms acc x I1 I2 = Ok r ->
  inter_loop t2 t1 fuel cap a2 b2 a1 b1 maxt ms acc x I2 I1 = Ok r.
Proof.
  induction fuel as [|fuel IH]; intros t1 t2 cap a1 b1 a2 b2 maxt ms acc x I1 I2 r H; cbn [inter_loop] in H |- *.
  - exact H.
  - destruct (Rltb x maxt); [|exact H].
    destruct (adjust t1 a1 b1 x I1) as [J1|] eqn:E1; [|discriminate]. cbn [rbind] in H.
    destruct (adjust t2 a2 b2 x I2) as [J2|] eqn:E2; [|discriminate]. cbn [rbind] in H.
    destruct (diff_at t1 J1) as [d1|] eqn:D1; [|discriminate]. cbn [rbind] in H.
    destruct (diff_at t2 J2) as [d2|] eqn:D2; [|discriminate]. cbn [rbind] in H.
    cbn [rbind]. rewrite D2. cbn [rbind]. rewrite D1. cbn [rbind]. rewrite (Rmin_comm d2 d1).
    destruct (S (length acc) <? cap)%nat; [|discriminate].
    destruct (Rltb maxt _); [exact H|]. apply IH. exact H.
Qed.
Lemma intersection_comm : forall t1 t2 fuel r, intersection t1 t2 fuel None None None = Ok r ->
  intersection t2 t1 fuel None None None = Ok r.
Proof.
  intros [|a1 r1] [|a2 r2] fuel r H; try discriminate. unfold intersection in H |- *.
  cbv zeta in H |- *. rewrite (Rmax_comm a2 a1), (Rmin_comm (last (a2 :: r2) 0)).
  rewrite (orb_comm (Rltb (last (a2 :: r2) 0) _)).
  destruct (Rltb (last (a1 :: r1) 0) (Rmax a1 a2) || Rltb (last (a2 :: r2) 0) (Rmax a1 a2)); [discriminate|].
  rewrite (orb_comm (Rltb _ a2)).
  destruct (Rltb (Rmin (last (a1 :: r1) 0) (last (a2 :: r2) 0)) a1 || Rltb (Rmin (last (a1 :: r1) 0) (last (a2 :: r2) 0)) a2); [discriminate|].
  destruct (np_min (diffs (a1 :: r1))) as [m1|] eqn:E1; [|discriminate]. cbn [rbind] in H.
  destruct (np_min (diffs (a2 :: r2))) as [m2|] eqn:E2; [|discriminate]. cbn [rbind] in H |- *.
  rewrite (Rmin_comm m2 m1). rewrite (Nat.add_comm (length (a2 :: r2))). apply inter_loop_comm. exact H.
Qed.
Lemma place_index : forall w ell m, (0 <= c_min w)%Z -> In (ell, m) (LM_range (c_min w) (c_max w)) ->
  LM_index ell m (c_min w) = Z.of_nat (place w ell m) /\ (place w ell m < n_modes w)%nat /\
  nth_error (LM_range (c_min w) (c_max w)) (place w ell m) = Some (ell, m).
Proof.
  intros w ell m H0 HI. rewrite LM_range_In in HI. destruct HI as [Hl Hm].
  destruct (C01_index_is_position (c_min w) (c_max w) ell m H0 Hl Hm) as [B P].
  assert (E : LM_index ell m (c_min w) = Z.of_nat (place w ell m)).
  { unfold place, LM_index in *. rewrite Z2Nat.id; nia. }
  rewrite E in B, P. rewrite Nat2Z.id in P. unfold n_modes. split; [exact E|]. split; [lia|exact P].
Qed.
Lemma good_times : forall b a fuel, good b -> good a -> (length (c_t b) + length (c_t a) <= fuel)%nat ->
  (overlap b a -> exists T, intersection (c_t b) (c_t a) fuel None None None = Ok T /\ strictly_up T /\
     (forall x, In x T -> nth 0 (c_t b) 0 <= x < last (c_t b) 0 /\ nth 0 (c_t a) 0 <= x < last (c_t a) 0)) /\
  (~ overlap b a -> intersection (c_t b) (c_t a) fuel None None None = Err ValueError).
Proof.
  intros b a fuel (S1 & L1 & _) (S2 & L2 & _) Hf. unfold overlap. split.
  - intros O.
    pose proof (Rmax_l (nth 0 (c_t b) 0) (nth 0 (c_t a) 0)). pose proof (Rmax_r (nth 0 (c_t b) 0) (nth 0 (c_t a) 0)).
    pose proof (Rmin_l (last (c_t b) 0) (last (c_t a) 0)). pose proof (Rmin_r (last (c_t b) 0) (last (c_t a) 0)).
    destruct (C12_intersection (c_t b) (c_t a) None None None fuel S1 S2 L1 L2 Hf) as (T & ms & E & _ & _ & _ & _ & H5 & H6 & _);
      unfold opt_max, opt_min in *; try lra.
    exists T. split; [exact E|]. split; [exact H6|].
    intros x Hx. apply (In_nth _ _ 0) in Hx. destruct Hx as (k & Hk & <-). specialize (H5 k Hk). lra.
  - intros O. apply C12_disjoint_rejected. unfold opt_max, opt_min.
    apply Rnot_le_lt in O. right. right.
    destruct (Rle_dec (last (c_t b) 0) (last (c_t a) 0)) as [H|H].
    + rewrite (Rmin_left _ _ H) in O. left. exact O.
    + rewrite Rmin_right in O by lra. right. left. exact O.
Qed.

Lemma nth_map_lt : forall A B (f : A -> B) l i d d', (i < length l)%nat -> nth i (map f l) d' = f (nth i l d).
Proof.
  intros A B f l i d d' H. rewrite (nth_indep _ d' (f d)) by (now rewrite map_length). apply map_nth.
Qed.

Section C63.
  Variable squad : list quat -> list R -> list R -> list quat.
  Variable spline : list R -> list R -> R -> R.
  Variable mean : list quat -> list R -> quat.
  (** The difference of the interpolants of two series. *)
  Definition difference (ta : list R) (ya : list C) (tb : list R) (yb : list C) (x : R) : C :=
    mkC (spline ta (map re ya) x - spline tb (map re yb) x) (spline ta (map im ya) x - spline tb (map im yb) x).

  Lemma py_column_ok : forall w j, (j < n_modes w)%nat -> py_column w (Z.of_nat j) = Ok (column w j).
  Proof.
    intros w j H. unfold py_column.
    replace (0 <=? Z.of_nat j)%Z with true by (symmetry; apply Z.leb_le; lia).
    replace (Z.of_nat j <? Z.of_nat (n_modes w))%Z with true by (symmetry; apply Z.ltb_lt; lia).
    cbn [andb]. now rewrite Nat2Z.id.
  Qed.
  Lemma nth_error_combine_seq : forall A (l : list A) i k x, nth_error l i = Some x ->
    nth_error (combine (seq k (length l)) l) i = Some ((k + i)%nat, x).
  Proof.
    induction l as [|a l IH]; intros i k x H; [destruct i; discriminate|].
    destruct i as [|i]; cbn in H |- *.
    - injection H as <-. now rewrite Nat.add_0_r.
    - rewrite (IH i (S k) x H). f_equal. f_equal. lia.
  Qed.
  Lemma in_combine_seq : forall A (l : list A) k p, In p (combine (seq k (length l)) l) ->
    (k <= fst p)%nat /\ nth_error l (fst p - k) = Some (snd p).
  Proof.
    induction l as [|a l IH]; intros k p H; [destruct H|]. cbn [length seq combine] in H. destruct H as [<-|H].
    - cbn. rewrite Nat.sub_diag. auto.
    - destruct (IH (S k) p H) as [H1 H2]. split; [lia|].
      replace (fst p - k)%nat with (S (fst p - S k)) by lia. exact H2.
  Qed.
  (** The element in row [i] and column [j] of the data, given each column. *)
  Lemma rows_of_nth : forall n cols i j y, (i < n)%nat -> nth_error cols j = Some y ->
    nth j (nth i (rows_of n cols) []) C0 = nth i y C0.
  Proof.
    intros n cols i j y Hi Hj. unfold rows_of.
    rewrite (nth_map_lt _ _ _ _ _ 0%nat) by (rewrite seq_length; lia). rewrite seq_nth by lia. cbn [Nat.add].
    rewrite (nth_map_lt _ _ _ _ _ []) by (apply nth_error_Some; congruence). now rewrite (nth_error_nth _ _ _ Hj).
  Qed.
  Lemma compare_data_exists : forall b a T, good b -> good a -> same_range b a ->
    exists D, compare_data spline b a T = Ok D.
  Proof.
    intros b a T (_ & _ & Hb & _) (_ & _ & Ha & _) [E1 E2]. unfold compare_data.
    match goal with |- context [map_ok ?f ?l] => destruct (map_ok_exists _ _ f l) as [r ->] end.
    - intros [j lm] H. unfold n_modes in H. apply in_combine_seq in H. cbn [fst snd] in *.
      destruct H as [_ H]. rewrite Nat.sub_0_r in H. destruct lm as [ell m]. unfold compare_column. cbn [fst snd].
      destruct (C01_every_column_is_named _ _ _ _ _ (proj1 Ha) H) as (_ & _ & K). rewrite E1, K.
      rewrite py_column_ok.
      + cbn [rbind]. eauto.
      + unfold n_modes. rewrite E1, E2. apply nth_error_Some. congruence.
    - cbn [rbind]. eauto.
  Qed.
  Lemma compare_data_spec : forall b a T D, good b -> good a -> same_range b a -> compare_data spline b a T = Ok D ->
    length D = length T /\
    forall i ell m, (i < length T)%nat -> In (ell, m) (LM_range (c_min b) (c_max b)) ->
      nth (place b ell m) (nth i D []) C0 =
      difference (c_t a) (samples a ell m) (c_t b) (samples b ell m) (nth i T 0).
  Proof.
    intros b a T D Gb Ga [E1 E2] H. pose proof Gb as (_ & _ & Hb & _). pose proof Ga as (_ & _ & Ha & _).
    unfold compare_data in H.
    match type of H with context [map_ok ?f ?l] => destruct (map_ok f l) as [cols|] eqn:EC; [|discriminate] end.
    cbn [rbind] in H. injection H as <-.
    split; [unfold rows_of; now rewrite map_length, seq_length|].
    intros i ell m Hi HI. destruct (map_ok_nth _ _ _ _ _ EC) as [_ HN].
    destruct (place_index b ell m (proj1 Hb) HI) as (P1 & P2 & P3).
    assert (PA : place a ell m = place b ell m) by (unfold place; now rewrite E1).
    rewrite E1, E2 in P3. pose proof (nth_error_combine_seq _ _ _ 0%nat _ P3) as P4. cbn [Nat.add] in P4.
    destruct (HN _ _ P4) as (y & Y1 & Y2). rewrite (rows_of_nth _ _ _ _ _ Hi Y1).
    unfold compare_column in Y2. cbn [fst snd] in Y2. rewrite P1, py_column_ok in Y2 by exact P2. cbn [rbind] in Y2.
    injection Y2 as <-.
    rewrite (nth_map_lt _ _ _ _ _ 0) by exact Hi. unfold Csub, spline_c, difference, samples. rewrite PA. reflexivity.
  Qed.
  Lemma n_modes_same : forall b a, same_range b a -> n_modes b = n_modes a.
  Proof. intros b a [E1 E2]. unfold n_modes. now rewrite E1, E2. Qed.
  Lemma frames_ok : forall b a T, frames_allowed b a <-> exists F, compare_frame squad b a T = Ok F.
  Proof.
    intros b a T. unfold frames_allowed, compare_frame.
    generalize (length (c_frame a)) (length (c_frame b)). intros na nb.
    destruct na as [|[|na]]; destruct nb as [|[|nb]]; cbn [Nat.ltb Nat.leb andb Nat.eqb]; split; intro H;
      try (eexists; reflexivity); try (destruct H as [F H]; discriminate); try lia; left; lia.
  Qed.

  (** With the same modes, common times and allowed frames the comparison succeeds, and each mode of
      the result is the interpolated difference (argument minus self) at common times. *)
  Theorem C63_difference : forall fuel b a ts tm, good b -> good a -> same_range b a ->
    (length (c_t b) + length (c_t a) <= fuel)%nat -> overlap b a -> frames_allowed b a ->
    exists c, compare squad spline mean fuel b a ts tm = Ok c /\
      same_range c b /\ c_ftype c = c_ftype b /\ c_dtype c = c_dtype b /\ c_r c = c_r b /\ c_m c = c_m b /\
      strictly_up (c_t c) /\ length (c_data c) = length (c_t c) /\
      (forall x, In x (c_t c) -> nth 0 (c_t b) 0 <= x < last (c_t b) 0 /\ nth 0 (c_t a) 0 <= x < last (c_t a) 0) /\
      forall i ell m, (i < length (c_t c))%nat -> In (ell, m) (LM_range (c_min b) (c_max b)) ->
        nth (place c ell m) (nth i (c_data c) []) C0 =
        difference (c_t a) (samples a ell m) (c_t b) (samples b ell m) (nth i (c_t c) 0).
  Proof.
    intros fuel b a ts tm Gb Ga SR Hf O FA. unfold compare.
    rewrite (n_modes_same b a SR), Nat.eqb_refl. cbn [negb].
    destruct (good_times b a fuel Gb Ga Hf) as [GT _]. destruct (GT O) as (T & E & ST & HT).
    rewrite E. cbn [rbind]. destruct (proj1 (frames_ok b a T) FA) as [F EF]. rewrite EF. cbn [rbind].
    destruct (compare_data_exists b a T Gb Ga SR) as [D ED]. rewrite ED. cbn [rbind].
    destruct (compare_data_spec b a T D Gb Ga SR ED) as [LD HD].
    eexists. split; [reflexivity|]. cbn [c_t c_data c_min c_max c_ftype c_dtype c_r c_m].
    split; [split; reflexivity|]. do 4 (split; [reflexivity|]). split; [exact ST|]. split; [exact LD|].
    split; [exact HT|exact HD].
  Qed.
  (** It fails exactly otherwise. *)
  Theorem C63_accepts : forall fuel b a ts tm, good b -> good a -> same_range b a ->
    (length (c_t b) + length (c_t a) <= fuel)%nat ->
    ((exists c, compare squad spline mean fuel b a ts tm = Ok c) <-> overlap b a /\ frames_allowed b a).
  Proof.
    intros fuel b a ts tm Gb Ga SR Hf. split.
    - intros [c H]. unfold compare in H. rewrite (n_modes_same b a SR), Nat.eqb_refl in H. cbn [negb] in H.
      destruct (good_times b a fuel Gb Ga Hf) as [_ GT].
      destruct (Rle_dec (Rmax (nth 0 (c_t b) 0) (nth 0 (c_t a) 0)) (Rmin (last (c_t b) 0) (last (c_t a) 0))) as [O|O].
      + split; [exact O|]. destruct (intersection _ _ _ _ _ _) as [T|]; [|discriminate]. cbn [rbind] in H.
        apply (frames_ok b a T). destruct (compare_frame squad b a T) as [F|]; [eauto|discriminate].
      + rewrite (GT O) in H. discriminate.
    - intros [O FA]. destruct (C63_difference fuel b a ts tm Gb Ga SR Hf O FA) as (c & H & _). eauto.
  Qed.
  (** A number of modes that differs is refused. *)
  Theorem C63_different_counts : forall fuel b a ts tm, (0 <= c_min b <= c_max b)%Z -> (0 <= c_min a <= c_max a)%Z ->
    ((c_max b + 1) ^ 2 - c_min b ^ 2 <> (c_max a + 1) ^ 2 - c_min a ^ 2)%Z ->
    compare squad spline mean fuel b a ts tm = Err PlainException.
  Proof.
    intros fuel b a ts tm Hb Ha NE. unfold compare.
    destruct (Nat.eqb_spec (n_modes b) (n_modes a)) as [E|E]; [|reflexivity].
    exfalso. unfold n_modes in E. apply (f_equal Z.of_nat) in E. rewrite !C01_mode_count in E by lia. lia.
  Qed.
  (** Exchanging the waveforms changes the sign of the data and keeps the times. *)
  Theorem C63_antisymmetric : forall fuel b a ts tm c, good b -> good a -> same_range b a ->
    (length (c_t b) + length (c_t a) <= fuel)%nat -> frames_allowed a b ->
    compare squad spline mean fuel b a ts tm = Ok c ->
    exists d, compare squad spline mean fuel a b ts tm = Ok d /\ c_t d = c_t c /\
      forall i ell m, (i < length (c_t c))%nat -> In (ell, m) (LM_range (c_min b) (c_max b)) ->
        nth (place d ell m) (nth i (c_data d) []) C0 = Copp (nth (place c ell m) (nth i (c_data c) []) C0).
  Proof.
    intros fuel b a ts tm c Gb Ga SR Hf FA' H.
    assert (A : exists c, compare squad spline mean fuel b a ts tm = Ok c) by eauto.
    apply (C63_accepts fuel b a ts tm Gb Ga SR Hf) in A. destruct A as [O FA].
    destruct (C63_difference fuel b a ts tm Gb Ga SR Hf O FA) as (c' & H' & SRc & _ & _ & _ & _ & _ & _ & _ & HD).
    assert (c' = c) by congruence. subst c'.
    assert (SR' : same_range a b) by (destruct SR; split; congruence).
    assert (O' : overlap a b) by (unfold overlap in *; now rewrite Rmax_comm, Rmin_comm).
    assert (Hf' : (length (c_t a) + length (c_t b) <= fuel)%nat) by lia.
    destruct (C63_difference fuel a b ts tm Ga Gb SR' Hf' O' FA') as (d & Hd & SRd & _ & _ & _ & _ & _ & _ & _ & HD').
    exists d. split; [exact Hd|].
    assert (ET : c_t d = c_t c).
    { unfold compare in H, Hd. rewrite (n_modes_same b a SR), Nat.eqb_refl in H. rewrite (n_modes_same a b SR'), Nat.eqb_refl in Hd.
      cbn [negb] in H, Hd. destruct (intersection (c_t b) (c_t a) fuel None None None) as [T|] eqn:E; [|discriminate].
      pose proof (intersection_comm _ _ _ _ E) as E'. rewrite E' in Hd. cbn [rbind] in H, Hd.
      destruct (compare_frame squad b a T); [|discriminate]. destruct (compare_frame squad a b T); [|discriminate].
      cbn [rbind] in H, Hd. destruct (compare_data spline b a T); [|discriminate]. destruct (compare_data spline a b T); [|discriminate].
      cbn [rbind] in H, Hd. injection H as <-. injection Hd as <-. reflexivity. }
    split; [exact ET|]. intros i ell m Hi HI.
    rewrite HD by assumption. rewrite HD'; [|congruence|destruct SR as [<- <-]; exact HI].
    rewrite ET. unfold difference. apply C_eq; cbn; ring.
  Qed.
  (** A waveform differs from itself by nothing. *)
  Theorem C63_self : forall fuel b ts tm, good b -> (2 * length (c_t b) <= fuel)%nat ->
    (forall q, In q (c_frame b) -> q <> q0) -> length (c_frame b) <> 1%nat ->
    (forall F t T q, length (squad F t T) = length T /\ ((forall r, In r F -> r <> q0) -> In q (squad F t T) -> q <> q0)) ->
    (forall F t, (forall r, In r F -> r = q1) -> F <> [] -> mean F t = q1) ->
    exists c, compare squad spline mean fuel b b ts tm = Ok c /\
      (forall r z, In r (c_data c) -> In z r -> z = C0) /\
      (forall q, In q (c_frame c) -> q = q1).
  Proof.
    intros fuel b ts tm Gb Hf HF H1 HS HM.
    assert (SR : same_range b b) by (split; reflexivity).
    assert (O : overlap b b).
    { unfold overlap. rewrite Rmax_left, Rmin_left by lra. destruct Gb as (S & L & _). 
      destruct (c_t b) as [|x l] eqn:E; [cbn in L; lia|]. cbn [nth].
      assert (X : forall x l, last (x :: l) 0 = nth (length l) (x :: l) 0).
      { clear. intros x l. revert x. induction l as [|y l IH]; intros x; [reflexivity|].
        change (last (x :: y :: l) 0) with (last (y :: l) 0). rewrite IH. reflexivity. }
      rewrite X. change x with (nth 0 (x :: l) 0) at 1. apply strictly_up_le; [exact S|]. cbn [length]. lia. }
    assert (FA : frames_allowed b b) by (unfold frames_allowed; lia).
    assert (Hf' : (length (c_t b) + length (c_t b) <= fuel)%nat) by lia.
    unfold compare. rewrite Nat.eqb_refl. cbn [negb].
    destruct (good_times b b fuel Gb Gb Hf') as [GT _]. destruct (GT O) as (T & E & ST & HT).
    rewrite E. cbn [rbind].
    assert (FF : exists F, compare_frame squad b b T = Ok F /\ (forall q, In q F -> q = q1)).
    { unfold compare_frame. destruct (length (c_frame b)) as [|[|n]]; [| congruence |].
      - cbn. exists []. split; [reflexivity|]. intros q [].
      - cbn [Nat.ltb Nat.leb andb]. eexists. split; [reflexivity|]. intros q Hq. apply in_map_iff in Hq.
        destruct Hq as ([p1 p2] & <- & Hp). cbn [fst snd].
        assert (K : forall (l : list quat) (x y : quat), In (x, y) (combine l l) -> x = y /\ In x l).
        { clear. induction l as [|z l IH]; intros x y H; [destruct H|]. destruct H as [H|H].
          - injection H as <- <-. split; [reflexivity|now left].
          - destruct (IH x y H). split; [assumption|now right]. }
        destruct (K _ _ _ Hp) as [-> K2].
        assert (NZ : p2 <> q0) by (apply (proj2 (HS (c_frame b) (c_t b) T p2)); assumption).
        pose proof (qnorm2_pos p2 NZ). unfold qinv. destruct p2 as [w x y z]. unfold qnorm2 in *. cbn in *.
        unfold qmul, qscale, qconj; apply quat_eq; cbn; field; lra. }
    destruct FF as (F & EF & HF1). rewrite EF. cbn [rbind].
    destruct (compare_data_exists b b T Gb Gb SR) as [D ED]. rewrite ED. cbn [rbind].
    eexists. split; [reflexivity|]. cbn [c_data c_frame]. split.
    - intros r z Hr Hz. unfold compare_data in ED.
      match type of ED with context [map_ok ?f ?l] => destruct (map_ok f l) as [cols|] eqn:EC; [|discriminate] end.
      cbn [rbind] in ED. injection ED as <-. unfold rows_of in Hr. apply in_map_iff in Hr. destruct Hr as (i & <- & Hi).
      apply in_map_iff in Hz. destruct Hz as (col & <- & Hc).
      apply In_nth_error in Hc. destruct Hc as [j Hj].
      destruct (map_ok_nth _ _ _ _ _ EC) as [LC HN].
      destruct (nth_error (combine (seq 0 (n_modes b)) (LM_range (c_min b) (c_max b))) j) as [[j' [ell m]]|] eqn:EJ.
      2:{ apply nth_error_None in EJ. assert (j < length cols)%nat by (apply nth_error_Some; congruence). lia. }
      destruct (HN _ _ EJ) as (y & Y1 & Y2). assert (y = col) by congruence. subst y.
      apply nth_error_In in EJ. unfold n_modes in EJ. apply in_combine_seq in EJ. cbn [fst snd] in EJ. destruct EJ as [_ EJ].
      rewrite Nat.sub_0_r in EJ. pose proof Gb as (_ & _ & Hb & _).
      destruct (C01_every_column_is_named _ _ _ _ _ (proj1 Hb) EJ) as (_ & _ & K).
      unfold compare_column in Y2. cbn [fst snd] in Y2. rewrite K, py_column_ok in Y2.
      2:{ unfold n_modes. apply nth_error_Some. congruence. }
      cbn [rbind] in Y2. injection Y2 as <-.
      destruct (Nat.lt_ge_cases i (length T)) as [Li|Li].
      + rewrite (nth_map_lt _ _ _ _ _ 0) by exact Li. unfold Csub, spline_c. apply C_eq; cbn; ring.
      + apply nth_overflow. now rewrite map_length.
    - intros q Hq. unfold compare_sign in Hq.
      assert (C2 : chordal q1 (qopp q1) = 2 /\ chordal q1 q1 = 0).
      { unfold chordal, qabs, qnorm2, qsub, qopp, q1. cbn. split.
        - replace ((1 - - (1)) * (1 - - (1)) + (0 - - 0) * (0 - - 0) + (0 - - 0) * (0 - - 0) + (0 - - 0) * (0 - - 0)) with (2 * 2) by ring.
          apply sqrt_square. lra.
        - replace ((1 - 1) * (1 - 1) + (0 - 0) * (0 - 0) + (0 - 0) * (0 - 0) + (0 - 0) * (0 - 0)) with 0 by ring. apply sqrt_0. }
      destruct C2 as [C2 C2']. assert (NL : Rltb (chordal q1 (qopp q1)) (chordal q1 q1) = false).
      { rewrite C2, C2'. unfold Rltb. destruct (Rlt_dec 2 0); [lra|reflexivity]. }
      destruct F as [|f F].
      + destruct (length (@nil quat) =? length T)%nat; [|destruct Hq]. destruct (Rltb _ _); destruct Hq.
      + destruct (length (f :: F) =? length T)%nat.
        * rewrite HM in Hq by (assumption || discriminate). rewrite NL in Hq. auto.
        * destruct F as [|g F]; [|auto]. rewrite (HF1 f (or_introl eq_refl)) in Hq. rewrite NL in Hq.
          destruct Hq as [<-|[]]. reflexivity.
  Qed.
  (** With two moving frames the frame of the result takes the first (self) to the second (argument):
      one common sign times the product of the second with the inverse of the first. *)
  Theorem C63_frame : forall fuel b a ts tm c, (1 < length (c_frame a))%nat -> (1 < length (c_frame b))%nat ->
    (forall F t T, length (squad F t T) = length T) ->
    compare squad spline mean fuel b a ts tm = Ok c ->
    let A := squad (c_frame a) (c_t a) (c_t c) in let B := squad (c_frame b) (c_t b) (c_t c) in
    exists s, (s = 1 \/ s = -1) /\ length (c_frame c) = length (c_t c) /\
      (forall i, (i < length (c_t c))%nat ->
         nth i (c_frame c) q0 = qscale s (qmul (nth i A q0) (qinv (nth i B q0)))) /\
      (let M := mean (map (fun p => qmul (fst p) (qinv (snd p))) (combine A B)) (c_t c) in 0 <= s * qw M).
  Proof.
    intros fuel b a ts tm c La Lb HS H. unfold compare in H.
    destruct (negb _); [discriminate|]. destruct (intersection _ _ _ _ _ _) as [T|]; [|discriminate]. cbn [rbind] in H.
    unfold compare_frame in H. replace (1 <? length (c_frame a))%nat with true in H by (symmetry; apply Nat.ltb_lt; lia).
    replace (1 <? length (c_frame b))%nat with true in H by (symmetry; apply Nat.ltb_lt; lia).
    cbn [andb rbind] in H. destruct (compare_data spline b a T) as [D|]; [|discriminate]. cbn [rbind] in H.
    injection H as <-. intros A B. cbn [c_t] in A, B.
    match goal with |- ?G => let G' := eval cbn beta iota delta [c_t c_frame] in G in change G' end.
    change (squad (c_frame a) (c_t a) T) with A. change (squad (c_frame b) (c_t b) T) with B.
    set (P := map (fun p => qmul (fst p) (qinv (snd p))) (combine A B)).
    assert (LP : length P = length T).
    { unfold P, A, B. rewrite map_length, combine_length, !HS. lia. }
    assert (NP : forall i, (i < length T)%nat -> nth i P q0 = qmul (nth i A q0) (qinv (nth i B q0))).
    { intros i Hi. unfold P.
      rewrite (nth_map_lt _ _ _ _ _ (q0, q0)) by (unfold P in LP; rewrite map_length in LP; lia).
      rewrite combine_nth by (unfold A, B; now rewrite !HS). reflexivity. }
    assert (CH : forall q, chordal q (qopp q1) < chordal q q1 <-> qw q < 0).
    { intros q. unfold chordal, qabs.
      assert (N1 : 0 <= qnorm2 (qsub q (qopp q1))) by apply qnorm2_nonneg.
      assert (N2 : 0 <= qnorm2 (qsub q q1)) by apply qnorm2_nonneg.
      split; intros L.
      - assert (qnorm2 (qsub q (qopp q1)) < qnorm2 (qsub q q1)) as K.
        { apply Rnot_le_lt. intros G. apply sqrt_le_1_alt in G. lra. }
        destruct q as [w x y z]. unfold qnorm2, qsub, qopp, q1 in *. cbn in *. nra.
      - apply sqrt_lt_1; try assumption. destruct q as [w x y z]. unfold qnorm2, qsub, qopp, q1 in *. cbn in *. nra. }
    unfold compare_sign. rewrite LP, Nat.eqb_refl. unfold Rltb.
    destruct (Rlt_dec (chordal (mean P T) (qopp q1)) (chordal (mean P T) q1)) as [L|L].
    - exists (-1). apply CH in L. split; [now right|]. split; [now rewrite map_length|]. split; [|nra].
      intros i Hi. rewrite (nth_map_lt _ _ _ _ _ q0) by lia. rewrite NP by exact Hi.
      apply quat_eq; cbn; ring.
    - exists 1. rewrite CH in L. split; [now left|]. split; [exact LP|]. split; [|lra].
      intros i Hi. rewrite NP by exact Hi. apply quat_eq; cbn; ring.
  Qed.
  (** Constant frames: the comparison raises AttributeError when [self] has one rotor, or the argument
      has one and [self] more than one. *)
  Theorem C63_constant_frames_refuted : forall fuel b a ts tm, good b -> good a -> same_range b a ->
    (length (c_t b) + length (c_t a) <= fuel)%nat -> overlap b a ->
    (length (c_frame b) = 1 \/ length (c_frame a) = 1 /\ 1 < length (c_frame b))%nat ->
    compare squad spline mean fuel b a ts tm = Err AttributeError.
  Proof.
    intros fuel b a ts tm Gb Ga SR Hf O HF. unfold compare. rewrite (n_modes_same b a SR), Nat.eqb_refl. cbn [negb].
    destruct (good_times b a fuel Gb Ga Hf) as [GT _]. destruct (GT O) as (T & E & _). rewrite E. cbn [rbind].
    assert (EF : compare_frame squad b a T = Err AttributeError).
    { unfold compare_frame. destruct HF as [->|[-> HF]].
      - destruct (length (c_frame a)) as [|[|na]]; reflexivity.
      - destruct (length (c_frame b)) as [|[|nb]]; [lia|lia|reflexivity]. }
    rewrite EF. reflexivity.
  Qed.
  (** When only the argument has a constant frame it is ignored. *)
  Theorem C63_frame_of_argument_lost_refuted : forall fuel b a ts tm q, good b -> good a -> same_range b a ->
    (length (c_t b) + length (c_t a) <= fuel)%nat -> overlap b a -> c_frame b = [] -> c_frame a = [q] ->
    exists c, compare squad spline mean fuel b a ts tm = Ok c /\ c_frame c = [].
  Proof.
    intros fuel b a ts tm q Gb Ga SR Hf O Fb Fa.
    assert (FA : frames_allowed b a) by (unfold frames_allowed; rewrite Fb; right; left; reflexivity).
    destruct (C63_difference fuel b a ts tm Gb Ga SR Hf O FA) as (c & H & _). exists c. split; [exact H|].
    unfold compare in H. destruct (negb _); [discriminate|]. destruct (intersection _ _ _ _ _ _) as [T|]; [|discriminate].
    cbn [rbind] in H. unfold compare_frame in H. rewrite Fa, Fb in H. cbn in H.
    destruct (compare_data spline b a T); [|discriminate]. cbn [rbind] in H. injection H as <-. cbn [c_frame].
    unfold compare_sign. destruct (length (@nil quat) =? length T)%nat; [|reflexivity]. destruct (Rltb _ _); reflexivity.
  Qed.
  (** The limits on times are ignored. *)
  Theorem C63_limits_ignored_refuted : forall fuel b a ts tm ts' tm',
    compare squad spline mean fuel b a ts tm = compare squad spline mean fuel b a ts' tm'.
  Proof. reflexivity. Qed.
  (** Waveforms with the same number of modes but different modes, here ell = 2...6 and 6...8, are not
      refused: the result, said to hold ell = 6...8, begins with the difference of (2,-2) and (7,-7). *)
  Theorem C63_other_modes_refuted : forall fuel b a ts tm, good b -> good a ->
    c_min a = 2%Z -> c_max a = 6%Z -> c_min b = 6%Z -> c_max b = 8%Z -> c_frame b = [] ->
    (length (c_t b) + length (c_t a) <= fuel)%nat -> overlap b a ->
    exists c, compare squad spline mean fuel b a ts tm = Ok c /\ same_range c b /\
      forall i, (i < length (c_t c))%nat ->
        nth (place c 6 (-6)) (nth i (c_data c) []) C0 =
        difference (c_t a) (samples a 2 (-2)) (c_t b) (samples b 7 (-7)) (nth i (c_t c) 0).
  Proof.
    intros fuel b a ts tm Gb Ga A1 A2 B1 B2 Fb Hf O. unfold compare.
    assert (NA : n_modes a = 45%nat) by (unfold n_modes; rewrite A1, A2; reflexivity).
    assert (NB : n_modes b = 45%nat) by (unfold n_modes; rewrite B1, B2; reflexivity).
    rewrite NA, NB. cbn [Nat.eqb negb].
    destruct (good_times b a fuel Gb Ga Hf) as [GT _]. destruct (GT O) as (T & E & _). rewrite E. cbn [rbind].
    assert (FA : frames_allowed b a) by (unfold frames_allowed; rewrite Fb; right; left; reflexivity).
    destruct (proj1 (frames_ok b a T) FA) as [F EF]. rewrite EF. cbn [rbind].
    unfold compare_data. rewrite NA.
    match goal with |- context [map_ok ?f ?l] => destruct (map_ok_exists _ _ f l) as [r ER] end.
    { intros [j [ell m]] H. rewrite A1, A2 in H. unfold compare_column, py_column. cbn [fst snd]. rewrite NB, B1.
      assert (X : forallb (fun p => let k := LM_index (fst (snd p)) (snd (snd p)) 6 in (-45 <=? k)%Z && (k <? 45)%Z)
                    (combine (seq 0 45) (LM_range 2 6)) = true) by (vm_compute; reflexivity).
      rewrite forallb_forall in X. specialize (X _ H). cbn [fst snd] in X. cbv zeta in X.
      apply andb_true_iff in X. destruct X as [X1 X2]. apply Z.leb_le in X1. apply Z.ltb_lt in X2.
      change (Z.of_nat 45) with 45%Z. change (- (45))%Z with (-45)%Z.
      destruct (0 <=? LM_index ell m 6)%Z eqn:Q1.
      - replace (LM_index ell m 6 <? 45)%Z with true by (symmetry; apply Z.ltb_lt; lia). cbn [andb rbind]. eauto.
      - apply Z.leb_gt in Q1. replace (-45 <=? LM_index ell m 6)%Z with true by (symmetry; apply Z.leb_le; lia).
        replace (LM_index ell m 6 <? 0)%Z with true by (symmetry; apply Z.ltb_lt; lia). cbn [andb rbind]. eauto. }
    rewrite ER. cbn [rbind]. eexists. split; [reflexivity|]. split; [split; reflexivity|].
    intros i Hi. cbn [c_t c_data] in *. unfold place at 1. cbn [c_min]. rewrite B1. change (Z.to_nat (6 ^ 2 - 6 ^ 2 + (-6 + 6))) with 0%nat.
    destruct (map_ok_nth _ _ _ _ _ ER) as [_ HN].
    assert (H0 : nth_error (combine (seq 0 45) (LM_range (c_min a) (c_max a))) 0 = Some (0%nat, (2, -2)%Z))
      by (rewrite A1, A2; reflexivity).
    destruct (HN _ _ H0) as (y & Y1 & Y2). rewrite (rows_of_nth _ _ _ _ _ Hi Y1).
    unfold compare_column, py_column in Y2. cbn [fst snd] in Y2. rewrite NB, B1 in Y2.
    change (LM_index 2 (-2) 6) with (-32)%Z in Y2.
    change (Z.of_nat 45) with 45%Z in Y2. cbn [Z.leb Z.ltb Z.compare andb Z.opp Pos.compare Pos.compare_cont CompOpp rbind] in Y2.
    change (Z.to_nat (45 + -32)) with 13%nat in Y2.
    injection Y2 as <-.
    rewrite (nth_map_lt _ _ _ _ _ 0) by exact Hi. unfold Csub, spline_c, difference, samples, column, place. rewrite A1, B1. reflexivity.
  Qed.
End C63.

(** ** A case meeting the hypotheses *)
Definition case_a : cwave := mkcw [0; 1; 3] [q1; q1; q1] [[C1]; [C0]; [C1]] 0 0 4 7 true true.
Definition case_b : cwave := mkcw [1; 2; 4] [qi; qi; qj] [[C0]; [C1]; [C1]] 0 0 4 7 true true.
Example C63_case : good case_a /\ good case_b /\ same_range case_b case_a /\ overlap case_b case_a /\
  frames_allowed case_b case_a /\ frames_allowed case_a case_b.
Proof.
  assert (U : forall x y z, x < y < z -> strictly_up [x; y; z]).
  { intros x y z H i j Hij. destruct i as [|[|[|i]]], j as [|[|[|j]]]; cbn in *; lra || lia. }
  assert (G : forall x y z F D, x < y < z -> length D = 3%nat -> good (mkcw [x; y; z] F D 0 0 4 7 true true)).
  { intros x y z F D H L. unfold good. cbn [c_t c_min c_max c_data length]. split; [apply U; exact H|]. split; [lia|].
    split; [lia|exact L]. }
  split; [apply G; [lra|reflexivity]|]. split; [apply G; [lra|reflexivity]|]. split; [split; reflexivity|].
  split; [|split; left; cbn; lia].
  unfold overlap. cbn. rewrite Rmax_left, Rmin_right by lra. lra.
Qed.
(** External functions as assumed by [C63_self] and [C63_frame] exist: the first rotor throughout. *)
Example C63_external_case :
  let squad := fun (F : list quat) (t T : list R) => map (fun _ : R => hd q1 F) T in
  let mean := fun (F : list quat) (t : list R) => hd q1 F in
  (forall F t T q, length (squad F t T) = length T /\ ((forall r, In r F -> r <> q0) -> In q (squad F t T) -> q <> q0)) /\
  (forall F t, (forall r, In r F -> r = q1) -> F <> [] -> mean F t = q1).
Proof.
  cbv zeta. assert (N : q1 <> q0) by (intros H; injection H; lra).
  split.
  - intros F t T q. split; [apply map_length|]. intros H HI. apply in_map_iff in HI. destruct HI as (x & <- & _).
    destruct F; [exact N|]. apply H. now left.
  - intros F t H HN. destruct F; [congruence|]. apply H. now left.
Qed.
