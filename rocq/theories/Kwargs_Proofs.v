(** C28: supertranslation arguments are completed, made real, and overridden in the documented order. *)
From Coq Require Import ZArith Reals List Bool Lia Lra.
From Verif Require Import Common Cplx Modes_Model Modes_Proofs Times_Model Times_Proofs Quat Kwargs_Model.
Import ListNotations.
Open Scope R_scope.

(** ** Specification *)
(** Mode (l, m) of an array in standard order (l from 0, m from -l to l), found by position in the list of names. *)
Definition mode_at (a : list C) (l m : Z) : C := nth (Z.to_nat (l * l + l + m)) a C0.
(** Modes of a real function on the sphere. *)
Definition is_real (a : list C) (L : Z) : Prop := forall l m, (0 <= l <= L)%Z -> (- l <= m <= l)%Z ->
  mode_at a l m = Cscale (sgn m) (Conj (mode_at a l (- m))).
(** The real part of a function, in modes. *)
Definition real_part (a : list C) (l m : Z) : C :=
  Cscale (/ 2) (mode_at a l m + Cscale (sgn m) (Conj (mode_at a l (- m))))%C.
(** [a] holds all modes up to L. *)
Definition has_modes (a : list C) (L : Z) : Prop := Z.of_nat (length a) = ((L + 1) * (L + 1))%Z.

(** ** Auxiliary facts *)
Lemma pos_eq : forall l m, pos l m = Z.to_nat (l * l + l + m).
Proof. intros. unfold pos, LM_index. f_equal. ring. Qed.

Lemma pos_inj : forall l m l' m', (0 <= l)%Z -> (- l <= m <= l)%Z -> (0 <= l')%Z -> (- l' <= m' <= l')%Z ->
  pos l m = pos l' m' -> l = l' /\ m = m'.
Proof.
  intros l m l' m' Hl Hm Hl' Hm' E. rewrite !pos_eq in E.
  assert (E' : (l * l + l + m = l' * l' + l' + m')%Z) by (apply Z2Nat.inj; nia).
  assert (l = l') by nia. subst. split; lia.
Qed.
Lemma pos_lt : forall l m L, (0 <= l <= L)%Z -> (- l <= m <= l)%Z -> (Z.of_nat (pos l m) < (L + 1) * (L + 1))%Z.
Proof. intros. rewrite pos_eq. rewrite Z2Nat.id by nia. nia. Qed.

Lemma get_ok : forall a i, (i < length a)%nat -> get a i = Ok (nth i a C0).
Proof. intros a i H. unfold get. rewrite (nth_error_nth' a C0 H). reflexivity. Qed.
Lemma put_ok : forall a i v, (i < length a)%nat -> exists a', put a i v = Ok a' /\ length a' = length a
  /\ forall j, nth j a' C0 = if Nat.eqb j i then v else nth j a C0.
Proof.
  intros a i v H. destruct (upd_ok _ a i v H) as [a' E]. exists a'. unfold put. rewrite E.
  split; [reflexivity|]. split; [eapply upd_length; exact E|]. intros. eapply upd_nth; exact E.
Qed.
Lemma put_inv : forall a i v a', put a i v = Ok a' -> length a' = length a
  /\ forall j, nth j a' C0 = if Nat.eqb j i then v else nth j a C0.
Proof.
  intros a i v a' H. unfold put in H. destruct (upd a i v) eqn:E; [|discriminate]. injection H as <-.
  split; [eapply upd_length; exact E|]. intros. eapply upd_nth; exact E.
Qed.

Lemma nonneg_modes_In : forall L l m, In (l, m) (nonneg_modes L) <-> (0 <= l <= L /\ 0 <= m <= l)%Z.
Proof.
  intros. unfold nonneg_modes. rewrite in_flat_map. split.
  - intros (x & Hx & H). apply zrange_In in Hx. apply in_map_iff in H. destruct H as (y & E & Hy).
    apply zrange_In in Hy. injection E as <- <-. lia.
  - intros H. exists l. split; [apply zrange_In; lia|]. apply in_map_iff. exists m. split; [reflexivity|]. apply zrange_In. lia.
Qed.
Lemma NoDup_app_intro : forall A (l l' : list A), NoDup l -> NoDup l' -> (forall x, In x l -> In x l' -> False) -> NoDup (l ++ l').
Proof.
  induction l as [|a l IH]; intros l' H H' D; simpl; [exact H'|]. inversion H; subst. constructor.
  - rewrite in_app_iff. intros [?|?]; [contradiction|]. eapply D; [left; reflexivity|assumption].
  - apply IH; try assumption. intros x Hx. apply D. right. exact Hx.
Qed.
Lemma NoDup_flat_map_pairs : forall (f : Z -> list Z) ls, NoDup ls -> (forall l, NoDup (f l)) ->
  NoDup (flat_map (fun l => map (fun m => (l, m)) (f l)) ls).
Proof.
  induction ls as [|l ls IH]; intros H Hf; simpl; [constructor|]. inversion H; subst.
  apply NoDup_app_intro.
  - apply FinFun.Injective_map_NoDup; [intros x y E; congruence|apply Hf].
  - apply IH; assumption.
  - intros [x y] H1 H4. apply in_map_iff in H1. destruct H1 as (m & E & _). injection E as <- <-.
    apply in_flat_map in H4. destruct H4 as (l' & Hl' & H4). apply in_map_iff in H4. destruct H4 as (m' & E & _).
    injection E as -> ->. contradiction.
Qed.

Lemma nonneg_modes_NoDup : forall L, NoDup (nonneg_modes L).
Proof. intros. apply NoDup_flat_map_pairs; [apply zrange_NoDup|intros; apply zrange_NoDup]. Qed.

Lemma fold_res_inv : forall A B (f : A -> B -> res A) l a a', fold_res f l a = Ok a' ->
  forall P : A -> Prop, P a -> (forall x y z, P x -> f x y = Ok z -> P z) -> P a'.
Proof.
  induction l as [|x l IH]; simpl; intros a a' H P Pa St; [congruence|].
  destruct (f a x) as [b|] eqn:E; simpl in H; [|discriminate]. eapply IH; eauto.
Qed.

Lemma Cscale_half_eq : forall z, Cscale (/ 2) (z + z)%C = z.
Proof. intros []. cx. Qed.

(** One step of the reality loop. *)
Lemma impose_step_spec : forall a L l m, has_modes a L -> (0 <= l <= L)%Z -> (0 <= m <= l)%Z ->
  exists a', impose_step a (l, m) = Ok a' /\ has_modes a' L
    /\ mode_at a' l m = real_part a l m /\ mode_at a' l (- m) = real_part a l (- m)
    /\ forall l' m', (0 <= l' <= L)%Z -> (- l' <= m' <= l')%Z -> (l', Z.abs m') <> (l, m) -> mode_at a' l' m' = mode_at a l' m'.
Proof.
  intros a L l m Hlen Hl Hm. unfold impose_step, has_modes in *.
  assert (B1 := pos_lt l m L Hl ltac:(lia)). assert (B2 := pos_lt l (- m) L Hl ltac:(lia)).
  rewrite get_ok by lia. cbn [rbind]. rewrite get_ok by lia. cbn [rbind].
  set (v := Cscale (/ 2) _).
  destruct (put_ok a (pos l m) v ltac:(lia)) as (a1 & -> & L1 & N1). cbn [rbind].
  rewrite get_ok by lia. cbn [rbind].
  destruct (put_ok a1 (pos l (- m)) (Cscale (sgn m) (Conj (nth (pos l m) a1 C0))) ltac:(lia)) as (a2 & E2 & L2 & N2).
  exists a2. split; [exact E2|]. split; [lia|].
  rewrite N1, Nat.eqb_refl in N2.
  assert (V : v = real_part a l m) by (unfold v, real_part, mode_at; rewrite !pos_eq; reflexivity).
  assert (W : Cscale (sgn m) (Conj v) = real_part a l (- m)).
  { rewrite V. unfold real_part. rewrite Z.opp_involutive, sgn_opp.
    destruct (sgn_cases m) as [-> | ->]; destruct (mode_at a l m), (mode_at a l (- m)); cx. }
  unfold mode_at. split; [|split].
  - rewrite <- pos_eq, N2. destruct (Nat.eqb_spec (pos l m) (pos l (- m))) as [E|E].
    + apply pos_inj in E; try lia. rewrite W. assert (m = 0)%Z by lia. subst m. reflexivity.
    + rewrite N1, Nat.eqb_refl. exact V.
  - rewrite <- pos_eq, N2, Nat.eqb_refl. exact W.
  - intros l' m' Hl' Hm' D. rewrite <- pos_eq, N2, N1.
    destruct (Nat.eqb_spec (pos l' m') (pos l (- m))) as [E|E].
    { apply pos_inj in E; try lia. exfalso. apply D. destruct E; subst. f_equal. lia. }
    destruct (Nat.eqb_spec (pos l' m') (pos l m)) as [E'|E']; [|reflexivity].
    apply pos_inj in E'; try lia. exfalso. apply D. destruct E'; subst. f_equal. lia.
Qed.

(** The whole loop replaces every mode by that of the real part. *)
Lemma impose_fold : forall L ps a, NoDup ps -> (forall l m, In (l, m) ps -> 0 <= l <= L /\ 0 <= m <= l)%Z -> has_modes a L ->
  exists a', fold_res impose_step ps a = Ok a' /\ has_modes a' L
    /\ forall l m, (0 <= l <= L)%Z -> (- l <= m <= l)%Z ->
         (In (l, Z.abs m) ps -> mode_at a' l m = real_part a l m) /\ (~ In (l, Z.abs m) ps -> mode_at a' l m = mode_at a l m).
Proof.
  induction ps as [|[l0 m0] ps IH]; intros a ND R H.
  - exists a. simpl. split; [reflexivity|]. split; [exact H|]. intros; tauto.
  - inversion ND; subst. destruct (R l0 m0 (or_introl eq_refl)) as [R1 R2].
    destruct (impose_step_spec a L l0 m0 H R1 R2) as (a1 & E1 & H1 & P & N & O).
    destruct (IH a1 H3 (fun l m I => R l m (or_intror I)) H1) as (a2 & E2 & H2' & S).
    exists a2. cbn [fold_res]. rewrite E1. cbn [rbind]. split; [exact E2|]. split; [exact H2'|].
    intros l m Hl Hm. destruct (S l m Hl Hm) as [S1 S2]. split.
    + intros [E|I].
      * injection E as E E'. subst l0 m0. rewrite S2 by exact H2.
        destruct (Z.abs_eq_or_opp m) as [A|A].
        -- rewrite A in P. exact P.
        -- rewrite A, Z.opp_involutive in N. exact N.
      * rewrite S1 by exact I. unfold real_part.
        assert (D : (l, Z.abs m) <> (l0, m0)) by (intros E; apply H2; rewrite <- E; exact I).
        rewrite (O l m), (O l (- m)%Z); try lia; try rewrite Z.abs_opp; try exact D. reflexivity.
    + intros NI. rewrite S2 by (intros I; apply NI; right; exact I). apply O; try lia. intros E. apply NI. left. congruence.
Qed.

Lemma complete_spec : forall a, complete a = true <-> exists L, (-1 <= L)%Z /\ has_modes a L /\ ell_max_of a = L.
Proof.
  intros a. unfold complete, has_modes. split.
  - intros H. apply Z.eqb_eq in H. exists (ell_max_of a). split; [|split; [|reflexivity]].
    + unfold ell_max_of. assert (A := Z.sqrt_nonneg (Z.of_nat (length a))). lia.
    + rewrite <- H. ring.
  - intros (L & HL & H & E). rewrite E. apply Z.eqb_eq. rewrite H. ring.
Qed.
Lemma ell_max_of_has : forall a L, (-1 <= L)%Z -> has_modes a L -> ell_max_of a = L.
Proof. intros a L HL H. unfold ell_max_of, has_modes in *. rewrite H. rewrite Z.sqrt_square by lia. lia. Qed.

Lemma impose_reality_spec : forall a L, (-1 <= L)%Z -> has_modes a L ->
  exists a', impose_reality a = Ok a' /\ has_modes a' L
    /\ forall l m, (0 <= l <= L)%Z -> (- l <= m <= l)%Z -> mode_at a' l m = real_part a l m.
Proof.
  intros a L HL H. unfold impose_reality. rewrite (ell_max_of_has a L HL H).
  destruct (impose_fold L (nonneg_modes L) a (nonneg_modes_NoDup L)) as (a' & E & H' & S).
  - intros l m I. apply nonneg_modes_In in I. exact I.
  - exact H.
  - exists a'. split; [exact E|]. split; [exact H'|]. intros l m Hl Hm. apply S; try assumption.
    apply nonneg_modes_In. lia.
Qed.

Lemma real_part_real : forall a l m, real_part a l m = Cscale (sgn m) (Conj (real_part a l (- m))).
Proof.
  intros. unfold real_part. rewrite Z.opp_involutive, sgn_opp.
  destruct (sgn_cases m) as [-> | ->]; destruct (mode_at a l m), (mode_at a l (- m)); cx.
Qed.
Lemma real_part_id : forall a L, is_real a L -> forall l m, (0 <= l <= L)%Z -> (- l <= m <= l)%Z -> real_part a l m = mode_at a l m.
Proof. intros a L H l m Hl Hm. unfold real_part. rewrite <- (H l m Hl Hm). apply Cscale_half_eq. Qed.

(** Every position of a complete array is a mode. *)
Lemma modes_ext : forall a b L, (-1 <= L)%Z -> has_modes a L -> has_modes b L ->
  (forall l m, (0 <= l <= L)%Z -> (- l <= m <= l)%Z -> mode_at a l m = mode_at b l m) -> a = b.
Proof.
  intros a b L HL Ha Hb H. unfold has_modes in *.
  apply nth_ext with (d := C0) (d' := C0); [lia|]. intros n Hn.
  set (l := Z.sqrt (Z.of_nat n)). assert (Hs := Z.sqrt_spec (Z.of_nat n) ltac:(lia)). fold l in Hs.
  assert (0 <= l)%Z by apply Z.sqrt_nonneg. cbv zeta in Hs. clearbody l.
  assert (l <= L)%Z.
  { destruct (Z.le_gt_cases l L); [assumption|]. exfalso. assert ((L + 1) * (L + 1) <= l * l)%Z by (apply Z.mul_le_mono_nonneg; lia). lia. }
  specialize (H l (Z.of_nat n - l * l - l)%Z ltac:(lia) ltac:(lia)). unfold mode_at in H.
  replace (Z.to_nat (l * l + l + (Z.of_nat n - l * l - l))) with n in H by lia. exact H.
Qed.

Lemma put3_ok : forall a v, (4 <= length a)%nat -> exists a', put3 a v = Ok a' /\ length a' = length a
  /\ nth 0 a' C0 = nth 0 a C0 /\ nth 1 a' C0 = nth 0 v C0 /\ nth 2 a' C0 = nth 1 v C0 /\ nth 3 a' C0 = nth 2 v C0
  /\ forall j, (4 <= j)%nat -> nth j a' C0 = nth j a C0.
Proof.
  intros a v H. unfold put3.
  destruct (put_ok a 1 (nth 0 v C0) ltac:(lia)) as (a1 & -> & L1 & N1). cbn [rbind].
  destruct (put_ok a1 2 (nth 1 v C0) ltac:(lia)) as (a2 & -> & L2 & N2). cbn [rbind].
  destruct (put_ok a2 3 (nth 2 v C0) ltac:(lia)) as (a3 & -> & L3 & N3).
  exists a3. split; [reflexivity|]. split; [lia|].
  repeat split; try (rewrite N3, N2, N1; reflexivity).
  intros j Hj. rewrite N3, N2, N1. do 4 (destruct j as [|j]; [lia|]). reflexivity.
Qed.

(** Time and space translation that win, and the ones found in the array if nothing overrides it. *)
Definition winning_time (k : kwargs) : option R :=
  match k_time k, k_spacetime k with
  | Some (Some t), _ => Some t
  | _, Some (t :: _) => Some t
  | _, _ => None
  end.
Definition winning_space (k : kwargs) : option vec3 :=
  match k_space k, k_spacetime k with
  | Some [x; y; z], _ => Some (x, y, z)
  | _, Some [_; x; y; z] => Some (x, y, z)
  | _, _ => None
  end.
Definition ell01 (a : list C) : list C := firstn 4 a.

Lemma override_spec : forall k a a' s, (4 <= length a)%nat -> override k a = Ok (a', s) ->
  length a' = length a /\ (forall j, (4 <= j)%nat -> nth j a' C0 = nth j a C0)
  /\ nth 0 a' C0 = match winning_time k with Some t => constant_as_ell_0_mode t | None => nth 0 a C0 end
  /\ forall i, (i < 3)%nat -> nth (S i) a' C0 =
       match winning_space k with Some v => nth i (vector_as_ell_1_modes (vneg v)) C0 | None => nth (S i) a C0 end.
Proof.
  intros k a a' s H E. unfold override in E.
  rewrite !get_ok in E by lia. cbn [rbind] in E.
  destruct (vector_from_ell_1_modes _) as [[vx vy] vz]. set (s0 := (_, vneg _)) in E. clearbody s0.
  destruct k as [ks kst ksp kt ko kw kr kb]. unfold winning_time, winning_space. cbn [k_spacetime k_space k_time] in *.
  (* spacetime_translation *)
  match type of E with rbind ?r _ = _ => destruct r as [[a1 s1]|] eqn:E1; [|discriminate] end. cbn [rbind] in E.
  assert (P1 : length a1 = length a /\ (forall j, (4 <= j)%nat -> nth j a1 C0 = nth j a C0)
     /\ nth 0 a1 C0 = match kst with Some (t :: _) => constant_as_ell_0_mode t | _ => nth 0 a C0 end
     /\ (forall i, (i < 3)%nat -> nth (S i) a1 C0 = match kst with Some [_; x; y; z] => nth i (vector_as_ell_1_modes (vneg (x, y, z))) C0 | _ => nth (S i) a C0 end)
     /\ match kst with None => True | Some [_; _; _; _] => True | _ => False end).
  { destruct kst as [[|t [|x [|y [|z [|]]]]]|]; try discriminate.
    - destruct (put_ok a 0 (constant_as_ell_0_mode t) ltac:(lia)) as (b & Eb & Lb & Nb). rewrite Eb in E1. cbn [rbind] in E1.
      destruct (put3_ok b (vector_as_ell_1_modes (vneg (x, y, z))) ltac:(lia)) as (c & Ec & Lc & Nc0 & Nc1 & Nc2 & Nc3 & Nc4).
      rewrite Ec in E1. cbn [rbind] in E1. injection E1 as <- _.
      split; [lia|]. split; [|split; [|split; [|exact I]]].
      + intros j Hj. rewrite Nc4 by exact Hj. rewrite Nb. destruct j; [lia|reflexivity].
      + rewrite Nc0, Nb. reflexivity.
      + intros i Hi. destruct i as [|[|[|]]]; [exact Nc1|exact Nc2|exact Nc3|lia].
    - injection E1 as <- _. repeat split; auto. }
  clear E1. destruct P1 as (L1 & J1 & T1 & X1 & Sh1).
  (* space_translation *)
  match type of E with rbind ?r _ = _ => destruct r as [[a2 s2]|] eqn:E2; [|discriminate] end. cbn [rbind] in E.
  assert (P2 : length a2 = length a1 /\ (forall j, (4 <= j)%nat -> nth j a2 C0 = nth j a1 C0) /\ nth 0 a2 C0 = nth 0 a1 C0
     /\ (forall i, (i < 3)%nat -> nth (S i) a2 C0 = match ksp with Some [x; y; z] => nth i (vector_as_ell_1_modes (vneg (x, y, z))) C0 | _ => nth (S i) a1 C0 end)).
  { destruct ksp as [v|]; [|injection E2 as <- _; repeat split; auto].
    destruct v as [|x [|y [|z [|]]]]; try discriminate. cbn [vec3_of] in E2.
    destruct (put3_ok a1 (vector_as_ell_1_modes (vneg (x, y, z))) ltac:(lia)) as (c & Ec & Lc & Nc0 & Nc1 & Nc2 & Nc3 & Nc4).
    rewrite Ec in E2. cbn [rbind] in E2. injection E2 as <- _.
    split; [lia|]. split; [exact Nc4|]. split; [exact Nc0|].
    intros i Hi. destruct i as [|[|[|]]]; [exact Nc1|exact Nc2|exact Nc3|lia]. }
  clear E2. destruct P2 as (L2 & J2 & T2 & X2).
  (* time_translation *)
  assert (P3 : length a' = length a2 /\ (forall j, (1 <= j)%nat -> nth j a' C0 = nth j a2 C0)
     /\ nth 0 a' C0 = match kt with Some (Some t) => constant_as_ell_0_mode t | _ => nth 0 a2 C0 end).
  { destruct kt as [[t|]|]; [|discriminate|injection E as <- _; auto].
    destruct (put_ok a2 0 (constant_as_ell_0_mode t) ltac:(lia)) as (b & Eb & Lb & Nb). rewrite Eb in E. cbn [rbind] in E.
    injection E as <- _. split; [exact Lb|]. split; [|rewrite Nb; reflexivity].
    intros j Hj. rewrite Nb. destruct j; [lia|reflexivity]. }
  destruct P3 as (L3 & J3 & T3).
  split; [lia|]. split; [|split].
  - intros j Hj. rewrite J3, J2, J1 by lia. reflexivity.
  - rewrite T3, T2, T1. destruct kt as [[t|]|]; try reflexivity.
    + destruct kst as [[|]|]; try reflexivity; contradiction.
    + destruct kst as [[|]|]; try reflexivity; contradiction.
  - intros i Hi. rewrite J3, X2, X1 by lia.
    destruct ksp as [[|x [|y [|z [|]]]]|]; destruct kst as [[|t' [|x' [|y' [|z' [|]]]]]|]; try reflexivity; try contradiction.
Qed.

Lemma pad4_spec : forall a, (4 <= length (pad4 a))%nat /\ ((length a <= 4)%nat -> length (pad4 a) = 4%nat)
  /\ ((4 <= length a)%nat -> pad4 a = a) /\ forall i, nth i (pad4 a) C0 = nth i a C0.
Proof.
  intros a. unfold pad4. destruct (Nat.leb_spec (length a) 4) as [H|H].
  - rewrite app_length, repeat_length. split; [lia|]. split; [lia|]. split.
    + intros. replace (4 - length a)%nat with 0%nat by lia. apply app_nil_r.
    + intros i. destruct (Nat.lt_ge_cases i (length a)); [apply app_nth1; exact H0|].
      rewrite app_nth2 by lia. rewrite (nth_overflow a) by lia. apply nth_repeat.
  - split; [lia|]. split; [lia|]. split; reflexivity.
Qed.

Lemma zeros_nth : forall n i, nth i (repeat C0 n) C0 = C0.
Proof. intros. apply nth_repeat. Qed.
Lemma Conj_C0_scale : forall x, Cscale x (Conj C0) = C0.
Proof. intros. cx. Qed.

(** The modes written by the translation keywords satisfy the reality condition. *)
Lemma translation_modes_real : forall v, nth 2 (vector_as_ell_1_modes v) C0 = Cscale (sgn 1) (Conj (nth 0 (vector_as_ell_1_modes v) C0))
  /\ nth 1 (vector_as_ell_1_modes v) C0 = Conj (nth 1 (vector_as_ell_1_modes v) C0).
Proof. intros [[x y] z]. cbn [vector_as_ell_1_modes nth]. unfold sgn. cbn [Z.even]. split; cx. Qed.

Lemma override_real : forall k a a' s L, (1 <= L)%Z -> has_modes a L -> is_real a L -> override k a = Ok (a', s) -> is_real a' L.
Proof.
  intros k a a' s L HL Hlen R E.
  assert (H4 : (4 <= length a)%nat) by (unfold has_modes in Hlen; nia).
  destruct (override_spec k a a' s H4 E) as (_ & J & T & X).
  intros l m Hl Hm. unfold mode_at.
  assert (Cases : (l = 0 \/ l = 1 \/ 2 <= l)%Z) by lia. destruct Cases as [-> | [-> | Hl2]].
  - assert (m = 0)%Z by lia. subst m. change (Z.to_nat (0 * 0 + 0 + 0)) with 0%nat. change (Z.to_nat (0 * 0 + 0 + - 0)) with 0%nat.
    rewrite T. destruct (winning_time k) as [t|].
    + unfold constant_as_ell_0_mode, sgn. cbn [Z.even]. cx.
    + apply (R 0%Z 0%Z); lia.
  - assert (M : (m = -1 \/ m = 0 \/ m = 1)%Z) by lia.
    assert (X1 := X 0%nat ltac:(lia)). assert (X2 := X 1%nat ltac:(lia)). assert (X3 := X 2%nat ltac:(lia)).
    assert (Rm := R 1%Z (-1)%Z ltac:(lia) ltac:(lia)). assert (R0 := R 1%Z 0%Z ltac:(lia) ltac:(lia)). assert (Rp := R 1%Z 1%Z ltac:(lia) ltac:(lia)).
    unfold mode_at in Rm, R0, Rp.
    destruct M as [-> | [-> | ->]];
      repeat match goal with |- context [Z.to_nat ?z] => let v := eval vm_compute in (Z.to_nat z) in change (Z.to_nat z) with v end;
      rewrite ?X1, ?X2, ?X3; destruct (winning_space k) as [v|];
      try (destruct (translation_modes_real (vneg v)) as [V1 V2]); try assumption.
    + rewrite V1. unfold sgn. cbn [Z.even]. cx.
    + rewrite V2 at 1. unfold sgn. cbn [Z.even]. cx.
  - rewrite !J by nia. apply (R l m); lia.
Qed.

(** ** Theorems *)
(** AsymptoticBondiData.transform: whatever is passed, the supertranslation used is complete and real. *)
Theorem C28_real : forall ell_max k p, abd_process ell_max k = Ok p ->
  exists L, (1 <= L)%Z /\ has_modes (p_super p) L /\ is_real (p_super p) L.
Proof.
  intros e k p H. unfold abd_process in H.
  destruct (read_super impose_reality (k_super k)) as [a|] eqn:E1; [|discriminate]. cbn [rbind] in H.
  destruct (override k a) as [[a' s]|] eqn:E2; [|discriminate]. cbn [rbind] in H.
  destruct (Z.ltb _ _); [discriminate|].
  destruct (read_rotation _) as [q|]; [|discriminate]. destruct (read_boost _) as [v|]; [|discriminate].
  cbn [rbind] in H. injection H as <-. cbn [p_super].
  assert (A : exists L, (1 <= L)%Z /\ has_modes a L /\ is_real a L).
  { unfold read_super in E1. destruct (k_super k) as [b|].
    - destruct (complete (pad4 b)) eqn:Cp; [|discriminate]. apply complete_spec in Cp. destruct Cp as (L & HL & Hm & _).
      destruct (impose_reality_spec _ L HL Hm) as (a0 & E & Hm' & S). rewrite E in E1. injection E1 as ->.
      exists L. split; [|split; [exact Hm'|]].
      + destruct (pad4_spec b) as [P _]. unfold has_modes in Hm. nia.
      + intros l m Hl Hmm. rewrite !S by lia. apply real_part_real.
    - injection E1 as <-. exists 1%Z. split; [lia|]. split; [reflexivity|].
      intros l m _ _. unfold mode_at. change [C0; C0; C0; C0] with (repeat C0 4). rewrite !zeros_nth. symmetry. apply Conj_C0_scale. }
  destruct A as (L & HL & Hm & R). exists L. split; [exact HL|].
  assert (H4 : (4 <= length a)%nat) by (unfold has_modes in Hm; nia).
  split; [|eapply override_real; eassumption].
  unfold has_modes. destruct (override_spec k a a' s H4 E2) as [-> _]. exact Hm.
Qed.

(** What the array is before the translation keywords are applied: the real part of the (padded) argument. *)
Lemma abd_process_inv : forall e k p, abd_process e k = Ok p ->
  exists a s, read_super impose_reality (k_super k) = Ok a /\ override k a = Ok (p_super p, s)
    /\ read_rotation (k_rotation k) = Ok (p_rotation p) /\ read_boost (k_boost k) = Ok (p_boost p)
    /\ (e <= p_working p)%Z /\ p_working p = dflt (2 * e + match k_super k with None => 1%Z | Some _ => ell_max_of a end)%Z (k_working_ell_max k)
    /\ p_output p = dflt e (k_output_ell_max k).
Proof.
  intros e k p H. unfold abd_process in H.
  destruct (read_super impose_reality (k_super k)) as [a|] eqn:E1; [|discriminate]. cbn [rbind] in H.
  destruct (override k a) as [[a' s]|] eqn:E2; [|discriminate]. cbn [rbind] in H.
  destruct (Z.ltb_spec (dflt (2 * e + match k_super k with None => 1%Z | Some _ => ell_max_of a end)%Z (k_working_ell_max k)) e) as [?|Hw]; [discriminate|].
  destruct (read_rotation _) as [q|] eqn:E3; [|discriminate]. destruct (read_boost _) as [v|] eqn:E4; [|discriminate].
  cbn [rbind] in H. injection H as <-. cbn [p_super p_rotation p_boost p_working p_output]. exists a, s. auto 10.
Qed.

Definition arg_mode (k : kwargs) (l m : Z) : C := match k_super k with None => C0 | Some a => mode_at a l m end.
Definition arg_real_part (k : kwargs) (l m : Z) : C :=
  Cscale (/ 2) (arg_mode k l m + Cscale (sgn m) (Conj (arg_mode k l (- m))))%C.

Lemma read_super_modes : forall k a, read_super impose_reality (k_super k) = Ok a ->
  exists L, (1 <= L)%Z /\ has_modes a L /\ forall l m, (0 <= l <= L)%Z -> (- l <= m <= l)%Z -> mode_at a l m = arg_real_part k l m.
Proof.
  intros k a E1. unfold read_super, arg_real_part, arg_mode in *. destruct (k_super k) as [b|].
  - destruct (complete (pad4 b)) eqn:Cp; [|discriminate]. apply complete_spec in Cp. destruct Cp as (L & HL & Hm & _).
    destruct (impose_reality_spec _ L HL Hm) as (a0 & E & Hm' & S). rewrite E in E1. injection E1 as ->.
    destruct (pad4_spec b) as (P & _ & _ & N).
    exists L. split; [unfold has_modes in Hm; nia|]. split; [exact Hm'|].
    intros l m Hl Hmm. rewrite S by assumption. unfold real_part, mode_at. rewrite !N. reflexivity.
  - injection E1 as <-. exists 1%Z. split; [lia|]. split; [reflexivity|].
    intros l m _ _. unfold mode_at. change [C0; C0; C0; C0] with (repeat C0 4). rewrite zeros_nth. cx.
Qed.

(** Modes with ell >= 2 are those of the real part of the argument; ell = 0 and ell = 1 too unless a translation
    keyword is given: time_translation wins over spacetime_translation wins over supertranslation for ell = 0, and
    space_translation wins over spacetime_translation wins over supertranslation for ell = 1. *)
Theorem C28_precedence : forall e k p, abd_process e k = Ok p -> exists L, (1 <= L)%Z /\ has_modes (p_super p) L /\
  (forall l m, (2 <= l <= L)%Z -> (- l <= m <= l)%Z -> mode_at (p_super p) l m = arg_real_part k l m)
  /\ mode_at (p_super p) 0 0 = match winning_time k with Some t => constant_as_ell_0_mode t | None => arg_real_part k 0 0 end
  /\ forall m, (-1 <= m <= 1)%Z -> mode_at (p_super p) 1 m =
       match winning_space k with Some v => nth (Z.to_nat (m + 1)) (vector_as_ell_1_modes (vneg v)) C0 | None => arg_real_part k 1 m end.
Proof.
  intros e k p H. apply abd_process_inv in H. destruct H as (a & s & E1 & E2 & _).
  apply read_super_modes in E1. destruct E1 as (L & HL & Hm & S). exists L. split; [exact HL|].
  assert (H4 : (4 <= length a)%nat) by (unfold has_modes in Hm; nia).
  destruct (override_spec k a (p_super p) s H4 E2) as (Len & J & T & X).
  split; [unfold has_modes; rewrite Len; exact Hm|]. split; [|split].
  - intros l m Hl Hmm. rewrite <- S by lia. unfold mode_at. apply J. nia.
  - unfold mode_at at 1. change (Z.to_nat (0 * 0 + 0 + 0)) with 0%nat. rewrite T.
    destruct (winning_time k); [reflexivity|]. rewrite <- S by lia. reflexivity.
  - intros m Hmm. assert (Cm : (m = -1 \/ m = 0 \/ m = 1)%Z) by lia.
    destruct (winning_space k) as [v|] eqn:W.
    + destruct Cm as [-> | [-> | ->]]; [apply (X 0%nat)|apply (X 1%nat)|apply (X 2%nat)]; lia.
    + rewrite <- S by lia. destruct Cm as [-> | [-> | ->]]; [apply (X 0%nat)|apply (X 1%nat)|apply (X 2%nat)]; lia.
Qed.

(** An argument that already describes a real function is used unchanged. *)
Theorem C28_unchanged : forall e k p a L, abd_process e k = Ok p -> k_super k = Some a -> (1 <= L)%Z -> has_modes a L -> is_real a L ->
  winning_time k = None -> winning_space k = None -> p_super p = a.
Proof.
  intros e k p a L H Ka HL Hm R Wt Ws.
  apply abd_process_inv in H. destruct H as (b & s & E1 & E2 & _).
  unfold read_super in E1. rewrite Ka in E1. destruct (pad4_spec a) as (_ & _ & Pid & _).
  rewrite Pid in E1 by (unfold has_modes in Hm; nia).
  destruct (complete a); [|discriminate].
  destruct (impose_reality_spec a L ltac:(lia) Hm) as (a0 & E & Hm' & S). rewrite E in E1. injection E1 as ->.
  assert (b = a). { apply (modes_ext b a L); try assumption; [lia|]. intros. rewrite S by assumption. eapply real_part_id; eassumption. }
  subst b. assert (H4 : (4 <= length a)%nat) by (unfold has_modes in Hm; nia).
  destruct (override_spec k a (p_super p) s H4 E2) as (Len & J & T & X). rewrite Wt in T. rewrite Ws in X.
  apply nth_ext with (d := C0) (d' := C0); [exact Len|]. intros n _.
  destruct n as [|n]; [exact T|]. destruct (Nat.lt_ge_cases n 3); [apply X; assumption|apply J; lia].
Qed.

(** In terms of the supertranslation function: with Y_lm the standard spherical harmonics of degree <= 1, the
    function built from the ell <= 1 modes is  t - x.n  for a spacetime translation (t, x). *)
Definition Y1 (m : Z) (n : vec3) : C :=
  let '(x, y, z) := n in
  if (m =? -1)%Z then Cscale (/ 2 * sqrt (3 / (2 * PI))) (mkC x (- y))
  else if (m =? 0)%Z then mkC (/ 2 * sqrt (3 / PI) * z) 0
  else Cscale (- / 2 * sqrt (3 / (2 * PI))) (mkC x y).
Definition Y0 : C := RtoC (/ sqrt (4 * PI)).
Definition alpha01 (a : list C) (n : vec3) : C :=
  (mode_at a 0 0 * Y0 + (mode_at a 1 (-1) * Y1 (-1) n + mode_at a 1 0 * Y1 0 n + mode_at a 1 1 * Y1 1 n))%C.
Definition dot3 (u v : vec3) : R := let '(a, b, c) := u in let '(x, y, z) := v in a * x + b * y + c * z.

Lemma sqrt_consts : sqrt (2 * PI / 3) * sqrt (3 / (2 * PI)) = 1 /\ sqrt (2 * PI / 3) * sqrt 2 * sqrt (3 / PI) = 2
  /\ sqrt (4 * PI) * / sqrt (4 * PI) = 1.
Proof.
  assert (P := PI_RGT_0).
  split; [|split].
  - rewrite <- sqrt_mult_alt by (apply Rlt_le, Rdiv_lt_0_compat; lra).
    replace (2 * PI / 3 * (3 / (2 * PI))) with 1 by (field; lra). apply sqrt_1.
  - assert (0 <= 2 * PI / 3) by (apply Rlt_le, Rdiv_lt_0_compat; lra).
    rewrite <- !sqrt_mult_alt by (try assumption; nra).
    replace (2 * PI / 3 * 2 * (3 / PI)) with (2 * 2) by (field; lra). apply sqrt_square. lra.
  - apply Rinv_r. assert (0 < sqrt (4 * PI)) by (apply sqrt_lt_R0; lra). lra.
Qed.

Theorem C28_translation_function : forall e k p t v n, abd_process e k = Ok p -> winning_time k = Some t -> winning_space k = Some v ->
  alpha01 (p_super p) n = RtoC (t - dot3 v n).
Proof.
  intros e k p t [[vx vy] vz] [[nx ny] nz] H Wt Ws.
  destruct (C28_precedence e k p H) as (L & _ & _ & _ & T & X). rewrite Wt in T. rewrite Ws in X.
  unfold alpha01. rewrite T, (X (-1)%Z), (X 0%Z), (X 1%Z) by lia.
  change (Z.to_nat (-1 + 1)) with 0%nat. change (Z.to_nat (0 + 1)) with 1%nat. change (Z.to_nat (1 + 1)) with 2%nat.
  cbn [vneg vector_as_ell_1_modes nth]. unfold Y1, Y0, constant_as_ell_0_mode, dot3. cbn [Z.eqb Pos.eqb].
  destruct sqrt_consts as (S1 & S2 & S3).
  set (f := sqrt (2 * PI / 3)) in *. set (g := sqrt (3 / (2 * PI))) in *. set (h := sqrt (3 / PI)) in *.
  set (r := sqrt 2) in *. set (u := sqrt (4 * PI)) in *. set (w := / u) in *.
  apply C_eq; cbn.
  - replace (t - (vx * nx + vy * ny + vz * nz))
      with (t * (u * w) - (f * g) * (vx * nx + vy * ny) - (f * r * h) / 2 * (vz * nz)) by (rewrite S1, S2, S3; field). field.
  - field.
Qed.

(** Rotor, boost and ell values that come out are usable: unit rotor, speed below 1, enough working ell. *)
Lemma read_rotation_unit : forall o q, read_rotation o = Ok q -> qnorm2 q = 1.
Proof.
  intros o q H. unfold read_rotation in H. destruct (quat_of _) as [r|]; [|discriminate].
  destruct (Rltb_spec (qabs r) (3 / 10 ^ 16)) as [|L]; [discriminate|]. injection H as <-.
  apply qnormalized_unit. intros ->. assert (E : qabs q0 = 0).
  { unfold qabs, qnorm2, q0. cbn. replace (0 * 0 + 0 * 0 + 0 * 0 + 0 * 0) with 0 by ring. apply sqrt_0. }
  rewrite E in L. apply L. apply Rdiv_lt_0_compat; [lra|]. apply pow_lt. lra.
Qed.
Lemma read_boost_lt : forall o v, read_boost o = Ok v -> norm3 v < 1.
Proof.
  intros o v H. unfold read_boost in H. destruct (vec3_of _) as [u|]; [|discriminate].
  destruct (Rleb_spec 1 (norm3 u)) as [|L]; [discriminate|]. injection H as <-. lra.
Qed.
Theorem C28_parameters : forall e k p, abd_process e k = Ok p ->
  qnorm2 (p_rotation p) = 1 /\ norm3 (p_boost p) < 1 /\ (e <= p_working p)%Z
  /\ (k_rotation k = None -> p_rotation p = q1) /\ (k_boost k = None -> p_boost p = (0, 0, 0))
  /\ (forall v, k_boost k = Some [fst (fst v); snd (fst v); snd v] -> p_boost p = v)
  /\ (k_output_ell_max k = None -> p_output p = e).
Proof.
  intros e k p H. apply abd_process_inv in H. destruct H as (a & s & _ & _ & E3 & E4 & Hw & _ & Ho).
  split; [eapply read_rotation_unit; exact E3|]. split; [eapply read_boost_lt; exact E4|]. split; [exact Hw|].
  split; [|split; [|split]].
  - intros K. rewrite K in E3. unfold read_rotation in E3. cbn [quat_of] in E3. destruct (Rltb _ _); [discriminate|].
    injection E3 as <-. apply qnormalized_id. unfold qnorm2. cbn. ring.
  - intros K. rewrite K in E4. unfold read_boost in E4. cbn [vec3_of] in E4. destruct (Rleb _ _); [discriminate|]. congruence.
  - intros [[x y] z] K. cbn in K. rewrite K in E4. unfold read_boost in E4. cbn [vec3_of] in E4. destruct (Rleb _ _); [discriminate|]. congruence.
  - intros K. rewrite Ho, K. reflexivity.
Qed.

(** Exactly which arguments are accepted. *)
Definition acceptable (e : Z) (k : kwargs) : Prop :=
  (forall a, k_super k = Some a -> (length a <= 4)%nat \/ exists L, (0 <= L)%Z /\ Z.of_nat (length a) = ((L + 1) * (L + 1))%Z)
  /\ (forall v, k_spacetime k = Some v -> length v = 4%nat)
  /\ (forall v, k_space k = Some v -> length v = 3%nat)
  /\ k_time k <> Some None.

Lemma read_super_ok : forall o, (exists a, read_super impose_reality o = Ok a) <->
  (forall a, o = Some a -> (length a <= 4)%nat \/ exists L, (0 <= L)%Z /\ Z.of_nat (length a) = ((L + 1) * (L + 1))%Z).
Proof.
  intros [a|].
  - unfold read_super. destruct (pad4_spec a) as (P & P4 & Pid & _). split.
    + intros [b E] a' Ea. injection Ea as <-. destruct (complete (pad4 a)) eqn:Cp; [|discriminate].
      apply complete_spec in Cp. destruct Cp as (L & HL & Hm & _).
      destruct (Nat.le_gt_cases (length a) 4) as [?|G]; [left; assumption|right].
      rewrite Pid in Hm by lia. exists L. split; [unfold has_modes in Hm; nia|exact Hm].
    + intros H. assert (Cp : complete (pad4 a) = true).
      { apply complete_spec. destruct (H a eq_refl) as [H4 | (L & HL & E)].
        - exists 1%Z. split; [lia|]. assert (hm : has_modes (pad4 a) 1) by (unfold has_modes; rewrite P4 by exact H4; reflexivity).
          split; [exact hm|]. apply ell_max_of_has; [lia|exact hm].
        - destruct (Nat.le_gt_cases (length a) 4) as [H4|G].
          + exists 1%Z. split; [lia|]. assert (hm : has_modes (pad4 a) 1) by (unfold has_modes; rewrite P4 by exact H4; reflexivity).
            split; [exact hm|]. apply ell_max_of_has; [lia|exact hm].
          + rewrite Pid by lia. exists L. split; [lia|]. split; [exact E|]. apply ell_max_of_has; [lia|exact E]. }
      rewrite Cp. apply complete_spec in Cp. destruct Cp as (L & HL & Hm & _).
      destruct (impose_reality_spec _ L HL Hm) as (a0 & E & _). exists a0. exact E.
  - unfold read_super. split; [intros _ a; discriminate|]. intros _. eexists; reflexivity.
Qed.

Lemma override_ok : forall k a, (4 <= length a)%nat -> (exists r, override k a = Ok r) <->
  (forall v, k_spacetime k = Some v -> length v = 4%nat) /\ (forall v, k_space k = Some v -> length v = 3%nat) /\ k_time k <> Some None.
Proof.
  intros k a H. unfold override. rewrite !get_ok by lia. cbn [rbind].
  destruct (vector_from_ell_1_modes _) as [[vx vy] vz]. set (s0 := (_, vneg _)). clearbody s0.
  destruct k as [ks kst ksp kt ko kw kr kb]. cbn [k_spacetime k_space k_time].
  assert (T : forall (a2 : list C) (s : R * vec3), (4 <= length a2)%nat ->
    (exists r, match kt with None => Ok (a2, s) | Some (Some t) => let? a := put a2 0 (constant_as_ell_0_mode t) in Ok (a, (t, snd s)) | Some None => Err TypeError end = Ok r) <-> kt <> Some None).
  { intros a2 s H2. destruct kt as [[t|]|].
    - destruct (put_ok a2 0 (constant_as_ell_0_mode t) ltac:(lia)) as (b & -> & _). cbn [rbind]. split; [discriminate|eexists; reflexivity].
    - split; [intros [r E]; discriminate|congruence].
    - split; [discriminate|eexists; reflexivity]. }
  assert (S : forall (a1 : list C) (s : R * vec3), (4 <= length a1)%nat ->
    (exists r, (let? (a2, s2) := match ksp with None => Ok (a1, s) | Some v => match vec3_of v with
        | Some v => let? a := put3 a1 (vector_as_ell_1_modes (vneg v)) in Ok (a, (fst s, v)) | None => Err TypeError end end in
      match kt with None => Ok (a2, s2) | Some (Some t) => let? a := put a2 0 (constant_as_ell_0_mode t) in Ok (a, (t, snd s2)) | Some None => Err TypeError end) = Ok r)
    <-> (forall v, ksp = Some v -> length v = 3%nat) /\ kt <> Some None).
  { intros a1 s H1. destruct ksp as [v|].
    - destruct v as [|x [|y [|z [|]]]]; cbn [vec3_of rbind];
        try (split; [intros [rr E]; discriminate|intros [E _]; specialize (E _ eq_refl); discriminate]).
      destruct (put3_ok a1 (vector_as_ell_1_modes (vneg (x, y, z))) ltac:(lia)) as (c & -> & Lc & _). cbn [rbind].
      rewrite T by lia. split; [intros E; split; [intros v Ev; injection Ev as <-; reflexivity|exact E]|intros [_ E]; exact E].
    - cbn [rbind]. rewrite T by lia. split; [intros E; split; [discriminate|exact E]|tauto]. }
  destruct kst as [v|].
  - destruct v as [|t [|x [|y [|z [|]]]]]; cbn [rbind];
      try (split; [intros [rr E]; discriminate|intros [E _]; specialize (E _ eq_refl); discriminate]).
    destruct (put_ok a 0 (constant_as_ell_0_mode t) ltac:(lia)) as (b & -> & Lb & _). cbn [rbind].
    destruct (put3_ok b (vector_as_ell_1_modes (vneg (x, y, z))) ltac:(lia)) as (c & -> & Lc & _). cbn [rbind].
    rewrite S by lia. split; [intros E; split; [intros v Ev; injection Ev as <-; reflexivity|exact E]|intros [_ E]; exact E].
  - cbn [rbind]. rewrite S by lia. split; [intros E; split; [discriminate|exact E]|tauto].
Qed.

Theorem C28_accepted : forall e k, (0 <= e)%Z -> k_working_ell_max k = None ->
  ((exists p, abd_process e k = Ok p) <->
   acceptable e k /\ (exists q, read_rotation (k_rotation k) = Ok q) /\ (exists v, read_boost (k_boost k) = Ok v)).
Proof.
  intros e k He Kw. unfold acceptable. rewrite <- read_super_ok. split.
  - intros [p H]. apply abd_process_inv in H. destruct H as (a & s & E1 & E2 & E3 & E4 & _).
    assert (H4 : (4 <= length a)%nat) by (apply read_super_modes in E1; destruct E1 as (L & HL & Hm & _); unfold has_modes in Hm; nia).
    assert (O := proj1 (override_ok k a H4) (ex_intro _ _ E2)). split; [split; [eexists; exact E1|exact O]|]. split; eexists; eassumption.
  - intros [[[a E1] O] [[q Eq] [v Ev]]]. unfold abd_process. rewrite E1. cbn [rbind].
    assert (A := read_super_modes k a E1). destruct A as (L & HL & Hm & _).
    assert (H4 : (4 <= length a)%nat) by (unfold has_modes in Hm; nia).
    destruct (proj2 (override_ok k a H4) O) as [[a' s] ->]. cbn [rbind]. rewrite Kw. cbn [dflt].
    assert (LL : (1 <= match k_super k with None => 1 | Some _ => ell_max_of a end)%Z)
      by (destruct (k_super k); [rewrite (ell_max_of_has a L) by (try lia; exact Hm); exact HL|lia]).
    destruct (Z.ltb_spec (2 * e + match k_super k with None => 1 | Some _ => ell_max_of a end)%Z e) as [C|_]; [lia|].
    rewrite Eq, Ev. cbn [rbind]. eexists; reflexivity.
Qed.

(** ** WaveformGrid.from_modes: the reality condition is checked instead of imposed *)
Lemma check_fold : forall ps a a', fold_res check_step ps a = Ok a' -> a' = a
  /\ forall l m, In (l, m) ps -> (pos l m < length a)%nat -> (pos l (- m) < length a)%nat ->
       Cmod (nth (pos l m) a C0 - Cscale (sgn m) (Conj (nth (pos l (- m)) a C0)))%C <= 3 / 10 ^ 16 + 1 / 10 ^ 15 * Cmod (nth (pos l (- m)) a C0).
Proof.
  induction ps as [|[l0 m0] ps IH]; intros a a' H.
  - injection H as <-. split; [reflexivity|]. intros l m [].
  - cbn [fold_res] in H. destruct (check_step a (l0, m0)) as [b|] eqn:E; [|discriminate]. cbn [rbind] in H.
    assert (b = a /\ ((pos l0 m0 < length a)%nat -> (pos l0 (- m0) < length a)%nat ->
       Cmod (nth (pos l0 m0) a C0 - Cscale (sgn m0) (Conj (nth (pos l0 (- m0)) a C0)))%C <= 3 / 10 ^ 16 + 1 / 10 ^ 15 * Cmod (nth (pos l0 (- m0)) a C0))) as [-> B].
    { unfold check_step in E. destruct (get a (pos l0 m0)) as [p|] eqn:Ep; [|discriminate]. cbn [rbind] in E.
      destruct (get a (pos l0 (- m0))) as [q|] eqn:Eq; [|discriminate]. cbn [rbind] in E.
      destruct (Rltb_spec (3 / 10 ^ 16 + 1 / 10 ^ 15 * Cmod q) (Cmod (p - Cscale (sgn m0) (Conj q))%C)) as [|N]; [discriminate|].
      injection E as <-. split; [reflexivity|]. intros L1 L2. rewrite get_ok in Ep, Eq by assumption. injection Ep as <-. injection Eq as <-. lra. }
    destruct (IH a a' H) as [-> S]. split; [reflexivity|].
    intros l m [I|I] L1 L2; [injection I as -> ->; apply B; assumption|apply S; assumption].
Qed.

Lemma Cmod_0 : Cmod C0 = 0.
Proof. unfold Cmod, norm2, C0. cbn. replace (0 * 0 + 0 * 0) with 0 by ring. apply sqrt_0. Qed.

Lemma check_fold_pass : forall L ps a, has_modes a L -> is_real a L -> (forall l m, In (l, m) ps -> 0 <= l <= L /\ 0 <= m <= l)%Z ->
  fold_res check_step ps a = Ok a.
Proof.
  induction ps as [|[l m] ps IH]; intros a Hm R B; [reflexivity|].
  cbn [fold_res]. destruct (B l m (or_introl eq_refl)) as [B1 B2].
  assert (P1 := pos_lt l m L B1 ltac:(lia)). assert (P2 := pos_lt l (- m) L B1 ltac:(lia)). unfold has_modes in Hm.
  unfold check_step. rewrite !get_ok by lia. cbn [rbind].
  assert (Rm := R l m B1 ltac:(lia)). unfold mode_at in Rm. rewrite <- !pos_eq in Rm. rewrite Rm at 1.
  set (z := Cscale (sgn m) _). replace (z - z)%C with C0 by (destruct z; cx). rewrite Cmod_0.
  destruct (Rltb_spec (3 / 10 ^ 16 + 1 / 10 ^ 15 * Cmod (nth (pos l (- m)) a C0)) 0) as [N|_].
  - exfalso. assert (0 <= Cmod (nth (pos l (- m)) a C0)) by apply sqrt_pos.
    assert (0 < 3 / 10 ^ 16) by (apply Rdiv_lt_0_compat; [lra|apply pow_lt; lra]).
    assert (0 < 1 / 10 ^ 15) by (apply Rdiv_lt_0_compat; [lra|apply pow_lt; lra]). nra.
  - cbn [rbind]. apply IH; [exact Hm|exact R|]. intros l' m' I. apply B. right. exact I.
Qed.

(** What is accepted is real to within the stated tolerance, and is used as it is for ell >= 2. *)
Theorem C28_grid_checked : forall e nt np k g, grid_process e nt np k = Ok g ->
  exists L, (1 <= L)%Z /\ has_modes (gp_super g) L /\ gp_ell_super g = L
  /\ forall l m, (2 <= l <= L)%Z -> (0 <= m <= l)%Z ->
       mode_at (gp_super g) l m = arg_mode k l m /\ mode_at (gp_super g) l (- m) = arg_mode k l (- m)
       /\ Cmod (mode_at (gp_super g) l m - Cscale (sgn m) (Conj (mode_at (gp_super g) l (- m))))%C
            <= 3 / 10 ^ 16 + 1 / 10 ^ 15 * Cmod (mode_at (gp_super g) l (- m)).
Proof.
  intros e nt np k g H. unfold grid_process in H.
  destruct (read_super check_reality (k_super k)) as [a|] eqn:E1; [|discriminate]. cbn [rbind] in H.
  destruct (override k a) as [[a' s]|] eqn:E2; [|discriminate]. cbn [rbind] in H.
  destruct (Z.ltb _ _); [discriminate|]. destruct (Z.ltb _ _); [discriminate|].
  destruct (read_rotation _) as [q|]; [|discriminate]. destruct (read_boost _) as [v|]; [|discriminate].
  cbn [rbind] in H. injection H as <-. cbn [gp_super gp_ell_super].
  unfold read_super in E1. unfold arg_mode. destruct (k_super k) as [b|].
  - destruct (complete (pad4 b)) eqn:Cp; [|discriminate]. apply complete_spec in Cp. destruct Cp as (L & HL & Hm & El).
    unfold check_reality in E1. rewrite El in E1. destruct (check_fold _ _ _ E1) as [-> S].
    destruct (pad4_spec b) as (P & _ & _ & N).
    destruct (override_spec k (pad4 b) a' s P E2) as (Len & J & _).
    exists L. split; [unfold has_modes in Hm; nia|]. split; [unfold has_modes; rewrite Len; exact Hm|]. split; [exact El|].
    intros l m Hl Hmm. unfold mode_at. rewrite !J by nia. rewrite !N. split; [reflexivity|]. split; [reflexivity|].
    assert (P1 := pos_lt l m L ltac:(lia) ltac:(lia)). assert (P2 := pos_lt l (- m) L ltac:(lia) ltac:(lia)). unfold has_modes in Hm.
    assert (I : In (l, m) (nonneg_modes L)) by (apply nonneg_modes_In; lia).
    specialize (S l m I ltac:(lia) ltac:(lia)). rewrite !pos_eq, !N in S. exact S.
  - injection E1 as <-. exists 1%Z. split; [lia|].
    destruct (override_spec k [C0; C0; C0; C0] a' s (le_n 4) E2) as (Len & _).
    split; [unfold has_modes; rewrite Len; reflexivity|]. split; [reflexivity|]. intros; lia.
Qed.

(** Sizes: what is not given follows from the input and from the largest ell of the supertranslation, and sizes too
    small for the input are rejected. *)
Theorem C28_sizes : forall e k p, abd_process e k = Ok p ->
  exists L, (1 <= L)%Z /\ has_modes (p_super p) L
  /\ p_working p = match k_working_ell_max k with Some w => w | None => (2 * e + L)%Z end
  /\ p_output p = match k_output_ell_max k with Some o => o | None => e end
  /\ (e <= p_working p)%Z.
Proof.
  intros e k p H. destruct (C28_real e k p H) as (L & HL & Hm & _). apply abd_process_inv in H.
  destruct H as (a & s & E1 & E2 & _ & _ & W & Wp & Op). exists L. split; [exact HL|]. split; [exact Hm|].
  assert (X : match k_super k with None => 1%Z | Some _ => ell_max_of a end = L).
  { assert (Len : length (p_super p) = length a).
    { assert (H4 : (4 <= length a)%nat).
      { unfold read_super in E1. destruct (k_super k) as [b|]; [|injection E1 as <-; cbn; lia].
        destruct (complete (pad4 b)) eqn:Cp; [|discriminate]. apply complete_spec in Cp. destruct Cp as (L' & HL' & Hm' & _).
        destruct (impose_reality_spec _ L' HL' Hm') as (a0 & E & Hm0 & _). rewrite E in E1. injection E1 as <-.
        destruct (pad4_spec b) as [P _]. unfold has_modes in *. lia. }
      destruct (override_spec k a (p_super p) s H4 E2) as [-> _]. reflexivity. }
    destruct (k_super k) as [b|].
    - apply ell_max_of_has; [lia|]. unfold has_modes in *. rewrite <- Len. exact Hm.
    - unfold read_super in E1. injection E1 as <-. unfold has_modes in Hm. rewrite Len in Hm. cbn in Hm. nia. }
  rewrite X in Wp. unfold dflt in *. auto.
Qed.
Theorem C28_grid_sizes : forall e nt np k g, grid_process e nt np k = Ok g ->
  exists L, (1 <= L)%Z /\ has_modes (gp_super g) L /\ gp_ell_max g = (e + L)%Z
  /\ gp_theta g = match nt with Some n => n | None => (2 * (e + L) + 1)%Z end
  /\ gp_phi g = match np with Some n => n | None => (2 * (e + L) + 1)%Z end
  /\ (2 * e + 1 <= gp_theta g)%Z /\ (2 * e + 1 <= gp_phi g)%Z
  /\ forall n, (n < 2 * e + 1)%Z -> grid_process e (Some n) np k = Err ValueError /\ grid_process e nt (Some n) k = Err ValueError.
Proof.
  intros e nt np k g H. destruct (C28_grid_checked e nt np k g H) as (L & HL & Hm & El & _). exists L. split; [exact HL|]. split; [exact Hm|].
  revert H. unfold grid_process.
  destruct (read_super check_reality (k_super k)) as [a|] eqn:E1; [|discriminate]. cbn [rbind].
  destruct (override k a) as [[a' s]|] eqn:E2; [|discriminate]. cbn [rbind]. intro H.
  destruct (Z.ltb_spec (dflt (2 * (e + match k_super k with None => 1 | Some _ => ell_max_of a end) + 1) nt) (2 * e + 1))%Z as [|T1]; [discriminate|].
  destruct (Z.ltb_spec (dflt (2 * (e + match k_super k with None => 1 | Some _ => ell_max_of a end) + 1) np) (2 * e + 1))%Z as [|T2]; [discriminate|].
  destruct (read_rotation _) as [q|]; [|discriminate]. destruct (read_boost _) as [v|]; [|discriminate].
  cbn [rbind] in H. injection H as <-. cbn [gp_ell_super gp_ell_max gp_theta gp_phi] in *. rewrite El in *. unfold dflt in *.
  split; [reflexivity|]. split; [reflexivity|]. split; [reflexivity|]. split; [exact T1|]. split; [exact T2|].
  intros n Hn. rewrite (proj2 (Z.ltb_lt n (2 * e + 1)) Hn). split; [reflexivity|].
  destruct (Z.ltb_spec (match nt with Some x => x | None => (2 * (e + L) + 1)%Z end) (2 * e + 1))%Z; reflexivity.
Qed.

(** For real arguments both entry points use the same supertranslation. *)
Theorem C28_agree : forall e e' nt np k g p,
  grid_process e nt np k = Ok g -> abd_process e' k = Ok p ->
  (forall a, k_super k = Some a -> is_real (pad4 a) (ell_max_of (pad4 a))) ->
  gp_super g = p_super p /\ gp_rotation g = p_rotation p /\ gp_boost g = p_boost p.
Proof.
  intros e e' nt np k g p Hg Hp R. apply abd_process_inv in Hp. destruct Hp as (b & sb & F1 & F2 & F3 & F4 & _).
  unfold grid_process in Hg.
  destruct (read_super check_reality (k_super k)) as [a|] eqn:E1; [|discriminate]. cbn [rbind] in Hg.
  assert (a = b).
  { unfold read_super in E1, F1. destruct (k_super k) as [c|]; [|congruence].
    destruct (complete (pad4 c)) eqn:Cp; [|discriminate]. apply complete_spec in Cp. destruct Cp as (L & HL & Hm & El).
    specialize (R c eq_refl). rewrite El in R.
    unfold check_reality in E1. destruct (check_fold _ _ _ E1) as [-> _].
    destruct (impose_reality_spec _ L HL Hm) as (b' & Eb & Hm' & S). rewrite Eb in F1. injection F1 as <-.
    apply (modes_ext _ _ L HL Hm Hm'). intros. rewrite S by assumption. symmetry. eapply real_part_id; eassumption. }
  subst b. rewrite F2 in Hg. cbn [rbind] in Hg.
  destruct (Z.ltb _ _); [discriminate|]. destruct (Z.ltb _ _); [discriminate|].
  rewrite F3, F4 in Hg. cbn [rbind] in Hg. injection Hg as <-. auto.
Qed.

(** For an argument that is not real the two entry points disagree: one discards the imaginary part, the other raises. *)
Theorem C28_imaginary_refuted : exists k p, abd_process 2 k = Ok p /\ mode_at (p_super p) 0 0 = C0
  /\ grid_process 2 None None k = Err ValueError.
Proof.
  exists (mkkw (Some [Ci]) None None None None None None None).
  destruct (proj2 (C28_accepted 2 (mkkw (Some [Ci]) None None None None None None None) ltac:(lia) eq_refl)) as [p E].
  { split; [split; [|split; [|split]]|split]; cbn [k_super k_spacetime k_space k_time k_rotation k_boost].
    - intros a Ea. injection Ea as <-. left. cbn. lia.
    - discriminate.
    - discriminate.
    - discriminate.
    - unfold read_rotation. cbn [quat_of]. destruct (Rltb_spec (qabs (mkq 1 0 0 0)) (3 / 10 ^ 16)) as [N|_]; [|eexists; reflexivity].
      exfalso. unfold qabs, qnorm2 in N. cbn in N. replace (1 * 1 + 0 * 0 + 0 * 0 + 0 * 0) with 1 in N by ring. rewrite sqrt_1 in N. lra.
    - unfold read_boost. cbn [vec3_of]. destruct (Rleb_spec 1 (norm3 (0, 0, 0))) as [N|_]; [|eexists; reflexivity].
      exfalso. unfold norm3 in N. replace (0 * 0 + 0 * 0 + 0 * 0) with 0 in N by ring. rewrite sqrt_0 in N. lra. }
  exists p. split; [exact E|]. split.
  - destruct (C28_precedence _ _ _ E) as (L & _ & _ & _ & T & _). rewrite T. cbn. unfold arg_real_part, arg_mode, mode_at, sgn. cbn. cx.
  - unfold grid_process, read_super. cbn [k_super].
    assert (Cp : complete (pad4 [Ci]) = true) by reflexivity. rewrite Cp. unfold check_reality.
    change (ell_max_of (pad4 [Ci])) with 1%Z. change (nonneg_modes 1) with ((0, 0) :: [(1, 0); (1, 1)])%Z.
    cbn [fold_res]. unfold check_step at 1. change (pos 0 0) with 0%nat. change (pos 0 (- 0)) with 0%nat.
    cbn [get pad4 length Nat.leb app nth_error rbind]. unfold sgn. cbn [Z.even].
    assert (M1 : Cmod Ci = 1). { unfold Cmod, norm2, Ci. cbn. replace (0 * 0 + 1 * 1) with 1 by ring. apply sqrt_1. }
    assert (M2 : Cmod (Ci - Cscale 1 (Conj Ci))%C = 2).
    { unfold Cmod, norm2, Ci. cbn. match goal with |- sqrt ?x = 2 => replace x with (2 * 2) by ring end. apply sqrt_square. lra. }
    rewrite M1, M2. destruct (Rltb_spec (3 / 10 ^ 16 + 1 / 10 ^ 15 * 1) 2) as [_|N]; [reflexivity|]. exfalso. apply N. lra.
Qed.

(** A time translation given as an integer is refused. *)
Theorem C28_integer_time_refuted : forall e k, k_time k = Some None -> forall p, abd_process e k <> Ok p.
Proof.
  intros e k H p E. apply abd_process_inv in E. destruct E as (a & s & E1 & E2 & _).
  assert (H4 : (4 <= length a)%nat) by (apply read_super_modes in E1; destruct E1 as (L & HL & Hm & _); unfold has_modes in Hm; nia).
  destruct (proj1 (override_ok k a H4) (ex_intro _ _ E2)) as (_ & _ & N). contradiction.
Qed.

(** Non-vacuity: a complex supertranslation with time and space overrides is accepted. *)
Example C28_case : exists p, abd_process 8 (mkkw (Some (repeat Ci 9)) (Some [1; 2; 3; 4]) None (Some (Some 5)) None None (Some [0; 2; 0; 0]) (Some [0; 0; 1 / 2])) = Ok p.
Proof.
  apply C28_accepted; [lia|reflexivity|].
  split; [split; [|split; [|split]]|split]; cbn [k_super k_spacetime k_space k_time k_rotation k_boost].
  - intros a Ea. injection Ea as <-. right. exists 2%Z. split; [lia|reflexivity].
  - intros v Ev. injection Ev as <-. reflexivity.
  - discriminate.
  - discriminate.
  - unfold read_rotation. cbn [quat_of]. destruct (Rltb_spec (qabs (mkq 0 2 0 0)) (3 / 10 ^ 16)) as [N|_]; [|eexists; reflexivity].
    exfalso. unfold qabs, qnorm2 in N. cbn [qw qx qy qz] in N. replace (0 * 0 + 2 * 2 + 0 * 0 + 0 * 0) with (2 * 2) in N by ring. rewrite sqrt_square in N by lra. lra.
  - unfold read_boost. cbn [vec3_of]. destruct (Rleb_spec 1 (norm3 (0, 0, 1 / 2))) as [N|_]; [|eexists; reflexivity].
    exfalso. unfold norm3 in N. replace (0 * 0 + 0 * 0 + 1 / 2 * (1 / 2)) with ((1 / 2) * (1 / 2)) in N by ring. rewrite sqrt_square in N by lra. lra.
Qed.

(** A vector is recovered from its modes, and a constant from its mode. *)
Theorem C28_vector_modes : forall x y z, vector_from_ell_1_modes (vector_as_ell_1_modes (x, y, z)) = (RtoC x, RtoC y, RtoC z).
Proof.
  intros x y z. unfold vector_from_ell_1_modes, vector_as_ell_1_modes. cbn [nth].
  assert (P : 0 < sqrt (2 * PI / 3)) by (apply sqrt_lt_R0; pose proof PI_RGT_0; lra).
  assert (Q : sqrt 2 * sqrt 2 = 2) by (apply sqrt_sqrt; lra).
  set (f := sqrt (2 * PI / 3)) in *. set (g := sqrt 2) in *.
  f_equal; [f_equal|]; apply C_eq; cbn; try (field; lra).
  replace (/ (2 * f) * (g * (f * (z * g)))) with (/ (2 * f) * (f * z * (g * g))) by ring. rewrite Q. field. lra.
Qed.
Theorem C28_constant_mode : forall c, constant_from_ell_0_mode (constant_as_ell_0_mode c) = RtoC c.
Proof.
  intros c. unfold constant_from_ell_0_mode, constant_as_ell_0_mode. assert (P : 0 < sqrt (4 * PI)) by (apply sqrt_lt_R0; pose proof PI_RGT_0; lra).
  apply C_eq; cbn; field; lra.
Qed.
