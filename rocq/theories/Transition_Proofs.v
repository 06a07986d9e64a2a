(** C26, C27: the transition and bump functions. *)
From Coq Require Import Reals ZArith List Lia Lra Bool.
From Verif Require Import Common Times_Model Times_Proofs Transition_Model.
Import ListNotations.
Open Scope R_scope.

(** * Specification *)
(** The smooth step: y0 up to x0, y1 from x1 on, y0 + (y1-y0)/(1+exp(1/tau - 1/(1-tau))) between,
    with the exponential cut off (to y0) where it would overflow. *)
Definition step_val (x0 x1 y0 y1 x : R) : R :=
  let tau := (x - x0) / (x1 - x0) in
  let e := / tau - / (1 - tau) in
  if Rle_dec maxexp e then y0 else y0 + (y1 - y0) / (1 + exp e).
Definition smooth_step (x0 x1 y0 y1 x : R) : R :=
  if Rle_dec x x0 then y0 else if Rlt_dec x x1 then step_val x0 x1 y0 y1 x else y1.
Definition smooth_bump (x0 x1 x2 x3 y0 y12 y3 x : R) : R :=
  if Rle_dec x x0 then y0 else if Rlt_dec x x1 then step_val x0 x1 y0 y12 x
  else if Rle_dec x x2 then y12 else if Rlt_dec x x3 then step_val x2 x3 y12 y3 x else y3.
Definition nondecreasing (l : list R) : Prop :=
  forall i j, (i <= j < length l)%nat -> nth i l 0 <= nth j l 0.

(** * Loops *)
Lemma skip_ok : forall p l, (exists v, In v l /\ p v = false) <-> (exists q, skip_while p l = Ok q).
Proof.
  intros p. induction l as [|a l IH]; simpl.
  - split; [intros (v & [] & _)|intros [q H]; discriminate].
  - destruct (p a) eqn:E.
    + split.
      * intros (v & [->|Hv] & Hp); [congruence|].
        destruct (proj1 IH (ex_intro _ v (conj Hv Hp))) as [q ->]. simpl. eauto.
      * intros [q H]. destruct (skip_while p l) as [q'|]; [|discriminate].
        destruct (proj2 IH (ex_intro _ q' eq_refl)) as (v & Hv & Hp). eauto.
    + split; [eauto|]. intros _. exists a. auto.
Qed.

Lemma skip_err : forall p l e, skip_while p l = Err e -> e = OutOfBounds.
Proof.
  intros p. induction l as [|a l IH]; simpl; intros e H; [congruence|].
  destruct (p a); [|discriminate]. destruct (skip_while p l); simpl in H; [discriminate|].
  injection H as <-. apply IH. reflexivity.
Qed.

Lemma skip_split : forall p l i r, skip_while p l = Ok (i, r) ->
  exists pre a r', l = pre ++ r /\ length pre = i /\ Forall (fun v => p v = true) pre /\ r = a :: r' /\ p a = false.
Proof.
  intros p. induction l as [|b l IH]; simpl; intros i r H; [discriminate|].
  destruct (p b) eqn:E.
  - destruct (skip_while p l) as [[i' r0]|] eqn:Es; [|discriminate]. simpl in H. injection H as <- <-.
    destruct (IH i' r0 eq_refl) as (pre & a & r' & -> & L & F & Hr & Ha).
    exists (b :: pre), a, r'. simpl. repeat split; auto.
  - injection H as <- <-. exists [], b, l. repeat split; auto.
Qed.

Lemma run_skip : forall p f l,
  run_while p f l = match skip_while p l with Ok (i, r) => Ok (map f (firstn i l), r) | Err e => Err e end.
Proof.
  intros p f. induction l as [|a l IH]; simpl; [reflexivity|].
  destruct (p a) eqn:E; [|reflexivity]. rewrite IH.
  destruct (skip_while p l) as [[i r]|]; reflexivity.
Qed.

Lemma run_split : forall p f l mid r, run_while p f l = Ok (mid, r) ->
  exists pre a r', l = pre ++ r /\ mid = map f pre /\ Forall (fun v => p v = true) pre /\ r = a :: r' /\ p a = false.
Proof.
  intros p f l mid r H. rewrite run_skip in H.
  destruct (skip_while p l) as [[i r0]|] eqn:E; [|discriminate]. injection H as <- <-.
  destruct (skip_split _ _ _ _ E) as (pre & a & r' & -> & <- & F & -> & Ha).
  exists pre, a, r'. rewrite firstn_app, firstn_all, Nat.sub_diag. simpl. rewrite app_nil_r. repeat split; auto.
Qed.

Lemma map_const : forall A (f : R -> A) l c, (forall v, In v l -> f v = c) -> map f l = repeat c (length l).
Proof.
  intros A f. induction l as [|a l IH]; intros c H; simpl; [reflexivity|].
  rewrite (H a) by (left; auto). f_equal. apply IH. intros v Hv. apply H. right; auto.
Qed.

Lemma trans_val_spec : forall x0 x1 y0 y1 x, trans_val x0 x1 y0 (y1 - y0) x = step_val x0 x1 y0 y1 x.
Proof.
  intros. unfold trans_val, step_val, exponent_at, Rleb.
  replace (1 / ((x - x0) / (x1 - x0)) - 1 / (1 - (x - x0) / (x1 - x0)))
    with (/ ((x - x0) / (x1 - x0)) - / (1 - (x - x0) / (x1 - x0))) by (unfold Rdiv; ring).
  destruct (Rle_dec _ _); reflexivity.
Qed.

Lemma nondec_app : forall a b, nondecreasing (a ++ b) ->
  nondecreasing a /\ nondecreasing b /\ (forall u v, In u a -> In v b -> u <= v).
Proof.
  intros a b H. split; [|split].
  - intros i j Hij. specialize (H i j). rewrite app_length in H. specialize (H ltac:(lia)).
    rewrite !app_nth1 in H by lia. exact H.
  - intros i j Hij. specialize (H (length a + i)%nat (length a + j)%nat). rewrite app_length in H.
    specialize (H ltac:(lia)). rewrite !app_nth2_plus in H. exact H.
  - intros u v Hu Hv. apply (In_nth _ _ 0) in Hu, Hv. destruct Hu as (i & Hi & <-). destruct Hv as (j & Hj & <-).
    specialize (H i (length a + j)%nat). rewrite app_length in H. specialize (H ltac:(lia)).
    rewrite app_nth1 in H by lia. rewrite app_nth2_plus in H. exact H.
Qed.

Lemma nondec_head : forall a l v, nondecreasing (a :: l) -> In v (a :: l) -> a <= v.
Proof.
  intros a l v H Hv. apply (In_nth _ _ 0) in Hv. destruct Hv as (i & Hi & <-).
  exact (H 0%nat i ltac:(simpl in *; lia)).
Qed.

Ltac rcases := repeat match goal with
  | |- context [Rle_dec ?a ?b] => destruct (Rle_dec a b)
  | |- context [Rlt_dec ?a ?b] => destruct (Rlt_dec a b)
  end; try (exfalso; lra); try reflexivity.

(** * C26 *)
(** On sorted samples, transition_function samples the smooth step, and the two indices delimit the
    constant parts. *)
Theorem C26_transition : forall x x0 x1 y0 y1 out i0 i1, nondecreasing x ->
  transition_function x x0 x1 y0 y1 = Ok (out, i0, i1) ->
  out = map (smooth_step x0 x1 y0 y1) x
  /\ (i0 <= i1 < length x)%nat
  /\ (forall k, (k < i0)%nat -> nth k out 0 = y0)
  /\ (forall k, (i1 <= k < length x)%nat -> nth k out 0 = y1)
  /\ (forall k, (k < length x)%nat -> ((k < i0)%nat <-> nth k x 0 <= x0))
  /\ (x0 <= x1 -> forall k, (k < length x)%nat -> ((k < i1)%nat <-> (nth k x 0 < x1 \/ nth k x 0 <= x0))).
Proof.
  intros x x0 x1 y0 y1 out i0 i1 Hx H. unfold transition_function in H.
  destruct (skip_while (fun v => Rleb v x0) x) as [[j0 r]|] eqn:E1; [|discriminate]. cbn [rbind] in H.
  destruct (run_while _ _ r) as [[mid r']|] eqn:E2; [|discriminate]. cbn [rbind] in H.
  destruct (skip_split _ _ _ _ E1) as (pre & a & ra & -> & <- & F1 & Hr & Ha).
  destruct (run_split _ _ _ _ _ E2) as (pre2 & b & rb & -> & -> & F2 & Hr' & Hb).
  injection H as <- <- <-. rewrite Forall_forall in F1, F2.
  apply nondec_app in Hx as HH. destruct HH as (_ & N2 & C12).
  apply nondec_app in N2 as HH. destruct HH as (N3 & N4 & C23).
  assert (P1 : forall v, In v pre -> v <= x0).
  { intros v Hv. specialize (F1 v Hv). simpl in F1. destruct (Rleb_spec v x0); [assumption|discriminate]. }
  assert (P2 : forall v, In v (pre2 ++ r') -> x0 < v).
  { intros v Hv. rewrite Hr in *. pose proof (nondec_head _ _ _ N2 Hv).
    destruct (Rleb_spec a x0); [discriminate|lra]. }
  assert (P3 : forall v, In v pre2 -> v < x1).
  { intros v Hv. specialize (F2 v Hv). simpl in F2. destruct (Rltb_spec v x1); [assumption|discriminate]. }
  assert (P4 : forall v, In v r' -> x1 <= v).
  { intros v Hv. rewrite Hr' in *. pose proof (nondec_head _ _ _ N4 Hv).
    destruct (Rltb_spec b x1); [discriminate|lra]. }
  rewrite map_length.
  assert (Eout : repeat y0 (length pre) ++ map (trans_val x0 x1 y0 (y1 - y0)) pre2 ++ repeat y1 (length r')
          = map (smooth_step x0 x1 y0 y1) (pre ++ pre2 ++ r')).
  { rewrite !map_app. f_equal; [|f_equal].
    - symmetry. apply map_const. intros v Hv. unfold smooth_step. specialize (P1 v Hv). rcases.
    - apply map_ext_in. intros v Hv. rewrite trans_val_spec. unfold smooth_step.
      specialize (P3 v Hv). pose proof (P2 v (in_or_app _ _ _ (or_introl Hv))). rcases.
    - symmetry. apply map_const. intros v Hv. unfold smooth_step.
      specialize (P4 v Hv). pose proof (P2 v (in_or_app _ _ _ (or_intror Hv))). rcases. }
  assert (Lr' : (0 < length r')%nat) by (rewrite Hr'; simpl; lia).
  rewrite !app_length.
  split; [exact Eout|]. split; [lia|].
  split; [|split; [|split]].
  - intros k Hk. rewrite app_nth1 by (rewrite repeat_length; lia).
    rewrite (nth_indep _ 0 y0) by (rewrite repeat_length; lia). apply nth_repeat.
  - intros k Hk. rewrite app_nth2 by (rewrite repeat_length; lia).
    rewrite app_nth2 by (rewrite repeat_length, map_length; lia).
    rewrite repeat_length, map_length. rewrite (nth_indep _ 0 y1) by (rewrite repeat_length; lia). apply nth_repeat.
  - intros k Hk. split.
    + intros L. rewrite app_nth1 by lia. apply P1. apply nth_In. lia.
    + intros L. destruct (lt_dec k (length pre)) as [|G]; [assumption|exfalso].
      rewrite app_nth2 in L by lia.
      assert (In (nth (k - length pre) (pre2 ++ r') 0) (pre2 ++ r')) as I by (apply nth_In; rewrite app_length; lia).
      specialize (P2 _ I). lra.
  - intros Hle k Hk. split.
    + intros L. destruct (lt_dec k (length pre)) as [G|G].
      * right. rewrite app_nth1 by lia. apply P1. apply nth_In. lia.
      * left. rewrite app_nth2 by lia. rewrite app_nth1 by lia. apply P3. apply nth_In. lia.
    + intros L. destruct (lt_dec k (length pre + length pre2)) as [|G]; [assumption|exfalso].
      rewrite app_nth2 in L by lia. rewrite app_nth2 in L by lia.
      assert (In (nth (k - length pre - length pre2) r' 0) r') as I by (apply nth_In; lia).
      pose proof (P4 _ I). pose proof (P2 _ (in_or_app _ _ _ (or_intror I))). lra.
Qed.

(** The smooth step stays between its two values and is monotone. *)
Lemma tau_bounds : forall x0 x1 x, x0 < x < x1 -> 0 < (x - x0) / (x1 - x0) < 1.
Proof.
  intros x0 x1 x H. split; [apply Rdiv_lt_0_compat; lra|].
  apply Rmult_lt_reg_r with (x1 - x0); [lra|]. unfold Rdiv. rewrite Rmult_assoc, Rinv_l by lra. lra.
Qed.

Lemma exponent_decreasing : forall s t, 0 < s -> s <= t -> t < 1 -> / t - / (1 - t) <= / s - / (1 - s).
Proof.
  intros s t H0 Hst H1. assert (/ t <= / s) by (apply Rinv_le_contravar; lra).
  assert (/ (1 - s) <= / (1 - t)) by (apply Rinv_le_contravar; lra). lra.
Qed.

Lemma exp_le : forall a b, a <= b -> exp a <= exp b.
Proof. intros a b [H| ->]; [left; apply exp_increasing; assumption|lra]. Qed.

Lemma frac_bounds : forall e, 0 < / (1 + exp e) < 1.
Proof.
  intros e. pose proof (exp_pos e). split; [apply Rinv_0_lt_compat; lra|].
  rewrite <- Rinv_1. apply Rinv_lt_contravar; lra.
Qed.

(** Weight of y1, between 0 and 1. *)
Definition step_weight (x0 x1 x : R) : R := smooth_step x0 x1 0 1 x.

Lemma smooth_step_affine : forall x0 x1 y0 y1 x,
  smooth_step x0 x1 y0 y1 x = y0 + (y1 - y0) * step_weight x0 x1 x.
Proof.
  intros. unfold step_weight, smooth_step, step_val.
  destruct (Rle_dec x x0); [ring|]. destruct (Rlt_dec x x1); [|ring].
  destruct (Rle_dec maxexp _); [ring|]. unfold Rdiv. ring.
Qed.

Lemma weight_bounds : forall x0 x1 x, 0 <= step_weight x0 x1 x <= 1.
Proof.
  intros. unfold step_weight, smooth_step, step_val.
  destruct (Rle_dec x x0); [lra|]. destruct (Rlt_dec x x1); [|lra].
  destruct (Rle_dec maxexp _); [lra|].
  match goal with |- context [exp ?e] => pose proof (frac_bounds e) end. unfold Rdiv. lra.
Qed.

Lemma weight_mono : forall x0 x1 x x', x <= x' -> step_weight x0 x1 x <= step_weight x0 x1 x'.
Proof.
  intros x0 x1 x x' H. pose proof (weight_bounds x0 x1 x) as B. pose proof (weight_bounds x0 x1 x') as B'.
  unfold step_weight, smooth_step in *.
  destruct (Rle_dec x x0); [lra|]. destruct (Rle_dec x' x0); [exfalso; lra|].
  destruct (Rlt_dec x' x1); [|lra]. destruct (Rlt_dec x x1); [|exfalso; lra].
  unfold step_val in *.
  assert (T : 0 < (x - x0) / (x1 - x0) < 1) by (apply tau_bounds; lra).
  assert (T' : 0 < (x' - x0) / (x1 - x0) < 1) by (apply tau_bounds; lra).
  assert (TT : (x - x0) / (x1 - x0) <= (x' - x0) / (x1 - x0)).
  { unfold Rdiv. apply Rmult_le_compat_r; [left; apply Rinv_0_lt_compat; lra|lra]. }
  set (t := (x - x0) / (x1 - x0)) in *. set (t' := (x' - x0) / (x1 - x0)) in *.
  pose proof (exponent_decreasing t t' ltac:(lra) TT ltac:(lra)) as E.
  destruct (Rle_dec maxexp (/ t' - / (1 - t'))).
  - destruct (Rle_dec maxexp (/ t - / (1 - t))); lra.
  - destruct (Rle_dec maxexp (/ t - / (1 - t))); [lra|].
    apply exp_le in E. pose proof (exp_pos (/ t' - / (1 - t'))).
    assert (/ (1 + exp (/ t - / (1 - t))) <= / (1 + exp (/ t' - / (1 - t')))) by (apply Rinv_le_contravar; lra).
    unfold Rdiv. lra.
Qed.

Theorem C26_between_and_monotone : forall x0 x1 y0 y1 x x',
  Rmin y0 y1 <= smooth_step x0 x1 y0 y1 x <= Rmax y0 y1
  /\ (x <= x' -> y0 <= y1 -> smooth_step x0 x1 y0 y1 x <= smooth_step x0 x1 y0 y1 x')
  /\ (x <= x' -> y1 <= y0 -> smooth_step x0 x1 y0 y1 x' <= smooth_step x0 x1 y0 y1 x)
  /\ (x <= x0 -> smooth_step x0 x1 y0 y1 x = y0)
  /\ (x0 < x -> x1 <= x -> smooth_step x0 x1 y0 y1 x = y1).
Proof.
  intros x0 x1 y0 y1 x x'.
  pose proof (weight_bounds x0 x1 x) as B.
  split; [|split; [|split; [|split]]].
  - rewrite smooth_step_affine. unfold Rmin, Rmax. destruct (Rle_dec y0 y1); nra.
  - intros H Hy. rewrite !smooth_step_affine. pose proof (weight_mono x0 x1 x x' H). nra.
  - intros H Hy. rewrite !smooth_step_affine. pose proof (weight_mono x0 x1 x x' H). nra.
  - intros. unfold smooth_step. rcases.
  - intros. unfold smooth_step. rcases.
Qed.

(** bump_function samples the piecewise smooth bump. *)
Theorem C26_bump : forall x x0 x1 x2 x3 y0 y12 y3 out, nondecreasing x ->
  bump_function x x0 x1 x2 x3 y0 y12 y3 = Ok out ->
  out = map (smooth_bump x0 x1 x2 x3 y0 y12 y3) x.
Proof.
  intros x x0 x1 x2 x3 y0 y12 y3 out Hx H. unfold bump_function in H.
  destruct (skip_while (fun v => Rleb v x0) x) as [[j0 r0]|] eqn:E1; [|discriminate]. cbn [rbind] in H.
  destruct (run_while _ _ r0) as [[m1 r1]|] eqn:E2; [|discriminate]. cbn [rbind] in H.
  destruct (skip_while (fun v => Rleb v x2) r1) as [[k2 r2]|] eqn:E3; [|discriminate]. cbn [rbind] in H.
  destruct (run_while _ _ r2) as [[m3 r3]|] eqn:E4; [|discriminate]. cbn [rbind] in H. injection H as <-.
  destruct (skip_split _ _ _ _ E1) as (p1 & a1 & ra1 & -> & <- & F1 & Hr0 & Ha1).
  destruct (run_split _ _ _ _ _ E2) as (p2 & a2 & ra2 & -> & -> & F2 & Hr1 & Ha2).
  destruct (skip_split _ _ _ _ E3) as (p3 & a3 & ra3 & -> & <- & F3 & Hr2 & Ha3).
  destruct (run_split _ _ _ _ _ E4) as (p4 & a4 & ra4 & -> & -> & F4 & Hr3 & Ha4).
  rewrite Forall_forall in F1, F2, F3, F4.
  apply nondec_app in Hx as HH. destruct HH as (_ & N2 & _).
  apply nondec_app in N2 as HH. destruct HH as (_ & N3 & _).
  apply nondec_app in N3 as HH. destruct HH as (_ & N4 & _).
  apply nondec_app in N4 as HH. destruct HH as (_ & N5 & _).
  assert (P1 : forall v, In v p1 -> v <= x0).
  { intros v Hv. specialize (F1 v Hv). simpl in F1. destruct (Rleb_spec v x0); [assumption|discriminate]. }
  assert (Q1 : forall v, In v (p2 ++ p3 ++ p4 ++ r3) -> x0 < v).
  { intros v Hv. rewrite Hr0 in *. pose proof (nondec_head _ _ _ N2 Hv). destruct (Rleb_spec a1 x0); [discriminate|lra]. }
  assert (P2 : forall v, In v p2 -> v < x1).
  { intros v Hv. specialize (F2 v Hv). simpl in F2. destruct (Rltb_spec v x1); [assumption|discriminate]. }
  assert (Q2 : forall v, In v (p3 ++ p4 ++ r3) -> x1 <= v).
  { intros v Hv. rewrite Hr1 in *. pose proof (nondec_head _ _ _ N3 Hv). destruct (Rltb_spec a2 x1); [discriminate|lra]. }
  assert (P3 : forall v, In v p3 -> v <= x2).
  { intros v Hv. specialize (F3 v Hv). simpl in F3. destruct (Rleb_spec v x2); [assumption|discriminate]. }
  assert (Q3 : forall v, In v (p4 ++ r3) -> x2 < v).
  { intros v Hv. rewrite Hr2 in *. pose proof (nondec_head _ _ _ N4 Hv). destruct (Rleb_spec a3 x2); [discriminate|lra]. }
  assert (P4 : forall v, In v p4 -> v < x3).
  { intros v Hv. specialize (F4 v Hv). simpl in F4. destruct (Rltb_spec v x3); [assumption|discriminate]. }
  assert (Q4 : forall v, In v r3 -> x3 <= v).
  { intros v Hv. rewrite Hr3 in *. pose proof (nondec_head _ _ _ N5 Hv). destruct (Rltb_spec a4 x3); [discriminate|lra]. }
  clear Hr0 Hr1 Hr2 Hr3.
  rewrite !map_app. f_equal; [|f_equal; [|f_equal; [|f_equal]]].
  - symmetry. apply map_const. intros v Hv. unfold smooth_bump. specialize (P1 v Hv). rcases.
  - apply map_ext_in. intros v Hv. rewrite trans_val_spec. unfold smooth_bump.
    specialize (P2 v Hv). specialize (Q1 v ltac:(rewrite !in_app_iff; auto)). rcases.
  - symmetry. apply map_const. intros v Hv. unfold smooth_bump. specialize (P3 v Hv).
    specialize (Q1 v ltac:(rewrite !in_app_iff; auto)). specialize (Q2 v ltac:(rewrite !in_app_iff; auto)). rcases.
  - apply map_ext_in. intros v Hv. rewrite trans_val_spec. unfold smooth_bump. specialize (P4 v Hv).
    specialize (Q1 v ltac:(rewrite !in_app_iff; auto)). specialize (Q2 v ltac:(rewrite !in_app_iff; auto)).
    specialize (Q3 v ltac:(rewrite !in_app_iff; auto)). rcases.
  - symmetry. apply map_const. intros v Hv. unfold smooth_bump. specialize (Q4 v Hv).
    specialize (Q1 v ltac:(rewrite !in_app_iff; auto)). specialize (Q2 v ltac:(rewrite !in_app_iff; auto)).
    specialize (Q3 v ltac:(rewrite !in_app_iff; auto)). rcases.
Qed.

(** The documented plateaus. *)
Theorem C26_bump_plateaus : forall x0 x1 x2 x3 y0 y12 y3 x, x0 < x1 -> x1 <= x2 -> x2 < x3 ->
  (x <= x0 -> smooth_bump x0 x1 x2 x3 y0 y12 y3 x = y0)
  /\ (x1 <= x <= x2 -> smooth_bump x0 x1 x2 x3 y0 y12 y3 x = y12)
  /\ (x3 <= x -> smooth_bump x0 x1 x2 x3 y0 y12 y3 x = y3)
  /\ (x0 <= x <= x1 -> Rmin y0 y12 <= smooth_bump x0 x1 x2 x3 y0 y12 y3 x <= Rmax y0 y12)
  /\ (x2 <= x <= x3 -> Rmin y12 y3 <= smooth_bump x0 x1 x2 x3 y0 y12 y3 x <= Rmax y12 y3).
Proof.
  intros x0 x1 x2 x3 y0 y12 y3 x H01 H12 H23.
  assert (MM : forall a b, Rmin a b <= a <= Rmax a b /\ Rmin a b <= b <= Rmax a b).
  { intros a b. unfold Rmin, Rmax. destruct (Rle_dec a b); lra. }
  pose proof (C26_between_and_monotone x0 x1 y0 y12 x x) as (B1 & _).
  pose proof (C26_between_and_monotone x2 x3 y12 y3 x x) as (B2 & _).
  unfold smooth_step in *. unfold smooth_bump.
  split; [|split; [|split; [|split]]]; intros H; rcases;
    repeat match goal with
    | B : context [Rle_dec ?a ?b] |- _ => destruct (Rle_dec a b); try (exfalso; lra)
    | B : context [Rlt_dec ?a ?b] |- _ => destruct (Rlt_dec a b); try (exfalso; lra)
    end; try assumption; apply MM.
Qed.

(** * Derivative *)
Lemma derivable_pt_lim_ext' : forall f g x l, (forall v, g v = f v) ->
  derivable_pt_lim f x l -> derivable_pt_lim g x l.
Proof.
  intros f g x l E H eps He. destruct (H eps He) as [d Hd]. exists d. intros h H0 H1.
  rewrite !E. apply Hd; assumption.
Qed.

Lemma step_derivative : forall x0 x1 y0 yd x, x0 < x < x1 ->
  let tau := (x - x0) / (x1 - x0) in
  let e := exp (1 / tau - 1 / (1 - tau)) in
  derivable_pt_lim (fun v => y0 + yd / (1 + exp (exponent_at x0 x1 v))) x
    (- yd * e * (- 1 / tau ^ 2 - 1 / (1 - tau) ^ 2) * (1 / (x1 - x0)) / (1 + e) ^ 2).
Proof.
  intros x0 x1 y0 yd x H tau e.
  pose proof (tau_bounds _ _ _ H) as T. fold tau in T.
  assert (Dt : derivable_pt_lim (fun v => (v - x0) / (x1 - x0)) x (1 / (x1 - x0))).
  { unfold Rdiv. replace (1 * / (x1 - x0)) with ((1 - 0) * / (x1 - x0) + (x - x0) * 0) by ring.
    apply (derivable_pt_lim_mult (fun v => v - x0) (fun _ => / (x1 - x0))).
    - apply (derivable_pt_lim_minus id (fct_cte x0)); [apply derivable_pt_lim_id|apply derivable_pt_lim_const].
    - apply derivable_pt_lim_const. }
  set (d := 1 / (x1 - x0)) in *.
  assert (D1 : derivable_pt_lim (fun v => / ((v - x0) / (x1 - x0))) x (- d / tau ^ 2)).
  { replace (- d / tau ^ 2) with ((0 * tau - d * 1) / Rsqr tau) by (unfold Rsqr; field; lra).
    assert (K := derivable_pt_lim_div (fct_cte 1) (fun v => (v - x0) / (x1 - x0)) x 0 d
              (derivable_pt_lim_const 1 x) Dt). unfold fct_cte, div_fct in K.
    fold tau in K. specialize (K ltac:(lra)).
    eapply derivable_pt_lim_ext'; [|exact K]. intros v. unfold Rdiv. ring. }
  assert (D2 : derivable_pt_lim (fun v => / (1 - (v - x0) / (x1 - x0))) x (d / (1 - tau) ^ 2)).
  { replace (d / (1 - tau) ^ 2) with ((0 * (1 - tau) - (0 - d) * 1) / Rsqr (1 - tau)) by (unfold Rsqr; field; lra).
    assert (K := derivable_pt_lim_div (fct_cte 1) (fun v => 1 - (v - x0) / (x1 - x0)) x 0 (0 - d)
              (derivable_pt_lim_const 1 x)
              (derivable_pt_lim_minus (fct_cte 1) _ _ _ _ (derivable_pt_lim_const 1 x) Dt)).
    unfold fct_cte, div_fct in K. fold tau in K. specialize (K ltac:(lra)).
    eapply derivable_pt_lim_ext'; [|exact K]. intros v. unfold Rdiv. ring. }
  pose proof (derivable_pt_lim_minus _ _ _ _ _ D1 D2) as DE.
  pose proof (derivable_pt_lim_comp _ exp _ _ _ DE (derivable_pt_lim_exp _)) as DX.
  unfold comp, minus_fct in DX. fold tau in DX.
  replace (/ tau - / (1 - tau)) with (1 / tau - 1 / (1 - tau)) in DX by (unfold Rdiv; ring). fold e in DX.
  pose proof (derivable_pt_lim_plus (fct_cte 1) _ _ _ _ (derivable_pt_lim_const 1 x) DX) as DD.
  assert (Pe : 0 < e) by apply exp_pos.
  assert (DQ := derivable_pt_lim_div (fct_cte yd) _ _ _ _ (derivable_pt_lim_const yd x) DD).
  unfold plus_fct, fct_cte, div_fct in DQ. fold tau in DQ.
  replace (/ tau - / (1 - tau)) with (1 / tau - 1 / (1 - tau)) in DQ by (unfold Rdiv; ring). fold e in DQ.
  specialize (DQ ltac:(lra)).
  pose proof (derivable_pt_lim_plus (fct_cte y0) _ _ _ _ (derivable_pt_lim_const y0 x) DQ) as DF.
  unfold plus_fct, fct_cte in DF.
  match type of DF with derivable_pt_lim _ _ ?l =>
    replace (- yd * e * (- 1 / tau ^ 2 - 1 / (1 - tau) ^ 2) * d / (1 + e) ^ 2) with l end.
  - eapply derivable_pt_lim_ext'; [|exact DF]. intros v. unfold exponent_at. unfold Rdiv.
    rewrite !Rmult_1_l. reflexivity.
  - unfold Rsqr. field. repeat split; lra.
Qed.

Lemma derivable_pt_lim_local : forall f g a b x l, a < x < b -> (forall v, a < v < b -> g v = f v) ->
  derivable_pt_lim f x l -> derivable_pt_lim g x l.
Proof.
  intros f g a b x l Hx E H eps He. destruct (H eps He) as [d Hd].
  assert (P : 0 < Rmin d (Rmin (x - a) (b - x))).
  { pose proof (cond_pos d). repeat apply Rmin_pos; lra. }
  exists (mkposreal _ P). simpl. intros h H0 H1.
  assert (Rabs h < d /\ Rabs h < x - a /\ Rabs h < b - x) as (A1 & A2 & A3).
  { pose proof (Rmin_l d (Rmin (x - a) (b - x))). pose proof (Rmin_r d (Rmin (x - a) (b - x))).
    pose proof (Rmin_l (x - a) (b - x)). pose proof (Rmin_r (x - a) (b - x)). lra. }
  assert (- (x - a) < h < b - x) by (unfold Rabs in *; destruct (Rcase_abs h); lra).
  rewrite !E by lra. apply Hd; assumption.
Qed.

(** The derivative the code computes, as a function of one sample. *)
Definition step_slope (x0 x1 y0 y1 x : R) : R :=
  if Rle_dec x x0 then 0 else if Rlt_dec x x1 then trans_deriv x0 x1 (y1 - y0) x else 0.

Lemma exponent_at_alt : forall x0 x1 x,
  exponent_at x0 x1 x = / ((x - x0) / (x1 - x0)) - / (1 - (x - x0) / (x1 - x0)).
Proof. intros. unfold exponent_at, Rdiv. ring. Qed.

Lemma exponent_at_mono : forall x0 x1 a x, x0 < a -> a <= x -> x < x1 -> exponent_at x0 x1 x <= exponent_at x0 x1 a.
Proof.
  intros x0 x1 a x H0 H H1. rewrite !exponent_at_alt.
  apply exponent_decreasing.
  - apply tau_bounds; lra.
  - unfold Rdiv. apply Rmult_le_compat_r; [left; apply Rinv_0_lt_compat; lra|lra].
  - apply tau_bounds; lra.
Qed.

Lemma exponent_cont : forall x0 x1 x, x0 < x < x1 -> continuity_pt (exponent_at x0 x1) x.
Proof.
  intros x0 x1 x H. pose proof (tau_bounds _ _ _ H) as T.
  assert (CT : continuity_pt (fun v => (v - x0) / (x1 - x0)) x).
  { unfold Rdiv. apply (continuity_pt_mult (fun v => v - x0) (fun _ => / (x1 - x0))).
    - apply (continuity_pt_minus id (fct_cte x0)); [apply derivable_continuous_pt, derivable_pt_id|
        apply continuity_pt_const; intros u v; reflexivity].
    - apply continuity_pt_const. intros u v; reflexivity. }
  assert (C1 : continuity_pt (fun v => / ((v - x0) / (x1 - x0))) x).
  { apply (continuity_pt_inv (fun v => (v - x0) / (x1 - x0))); [exact CT|lra]. }
  assert (C2 : continuity_pt (fun v => / (1 - (v - x0) / (x1 - x0))) x).
  { apply (continuity_pt_inv (fun v => 1 - (v - x0) / (x1 - x0))); [|lra].
    apply (continuity_pt_minus (fct_cte 1)); [apply continuity_pt_const; intros u v; reflexivity|exact CT]. }
  pose proof (continuity_pt_minus _ _ _ C1 C2) as C.
  intros eps He. destruct (C eps He) as (d & Hd & K). exists d. split; [exact Hd|].
  intros v Hv. rewrite !exponent_at_alt. apply (K v Hv).
Qed.

(** Away from the two ends and the overflow cutoff, the slope is the derivative of the step. *)
Theorem C26_slope_is_derivative : forall x0 x1 y0 y1 x, x <> x0 -> x <> x1 ->
  (x0 < x < x1 -> / ((x - x0) / (x1 - x0)) - / (1 - (x - x0) / (x1 - x0)) <> maxexp) ->
  derivable_pt_lim (smooth_step x0 x1 y0 y1) x (step_slope x0 x1 y0 y1 x).
Proof.
  intros x0 x1 y0 y1 x N0 N1 NM. unfold step_slope.
  destruct (Rle_dec x x0) as [L0|L0].
  { apply derivable_pt_lim_local with (f := fct_cte y0) (a := x - 1) (b := x0); [lra| |apply derivable_pt_lim_const].
    intros v Hv. unfold smooth_step, fct_cte. rcases. }
  destruct (Rlt_dec x x1) as [L1|L1].
  2:{ apply derivable_pt_lim_local with (f := fct_cte y1) (a := Rmax x0 x1) (b := x + 1).
      - split; [apply Rmax_lub_lt; lra|lra].
      - intros v Hv. pose proof (Rmax_l x0 x1). pose proof (Rmax_r x0 x1). unfold smooth_step, fct_cte. rcases.
      - apply derivable_pt_lim_const. }
  assert (H : x0 < x < x1) by lra. specialize (NM H).
  rewrite <- exponent_at_alt in NM.
  assert (SV : forall v, x0 < v < x1 -> smooth_step x0 x1 y0 y1 v = trans_val x0 x1 y0 (y1 - y0) v).
  { intros v Hv. rewrite trans_val_spec. unfold smooth_step. rcases. }
  unfold trans_deriv, Rleb.
  destruct (Rle_dec maxexp (exponent_at x0 x1 x)) as [M|M].
  - (* above the cutoff: locally constant *)
    destruct (exponent_cont x0 x1 x H (exponent_at x0 x1 x - maxexp) ltac:(lra)) as (d & Hd & K).
    apply derivable_pt_lim_local with (f := fct_cte y0) (a := x0) (b := Rmin x1 (x + d)).
    + split; [lra|]. apply Rmin_glb_lt; lra.
    + intros v Hv. pose proof (Rmin_l x1 (x + d)). pose proof (Rmin_r x1 (x + d)).
      rewrite SV by lra. unfold trans_val, fct_cte, Rleb.
      destruct (Rle_dec maxexp (exponent_at x0 x1 v)) as [|G]; [reflexivity|exfalso].
      destruct (Rle_dec v x) as [V|V].
      * pose proof (exponent_at_mono x0 x1 v x ltac:(lra) V ltac:(lra)). lra.
      * specialize (K v). simpl in K. unfold R_dist, D_x, no_cond in K.
        assert (KK : Rabs (exponent_at x0 x1 v - exponent_at x0 x1 x) < exponent_at x0 x1 x - maxexp).
        { apply K. split; [split; [exact I|lra]|]. rewrite Rabs_right by lra. lra. }
        unfold Rabs in KK. destruct (Rcase_abs _); lra.
    + apply derivable_pt_lim_const.
  - destruct (exponent_cont x0 x1 x H (maxexp - exponent_at x0 x1 x) ltac:(lra)) as (d & Hd & K).
    apply derivable_pt_lim_local with (f := fun v => y0 + (y1 - y0) / (1 + exp (exponent_at x0 x1 v)))
      (a := Rmax x0 (x - d)) (b := x1).
    + split; [|lra]. apply Rmax_lub_lt; lra.
    + intros v Hv. pose proof (Rmax_l x0 (x - d)). pose proof (Rmax_r x0 (x - d)).
      rewrite SV by lra. unfold trans_val, Rleb.
      destruct (Rle_dec maxexp (exponent_at x0 x1 v)) as [G|]; [exfalso|reflexivity].
      destruct (Rle_dec x v) as [V|V].
      * pose proof (exponent_at_mono x0 x1 x v ltac:(lra) V ltac:(lra)). lra.
      * specialize (K v). simpl in K. unfold R_dist, D_x, no_cond in K.
        assert (KK : Rabs (exponent_at x0 x1 v - exponent_at x0 x1 x) < maxexp - exponent_at x0 x1 x).
        { apply K. split; [split; [exact I|lra]|]. rewrite Rabs_left by lra. lra. }
        unfold Rabs in KK. destruct (Rcase_abs _); lra.
    + apply (step_derivative x0 x1 y0 (y1 - y0) x H).
Qed.

(** * Forward evaluation *)
Lemma skip_fwd : forall p pre a r, Forall (fun v => p v = true) pre -> p a = false ->
  skip_while p (pre ++ a :: r) = Ok (length pre, a :: r).
Proof.
  intros p. induction pre as [|b pre IH]; simpl; intros a r F Ha.
  - rewrite Ha. reflexivity.
  - inversion F; subst. rewrite H1, IH by assumption. reflexivity.
Qed.

Lemma run_fwd : forall p f pre a r, Forall (fun v => p v = true) pre -> p a = false ->
  run_while p f (pre ++ a :: r) = Ok (map f pre, a :: r).
Proof.
  intros. rewrite run_skip, skip_fwd by assumption.
  rewrite firstn_app, firstn_all, Nat.sub_diag. simpl. rewrite app_nil_r. reflexivity.
Qed.

Definition in_three (x0 x1 : R) (a b c : list R) : Prop :=
  (forall v, In v a -> v <= x0) /\ (forall v, In v b -> x0 < v < x1) /\ (forall v, In v c -> x0 < v /\ x1 <= v)
  /\ c <> [].

Lemma three_loops : forall x0 x1 f a b c, in_three x0 x1 a b c ->
  exists r, skip_while (fun v => Rleb v x0) (a ++ b ++ c) = Ok (length a, r)
       /\ run_while (fun v => Rltb v x1) f r = Ok (map f b, c).
Proof.
  intros x0 x1 f a b c (Ha & Hb & Hc & Hn).
  exists (b ++ c). destruct c as [|c0 c]; [congruence|].
  assert (Fa : Forall (fun v => Rleb v x0 = true) a).
  { apply Forall_forall. intros v Hv. specialize (Ha v Hv). destruct (Rleb_spec v x0); [reflexivity|lra]. }
  assert (Fb : Forall (fun v => Rltb v x1 = true) b).
  { apply Forall_forall. intros v Hv. specialize (Hb v Hv). destruct (Rltb_spec v x1); [reflexivity|lra]. }
  split.
  - destruct b as [|b0 b].
    + simpl app. apply skip_fwd; [exact Fa|]. specialize (Hc c0 (or_introl eq_refl)).
      destruct (Rleb_spec c0 x0); [lra|reflexivity].
    + simpl app. apply skip_fwd; [exact Fa|]. specialize (Hb b0 (or_introl eq_refl)).
      destruct (Rleb_spec b0 x0); [lra|reflexivity].
  - apply run_fwd; [exact Fb|]. specialize (Hc c0 (or_introl eq_refl)).
    destruct (Rltb_spec c0 x1); [lra|reflexivity].
Qed.

Lemma transition_three : forall x0 x1 y0 y1 a b c, in_three x0 x1 a b c ->
  transition_function (a ++ b ++ c) x0 x1 y0 y1
  = Ok (repeat y0 (length a) ++ map (trans_val x0 x1 y0 (y1 - y0)) b ++ repeat y1 (length c),
        length a, (length a + length b)%nat).
Proof.
  intros x0 x1 y0 y1 a b c H. unfold transition_function.
  destruct (three_loops x0 x1 (trans_val x0 x1 y0 (y1 - y0)) a b c H) as (r & -> & E). cbn [rbind].
  rewrite E. cbn [rbind]. rewrite map_length. reflexivity.
Qed.

Lemma derivative_three : forall x0 x1 y0 y1 a b c, in_three x0 x1 a b c ->
  transition_function_derivative (a ++ b ++ c) x0 x1 y0 y1
  = Ok (repeat 0 (length a) ++ map (trans_deriv x0 x1 (y1 - y0)) b ++ repeat 0 (length c)).
Proof.
  intros x0 x1 y0 y1 a b c H. unfold transition_function_derivative.
  destruct (three_loops x0 x1 (trans_deriv x0 x1 (y1 - y0)) a b c H) as (r & -> & E). cbn [rbind].
  rewrite E. reflexivity.
Qed.

Lemma three_of_sorted : forall x x0 x1, nondecreasing x ->
  (exists v, In v x /\ x0 < v /\ x1 <= v) ->
  exists a b c, x = a ++ b ++ c /\ in_three x0 x1 a b c.
Proof.
  intros x x0 x1 Hx (v & Hv & V0 & V1).
  assert (S1 : exists q, skip_while (fun v => Rleb v x0) x = Ok q).
  { apply skip_ok. exists v. split; [exact Hv|]. destruct (Rleb_spec v x0); [lra|reflexivity]. }
  destruct S1 as [[i r] E1]. destruct (skip_split _ _ _ _ E1) as (a & a0 & r0 & -> & _ & F1 & Hr & Ha0).
  rewrite Forall_forall in F1.
  assert (P1 : forall v, In v a -> v <= x0).
  { intros w Hw. specialize (F1 w Hw). simpl in F1. destruct (Rleb_spec w x0); [assumption|discriminate]. }
  apply nondec_app in Hx as HH. destruct HH as (_ & N2 & _).
  assert (P2 : forall v, In v r -> x0 < v).
  { intros w Hw. rewrite Hr in *. pose proof (nondec_head _ _ _ N2 Hw). destruct (Rleb_spec a0 x0); [discriminate|lra]. }
  assert (Hvr : In v r). { apply in_app_or in Hv. destruct Hv as [Hv|Hv]; [specialize (P1 v Hv); lra|exact Hv]. }
  assert (S2 : exists q, skip_while (fun v => Rltb v x1) r = Ok q).
  { apply skip_ok. exists v. split; [exact Hvr|]. destruct (Rltb_spec v x1); [lra|reflexivity]. }
  destruct S2 as [[j s] E2]. destruct (skip_split _ _ _ _ E2) as (b & b0 & s0 & -> & _ & F2 & Hs & Hb0).
  rewrite Forall_forall in F2. apply nondec_app in N2 as HH. destruct HH as (_ & N3 & _).
  exists a, b, s. split; [reflexivity|]. split; [exact P1|split; [|split]].
  - intros w Hw. split; [apply P2, in_or_app; auto|]. specialize (F2 w Hw). simpl in F2.
    destruct (Rltb_spec w x1); [assumption|discriminate].
  - intros w Hw. split; [apply P2, in_or_app; auto|]. rewrite Hs in *. pose proof (nondec_head _ _ _ N3 Hw).
    destruct (Rltb_spec b0 x1); [discriminate|lra].
  - rewrite Hs. discriminate.
Qed.

(** transition_function_derivative samples the slope. *)
Theorem C26_derivative : forall x x0 x1 y0 y1 out, nondecreasing x ->
  transition_function_derivative x x0 x1 y0 y1 = Ok out ->
  out = map (step_slope x0 x1 y0 y1) x.
Proof.
  intros x x0 x1 y0 y1 out Hx H.
  assert (X : exists v, In v x /\ x0 < v /\ x1 <= v).
  { unfold transition_function_derivative in H.
    destruct (skip_while (fun v => Rleb v x0) x) as [[j0 r]|] eqn:E1; [|discriminate]. cbn [rbind] in H.
    destruct (run_while _ _ r) as [[mid r']|] eqn:E2; [|discriminate].
    destruct (skip_split _ _ _ _ E1) as (pre & a & ra & -> & _ & _ & Hr & Ha).
    destruct (run_split _ _ _ _ _ E2) as (pre2 & b & rb & -> & _ & _ & -> & Hb).
    apply nondec_app in Hx as HH. destruct HH as (_ & N2 & _).
    exists b. split; [rewrite !in_app_iff; simpl; auto|]. rewrite Hr in N2.
    assert (In b (a :: ra)) as Ib by (rewrite <- Hr, in_app_iff; simpl; auto).
    pose proof (nondec_head _ _ _ N2 Ib). destruct (Rleb_spec a x0); [discriminate|].
    destruct (Rltb_spec b x1); [discriminate|lra]. }
  destruct (three_of_sorted x x0 x1 Hx X) as (a & b & c & -> & T).
  rewrite derivative_three in H by assumption. injection H as <-.
  destruct T as (Ta & Tb & Tc & _).
  rewrite !map_app. f_equal; [|f_equal].
  - symmetry. apply map_const. intros v Hv. unfold step_slope. specialize (Ta v Hv). rcases.
  - apply map_ext_in. intros v Hv. unfold step_slope. specialize (Tb v Hv). rcases.
  - symmetry. apply map_const. intros v Hv. unfold step_slope. specialize (Tc v Hv). rcases.
Qed.

(** * C27: exactly when the index loops stay inside the array *)
Definition has_above (x0 x1 : R) (x : list R) : Prop :=
  (* some sample beyond x0, and from there on some sample at or beyond x1 *)
  exists i j, (i <= j < length x)%nat /\ x0 < nth i x 0 /\ (forall k, (k < i)%nat -> nth k x 0 <= x0) /\ x1 <= nth j x 0.

Lemma nth_app_at : forall (pre : list R) a r, nth (length pre) (pre ++ a :: r) 0 = a.
Proof. intros. rewrite app_nth2, Nat.sub_diag by lia. reflexivity. Qed.

Lemma loops_iff : forall f x0 x1 x,
  (exists q, rbind (skip_while (fun v => Rleb v x0) x)
     (fun p => run_while (fun v => Rltb v x1) f (snd p)) = Ok q) <-> has_above x0 x1 x.
Proof.
  intros f x0 x1 x. split.
  - intros [q H]. destruct (skip_while _ x) as [[i r]|] eqn:E1; [|discriminate]. cbn [rbind snd] in H.
    destruct q as [mid r']. destruct (skip_split _ _ _ _ E1) as (pre & a & ra & -> & Li & F1 & Hr & Ha).
    destruct (run_split _ _ _ _ _ H) as (pre2 & b & rb & Er & _ & _ & Hr' & Hb).
    exists (length pre), (length pre + length pre2)%nat. rewrite Forall_forall in F1.
    assert (L : length r = (length pre2 + S (length rb))%nat) by (rewrite Er, Hr', app_length; simpl; lia).
    rewrite app_length. split; [lia|]. split; [|split].
    + rewrite Hr, nth_app_at. destruct (Rleb_spec a x0); [discriminate|lra].
    + intros k Hk. rewrite app_nth1 by lia. specialize (F1 (nth k pre 0) (nth_In _ _ Hk)). simpl in F1.
      destruct (Rleb_spec (nth k pre 0) x0); [assumption|discriminate].
    + rewrite app_nth2_plus, Er, Hr', nth_app_at. destruct (Rltb_spec b x1); [discriminate|lra].
  - intros (i & j & Hij & Hi & Hk & Hj).
    assert (S1 : skip_while (fun v => Rleb v x0) x = Ok (i, skipn i x)).
    { assert (E : x = firstn i x ++ nth i x 0 :: skipn (S i) x).
      { rewrite <- (firstn_skipn i x) at 1. f_equal. clear - Hij. assert (L : (i < length x)%nat) by lia. clear Hij.
        revert i L. induction x as [|a x IH]; intros i L; simpl in L; [lia|]. destruct i; [reflexivity|].
        simpl. rewrite IH by lia. reflexivity. }
      assert (Ei : skipn i x = nth i x 0 :: skipn (S i) x).
      { pose proof (firstn_skipn i x) as F. rewrite E in F at 3. apply app_inv_head in F. exact F. }
      rewrite E at 1. rewrite skip_fwd.
      - rewrite firstn_length, Nat.min_l by lia. rewrite <- Ei. reflexivity.
      - apply Forall_forall. intros v Hv. apply (In_nth _ _ 0) in Hv. destruct Hv as (k & Lk & <-).
        rewrite firstn_length, Nat.min_l in Lk by lia. rewrite nth_firstn_lt by lia.
        specialize (Hk k Lk). destruct (Rleb_spec (nth k x 0) x0); [reflexivity|lra].
      - destruct (Rleb_spec (nth i x 0) x0); [lra|reflexivity]. }
    rewrite S1. cbn [rbind snd]. rewrite run_skip.
    destruct (proj1 (skip_ok (fun v => Rltb v x1) (skipn i x))) as [[k r] ->]; [|eauto].
    exists (nth j x 0). split.
    + replace j with (i + (j - i))%nat by lia. rewrite <- nth_skipn. apply nth_In. rewrite skipn_length. lia.
    + destruct (Rltb_spec (nth j x 0) x1); [lra|reflexivity].
Qed.

(** Both functions read inside the array exactly when some sample is beyond x0 and, from the first such
    sample on, some sample is at or beyond x1.  Nothing is assumed of x. *)
Theorem C27_in_bounds_iff : forall x x0 x1 y0 y1,
  ((exists r, transition_function x x0 x1 y0 y1 = Ok r) <-> has_above x0 x1 x)
  /\ ((exists r, transition_function_derivative x x0 x1 y0 y1 = Ok r) <-> has_above x0 x1 x)
  /\ (~ has_above x0 x1 x -> transition_function x x0 x1 y0 y1 = Err OutOfBounds
        /\ transition_function_derivative x x0 x1 y0 y1 = Err OutOfBounds).
Proof.
  intros x x0 x1 y0 y1.
  assert (A : (exists r, transition_function x x0 x1 y0 y1 = Ok r) <-> has_above x0 x1 x).
  { rewrite <- (loops_iff (trans_val x0 x1 y0 (y1 - y0))). unfold transition_function.
    destruct (skip_while _ x) as [[i r]|]; cbn [rbind snd]; [|split; intros [q H]; discriminate].
    destruct (run_while _ _ r) as [[m r']|]; cbn [rbind]; [split; eauto|split; intros [q H]; discriminate]. }
  assert (B : (exists r, transition_function_derivative x x0 x1 y0 y1 = Ok r) <-> has_above x0 x1 x).
  { rewrite <- (loops_iff (trans_deriv x0 x1 (y1 - y0))). unfold transition_function_derivative.
    destruct (skip_while _ x) as [[i r]|]; cbn [rbind snd]; [|split; intros [q H]; discriminate].
    destruct (run_while _ _ r) as [[m r']|]; cbn [rbind]; [split; eauto|split; intros [q H]; discriminate]. }
  split; [exact A|split; [exact B|]]. intros N. split.
  - destruct (transition_function x x0 x1 y0 y1) as [q|e] eqn:E; [exfalso; apply N, A; eauto|].
    unfold transition_function in E. destruct (skip_while _ x) as [[i r]|e'] eqn:E1; cbn [rbind] in E.
    + rewrite run_skip in E. destruct (skip_while _ r) as [[j r']|e'] eqn:E2; cbn [rbind] in E; [discriminate|].
      apply skip_err in E2. congruence.
    + apply skip_err in E1. congruence.
  - destruct (transition_function_derivative x x0 x1 y0 y1) as [q|e] eqn:E; [exfalso; apply N, B; eauto|].
    unfold transition_function_derivative in E. destruct (skip_while _ x) as [[i r]|e'] eqn:E1; cbn [rbind] in E.
    + rewrite run_skip in E. destruct (skip_while _ r) as [[j r']|e'] eqn:E2; cbn [rbind] in E; [discriminate|].
      apply skip_err in E2. congruence.
    + apply skip_err in E1. congruence.
Qed.

(** For sorted samples the condition only concerns the last one. *)
Theorem C27_sorted : forall x x0 x1 y0 y1, nondecreasing x ->
  ((exists r, transition_function x x0 x1 y0 y1 = Ok r)
   <-> (x <> [] /\ x0 < nth (length x - 1) x 0 /\ x1 <= nth (length x - 1) x 0)).
Proof.
  intros x x0 x1 y0 y1 Hx. split.
  - intros H. apply (proj1 (C27_in_bounds_iff x x0 x1 y0 y1)) in H.
    destruct H as (i & j & Hij & Hi & _ & Hj). split; [intros ->; simpl in Hij; lia|].
    pose proof (Hx i (length x - 1)%nat ltac:(lia)). pose proof (Hx j (length x - 1)%nat ltac:(lia)). lra.
  - intros (Hn & H0 & H1).
    destruct (three_of_sorted x x0 x1 Hx) as (a & b & c & -> & T).
    + exists (nth (length x - 1) x 0). split; [|lra]. apply nth_In. destruct x; [congruence|simpl; lia].
    + rewrite transition_three by assumption. eauto.
Qed.

Lemma last_nth : forall (l : list R) k, length l = S k -> last l 0 = nth k l 0.
Proof.
  induction l as [|x l IH]; intros k L; [discriminate|].
  destruct l as [|y l]; [simpl in L; assert (k = 0%nat) as -> by lia; reflexivity|].
  destruct k as [|k]; [simpl in L; lia|].
  change (last (x :: y :: l) 0) with (last (y :: l) 0). simpl nth. apply IH. simpl in *. lia.
Qed.

(** The bump function on sorted samples: only the last sample matters. *)
Theorem C27_bump_sorted : forall x x0 x1 x2 x3 y0 y12 y3, nondecreasing x -> x <> [] ->
  x0 < nth (length x - 1) x 0 -> x1 <= nth (length x - 1) x 0 ->
  x2 < nth (length x - 1) x 0 -> x3 <= nth (length x - 1) x 0 ->
  exists out, bump_function x x0 x1 x2 x3 y0 y12 y3 = Ok out.
Proof.
  intros x x0 x1 x2 x3 y0 y12 y3 Hx Hn H0 H1 H2 H3. unfold bump_function.
  set (lst := nth (length x - 1) x 0) in *.
  assert (L0 : last x 0 = lst).
  { unfold lst. apply last_nth. destruct x; [congruence|simpl; lia]. }
  assert (Step : forall p l, last l 0 = lst -> l <> [] -> p lst = false ->
     exists i r, skip_while p l = Ok (i, r) /\ last r 0 = lst /\ r <> []).
  { intros p l Hl Hln Hp. destruct (proj1 (skip_ok p l)) as [[i r] E].
    - exists lst. split; [|exact Hp]. rewrite <- Hl. destruct l as [|a0 l0]; [congruence|].
      rewrite (app_removelast_last 0 Hln) at 2. apply in_or_app. right. left. reflexivity.
    - exists i, r. split; [exact E|]. destruct (skip_split _ _ _ _ E) as (pre & a & r' & -> & _ & _ & -> & _).
      split; [|discriminate]. rewrite <- Hl. clear. induction pre as [|b pre IH]; [reflexivity|].
      rewrite IH. simpl. destruct (pre ++ a :: r') eqn:Q; [destruct pre; discriminate|reflexivity]. }
  destruct (Step (fun v => Rleb v x0) x L0 Hn) as (i & r0 & -> & Lr0 & N0);
    [destruct (Rleb_spec lst x0); [lra|reflexivity]|]. cbn [rbind]. rewrite run_skip.
  destruct (Step (fun v => Rltb v x1) r0 Lr0 N0) as (i1 & r1 & -> & Lr1 & N1);
    [destruct (Rltb_spec lst x1); [lra|reflexivity]|]. cbn [rbind].
  destruct (Step (fun v => Rleb v x2) r1 Lr1 N1) as (i2 & r2 & -> & Lr2 & N2);
    [destruct (Rleb_spec lst x2); [lra|reflexivity]|]. cbn [rbind]. rewrite run_skip.
  destruct (Step (fun v => Rltb v x3) r2 Lr2 N2) as (i3 & r3 & -> & _ & _);
    [destruct (Rltb_spec lst x3); [lra|reflexivity]|]. cbn [rbind]. eauto.
Qed.

(** A series ending before the transition does makes the loop read past the end. *)
Theorem C27_short_series_refuted :
  exists x x0 x1, nondecreasing x /\ x0 < x1 /\ x <> []
    /\ transition_function x x0 x1 0 1 = Err OutOfBounds.
Proof.
  exists [0; 1], 0, 2. split; [|split; [lra|split; [discriminate|]]].
  - intros i j H. simpl in H. destruct i as [|[|i]], j as [|[|j]]; simpl; try lra; lia.
  - apply C27_in_bounds_iff. intros (i & j & Hij & _ & _ & Hj). simpl in Hij.
    destruct j as [|[|j]]; simpl in Hj; [lra|lra|lia].
Qed.

(** * transition_to_constant *)
Section ToConst.
  Variable II : list R -> list R -> list R.
  Hypothesis II_length : forall f t, length f = length t -> length (II f t) = length t.

  Lemma map2_app : forall A B D (f : A -> B -> D) a b a' b', length a = length b ->
    map2 f (a ++ a') (b ++ b') = map2 f a b ++ map2 f a' b'.
  Proof.
    intros A B D f. unfold map2. induction a as [|x a IH]; intros [|y b] a' b' H; simpl in *; try lia; [reflexivity|].
    f_equal. apply IH. lia.
  Qed.
  Lemma map2_length : forall A B D (f : A -> B -> D) a b, length a = length b -> length (map2 f a b) = length a.
  Proof. intros. unfold map2. rewrite map_length, combine_length. lia. Qed.

  Lemma map2_mul_repeat : forall f (c : R), map2 Rmult f (repeat c (length f)) = map (fun v => v * c) f.
  Proof. intros f c. unfold map2. induction f as [|a f IH]; simpl; [reflexivity|]. f_equal. exact IH. Qed.

  (** The complete output, segment by segment: unchanged before t1, f times the falling step minus the
      running integral of f times its slope inside, and the value reached there afterwards (0 if no
      sample precedes t2). *)
  Theorem C26_to_constant : forall fa fb fc a b c t1 t2, in_three t1 t2 a b c ->
    length fa = length a -> length fb = length b -> length fc = length c ->
    let mid := map2 Rminus (map2 Rmult fb (map (smooth_step t1 t2 1 0) b))
                 (II (map2 Rmult fb (map (step_slope t1 t2 1 0) b)) b) in
    transition_to_constant II (fa ++ fb ++ fc) (a ++ b ++ c) t1 t2
    = Ok (fa ++ mid ++ repeat (last (fa ++ mid) 0) (length c)).
  Proof.
    intros fa fb fc a b c t1 t2 T La Lb Lc mid.
    assert (Es : map (smooth_step t1 t2 1 0) b = map (trans_val t1 t2 1 (0 - 1)) b).
    { apply map_ext_in. intros v Hv. rewrite trans_val_spec. unfold smooth_step.
      destruct T as (_ & Tb & _). specialize (Tb v Hv). rcases. }
    assert (Ed : map (step_slope t1 t2 1 0) b = map (trans_deriv t1 t2 (0 - 1)) b).
    { apply map_ext_in. intros v Hv. unfold step_slope.
      destruct T as (_ & Tb & _). specialize (Tb v Hv). rcases. }
    unfold transition_to_constant. rewrite transition_three, derivative_three by assumption. cbn [rbind].
    set (tr := map (trans_val t1 t2 1 (0 - 1)) b) in *. set (td := map (trans_deriv t1 t2 (0 - 1)) b) in *.
    assert (Ltr : length tr = length b) by (unfold tr; apply map_length).
    assert (Ltd : length td = length b) by (unfold td; apply map_length).
    assert (Eg : map2 Rmult (fa ++ fb ++ fc) (repeat 1 (length a) ++ tr ++ repeat 0 (length c))
                 = fa ++ map2 Rmult fb tr ++ repeat 0 (length c)).
    { rewrite map2_app by (rewrite repeat_length; lia). rewrite map2_app by lia.
      rewrite <- La, <- Lc, !map2_mul_repeat. f_equal.
      - rewrite <- (map_id fa) at 2. apply map_ext. intros; ring.
      - f_equal. apply map_const. intros; ring. }
    rewrite Eg.
    replace (length a + length b - length a)%nat with (length b) by lia.
    assert (Seg : forall A (u v w : list A), length u = length a -> length v = length b ->
              firstn (length b) (skipn (length a) (u ++ v ++ w)) = v).
    { intros A u v w Lu Lv. rewrite <- Lu, skipn_app, skipn_all, Nat.sub_diag. simpl.
      rewrite <- Lv, firstn_app, firstn_all, Nat.sub_diag. simpl. apply app_nil_r. }
    assert (Lm : length (map2 Rmult fb tr) = length b) by (rewrite map2_length; lia).
    rewrite !Seg by (rewrite ?repeat_length; lia).
    assert (Emid : map2 Rminus (map2 Rmult fb tr) (II (map2 Rmult fb td) b) = mid)
      by (unfold mid; rewrite Es, Ed; reflexivity).
    rewrite Emid.
    assert (Lmid : length mid = length b).
    { rewrite <- Emid, map2_length; [exact Lm|]. rewrite Lm, II_length; [reflexivity|]. rewrite map2_length; lia. }
    assert (Efa : firstn (length a) (fa ++ map2 Rmult fb tr ++ repeat 0 (length c)) = fa).
    { rewrite <- La, firstn_app, firstn_all, Nat.sub_diag. simpl. apply app_nil_r. }
    assert (Esk : skipn (length a + length b) (fa ++ map2 Rmult fb tr ++ repeat 0 (length c)) = repeat 0 (length c)).
    { rewrite app_assoc, skipn_app, skipn_all2 by (rewrite app_length; lia). simpl.
      replace (length a + length b - length (fa ++ map2 Rmult fb tr))%nat with 0%nat by (rewrite app_length; lia).
      reflexivity. }
    rewrite Efa, Esk. f_equal.
    replace (length (fa ++ mid ++ repeat 0%R (length c)) - (length a + length b))%nat with (length c)
      by (rewrite !app_length, repeat_length; lia).
    assert (Ef : firstn (length a + length b) (fa ++ mid ++ repeat 0 (length c)) = fa ++ mid).
    { rewrite app_assoc. replace (length a + length b)%nat with (length (fa ++ mid)) by (rewrite app_length; lia).
      rewrite firstn_app, firstn_all, Nat.sub_diag. simpl. apply app_nil_r. }
    rewrite Ef, <- app_assoc. f_equal. f_equal. f_equal.
    destruct (length a + length b)%nat as [|k] eqn:Ek.
    - assert (fa = []) as -> by (destruct fa; [reflexivity|simpl in *; lia]).
      assert (mid = []) as -> by (destruct mid; [reflexivity|simpl in *; lia]). simpl.
      destruct T as (_ & _ & _ & Tn). destruct c as [|c0 c]; [congruence|]. simpl length.
      clear. induction (length c) as [|n IH]; [reflexivity|]. exact IH.
    - rewrite app_assoc. assert (Lfm : length (fa ++ mid) = S k) by (rewrite app_length; lia).
      rewrite app_nth1 by lia. symmetry. apply last_nth. exact Lfm.
  Qed.

  (** In user's terms. *)
  Theorem C26_to_constant_ends : forall f t t1 t2 out, nondecreasing t -> length f = length t ->
    transition_to_constant II f t t1 t2 = Ok out ->
    length out = length t
    /\ (forall k, (k < length t)%nat -> nth k t 0 <= t1 -> nth k out 0 = nth k f 0)
    /\ (forall j k, (j < length t)%nat -> (k < length t)%nat -> t1 < nth j t 0 -> t2 <= nth j t 0 ->
         t1 < nth k t 0 -> t2 <= nth k t 0 -> nth j out 0 = nth k out 0)
    /\ (forall k, (S k < length t)%nat -> t1 < nth (S k) t 0 -> t2 <= nth (S k) t 0 -> nth (S k) out 0 = nth k out 0).
  Proof.
    intros f t t1 t2 out Ht Lf H.
    assert (X : has_above t1 t2 t).
    { apply (proj1 (C27_in_bounds_iff t t1 t2 1 0)). unfold transition_to_constant in H.
      destruct (transition_function t t1 t2 1 0) as [q|]; [eauto|discriminate]. }
    destruct (three_of_sorted t t1 t2 Ht) as (a & b & c & -> & T).
    { destruct X as (i & j & Hij & Hi & _ & Hj). exists (nth j t 0). split; [apply nth_In; lia|].
      pose proof (Ht i j ltac:(lia)). lra. }
    rewrite !app_length in Lf.
    set (fa := firstn (length a) f). set (fb := firstn (length b) (skipn (length a) f)).
    set (fc := skipn (length b) (skipn (length a) f)).
    assert (Ef : f = fa ++ fb ++ fc).
    { unfold fa, fb, fc. rewrite firstn_skipn, firstn_skipn. reflexivity. }
    assert (La : length fa = length a) by (unfold fa; rewrite firstn_length; lia).
    assert (Lb : length fb = length b) by (unfold fb; rewrite firstn_length, skipn_length; lia).
    assert (Lc : length fc = length c) by (unfold fc; rewrite !skipn_length; lia).
    clearbody fa fb fc. subst f.
    pose proof (C26_to_constant fa fb fc a b c t1 t2 T La Lb Lc) as E. cbv zeta in E. rewrite E in H. clear E.
    set (mid := map2 Rminus _ _) in H.
    assert (Lmid : length mid = length b).
    { unfold mid. rewrite !map2_length; rewrite ?map_length; try lia.
      rewrite II_length; rewrite !map2_length; rewrite ?map_length; lia. }
    clearbody mid. injection H as <-. set (z := last (fa ++ mid) 0).
    assert (AfterC : forall k, (k < length (a ++ b ++ c))%nat -> t1 < nth k (a ++ b ++ c) 0 -> t2 <= nth k (a ++ b ++ c) 0 ->
       (length a + length b <= k)%nat).
    { intros k Hk K1 K2. destruct T as (Ta & Tb & _ & _). destruct (le_dec (length a + length b) k); [assumption|exfalso].
      destruct (lt_dec k (length a)).
      - rewrite app_nth1 in K1 by lia. specialize (Ta _ (nth_In a 0 l)). lra.
      - rewrite app_nth2 in K2 by lia. rewrite app_nth1 in K2 by lia.
        assert (kb : (k - length a < length b)%nat) by lia. specialize (Tb _ (nth_In b 0 kb)). lra. }
    assert (ValC : forall k, (length a + length b <= k < length (a ++ b ++ c))%nat ->
       nth k (fa ++ mid ++ repeat z (length c)) 0 = z).
    { intros k Hk. rewrite !app_length in Hk. rewrite app_nth2 by lia. rewrite app_nth2 by lia.
      rewrite (nth_indep _ 0 z) by (rewrite repeat_length; lia). apply nth_repeat. }
    split; [|split; [|split]].
    - rewrite !app_length, repeat_length. lia.
    - intros k Hk K. destruct T as (Ta & Tb & Tc & _).
      assert (k < length a)%nat.
      { destruct (lt_dec k (length a)); [assumption|exfalso]. rewrite !app_length in Hk.
        rewrite app_nth2 in K by lia. destruct (lt_dec (k - length a) (length b)).
        - rewrite app_nth1 in K by lia. specialize (Tb _ (nth_In b 0 l)). lra.
        - rewrite app_nth2 in K by lia. assert (kc : (k - length a - length b < length c)%nat) by lia.
          specialize (Tc _ (nth_In c 0 kc)). lra. }
      rewrite !app_nth1 by lia. reflexivity.
    - intros j k Hj Hk J1 J2 K1 K2. pose proof (AfterC j Hj J1 J2). pose proof (AfterC k Hk K1 K2).
      rewrite !ValC by lia. reflexivity.
    - intros k Hk K1 K2. pose proof (AfterC (S k) Hk K1 K2). rewrite (ValC (S k)) by lia.
      destruct (le_dec (length a + length b) k); [rewrite ValC by lia; reflexivity|].
      assert (Ek : (length (fa ++ mid) = S k)%nat) by (rewrite app_length; lia).
      rewrite app_assoc, app_nth1 by lia. unfold z.
      apply last_nth. exact Ek.
  Qed.
End ToConst.

(** * Concrete cases *)
Lemma maxexp_pos : 0 < maxexp.
Proof.
  unfold maxexp. assert (0 < ln 2) by (rewrite <- ln_1; apply ln_increasing; lra). lra.
Qed.

Example C26_case : transition_function [0; 1; 2; 3; 4] 1 3 5 7 = Ok ([5; 5; 6; 7; 7], 2%nat, 3%nat)
  /\ in_three 1 3 [0; 1] [2] [3; 4] /\ nondecreasing [0; 1; 2; 3; 4].
Proof.
  assert (T : in_three 1 3 [0; 1] [2] [3; 4]).
  { repeat split; try discriminate; intros; simpl in *;
      repeat match goal with H : _ \/ _ |- _ => destruct H | H : False |- _ => destruct H end; subst; lra. }
  split; [|split; [exact T|]].
  - change [0; 1; 2; 3; 4] with ([0; 1] ++ [2] ++ [3; 4]). rewrite transition_three by exact T.
    simpl. unfold trans_val. replace (exponent_at 1 3 2) with 0 by (unfold exponent_at; field).
    pose proof maxexp_pos. destruct (Rleb_spec maxexp 0); [lra|]. rewrite exp_0.
    replace (5 + (7 - 5) / (1 + 1)) with 6 by field. reflexivity.
  - intros i j H. simpl in H. destruct i as [|[|[|[|[|i]]]]], j as [|[|[|[|[|j]]]]]; simpl; try lra; lia.
Qed.

(** The hypothesis on the integral is met, for instance, by running sums; f is kept up to t = 1, and frozen from t = 3. *)
Fixpoint running (acc : R) (f t : list R) : list R :=
  match f, t with a :: f', _ :: t' => acc :: running (acc + a) f' t' | _, _ => [] end.
Example C26_to_constant_case :
  (forall f t, length f = length t -> length (running 0 f t) = length t)
  /\ exists v, transition_to_constant (running 0) [8; 9; 4; 6; 7] [0; 1; 2; 3; 4] 1 3 = Ok [8; 9; v; v; v] /\ v = 2.
Proof.
  assert (L : forall f t acc, length f = length t -> length (running acc f t) = length t).
  { induction f as [|a f IH]; intros [|b t] acc H; simpl in *; try lia. rewrite IH; lia. }
  split; [intros; apply L; assumption|].
  destruct C26_case as (_ & T & _).
  change [8; 9; 4; 6; 7] with ([8; 9] ++ [4] ++ [6; 7]). change [0; 1; 2; 3; 4] with ([0; 1] ++ [2] ++ [3; 4]).
  rewrite (C26_to_constant (running 0) (fun f t => L f t 0)) by (try exact T; reflexivity).
  unfold map2. simpl. eexists. split; [reflexivity|].
  unfold smooth_step, step_val. rcases.
  - replace (/ ((2 - 1) / (3 - 1)) - / (1 - (2 - 1) / (3 - 1))) with 0 in * by field.
    exfalso. pose proof maxexp_pos. lra.
  - replace (/ ((2 - 1) / (3 - 1)) - / (1 - (2 - 1) / (3 - 1))) with 0 by field. rewrite exp_0. field.
Qed.

(** * Overflow *)
Lemma pow2_exp : forall k, powerRZ 2 k = exp (IZR k * ln 2).
Proof.
  intros k. destruct k as [|p|p]; cbn [powerRZ].
  - rewrite Rmult_0_l, exp_0. reflexivity.
  - rewrite <- Rpower_pow by lra. unfold Rpower. rewrite INR_IZR_INZ, positive_nat_Z. reflexivity.
  - rewrite <- Rpower_pow by lra. unfold Rpower. rewrite INR_IZR_INZ, positive_nat_Z.
    rewrite <- exp_Ropp. f_equal. change (Z.neg p) with (- Z.pos p)%Z. rewrite opp_IZR. ring.
Qed.
Lemma exp_pow : forall n x, exp x ^ n = exp (INR n * x).
Proof.
  induction n as [|n IH]; intros x; [simpl; rewrite Rmult_0_l, exp_0; reflexivity|].
  rewrite S_INR. cbn [pow]. rewrite IH, <- exp_plus. f_equal. ring.
Qed.
Lemma ln2_above : 69 / 100 < ln 2.
Proof.
  rewrite <- (ln_exp (69 / 100)). apply ln_increasing; [apply exp_pos|].
  assert (E : exp (69 / 100) = / (exp (- (69 / 12800)) ^ 128)).
  { rewrite exp_pow, <- exp_Ropp. f_equal. rewrite INR_IZR_INZ. simpl Z.of_nat. field. }
  rewrite E.
  assert (L : (1 - 69 / 12800) ^ 128 <= exp (- (69 / 12800)) ^ 128).
  { apply pow_incr. split; [lra|]. pose proof (exp_ineq1_le (- (69 / 12800))). lra. }
  assert (B : / 2 < (1 - 69 / 12800) ^ 128).
  { replace (1 - 69 / 12800) with (IZR 12731 / IZR 12800) by lra.
    unfold Rdiv. rewrite Rpow_mult_distr, pow_inv. rewrite !pow_IZR.
    apply (Rmult_lt_reg_r (IZR (12800 ^ Z.of_nat 128))); [apply IZR_lt; vm_compute; reflexivity|].
    rewrite Rmult_assoc, Rinv_l by (apply not_0_IZR; vm_compute; discriminate). rewrite Rmult_1_r.
    apply (Rmult_lt_reg_l 2); [lra|]. rewrite <- Rmult_assoc, Rinv_r, Rmult_1_l by lra.
    rewrite <- mult_IZR. apply IZR_lt. vm_compute. reflexivity. }
  rewrite <- (Rinv_inv 2). apply Rinv_lt_contravar; [|lra].
  apply Rmult_lt_0_compat; lra.
Qed.
Lemma ln2_below : ln 2 < 6947 / 10000.
Proof.
  rewrite <- (ln_exp (6947 / 10000)). apply ln_increasing; [lra|].
  assert (E : exp (6947 / 10000) = exp (6947 / 2560000) ^ 256).
  { rewrite exp_pow. f_equal. rewrite INR_IZR_INZ. simpl Z.of_nat. field. }
  rewrite E.
  apply (Rlt_le_trans _ ((1 + 6947 / 2560000) ^ 256)).
  2: { apply pow_incr. split; [lra|]. apply exp_ineq1_le. }
  replace (1 + 6947 / 2560000) with (IZR 2566947 / IZR 2560000) by lra.
  unfold Rdiv. rewrite Rpow_mult_distr, pow_inv. rewrite !pow_IZR.
  apply (Rmult_lt_reg_r (IZR (2560000 ^ Z.of_nat 256))); [apply IZR_lt; vm_compute; reflexivity|].
  rewrite Rmult_assoc, Rinv_l by (apply not_0_IZR; vm_compute; discriminate). rewrite Rmult_1_r.
  rewrite <- mult_IZR. apply IZR_lt. vm_compute. reflexivity.
Qed.
Lemma fl_fin : forall x, Rabs x < powerRZ 2 1024 -> fl_of x = FF x.
Proof.
  intros x H. apply Rabs_def2 in H. unfold fl_of.
  destruct (Rleb_spec (powerRZ 2 1024) x); [lra|]. destruct (Rleb_spec x (- powerRZ 2 1024)); [lra|reflexivity].
Qed.
Lemma fl_pinf : forall x, powerRZ 2 1024 <= x -> fl_of x = FInf false.
Proof. intros x H. unfold fl_of. destruct (Rleb_spec (powerRZ 2 1024) x); [reflexivity|lra]. Qed.
Lemma pow2_pos' : forall k, 0 < powerRZ 2 k.
Proof. intros. apply powerRZ_lt. lra. Qed.
Lemma pow2_lt' : forall a b, (a < b)%Z -> powerRZ 2 a < powerRZ 2 b.
Proof. intros a b H. rewrite !pow2_exp. apply exp_increasing. apply IZR_lt in H. pose proof ln2_above. nra. Qed.
Lemma pow2_add : forall a b, powerRZ 2 a * powerRZ 2 b = powerRZ 2 (a + b).
Proof. intros. rewrite powerRZ_add by lra. reflexivity. Qed.
Lemma pow2_twice : forall a, powerRZ 2 a * 2 = powerRZ 2 (a + 1).
Proof. intros. rewrite powerRZ_add by lra. simpl (powerRZ 2 1). ring. Qed.
Lemma fl_mul_fin : forall x y, Rabs (x * y) < powerRZ 2 1024 -> fl_mul (FF x) (FF y) = FF (x * y).
Proof. intros. apply fl_fin. assumption. Qed.
Lemma fl_mul_pinf : forall x y, powerRZ 2 1024 <= x * y -> fl_mul (FF x) (FF y) = FInf false.
Proof. intros. apply fl_pinf. assumption. Qed.
Lemma zerob_false : forall x, x <> 0 -> zerob x = false.
Proof. intros x H. unfold zerob. destruct (Req_EM_T x 0); [contradiction|reflexivity]. Qed.
Lemma fl_mul_inf : forall s x, x <> 0 -> fl_mul (FInf s) (FF x) = FInf (xorb s (Rltb x 0)).
Proof. intros. cbn [fl_mul]. rewrite zerob_false by assumption. reflexivity. Qed.

(** Where the exponential is evaluated it stays a factor 2^10 below the largest double, so neither it nor
    any of the sums overflows and the value is the exact one; where it is not evaluated, the amount
    neglected is below 2^-1013 of the step.  ([exponent_at] is the code's exponent; spelled out here.) *)
Theorem C26_value_overflow : forall x0 x1 y0 y1 x, x0 < x < x1 ->
  Rabs y0 <= powerRZ 2 1022 -> Rabs (y1 - y0) <= powerRZ 2 1022 ->
  let tau := (x - x0) / (x1 - x0) in
  let e := / tau - / (1 - tau) in
  (e < maxexp -> exp e < powerRZ 2 1014) /\
  (maxexp <= e -> Rabs ((y0 + (y1 - y0) / (1 + exp e)) - y0) <= Rabs (y1 - y0) * powerRZ 2 (- 1013)) /\
  trans_val_fl x0 x1 y0 (y1 - y0) x = FF (step_val x0 x1 y0 y1 x).
Proof.
  intros x0 x1 y0 y1 x Hx H0 Hd tau e.
  pose proof ln2_above. pose proof ln2_below.
  assert (P1 : e < maxexp -> exp e < powerRZ 2 1014).
  { intros L. rewrite pow2_exp. apply exp_increasing. unfold maxexp in L. lra. }
  split; [exact P1|split].
  - intros L. replace (y0 + (y1 - y0) / (1 + exp e) - y0) with ((y1 - y0) * / (1 + exp e)) by (field; pose proof (exp_pos e); lra).
    rewrite Rabs_mult. apply Rmult_le_compat_l; [apply Rabs_pos|].
    pose proof (exp_pos e). rewrite Rabs_pos_eq by (left; apply Rinv_0_lt_compat; lra).
    change (-1013)%Z with (- (1013))%Z. rewrite powerRZ_neg' . apply Rinv_le_contravar; [apply pow2_pos'|].
    apply (Rle_trans _ (exp e)); [|lra]. rewrite pow2_exp. left. apply exp_increasing. unfold maxexp in L. lra.
  - unfold trans_val_fl, step_val. fold tau. fold e.
    assert (Ee : exponent_at x0 x1 x = e) by (unfold exponent_at, e, Rdiv; fold tau; ring_simplify; reflexivity).
    rewrite Ee. destruct (Rleb_spec maxexp e); destruct (Rle_dec maxexp e); try lra; [reflexivity|].
    assert (L : e < maxexp) by lra. specialize (P1 L). pose proof (exp_pos e).
    assert (A1 : powerRZ 2 1014 < powerRZ 2 1022) by (apply pow2_lt'; lia).
    assert (A2 : powerRZ 2 1022 * 2 = powerRZ 2 1023).
    { rewrite pow2_twice. reflexivity. }
    assert (A3 : powerRZ 2 1023 < powerRZ 2 1024) by (apply pow2_lt'; lia).
    assert (A4 : 1 < powerRZ 2 1022) by (change 1 with (powerRZ 2 0) at 1; apply pow2_lt'; lia).
    unfold fl_exp. rewrite (fl_fin (exp e)) by (rewrite Rabs_pos_eq; lra). cbn [fl_add].
    rewrite (fl_fin (1 + exp e)) by (rewrite Rabs_pos_eq; lra). cbn [fl_div].
    rewrite zerob_false by lra.
    assert (B : Rabs ((y1 - y0) / (1 + exp e)) <= powerRZ 2 1022).
    { unfold Rdiv. rewrite Rabs_mult. rewrite (Rabs_pos_eq (/ (1 + exp e))) by (left; apply Rinv_0_lt_compat; lra).
      apply (Rle_trans _ (Rabs (y1 - y0) * 1)); [|lra]. apply Rmult_le_compat_l; [apply Rabs_pos|].
      rewrite <- Rinv_1. apply Rinv_le_contravar; lra. }
    rewrite fl_fin by lra. cbn [fl_add]. rewrite fl_fin; [reflexivity|].
    pose proof (Rabs_triang y0 ((y1 - y0) / (1 + exp e))). lra.
Qed.

(** The derivative is a number as long as none of the products above the fraction bar overflows, and then
    differs from the exact one by less than 2^-511 of the factors beside the exponential (the square
    below the bar may become infinite). *)
Theorem C26_derivative_overflow : forall x0 x1 y0 y1 x, x0 < x < x1 ->
  let tau := (x - x0) / (x1 - x0) in
  let e := / tau - / (1 - tau) in
  let b := / tau ^ 2 + / (1 - tau) ^ 2 in
  let a := Rabs (y1 - y0) in
  a * exp e < powerRZ 2 1023 -> a * exp e * b < powerRZ 2 1023 -> a * exp e * b / (x1 - x0) < powerRZ 2 1023 ->
  exists v, trans_deriv_fl x0 x1 (y1 - y0) x = FF v
    /\ Rabs (v - trans_deriv x0 x1 (y1 - y0) x) <= a * b / (x1 - x0) * powerRZ 2 (- 511).
Proof.
  intros x0 x1 y0 y1 x Hx tau e b a H1 H2 H3.
  set (d := y1 - y0) in *.
  pose proof (exp_pos e) as Pe. pose proof ln2_above. pose proof ln2_below.
  assert (Pt : 0 < tau < 1).
  { unfold tau. split; [apply Rdiv_lt_0_compat; lra|]. apply (Rmult_lt_reg_r (x1 - x0)); [lra|].
    unfold Rdiv. rewrite Rmult_assoc, Rinv_l by lra. lra. }
  assert (Pb : 0 < b).
  { unfold b. pose proof (pow_lt tau 2 ltac:(lra)). pose proof (pow_lt (1 - tau) 2 ltac:(lra)).
    pose proof (Rinv_0_lt_compat _ H4). pose proof (Rinv_0_lt_compat _ H5). lra. }
  assert (Pc : 0 < / (x1 - x0)) by (apply Rinv_0_lt_compat; lra).
  assert (Pa : 0 <= a) by apply Rabs_pos.
  assert (A3 : powerRZ 2 1023 < powerRZ 2 1024) by (apply pow2_lt'; lia).
  assert (Pm : 0 < powerRZ 2 (- 511)) by apply pow2_pos'.
  assert (Bnd : 0 <= a * b / (x1 - x0) * powerRZ 2 (- 511)).
  { unfold Rdiv. repeat apply Rmult_le_pos; lra. }
  assert (Ee : 1 / tau - 1 / (1 - tau) = e) by (unfold e, Rdiv; ring).
  assert (Eb : - 1 / tau ^ 2 - 1 / (1 - tau) ^ 2 = - b) by (unfold b, Rdiv; ring).
  assert (Ec : 1 / (x1 - x0) = / (x1 - x0)) by (unfold Rdiv; ring).
  assert (Ea : exponent_at x0 x1 x = e) by exact Ee.
  unfold trans_deriv_fl, trans_deriv. fold tau. rewrite Ea, Ee, Eb, Ec.
  destruct (Rleb_spec maxexp e) as [L|L].
  - exists 0. split; [reflexivity|]. rewrite Rminus_0_r, Rabs_R0. exact Bnd.
  - assert (P1 : exp e < powerRZ 2 1014) by (rewrite pow2_exp; apply exp_increasing; unfold maxexp in L; lra).
    assert (A1 : powerRZ 2 1014 < powerRZ 2 1023) by (apply pow2_lt'; lia).
    assert (A2 : powerRZ 2 1023 * 2 = powerRZ 2 1024).
    { rewrite pow2_twice. reflexivity. }
    assert (A4 : 1 < powerRZ 2 1023) by (change 1 with (powerRZ 2 0) at 1; apply pow2_lt'; lia).
    unfold fl_exp. rewrite (fl_fin (exp e)) by (rewrite Rabs_pos_eq; lra).
    rewrite (fl_mul_fin (- d) (exp e)).
    2: { rewrite Rabs_mult, Rabs_Ropp, (Rabs_pos_eq (exp e)) by lra. fold a. lra. }
    rewrite (fl_mul_fin (- d * exp e) (- b)).
    2: { rewrite !Rabs_mult, !Rabs_Ropp, (Rabs_pos_eq (exp e)), (Rabs_pos_eq b) by lra. fold a. lra. }
    rewrite (fl_mul_fin (- d * exp e * - b) (/ (x1 - x0))).
    2: { rewrite !Rabs_mult, !Rabs_Ropp, (Rabs_pos_eq (exp e)), (Rabs_pos_eq b), (Rabs_pos_eq (/ (x1 - x0))) by lra. fold a.
         unfold Rdiv in H3. lra. }
    set (num := - d * exp e * - b * / (x1 - x0)).
    assert (En : Rabs num = a * exp e * b * / (x1 - x0)).
    { unfold num. rewrite !Rabs_mult, !Rabs_Ropp, (Rabs_pos_eq (exp e)), (Rabs_pos_eq b), (Rabs_pos_eq (/ (x1 - x0))) by lra. reflexivity. }
    cbn [fl_add]. rewrite (fl_fin (1 + exp e)) by (rewrite Rabs_pos_eq; lra). cbn [fl_mul].
    assert (Sq : 1 <= (1 + exp e) * (1 + exp e)) by nra.
    destruct (Rle_dec (powerRZ 2 1024) ((1 + exp e) * (1 + exp e))) as [B|B].
    + rewrite fl_pinf by exact B. cbn [fl_div]. exists 0. split; [reflexivity|].
      rewrite Rminus_0_l, Rabs_Ropp. unfold Rdiv at 1. rewrite Rabs_mult, En.
      rewrite (Rabs_pos_eq (/ (1 + exp e) ^ 2)) by (left; apply Rinv_0_lt_compat, pow_lt; lra).
      assert (Big : powerRZ 2 512 <= 1 + exp e).
      { destruct (Rle_dec (powerRZ 2 512) (1 + exp e)) as [G|G]; [exact G|exfalso].
        assert ((1 + exp e) * (1 + exp e) < powerRZ 2 512 * powerRZ 2 512) by (apply Rmult_le_0_lt_compat; lra).
        rewrite pow2_add in H4. change (512 + 512)%Z with 1024%Z in H4. lra. }
      assert (Q : exp e * / (1 + exp e) ^ 2 <= powerRZ 2 (- 511)).
      { apply (Rle_trans _ (/ (1 + exp e))).
        - apply (Rmult_le_reg_r ((1 + exp e) ^ 2)); [apply pow_lt; lra|].
          rewrite Rmult_assoc, Rinv_l by (apply pow_nonzero; lra). field_simplify; [|lra]. lra.
        - change (-511)%Z with (- (511))%Z. rewrite powerRZ_neg'. apply Rinv_le_contravar; [apply pow2_pos'|].
          apply (Rle_trans _ (powerRZ 2 512)); [left; apply pow2_lt'; lia|exact Big]. }
      replace (a * exp e * b * / (x1 - x0) * / (1 + exp e) ^ 2)
        with (a * b * / (x1 - x0) * (exp e * / (1 + exp e) ^ 2)) by ring.
      unfold Rdiv. apply Rmult_le_compat_l; [|exact Q]. repeat apply Rmult_le_pos; lra.
    + rewrite fl_fin by (rewrite Rabs_pos_eq; lra). cbn [fl_div]. rewrite zerob_false by lra.
      exists (num / ((1 + exp e) * (1 + exp e))). rewrite fl_fin.
      * split; [reflexivity|]. replace (num / ((1 + exp e) * (1 + exp e)) - num / (1 + exp e) ^ 2) with 0 by (field; lra).
        rewrite Rabs_R0. exact Bnd.
      * unfold Rdiv. rewrite Rabs_mult, En, (Rabs_pos_eq (/ _)) by (left; apply Rinv_0_lt_compat; lra).
        apply (Rle_lt_trans _ (a * exp e * b * / (x1 - x0) * 1)); [|unfold Rdiv in H3; lra].
        apply Rmult_le_compat_l; [repeat apply Rmult_le_pos; lra|].
        rewrite <- Rinv_1. apply Rinv_le_contravar; lra.
Qed.

(** Near the start of the transition the derivative is not a number although it is tiny there:
    at the 700th part of the interval both sides of the fraction bar overflow. *)
Theorem C26_derivative_not_a_number_refuted :
  trans_deriv_fl 0 1 (2 - 1) (/ 700) = FNaN /\ 0 < trans_deriv 0 1 (2 - 1) (/ 700) < powerRZ 2 (- 900).
Proof.
  pose proof ln2_above. pose proof ln2_below.
  assert (Et : (/ 700 - 0) / (1 - 0) = / 700) by field.
  set (e := 700 - 700 / 699).
  assert (Ee : 1 / (/ 700) - 1 / (1 - / 700) = e) by (unfold e; field).
  assert (Ea : exponent_at 0 1 (/ 700) = e) by (unfold exponent_at; rewrite Et; exact Ee).
  assert (Eb : - 1 / (/ 700) ^ 2 - 1 / (1 - / 700) ^ 2 = - (490000 + 490000 / 488601)) by field.
  unfold trans_deriv_fl, trans_deriv. rewrite Et, Ea, Ee, Eb.
  assert (L : e < maxexp) by (unfold e, maxexp; lra).
  destruct (Rleb_spec maxexp e); [lra|].
  assert (P1 : exp e < powerRZ 2 1014) by (rewrite pow2_exp; apply exp_increasing; unfold maxexp in L; lra).
  assert (P2 : powerRZ 2 1006 < exp e) by (rewrite pow2_exp; apply exp_increasing; unfold e; lra).
  assert (A0 : powerRZ 2 1006 * powerRZ 2 18 = powerRZ 2 1024) by (rewrite pow2_add; reflexivity).
  assert (A18 : powerRZ 2 18 = 262144) by (simpl; lra). rewrite A18 in A0.
  assert (A1 : powerRZ 2 1014 < powerRZ 2 1023) by (apply pow2_lt'; lia).
  assert (A2 : powerRZ 2 1023 * 2 = powerRZ 2 1024).
  { rewrite pow2_twice. reflexivity. }
  assert (A4 : 1 < powerRZ 2 1023) by (change 1 with (powerRZ 2 0) at 1; apply pow2_lt'; lia).
  assert (A5 : 262144 < powerRZ 2 1006) by (rewrite <- A18; apply pow2_lt'; lia).
  pose proof (exp_pos e).
  split.
  - unfold fl_exp. rewrite (fl_fin (exp e)) by (rewrite Rabs_pos_eq; lra).
    rewrite (fl_mul_fin (- (2 - 1)) (exp e)) by (rewrite Rabs_mult, Rabs_Ropp, !Rabs_pos_eq; lra).
    rewrite (fl_mul_pinf (- (2 - 1) * exp e) (- (490000 + 490000 / 488601))) by lra.
    rewrite fl_mul_inf by lra.
    cbn [fl_add]. rewrite (fl_fin (1 + exp e)) by (rewrite Rabs_pos_eq; lra).
    cbn [fl_mul]. rewrite fl_pinf by nra. reflexivity.
  - assert (E : - (2 - 1) * exp e * - (490000 + 490000 / 488601) * (1 / (1 - 0)) / (1 + exp e) ^ 2
              = (490000 + 490000 / 488601) * (exp e / (1 + exp e) ^ 2)) by (field; lra).
    rewrite E.
    assert (Q : exp e / (1 + exp e) ^ 2 < powerRZ 2 (- 1006)).
    { apply (Rlt_trans _ (/ exp e)).
      - apply (Rmult_lt_reg_r (exp e * (1 + exp e) ^ 2)); [apply Rmult_lt_0_compat; [lra|apply pow_lt; lra]|].
        field_simplify; [|lra|lra]. nra.
      - change (-1006)%Z with (- (1006))%Z. rewrite powerRZ_neg'. apply Rinv_lt_contravar; [|exact P2].
        apply Rmult_lt_0_compat; [apply pow2_pos'|lra]. }
    assert (Qp : 0 < exp e / (1 + exp e) ^ 2) by (apply Rdiv_lt_0_compat; [lra|apply pow_lt; lra]).
    split; [apply Rmult_lt_0_compat; lra|].
    apply (Rlt_trans _ (powerRZ 2 19 * powerRZ 2 (- 1006))).
    + assert (powerRZ 2 19 = 524288) by (simpl; lra). pose proof (pow2_pos' (-1006)). nra.
    + rewrite pow2_add. apply pow2_lt'. lia.
Qed.

Example C26_overflow_case : 0 < / 2 < 1 /\ Rabs 0 <= powerRZ 2 1022 /\ Rabs (1 - 0) <= powerRZ 2 1022
  /\ (let tau := (/ 2 - 0) / (1 - 0) in let e := / tau - / (1 - tau) in
      let b := / tau ^ 2 + / (1 - tau) ^ 2 in let a := Rabs (1 - 0) in
      a * exp e < powerRZ 2 1023 /\ a * exp e * b < powerRZ 2 1023 /\ a * exp e * b / (1 - 0) < powerRZ 2 1023).
Proof.
  assert (A : powerRZ 2 0 < powerRZ 2 1022) by (apply pow2_lt'; lia).
  assert (B : powerRZ 2 3 < powerRZ 2 1023) by (apply pow2_lt'; lia). simpl (powerRZ 2 0) in A. simpl (powerRZ 2 3) in B.
  rewrite Rabs_R0. replace (1 - 0) with 1 by ring. rewrite Rabs_R1. cbv zeta.
  replace (/ ((/ 2 - 0) / 1) - / (1 - (/ 2 - 0) / 1)) with 0 by field. rewrite exp_0.
  replace (/ ((/ 2 - 0) / 1) ^ 2 + / (1 - (/ 2 - 0) / 1) ^ 2) with 8 by field.
  repeat split; lra.
Qed.
