(** C24: the sign and normalisation pass of LLDominantEigenvector. *)
From Coq Require Import Reals ZArith List Bool Lia Lra Psatz.
From Verif Require Import Common Cplx Modes_Model Modal_Model Ops_Model.
Import ListNotations.
Open Scope Z_scope.

Definition vzero : vec := (0, 0, 0)%R.
Definition vscale (c : R) (a : vec) : vec := let '(x, y, z) := a in (c * x, c * y, c * z)%R.
Definition vat (l : list vec) (i : Z) : vec := nth (Z.to_nat i) l vzero.
Definition inside (l : list vec) (i : Z) : Prop := 0 <= i < Z.of_nat (length l).

Lemma vrd_at : forall l i, inside l i -> vrd l i = Ok (vat l i).
Proof.
  intros l i [H1 H2]. unfold vrd, vat. destruct (Z.ltb_spec i 0); [lia|].
  rewrite (nth_error_nth' _ vzero) by lia. reflexivity.
Qed.
Lemma vwr_at : forall l i v, inside l i -> exists l', vwr l i v = Ok l' /\ length l' = length l /\
  forall j, 0 <= j -> vat l' j = if j =? i then v else vat l j.
Proof.
  intros l i v [H1 H2]. unfold vwr. destruct (Z.ltb_spec i 0); [lia|].
  destruct (upd_ok _ l (Z.to_nat i) v ltac:(lia)) as [l' E]. rewrite E. exists l'. split; auto.
  split; [eapply upd_length; eauto|]. intros j Hj. unfold vat. rewrite (upd_nth _ _ _ _ _ vzero _ E).
  destruct (Z.eqb_spec j i), (Nat.eqb_spec (Z.to_nat j) (Z.to_nat i)); subst; auto; lia.
Qed.

Lemma vdot_scale : forall c a b, vdot (vscale c a) b = (c * vdot a b)%R.
Proof. intros c [[x y] z] [[u v] w]. cbn. ring. Qed.
Lemma vdot_comm : forall a b, vdot a b = vdot b a.
Proof. intros [[x y] z] [[u v] w]. cbn. ring. Qed.
Lemma vneg_scale : forall a, vneg a = vscale (-1) a.
Proof. intros [[x y] z]. cbn. f_equal; [f_equal|]; ring. Qed.
Lemma vdivide_scale : forall a k, vdivide a k = vscale (/ k) a.
Proof. intros [[x y] z] k. cbn. unfold Rdiv. f_equal; [f_equal|]; ring. Qed.
Lemma vscale_scale : forall c d a, vscale c (vscale d a) = vscale (c * d) a.
Proof. intros c d [[x y] z]. cbn. f_equal; [f_equal|]; ring. Qed.
Lemma vscale_1 : forall a, vscale 1 a = a.
Proof. intros [[x y] z]. cbn. f_equal; [f_equal|]; ring. Qed.
Lemma vdot_nonneg : forall a, (0 <= vdot a a)%R.
Proof. intros [[x y] z]. cbn. nra. Qed.
Lemma vsub_sq : forall a b, vdot (vsub a b) (vsub a b) = (vdot a a - 2 * vdot a b + vdot b b)%R.
Proof. intros [[x y] z] [[u v] w]. cbn. ring. Qed.

Lemma Rltb_true : forall x y, Rltb x y = true <-> (x < y)%R.
Proof. intros. unfold Rltb. destruct (Rlt_dec x y); split; auto; discriminate. Qed.
Lemma Rltb_false : forall x y, Rltb x y = false <-> (y <= x)%R.
Proof. intros. unfold Rltb. destruct (Rlt_dec x y); split; intros; auto; try discriminate; lra. Qed.

(** What consecutive unit vectors satisfy afterwards: an angle of at most 120 degrees, and at most 60
    degrees if the two axes (up to sign) are within 60 degrees of each other. *)
Definition close (a b : vec) : Prop := (-/2 < vdot a b)%R /\ ((/2 <= Rabs (vdot a b))%R -> (/2 <= vdot a b)%R).

Section Pass.
Variable dpa0 : list vec.
Variable rough : vec.
Variable idx : Z.
Notation n := (Z.of_nat (length dpa0)).
Hypothesis Hidx : 0 <= idx < n.
Hypothesis Hnz : forall k, 0 <= k < n -> vat dpa0 k <> vzero.
Definition units : Prop := forall k, 0 <= k < n -> vdot (vat dpa0 k) (vat dpa0 k) = 1%R.

Lemma vdot_pos : forall a, a <> vzero -> (0 < vdot a a)%R.
Proof.
  intros [[x y] z] H. cbn. destruct (Req_dec x 0), (Req_dec y 0), (Req_dec z 0); subst; try (exfalso; apply H; reflexivity);
  repeat match goal with H : ?x <> 0%R |- _ => assert (0 < x * x)%R by (apply Rsqr_pos_lt; auto); clear H end;
  repeat match goal with |- context [(?x * ?x)%R] => is_var x; assert (0 <= x * x)%R by apply Rle_0_sqr; generalize dependent (x * x)%R; intros end; lra.
Qed.

Record Inv (p q j : Z) (l : list vec) (last : R) : Prop := {
  Ilen : length l = length dpa0;
  Irng : 0 <= p /\ p <= j <= q /\ q < n /\ p <= idx <= q;
  Ipm : forall k, 0 <= k < n -> exists c, c <> 0%R /\ vat l k = vscale c (vat dpa0 k);
  Idone : forall k, p <= k <= q -> k <> j -> vdot (vat l k) (vat l k) = 1%R;
  Ilast : last = sqrt (vdot (vat l j) (vat l j));
  Iunit : units -> forall k, 0 <= k < n -> vat l k = vat dpa0 k \/ vat l k = vneg (vat dpa0 k);
  Igood : units -> forall k, p <= k < q -> close (vat l k) (vat l (k + 1));
  Irough : (0 <= vdot rough (vat l idx))%R }.

Lemma pm_pos : forall l k c, 0 <= k < n -> c <> 0%R -> vat l k = vscale c (vat dpa0 k) -> (0 < vdot (vat l k) (vat l k))%R.
Proof.
  intros l k c Hk Hc E. rewrite E. rewrite vdot_scale, vdot_comm, vdot_scale. pose proof (vdot_pos _ (Hnz k Hk)).
  rewrite <- Rmult_assoc. apply Rmult_lt_0_compat; auto. apply Rsqr_pos_lt in Hc. exact Hc.
Qed.
Lemma unit_abs : forall l, units -> (forall k, 0 <= k < n -> vat l k = vat dpa0 k \/ vat l k = vneg (vat dpa0 k)) ->
  forall k, 0 <= k < n -> vdot (vat l k) (vat l k) = 1%R.
Proof.
  intros l U H k Hk. specialize (U k Hk). destruct (H k Hk) as [->| ->]; auto. rewrite vneg_scale, vdot_scale, vdot_comm, vdot_scale, U. ring.
Qed.

(** Normalising the current vector. *)
Lemma norm_cur : forall p q j l last, Inv p q j l last ->
  exists l', normalize_at j last l = Ok l' /\ length l' = length dpa0 /\
    (forall k, 0 <= k -> k <> j -> vat l' k = vat l k) /\ vdot (vat l' j) (vat l' j) = 1%R /\
    (exists c, (0 < c)%R /\ vat l' j = vscale c (vat l j)) /\ (units -> vat l' j = vat l j).
Proof.
  intros p q j l last I. destruct (Irng _ _ _ _ _ I) as (R1 & R2 & R3 & R4). pose proof (Ilen _ _ _ _ _ I) as HL.
  destruct (Ipm _ _ _ _ _ I j ltac:(lia)) as (c & Hc & Ec). pose proof (pm_pos l j c ltac:(lia) Hc Ec) as Hp.
  pose proof (Ilast _ _ _ _ _ I) as El.
  assert (Hlast : (0 < last)%R) by (rewrite El; apply sqrt_lt_R0; auto).
  assert (Hsq : (last * last = vdot (vat l j) (vat l j))%R) by (rewrite El; apply sqrt_def; lra).
  unfold normalize_at. unfold Reqb.
  destruct (Req_EM_T last 0); [lra|]. destruct (Req_EM_T last 1) as [E1|E1]; cbn [negb andb].
  - exists l. split; auto. split; auto. split; auto. split; [rewrite <- Hsq, E1; ring|]. split; [exists 1%R; split; [lra|rewrite vscale_1; auto]|auto].
  - assert (Hj : inside l j) by (unfold inside; rewrite HL; lia).
    rewrite (vrd_at l j Hj). cbn [rbind]. destruct (vwr_at l j (vdivide (vat l j) last) Hj) as (l' & E & L' & A).
    exists l'. split; auto. split; [congruence|]. split.
    { intros k Hk Hn. rewrite A by auto. destruct (Z.eqb_spec k j); auto. contradiction. }
    assert (Ej : vat l' j = vscale (/ last) (vat l j)) by (rewrite A by lia; rewrite Z.eqb_refl; apply vdivide_scale).
    split; [|split].
    + rewrite Ej, vdot_scale, vdot_comm, vdot_scale, <- Hsq. field. lra.
    + exists (/ last)%R. split; auto. apply Rinv_0_lt_compat. auto.
    + intros U. exfalso. apply E1. rewrite El. rewrite (unit_abs l U (Iunit _ _ _ _ _ I U) j) by lia. apply sqrt_1.
Qed.

Lemma close_flip : forall a b, vdot a a = 1%R -> vdot b b = 1%R ->
  close (if Rltb (vdot a a) (vdot (vsub a b) (vsub a b)) then vneg a else a) b.
Proof.
  intros a b Ha Hb. rewrite vsub_sq, Ha, Hb. unfold close. destruct (Rltb 1 (1 - 2 * vdot a b + 1)) eqn:E.
  - apply Rltb_true in E. rewrite vneg_scale, vdot_scale. split; [lra|]. unfold Rabs. destruct (Rcase_abs (-1 * vdot a b)); intros; lra.
  - apply Rltb_false in E. split; [lra|]. intros; lra.
Qed.
Lemma close_comm : forall a b, close a b -> close b a.
Proof. intros a b. unfold close. rewrite (vdot_comm b a). auto. Qed.

Lemma step_inv : forall d p q j l last, (d = 1 /\ j = q \/ d = -1 /\ j = p) -> 0 <= j + d < n -> Inv p q j l last ->
  exists l' last', dominant_step d (j + d) (l, last) = Ok (l', last') /\
    Inv (if d =? 1 then p else p - 1) (if d =? 1 then q + 1 else q) (j + d) l' last'.
Proof.
  intros d p q j l last Hd Hi I. destruct (Irng _ _ _ _ _ I) as (R1 & R2 & R3 & R4). pose proof (Ilen _ _ _ _ _ I) as HL.
  set (i := j + d) in *. unfold dominant_step.
  assert (Hii : inside l i) by (unfold inside; rewrite HL; lia).
  assert (Hij : inside l j) by (unfold inside; rewrite HL; lia).
  replace (i - d) with j by (unfold i; lia). rewrite (vrd_at l i Hii), (vrd_at l j Hij). cbn [rbind].
  set (a := vat l i). set (b := vat l j).
  assert (Hne : i <> j) by (unfold i; destruct Hd as [[-> _]|[-> _]]; lia).
  set (fl := Rltb (vdot a a) (vdot (vsub a b) (vsub a b))).
  set (a' := if fl then vneg a else a).
  assert (F : exists l1, (if fl then vwr l i (vneg a) else Ok l) = Ok l1 /\ length l1 = length dpa0 /\ vat l1 i = a' /\
    forall k, 0 <= k -> k <> i -> vat l1 k = vat l k).
  { destruct fl.
    - destruct (vwr_at l i (vneg a) Hii) as (l1 & E & L1 & A). exists l1. split; auto. split; [congruence|].
      split; [rewrite A by lia; rewrite Z.eqb_refl; auto|]. intros k Hk Hn. rewrite A by auto. destruct (Z.eqb_spec k i); auto; contradiction.
    - exists l. auto. }
  destruct F as (l1 & E1 & L1 & A1 & B1). rewrite E1. cbn [rbind].
  assert (Haa : vdot a' a' = vdot a a).
  { unfold a'. destruct fl; auto. rewrite vneg_scale, vdot_scale, vdot_comm, vdot_scale. ring. }
  (* the state after the flip, still with current index j *)
  assert (I1 : Inv p q j l1 last).
  { constructor.
    - exact L1.
    - auto.
    - intros k Hk. destruct (Z.eq_dec k i) as [->|Hn].
      + destruct (Ipm _ _ _ _ _ I i Hk) as (c & Hc & Ec). fold a in Ec. rewrite A1. unfold a'. destruct fl.
        * exists (-1 * c)%R. split; [nra|]. rewrite vneg_scale, Ec, vscale_scale. reflexivity.
        * eauto.
      + rewrite B1 by (auto; lia). apply (Ipm _ _ _ _ _ I); auto.
    - intros k Hk Hn. assert (k <> i) by (unfold i; lia). rewrite !B1 by (auto; lia). apply (Idone _ _ _ _ _ I); auto.
    - rewrite !B1 by (auto; lia). apply (Ilast _ _ _ _ _ I).
    - intros U k Hk. destruct (Z.eq_dec k i) as [->|Hn].
      + rewrite A1. unfold a'. destruct (Iunit _ _ _ _ _ I U i Hk) as [E|E]; fold a in E; destruct fl; rewrite E; auto.
        left. destruct (vat dpa0 i) as [[x y] z]. cbn. f_equal; [f_equal|]; ring.
      + rewrite B1 by (auto; lia). apply (Iunit _ _ _ _ _ I); auto.
    - intros U k Hk. assert (k <> i /\ k + 1 <> i) by (unfold i; lia). rewrite !B1 by (try tauto; lia). apply (Igood _ _ _ _ _ I); auto.
    - assert (idx <> i) by (unfold i; lia). rewrite B1 by (auto; lia). apply (Irough _ _ _ _ _ I). }
  destruct (norm_cur p q j l1 last I1) as (l2 & E2 & L2 & B2 & N2 & (c2 & P2 & C2) & U2). rewrite E2. cbn [rbind].
  exists l2, (sqrt (vdot a a)). split; auto.
  assert (Ai : vat l2 i = a') by (rewrite B2 by (auto; lia); exact A1).
  assert (Rk : forall k, (if d =? 1 then p else p - 1) <= k <= (if d =? 1 then q + 1 else q) -> p <= k <= q \/ k = i).
  { intros k. unfold i. destruct Hd as [[-> ->]|[-> ->]]; cbn; lia. }
  constructor.
  - exact L2.
  - unfold i in *. destruct Hd as [[-> ->]|[-> ->]]; cbn; lia.
  - intros k Hk. destruct (Z.eq_dec k j) as [->|Hn].
    + destruct (Ipm _ _ _ _ _ I1 j Hk) as (c & Hc & Ec). exists (c2 * c)%R. split; [apply Rmult_integral_contrapositive; split; lra|].
      rewrite C2, Ec, vscale_scale. reflexivity.
    + rewrite B2 by (auto; lia). apply (Ipm _ _ _ _ _ I1); auto.
  - intros k Hk Hn. destruct (Rk k Hk) as [K|K]; [|contradiction].
    destruct (Z.eq_dec k j) as [->|Hj]; auto. rewrite B2 by (auto; lia). apply (Idone _ _ _ _ _ I1); auto.
  - rewrite Ai, Haa. reflexivity.
  - intros U k Hk. destruct (Z.eq_dec k j) as [->|Hn].
    + rewrite U2 by auto. apply (Iunit _ _ _ _ _ I1); auto.
    + rewrite B2 by (auto; lia). apply (Iunit _ _ _ _ _ I1); auto.
  - intros U k Hk.
    assert (Ua : vdot a a = 1%R) by (apply (unit_abs l U (Iunit _ _ _ _ _ I U)); lia).
    assert (Ub : vdot b b = 1%R) by (apply (unit_abs l U (Iunit _ _ _ _ _ I U)); lia).
    assert (Eb : vat l2 j = b) by (rewrite U2 by auto; apply B1; auto; lia).
    assert (Ec : forall k, 0 <= k -> k <> i -> vat l2 k = vat l k).
    { intros k0 H0 Hn0. destruct (Z.eq_dec k0 j) as [->|]; [exact Eb|]. rewrite B2, B1; auto. }
    pose proof (close_flip a b Ua Ub) as CF. fold fl in CF. fold a' in CF.
    destruct Hd as [[-> ->]|[-> ->]]; cbn [Z.eqb Pos.eqb] in *.
    + destruct (Z.eq_dec k q) as [->|Hn].
      * replace (q + 1) with i by reflexivity. rewrite Eb, Ai. apply close_comm. auto.
      * rewrite !Ec by (unfold i; lia). apply (Igood _ _ _ _ _ I); auto. lia.
    + destruct (Z.eq_dec k (p - 1)) as [->|Hn].
      * replace (p - 1 + 1) with p by lia. change (p - 1) with i. rewrite Eb, Ai. auto.
      * rewrite !Ec by (unfold i; lia). apply (Igood _ _ _ _ _ I); auto. lia.
  - destruct (Z.eq_dec idx j) as [Hij0|Hn].
    + pose proof (Irough _ _ _ _ _ I1) as HR. rewrite Hij0 in *. rewrite C2, vdot_comm, vdot_scale, vdot_comm. apply Rmult_le_pos; lra.
    + rewrite B2 by (auto; lia). apply (Irough _ _ _ _ _ I1).
Qed.

Lemma fwd_loop : forall m p q l last, Inv p q q l last -> q + Z.of_nat m = n - 1 ->
  exists l' last', for_each (zrange (q + 1) n) (dominant_step 1) (l, last) = Ok (l', last') /\ Inv p (n - 1) (n - 1) l' last'.
Proof.
  induction m; intros p q l last I Hq.
  - rewrite zrange_empty by lia. exists l, last. split; auto. replace (n - 1) with q by lia. auto.
  - rewrite zrange_cons by lia. cbn [for_each].
    destruct (Irng _ _ _ _ _ I) as (R1 & R2 & R3 & R4).
    destruct (step_inv 1 p q q l last ltac:(auto) ltac:(lia) I) as (l1 & last1 & E & I1). rewrite E. cbn [rbind].
    cbn [Z.eqb Pos.eqb] in I1. apply IHm; auto. lia.
Qed.
Lemma bwd_loop : forall m p q l last, Inv p q p l last -> p = Z.of_nat m ->
  exists l' last', for_each (rev (zrange 0 p)) (dominant_step (-1)) (l, last) = Ok (l', last') /\ Inv 0 q 0 l' last'.
Proof.
  induction m; intros p q l last I Hp.
  - rewrite zrange_empty by lia. exists l, last. split; auto. replace p with 0 in I by lia. auto.
  - replace (zrange 0 p) with (zrange 0 (p - 1) ++ [p - 1]) by (rewrite <- zrange_snoc by lia; f_equal; lia). rewrite rev_app_distr. cbn [rev app for_each].
    destruct (Irng _ _ _ _ _ I) as (R1 & R2 & R3 & R4).
    destruct (step_inv (-1) p q p l last ltac:(auto) ltac:(lia) I) as (l1 & last1 & E & I1).
    replace (p + -1) with (p - 1) in * by lia. rewrite E. cbn [rbind].
    cbn [Z.eqb] in I1. apply IHm; auto. lia.
Qed.

Lemma dominant_spec : exists l', dominant dpa0 rough idx = Ok l' /\ length l' = length dpa0 /\
  (forall k, 0 <= k < n -> (exists c, c <> 0%R /\ vat l' k = vscale c (vat dpa0 k)) /\ vdot (vat l' k) (vat l' k) = 1%R) /\
  (0 <= vdot rough (vat l' idx))%R /\
  (units -> forall k, 0 <= k < n - 1 -> close (vat l' k) (vat l' (k + 1))).
Proof.
  unfold dominant. assert (Hin : inside dpa0 idx) by exact Hidx. rewrite (vrd_at _ _ Hin). cbn [rbind].
  assert (F : exists l1, (if Rltb (vdot rough (vat dpa0 idx)) 0 then vwr dpa0 idx (vneg (vat dpa0 idx)) else Ok dpa0) = Ok l1 /\
    Inv idx idx idx l1 (sqrt (vdot (vat l1 idx) (vat l1 idx)))).
  { destruct (Rltb (vdot rough (vat dpa0 idx)) 0) eqn:E.
    - apply Rltb_true in E. destruct (vwr_at dpa0 idx (vneg (vat dpa0 idx)) Hin) as (l1 & E1 & L1 & A1). exists l1. split; auto.
      constructor; auto; try lia.
      + intros k Hk. rewrite A1 by lia. destruct (Z.eqb_spec k idx).
        * subst. exists (-1)%R. split; [lra|apply vneg_scale].
        * exists 1%R. split; [lra|]. rewrite vscale_1. auto.
      + intros U k Hk. rewrite A1 by lia. destruct (Z.eqb_spec k idx); subst; auto.
      + rewrite A1, Z.eqb_refl by lia. rewrite vneg_scale, vdot_comm, vdot_scale, vdot_comm. lra.
    - apply Rltb_false in E. exists dpa0. split; auto. constructor; auto; try lia.
      + intros k Hk. exists 1%R. split; [lra|]. rewrite vscale_1. auto.
 }
  destruct F as (l1 & E1 & I1). rewrite E1. cbn [rbind].
  pose proof (Ilen _ _ _ _ _ I1) as L1.
  rewrite (vrd_at l1 idx) by (unfold inside; rewrite L1; auto). cbn [rbind].
  destruct (bwd_loop (Z.to_nat idx) idx idx l1 _ I1 ltac:(lia)) as (l2 & last2 & E2 & I2). rewrite E2. cbn [rbind].
  destruct (norm_cur 0 idx 0 l2 last2 I2) as (l3 & E3 & L3 & B3 & N3 & (c3 & P3 & C3) & U3). rewrite E3. cbn [rbind].
  assert (I3 : Inv 0 idx idx l3 (sqrt (vdot (vat l3 idx) (vat l3 idx)))).
  { destruct (Irng _ _ _ _ _ I2) as (R1 & R2 & R3 & R4). constructor; auto; try lia.
    - intros k Hk. destruct (Z.eq_dec k 0) as [->|Hn].
      + destruct (Ipm _ _ _ _ _ I2 0 Hk) as (c & Hc & Ec). exists (c3 * c)%R. split; [apply Rmult_integral_contrapositive; split; lra|].
        rewrite C3, Ec, vscale_scale. reflexivity.
      + rewrite B3 by (auto; lia). apply (Ipm _ _ _ _ _ I2); auto.
    - intros k Hk Hn. destruct (Z.eq_dec k 0) as [->|H0]; auto. rewrite B3 by (auto; lia). apply (Idone _ _ _ _ _ I2); auto; lia.
    - intros U k Hk. destruct (Z.eq_dec k 0) as [->|Hn].
      + rewrite U3 by auto. apply (Iunit _ _ _ _ _ I2); auto.
      + rewrite B3 by (auto; lia). apply (Iunit _ _ _ _ _ I2); auto.
    - intros U k Hk. assert (E : forall k, 0 <= k -> vat l3 k = vat l2 k).
      { intros k0 H0. destruct (Z.eq_dec k0 0) as [->|]; [apply U3; auto|apply B3; auto]. }
      rewrite !E by lia. apply (Igood _ _ _ _ _ I2); auto; lia.
    - destruct (Z.eq_dec idx 0) as [E0|Hn].
      + pose proof (Irough _ _ _ _ _ I2) as HR. rewrite E0 in *. rewrite C3, vdot_comm, vdot_scale, vdot_comm. apply Rmult_le_pos; lra.
      + rewrite B3 by (auto; lia). apply (Irough _ _ _ _ _ I2). }
  assert (Hi3 : inside l3 idx) by (unfold inside; rewrite L3; auto).
  rewrite (vrd_at l3 idx Hi3). cbn [rbind].
  destruct (fwd_loop (Z.to_nat (n - 1 - idx)) 0 idx l3 _ I3 ltac:(lia)) as (l4 & last4 & E4 & I4). rewrite E4. cbn [rbind].
  destruct (norm_cur 0 (n - 1) (n - 1) l4 last4 I4) as (l5 & E5 & L5 & B5 & N5 & (c5 & P5 & C5) & U5). rewrite E5.
  exists l5. split; auto. split; auto. split; [|split].
  - intros k Hk. split.
    + destruct (Z.eq_dec k (n - 1)) as [->|Hn].
      * destruct (Ipm _ _ _ _ _ I4 (n - 1) Hk) as (c & Hc & Ec). exists (c5 * c)%R. split; [apply Rmult_integral_contrapositive; split; lra|].
        rewrite C5, Ec, vscale_scale. reflexivity.
      * rewrite B5 by (auto; lia). apply (Ipm _ _ _ _ _ I4); auto.
    + destruct (Z.eq_dec k (n - 1)) as [->|Hn]; auto. rewrite B5 by (auto; lia). apply (Idone _ _ _ _ _ I4); auto; lia.
  - destruct (Z.eq_dec idx (n - 1)) as [E0|Hn].
    + pose proof (Irough _ _ _ _ _ I4) as HR. rewrite E0 in *. rewrite C5, vdot_comm, vdot_scale, vdot_comm. apply Rmult_le_pos; lra.
    + rewrite B5 by (auto; lia). apply (Irough _ _ _ _ _ I4).
  - intros U k Hk. assert (E : forall k, 0 <= k -> vat l5 k = vat l4 k).
    { intros k0 H0. destruct (Z.eq_dec k0 (n - 1)) as [->|]; [apply U5; auto|apply B5; auto]. }
    rewrite !E by lia. apply (Igood _ _ _ _ _ I4); auto; lia.
Qed.
End Pass.

(** Every returned vector is a unit vector along the same axis as the input vector, and the one at the
    reference index does not point away from the rough direction. *)
Theorem C24_unit_vectors_along_axes : forall dpa rough idx, 0 <= idx < Z.of_nat (length dpa) ->
  (forall k, 0 <= k < Z.of_nat (length dpa) -> vat dpa k <> vzero) ->
  exists out, dominant dpa rough idx = Ok out /\ length out = length dpa /\
    (forall k, 0 <= k < Z.of_nat (length dpa) ->
      (exists c, c <> 0%R /\ vat out k = vscale c (vat dpa k)) /\ vdot (vat out k) (vat out k) = 1%R) /\
    (0 <= vdot rough (vat out idx))%R.
Proof.
  intros dpa rough idx Hi Hnz. destruct (dominant_spec dpa rough idx Hi Hnz) as (l & E & L & A & B & _). exists l. auto.
Qed.

(** For unit input vectors, consecutive output vectors are never more than 120 degrees apart, and never
    more than 60 degrees when the axes are within 60 degrees. *)
Theorem C24_consecutive_angles : forall dpa rough idx, 0 <= idx < Z.of_nat (length dpa) ->
  (forall k, 0 <= k < Z.of_nat (length dpa) -> vdot (vat dpa k) (vat dpa k) = 1%R) ->
  exists out, dominant dpa rough idx = Ok out /\
    forall k, 0 <= k < Z.of_nat (length dpa) - 1 ->
      (-/2 < vdot (vat out k) (vat out (k + 1)))%R /\
      ((/2 <= Rabs (vdot (vat dpa k) (vat dpa (k + 1))))%R -> (/2 <= vdot (vat out k) (vat out (k + 1)))%R).
Proof.
  intros dpa rough idx Hi Hu.
  assert (Hnz : forall k, 0 <= k < Z.of_nat (length dpa) -> vat dpa k <> vzero).
  { intros k Hk E. specialize (Hu k Hk). rewrite E in Hu. cbn in Hu. lra. }
  destruct (dominant_spec dpa rough idx Hi Hnz) as (l & E & L & A & _ & G). exists l. split; auto.
  intros k Hk. destruct (G Hu k Hk) as [G1 G2]. split; auto. intros HH. apply G2.
  destruct (A k ltac:(lia)) as [(c & Hc & Ec) N1]. destruct (A (k + 1) ltac:(lia)) as [(c' & Hc' & Ec') N2].
  rewrite Ec, vdot_scale, vdot_comm, vdot_scale, Hu in N1 by lia. rewrite Ec', vdot_scale, vdot_comm, vdot_scale, Hu in N2 by lia.
  rewrite Ec, Ec', vdot_scale, vdot_comm, vdot_scale, vdot_comm, <- Rmult_assoc, Rabs_mult.
  assert (Ra : Rabs (c * c') = 1%R).
  { assert ((c * c') * (c * c') = 1)%R by nra. unfold Rabs. destruct (Rcase_abs (c * c')); nra. }
  rewrite Ra, Rmult_1_l. auto.
Qed.

(** Continuity of sign fails for axes more than 60 degrees apart: the comparison `dNorm > Norm` then
    flips a vector that was already closer than its negative. *)
Theorem C24_continuity_refuted : exists dpa rough out,
  (forall k, 0 <= k < Z.of_nat (length dpa) -> vdot (vat dpa k) (vat dpa k) = 1%R) /\
  (forall k, 0 <= k < Z.of_nat (length dpa) - 1 -> (0 < vdot (vat dpa k) (vat dpa (k + 1)))%R) /\
  (0 < vdot rough (vat dpa 0))%R /\
  dominant dpa rough 0 = Ok out /\ (vdot (vat out 0) (vat out 1) < 0)%R.
Proof.
  set (a := (0, 0, 1)%R : vec). set (b := (sqrt (15/16), 0, 1/4)%R : vec).
  assert (S : (sqrt (15/16) * sqrt (15/16) = 15/16)%R) by (apply sqrt_def; lra).
  exists [a; b], a, [a; vneg b].
  split; [|split; [|split; [|split]]].
  - intros k Hk. cbn in Hk. assert (K : k = 0 \/ k = 1) by lia. destruct K as [-> | ->]; unfold vat; [change (Z.to_nat 0) with 0%nat|change (Z.to_nat 1) with 1%nat]; cbn; unfold Rdiv in *; nra.
  - intros k Hk. cbn in Hk. replace k with 0 by lia. unfold vat. change (Z.to_nat (0 + 1)) with 1%nat. cbn. lra.
  - unfold vat. cbn. lra.
  - unfold dominant. cbn [length vrd Z.ltb Z.compare nth_error Z.to_nat Pos.to_nat rbind].
    replace (Rltb (vdot a a) 0) with false by (symmetry; apply Rltb_false; cbn; lra). cbn [rbind].
    change (zrange 0 0) with (@nil Z). cbn [rev for_each rbind].
    assert (Na : sqrt (vdot a a) = 1%R) by (replace (vdot a a) with 1%R by (cbn; ring); apply sqrt_1).
    cbn [nth_error rbind]. change (vrd [a; b] 0) with (Ok a). cbn [rbind]. rewrite Na. cbn [rbind].
    assert (N1 : forall j l, normalize_at j 1 l = Ok l).
    { intros j l. unfold normalize_at, Reqb. destruct (Req_EM_T 1 0); [lra|]. destruct (Req_EM_T 1 1); [reflexivity|contradiction]. }
    rewrite N1. cbn [rbind]. change (vrd [a; b] 0) with (Ok a). cbn [rbind]. rewrite Na.
    change (zrange (0 + 1) (Z.of_nat 2)) with [1]. cbn [for_each]. unfold dominant_step at 1.
    change (vrd [a; b] 1) with (Ok b). change (1 - 1) with 0. change (vrd [a; b] 0) with (Ok a). cbn [rbind].
    replace (Rltb (vdot b b) (vdot (vsub b a) (vsub b a))) with true by (symmetry; apply Rltb_true; rewrite vsub_sq; cbn; lra).
    change (vwr [a; b] 1 (vneg b)) with (Ok [a; vneg b]). cbn [rbind]. rewrite N1. cbn [rbind].
    assert (Nb : sqrt (vdot b b) = 1%R) by (replace (vdot b b) with 1%R by (cbn; lra); apply sqrt_1).
    rewrite Nb. apply N1.
  - unfold vat. change (Z.to_nat 0) with 0%nat. change (Z.to_nat 1) with 1%nat. cbn. lra.
Qed.
