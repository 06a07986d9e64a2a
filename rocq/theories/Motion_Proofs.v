(** C42 (average centre-of-mass motion), C45 (plot time scale), C54 (centre-of-mass trajectory). *)
From Coq Require Import Reals ZArith List Bool Lra Lia Psatz.
From Verif Require Import Common Times_Model Times_Proofs Motion_Model.
Import ListNotations.
Open Scope R_scope.

(** * C45 *)
(** The documented scale: time runs at unit rate, s times faster between merger and ringdown. *)
Definition zoom (s tm tr a : R) : R :=
  if Rlt_dec a tm then a else if Rlt_dec a tr then tm + s * (a - tm) else a + (s - 1) * (tr - tm).

Ltac pw := repeat match goal with
  | |- context [Rltb ?a ?b] => destruct (Rltb_spec a b)
  | |- context [Rleb ?a ?b] => destruct (Rleb_spec a b)
  | |- context [Rlt_dec ?a ?b] => destruct (Rlt_dec a b)
  end; cbn; try (exfalso; nra).

Theorem C45_scale : forall s tm tr a, tm <= tr -> time_transform s tm tr a = zoom s tm tr a.
Proof. intros. unfold time_transform, zoom, piecewise. simpl. pw; try ring; try reflexivity. Qed.

Theorem C45_increasing : forall s tm tr a b, tm <= tr -> 0 < s -> a < b ->
  time_transform s tm tr a < time_transform s tm tr b.
Proof.
  intros s tm tr a b H Hs Hab. rewrite !C45_scale by assumption. unfold zoom.
  pw; try nra.
Qed.

Theorem C45_inverse_after : forall s tm tr a, tm <= tr -> 0 < s ->
  inverse_transform s tm tr (time_transform s tm tr a) = a.
Proof.
  intros s tm tr a H Hs. rewrite C45_scale by assumption.
  unfold inverse_transform, zoom, piecewise. simpl.
  pw; try (field; lra); try lra.
Qed.

Theorem C45_inverse_before : forall s tm tr y, tm <= tr -> 0 < s ->
  time_transform s tm tr (inverse_transform s tm tr y) = y.
Proof.
  intros s tm tr y H Hs. rewrite C45_scale by assumption.
  assert (E : inverse_transform s tm tr y =
     if Rlt_dec y tm then y else if Rlt_dec y (tm + s * (tr - tm)) then tm + (y - tm) / s else y - (s - 1) * (tr - tm)).
  { unfold inverse_transform, piecewise. simpl. pw; try (field; lra); try reflexivity. }
  rewrite E. unfold zoom.
  assert (D : (y - tm) / s * s = y - tm) by (field; lra).
  destruct (Rlt_dec y tm); [pw; reflexivity|].
  destruct (Rlt_dec y (tm + s * (tr - tm))).
  - set (q := (y - tm) / s) in *. clearbody q.
    destruct (Rlt_dec (tm + q) tm); [exfalso; nra|].
    destruct (Rlt_dec (tm + q) tr); [nra|exfalso; nra].
  - destruct (Rlt_dec (y - (s - 1) * (tr - tm)) tm); [exfalso; nra|].
    destruct (Rlt_dec (y - (s - 1) * (tr - tm)) tr); [exfalso; nra|lra].
Qed.

(** With times in order the default stretch is positive, and the zoomed region takes three quarters of
    the unzoomed length of the plot. *)
Theorem C45_default : forall t0 tm tr t1, t0 < t1 -> tm < tr ->
  0 < default_stretch t0 tm tr t1
  /\ time_transform (default_stretch t0 tm tr t1) tm tr tr
     - time_transform (default_stretch t0 tm tr t1) tm tr tm = 75 / 100 * (t1 - t0).
Proof.
  intros t0 tm tr t1 H0 H1. split.
  - unfold default_stretch. apply Rdiv_lt_0_compat; lra.
  - rewrite !C45_scale by lra. unfold zoom. pw. unfold default_stretch. field. lra.
Qed.

(** With the merger and ringdown times exchanged the axis is not monotone. *)
Theorem C45_swapped_refuted : exists s tm tr a b, 0 < s /\ tr < tm /\ a < b
  /\ time_transform s tm tr b < time_transform s tm tr a.
Proof.
  exists 2, 1, 0, (-1/10), (1/2). repeat split; try lra.
  unfold time_transform, piecewise. simpl. pw; lra.
Qed.

Example C45_case : time_transform 3 10 20 15 = 25 /\ inverse_transform 3 10 20 25 = 15
  /\ time_transform 3 10 20 30 = 50.
Proof.
  repeat split.
  - rewrite C45_scale by lra. unfold zoom. pw; lra.
  - replace 25 with (time_transform 3 10 20 15) by (rewrite C45_scale by lra; unfold zoom; pw; lra).
    apply C45_inverse_after; lra.
  - rewrite C45_scale by lra. unfold zoom. pw; lra.
Qed.

(** * Integrals *)
(** [v] is the Riemann integral of [f] over [a, b]. *)
Definition is_int (a b : R) (f : R -> R) (v : R) : Prop :=
  exists pr : Riemann_integrable f a b, RiemannInt pr = v.

Lemma is_int_unique : forall a b f v w, is_int a b f v -> is_int a b f w -> v = w.
Proof. intros a b f v w [p <-] [q <-]. apply RiemannInt_P5. Qed.

Lemma is_int_lin : forall a b f g k v w, is_int a b f v -> is_int a b g w -> is_int a b (fun t => f t + k * g t) (v + k * w).
Proof.
  intros a b f g k v w [p <-] [q <-]. exists (RiemannInt_P10 k p q). apply RiemannInt_P13.
Qed.

Lemma is_int_ext : forall a b f g v, (forall t, g t = f t) -> is_int a b f v -> is_int a b g v.
Proof.
  intros a b f g v E [p <-].
  assert (q : Riemann_integrable g a b).
  { intros eps. destruct (p eps) as (phi & psi & H1 & H2). exists phi, psi. split; [|exact H2].
    intros t Ht. rewrite E. apply H1, Ht. }
  exists q.
  destruct (Rle_dec a b) as [L|L].
  - apply RiemannInt_P18; [exact L|]. intros; apply E.
  - pose proof (RiemannInt_P1 p) as p'. pose proof (RiemannInt_P1 q) as q'.
    rewrite (RiemannInt_P8 p p'), (RiemannInt_P8 q q'). f_equal.
    apply RiemannInt_P18; [lra|]. intros; apply E.
Qed.

Lemma is_int_nonneg : forall a b f v, a <= b -> (forall t, a <= t <= b -> 0 <= f t) -> is_int a b f v -> 0 <= v.
Proof.
  intros a b f v L H [p <-].
  rewrite <- (Rmult_0_l (b - a)), <- (RiemannInt_P15 (RiemannInt_P14 a b 0)).
  apply RiemannInt_P19; [exact L|]. intros t Ht. unfold fct_cte. apply H. lra.
Qed.

Lemma is_int_pow : forall a b n, is_int a b (fun t => t ^ n) ((b ^ S n - a ^ S n) / INR (S n)).
Proof.
  intros a b n.
  assert (Hn : INR (S n) <> 0) by (apply not_0_INR; lia).
  set (F := fun t => / INR (S n) * t ^ S n).
  assert (D : forall t, derivable_pt_lim F t (t ^ n)).
  { intros t. unfold F. replace (t ^ n) with (/ INR (S n) * (INR (S n) * t ^ pred (S n))) by (simpl pred; field; exact Hn).
    apply (derivable_pt_lim_scal (fun t => t ^ S n)). apply derivable_pt_lim_pow. }
  assert (dF : derivable F) by (intros t; exists (t ^ n); apply D).
  assert (dE : forall t, derive F dF t = t ^ n).
  { intros t. unfold derive. apply derive_pt_eq_0. apply D. }
  assert (cF : continuity (derive F dF)).
  { intros t eps He. destruct (derivable_continuous_pt _ t (derivable_pt_pow n t) eps He) as (d & Hd & K).
    exists d. split; [exact Hd|]. intros x Hx. rewrite !dE. apply (K x Hx). }
  pose (f := @mkC1 F dF cF).
  assert (pr : Riemann_integrable (derive f (diff0 f)) a b) by (apply RiemannInt_P32).
  pose proof (@FTC_Riemann f a b pr) as E.
  apply is_int_ext with (f := derive f (diff0 f)).
  - intros t. symmetry. apply dE.
  - exists pr. rewrite E. simpl c1. unfold F. field. exact Hn.
Qed.

(** * C42 *)
(** Squared deviation at time t of the trajectory c from uniform (accelerated) motion. *)
Definition dev (c : R -> R) (x v a t : R) : R := (c t - (x + v * t + a * t ^ 2 / 2)) ^ 2.

(** If the moments are the exact integrals, the fit minimises the integrated squared distance. *)
Theorem C42_least_squares : forall ti tf c C0 C1 x v E, ti < tf ->
  is_int ti tf c C0 -> is_int ti tf (fun t => t * c t) C1 ->
  fit2 ti tf C0 C1 = (x, v) -> is_int ti tf (dev c x v 0) E ->
  forall x' v' E', is_int ti tf (dev c x' v' 0) E' -> E <= E'.
Proof.
  intros ti tf c C0 C1 x v E H H0 H1 HF HE x' v' E' HE'.
  pose proof (is_int_pow ti tf 0) as P0. pose proof (is_int_pow ti tf 1) as P1. pose proof (is_int_pow ti tf 2) as P2.
  set (dx := x - x'). set (dv := v - v').
  (* the square of the difference of the two motions *)
  assert (Q : exists q, is_int ti tf (fun t => (dx + dv * t) ^ 2) q).
  { eexists. eapply is_int_ext; [|exact (is_int_lin _ _ _ _ (dv ^ 2) _ _
      (is_int_lin _ _ _ _ (2 * dx * dv) _ _ (is_int_lin _ _ (fun t => t ^ 0) _ (dx ^ 2 - 1) _ _ P0 P0) P1) P2)].
    intros t. simpl. ring. }
  destruct Q as [q Hq]. assert (Hq0 : 0 <= q).
  { eapply is_int_nonneg; [| |exact Hq]; [lra|]. intros. apply pow2_ge_0. }
  (* dev' = dev + (dx+dv t)^2 + 2 (c - x - v t)(dx + dv t) *)
  assert (X : is_int ti tf (fun t => (c t - (x + v * t)) * (dx + dv * t)) 0).
  { set (m0 := (tf ^ 1 - ti ^ 1) / INR 1) in *. set (m1 := (tf ^ 2 - ti ^ 2) / INR 2) in *. set (m2 := (tf ^ 3 - ti ^ 3) / INR 3) in *.
    assert (N : dx * (C0 - x * m0 - v * m1) + dv * (C1 - x * m1 - v * m2) = 0).
    { unfold fit2 in HF. injection HF as Hx Hv.
      assert (N0 : C0 - x * m0 - v * m1 = 0) by (rewrite <- Hx, <- Hv; unfold m0, m1; simpl; field; lra).
      assert (N1 : C1 - x * m1 - v * m2 = 0) by (rewrite <- Hx, <- Hv; unfold m1, m2; simpl; field; lra).
      rewrite N0, N1. ring. }
    rewrite <- N.
    eapply is_int_ext; [|].
    2:{ replace (dx * (C0 - x * m0 - v * m1) + dv * (C1 - x * m1 - v * m2))
          with (C0 + (dx - 1) * C0 + dv * C1 + (- x * dx) * m0 + (- v * dx - x * dv) * m1 + (- v * dv) * m2) by ring.
        exact (is_int_lin _ _ _ _ _ _ _ (is_int_lin _ _ _ _ _ _ _ (is_int_lin _ _ _ _ _ _ _
                 (is_int_lin _ _ _ _ _ _ _ (is_int_lin _ _ _ _ (dx - 1) _ _ H0 H0) H1) P0) P1) P2). }
    intros t. simpl. ring. }
  assert (EE : E' = E + 1 * q + 2 * 0).
  { eapply is_int_unique; [exact HE'|]. eapply is_int_ext; [|exact (is_int_lin _ _ _ _ 2 _ _ (is_int_lin _ _ _ _ 1 _ _ HE Hq) X)].
    intros t. unfold dev, dx, dv. field. }
  lra.
Qed.

Theorem C42_least_squares_accel : forall ti tf c C0 C1 C2 x v a E, ti < tf ->
  is_int ti tf c C0 -> is_int ti tf (fun t => t * c t) C1 -> is_int ti tf (fun t => t ^ 2 * c t) C2 ->
  fit3 ti tf C0 C1 C2 = (x, v, a) -> is_int ti tf (dev c x v a) E ->
  forall x' v' a' E', is_int ti tf (dev c x' v' a') E' -> E <= E'.
Proof.
  intros ti tf c C0 C1 C2 x v a E H H0 H1 H2 HF HE x' v' a' E' HE'.
  pose proof (is_int_pow ti tf 0) as P0. pose proof (is_int_pow ti tf 1) as P1. pose proof (is_int_pow ti tf 2) as P2.
  pose proof (is_int_pow ti tf 3) as P3. pose proof (is_int_pow ti tf 4) as P4.
  set (dx := x - x'). set (dv := v - v'). set (da := (a - a') / 2).
  assert (Q : exists q, is_int ti tf (fun t => (dx + dv * t + da * t ^ 2) ^ 2) q).
  { eexists. eapply is_int_ext; [|exact (is_int_lin _ _ _ _ (da ^ 2) _ _ (is_int_lin _ _ _ _ (2 * dv * da) _ _
      (is_int_lin _ _ _ _ (dv ^ 2 + 2 * dx * da) _ _
      (is_int_lin _ _ _ _ (2 * dx * dv) _ _ (is_int_lin _ _ (fun t => t ^ 0) _ (dx ^ 2 - 1) _ _ P0 P0) P1) P2) P3) P4)].
    intros t. simpl. ring. }
  destruct Q as [q Hq]. assert (Hq0 : 0 <= q).
  { eapply is_int_nonneg; [| |exact Hq]; [lra|]. intros. apply pow2_ge_0. }
  assert (X : is_int ti tf (fun t => (c t - (x + v * t + a * t ^ 2 / 2)) * (dx + dv * t + da * t ^ 2)) 0).
  { set (m0 := (tf ^ 1 - ti ^ 1) / INR 1) in *. set (m1 := (tf ^ 2 - ti ^ 2) / INR 2) in *.
    set (m2 := (tf ^ 3 - ti ^ 3) / INR 3) in *. set (m3 := (tf ^ 4 - ti ^ 4) / INR 4) in *.
    set (m4 := (tf ^ 5 - ti ^ 5) / INR 5) in *. set (b := a / 2).
    assert (N : dx * (C0 - x * m0 - v * m1 - b * m2) + dv * (C1 - x * m1 - v * m2 - b * m3)
                + da * (C2 - x * m2 - v * m3 - b * m4) = 0).
    { unfold fit3 in HF. injection HF as Hx Hv Ha.
      assert (N0 : C0 - x * m0 - v * m1 - b * m2 = 0)
        by (unfold b; rewrite <- Hx, <- Hv, <- Ha; unfold m0, m1, m2; simpl; field; lra).
      assert (N1 : C1 - x * m1 - v * m2 - b * m3 = 0)
        by (unfold b; rewrite <- Hx, <- Hv, <- Ha; unfold m1, m2, m3; simpl; field; lra).
      assert (N2 : C2 - x * m2 - v * m3 - b * m4 = 0)
        by (unfold b; rewrite <- Hx, <- Hv, <- Ha; unfold m2, m3, m4; simpl; field; lra).
      rewrite N0, N1, N2. ring. }
    rewrite <- N.
    eapply is_int_ext; [|].
    2:{ match goal with |- is_int _ _ _ ?l => replace l
          with (C0 + (dx - 1) * C0 + dv * C1 + da * C2 + (- x * dx) * m0 + (- v * dx - x * dv) * m1
                + (- b * dx - v * dv - x * da) * m2 + (- b * dv - v * da) * m3 + (- b * da) * m4) by ring end.
        exact (is_int_lin _ _ _ _ _ _ _ (is_int_lin _ _ _ _ _ _ _ (is_int_lin _ _ _ _ _ _ _ (is_int_lin _ _ _ _ _ _ _
                 (is_int_lin _ _ _ _ _ _ _ (is_int_lin _ _ _ _ _ _ _
                 (is_int_lin _ _ _ _ _ _ _ (is_int_lin _ _ _ _ (dx - 1) _ _ H0 H0) H1) H2) P0) P1) P2) P3) P4). }
    intros t. unfold b. simpl. field. }
  assert (EE : E' = E + 1 * q + 2 * 0).
  { eapply is_int_unique; [exact HE'|]. eapply is_int_ext; [|exact (is_int_lin _ _ _ _ 2 _ _ (is_int_lin _ _ _ _ 1 _ _ HE Hq) X)].
    intros t. unfold dev, dx, dv, da. field. }
  lra.
Qed.

(** Uniform (uniformly accelerated) motion is recovered exactly from its exact moments. *)
Theorem C42_recovers : forall ti tf x v a C0 C1 C2, ti < tf ->
  is_int ti tf (fun t => x + v * t + a * t ^ 2 / 2) C0 ->
  is_int ti tf (fun t => t * (x + v * t + a * t ^ 2 / 2)) C1 ->
  is_int ti tf (fun t => t ^ 2 * (x + v * t + a * t ^ 2 / 2)) C2 ->
  fit3 ti tf C0 C1 C2 = (x, v, a) /\ (a = 0 -> fit2 ti tf C0 C1 = (x, v)).
Proof.
  intros ti tf x v a C0 C1 C2 H H0 H1 H2.
  pose proof (is_int_pow ti tf 0) as P0. pose proof (is_int_pow ti tf 1) as P1. pose proof (is_int_pow ti tf 2) as P2.
  pose proof (is_int_pow ti tf 3) as P3. pose proof (is_int_pow ti tf 4) as P4.
  assert (E0 : C0 = (tf ^ 1 - ti ^ 1) / INR 1 + (x - 1) * ((tf ^ 1 - ti ^ 1) / INR 1) + v * ((tf ^ 2 - ti ^ 2) / INR 2)
                    + (a / 2) * ((tf ^ 3 - ti ^ 3) / INR 3)).
  { eapply is_int_unique; [exact H0|].
    eapply is_int_ext; [|exact (is_int_lin _ _ _ _ (a / 2) _ _ (is_int_lin _ _ _ _ v _ _ (is_int_lin _ _ _ _ (x - 1) _ _ P0 P0) P1) P2)].
    intros t. simpl. field. }
  assert (E1 : C1 = (tf ^ 2 - ti ^ 2) / INR 2 + (x - 1) * ((tf ^ 2 - ti ^ 2) / INR 2) + v * ((tf ^ 3 - ti ^ 3) / INR 3)
                    + (a / 2) * ((tf ^ 4 - ti ^ 4) / INR 4)).
  { eapply is_int_unique; [exact H1|].
    eapply is_int_ext; [|exact (is_int_lin _ _ _ _ (a / 2) _ _ (is_int_lin _ _ _ _ v _ _ (is_int_lin _ _ _ _ (x - 1) _ _ P1 P1) P2) P3)].
    intros t. simpl. field. }
  assert (E2 : C2 = (tf ^ 3 - ti ^ 3) / INR 3 + (x - 1) * ((tf ^ 3 - ti ^ 3) / INR 3) + v * ((tf ^ 4 - ti ^ 4) / INR 4)
                    + (a / 2) * ((tf ^ 5 - ti ^ 5) / INR 5)).
  { eapply is_int_unique; [exact H2|].
    eapply is_int_ext; [|exact (is_int_lin _ _ _ _ (a / 2) _ _ (is_int_lin _ _ _ _ v _ _ (is_int_lin _ _ _ _ (x - 1) _ _ P2 P2) P3) P4)].
    intros t. simpl. field. }
  simpl in E0, E1, E2. subst C0 C1 C2. split.
  - unfold fit3. f_equal; [f_equal|]; field; lra.
  - intros ->. unfold fit2. f_equal; field; lra.
Qed.

(** ** The samples used *)
Lemma argmin_from_spec : forall l best ib i, (ib < i)%nat ->
  let r := argmin_from best ib i l in
  (r = ib /\ (forall k, (k < length l)%nat -> best <= nth k l 0))
  \/ (exists k, (k < length l)%nat /\ r = (i + k)%nat /\ nth k l 0 < best
        /\ (forall j, (j < length l)%nat -> nth k l 0 <= nth j l 0) /\ (forall j, (j < k)%nat -> nth k l 0 < nth j l 0)).
Proof.
  induction l as [|a l IH]; intros best ib i Hi r; subst r; simpl argmin_from.
  - left. split; [reflexivity|]. simpl; intros; lia.
  - destruct (Rltb_spec a best) as [L|L].
    + right. destruct (IH a i (S i) ltac:(lia)) as [[-> H]|(k & Hk & -> & H1 & H2 & H3)].
      * exists 0%nat. simpl. split; [lia|]. split; [lia|]. split; [exact L|]. split; [|intros; lia].
        intros [|j] Hj; [lra|]. apply H. lia.
      * exists (S k). simpl. split; [lia|]. split; [lia|]. split; [lra|]. split.
        -- intros [|j] Hj; [lra|]. apply H2. lia.
        -- intros [|j] Hj; [exact H1|]. apply H3. lia.
    + destruct (IH best ib (S i) ltac:(lia)) as [[-> H]|(k & Hk & -> & H1 & H2 & H3)].
      * left. split; [reflexivity|]. intros [|j] Hj; simpl in *; [lra|]. apply H. lia.
      * right. exists (S k). simpl. split; [lia|]. split; [lia|]. split; [exact H1|]. split.
        -- intros [|j] Hj; [lra|]. apply H2. lia.
        -- intros [|j] Hj; [lra|]. apply H3. lia.
Qed.

(** np.argmin: first index of the least entry. *)
Lemma argmin_spec : forall l i, argmin l = Ok i ->
  (i < length l)%nat /\ (forall j, (j < length l)%nat -> nth i l 0 <= nth j l 0)
  /\ (forall j, (j < i)%nat -> nth i l 0 < nth j l 0).
Proof.
  intros [|a l] i H; [discriminate|]. simpl in H. injection H as <-.
  destruct (argmin_from_spec l a 0 1 ltac:(lia)) as [[-> H]|(k & Hk & -> & H1 & H2 & H3)].
  - simpl. split; [lia|]. split; [|intros; lia]. intros [|j] Hj; [lra|]. apply H. lia.
  - simpl. split; [lia|]. split.
    + intros [|j] Hj; [lra|]. apply H2. lia.
    + intros [|j] Hj; [exact H1|]. apply H3. lia.
Qed.

Lemma last_nth_error : forall (l : list R) a d, nth_error (a :: l) (length (a :: l) - 1) = Some (last (a :: l) d).
Proof.
  induction l as [|b l IH]; intros a d; [reflexivity|].
  specialize (IH b d). simpl length in *. rewrite Nat.sub_succ, Nat.sub_0_r in *. exact IH.
Qed.

(** The fit applies the formulas on [t_i, t_f] to the moments of the samples nearest to t_i and t_f. *)
Theorem C42_estimate : forall simps t com sb se accel x v a ti tf, length com = length t ->
  estimate simps t com sb se accel = Ok (x, v, a, ti, tf) ->
  exists t0 tl i j, nth_error t 0 = Some t0 /\ nth_error t (length t - 1) = Some tl
    /\ ti = t0 + (tl - t0) * sb /\ tf = tl - (tl - t0) * se
    /\ (i < length t)%nat /\ (j < length t)%nat
    /\ (forall k, (k < length t)%nat -> Rabs (nth i t 0 - ti) <= Rabs (nth k t 0 - ti))
    /\ (forall k, (k < length t)%nat -> Rabs (nth j t 0 - tf) <= Rabs (nth k t 0 - tf))
    /\ let ts := segment i j t in let cs := segment i j com in
       let M k := simps (map (fun p => fst p ^ k * snd p) (combine ts cs)) ts in
       if accel then fit3 ti tf (simps cs ts) (M 1%nat) (M 2%nat) = (x, v, a)
       else fit2 ti tf (simps cs ts) (M 1%nat) = (x, v) /\ a = 0.
Proof.
  intros simps t com sb se accel x v a ti tf L H. unfold estimate in H.
  destruct t as [|t0 t']; [discriminate|]. set (t := t0 :: t') in *.
  set (tl := last t t0) in *.
  destruct (argmin (map (fun s => Rabs (s - (t0 + (tl - t0) * sb))) t)) as [i|] eqn:Ei; [|discriminate].
  cbn [rbind] in H.
  destruct (argmin (map (fun s => Rabs (s - (tl - (tl - t0) * se))) t)) as [j|] eqn:Ej; [|discriminate].
  cbn [rbind] in H.
  assert (Sg : forall k, segment i j (map (fun p : R * R => fst p ^ k * snd p) (combine t com))
                 = map (fun p => fst p ^ k * snd p) (combine (segment i j t) (segment i j com))).
  { intros k. unfold segment. rewrite skipn_map, firstn_map. f_equal.
    assert (Sc : forall n (u w : list R), skipn n (combine u w) = combine (skipn n u) (skipn n w)).
    { induction n; intros [|u0 u] [|w0 w]; simpl; try reflexivity; try (destruct (skipn n u); reflexivity). apply IHn. }
    rewrite Sc, combine_firstn. reflexivity. }
  apply argmin_spec in Ei, Ej. destruct Ei as (Li & Mi & _). destruct Ej as (Lj & Mj & _).
  rewrite map_length in Li, Lj, Mi, Mj.
  assert (Nm : forall c k, (k < length t)%nat -> nth k (map (fun s => Rabs (s - c)) t) 0 = Rabs (nth k t 0 - c)).
  { intros c k Hk. rewrite (nth_indep _ 0 (Rabs (0 - c))) by (rewrite map_length; exact Hk).
    rewrite (map_nth (fun s => Rabs (s - c))). reflexivity. }
  exists t0, tl, i, j.
  assert (Htl : nth_error t (length t - 1) = Some tl).
  { apply last_nth_error. }
  assert (Ai : forall k, (k < length t)%nat -> Rabs (nth i t 0 - (t0 + (tl - t0) * sb)) <= Rabs (nth k t 0 - (t0 + (tl - t0) * sb))).
  { intros k Hk. rewrite <- !Nm by assumption. apply Mi, Hk. }
  assert (Aj : forall k, (k < length t)%nat -> Rabs (nth j t 0 - (tl - (tl - t0) * se)) <= Rabs (nth k t 0 - (tl - (tl - t0) * se))).
  { intros k Hk. rewrite <- !Nm by assumption. apply Mj, Hk. }
  destruct accel.
  - rewrite !Sg in H. destruct (fit3 _ _ _ _ _) as [[x' v'] a'] eqn:EF. injection H as <- <- <- <- <-.
    do 8 (split; [first [reflexivity|assumption]|]). exact EF.
  - rewrite !Sg in H. destruct (fit2 _ _ _ _) as [x' v'] eqn:EF. injection H as <- <- <- <- <-.
    do 8 (split; [first [reflexivity|assumption]|]). split; [exact EF|reflexivity].
Qed.

(** A motionless centre of mass X <> 0, with exact integrals over the samples' span [s, e]: the fit finds
    it at rest at X only when the samples span exactly [t_i, t_f]. *)
Theorem C42_motionless_iff : forall ti tf s e X, ti < tf -> s < e -> X <> 0 ->
  (fit2 ti tf (X * (e - s)) (X * (e ^ 2 - s ^ 2) / 2) = (X, 0) <-> (s = ti /\ e = tf)).
Proof.
  intros ti tf s e X H Hse HX. split.
  - intros F. unfold fit2 in F. pose proof (f_equal fst F) as Fx. pose proof (f_equal snd F) as Fv. cbn [fst snd] in Fx, Fv.
    assert (D3 : (tf - ti) ^ 3 <> 0) by (apply pow_nonzero; lra).
    assert (D4 : (tf - ti) ^ 4 <> 0) by (apply pow_nonzero; lra).
    assert (V : (e - s) * (- tf - ti) + (e ^ 2 - s ^ 2) = 0).
    { assert (6 * X * ((e - s) * (- tf - ti) + (e ^ 2 - s ^ 2)) = 0).
      { replace (6 * X * ((e - s) * (- tf - ti) + (e ^ 2 - s ^ 2)))
          with (6 * (X * (e - s) * (- tf - ti) + 2 * (X * (e ^ 2 - s ^ 2) / 2)) / (tf - ti) ^ 3 * (tf - ti) ^ 3) by (field; lra).
        rewrite Fv. ring. }
      apply Rmult_integral in H0. destruct H0; [exfalso; lra|assumption]. }
    assert (V' : e + s = tf + ti).
    { assert ((e - s) * ((e + s) - (tf + ti)) = 0) by (rewrite <- V; ring).
      apply Rmult_integral in H0. destruct H0; lra. }
    assert (Y : (e - s) * (tf - ti) ^ 3 = (tf - ti) ^ 4).
    { assert (X * ((e - s) * (tf - ti) ^ 3) = X * (tf - ti) ^ 4).
      { rewrite <- Fx at 2.
        replace (2 * (X * (e - s) * (2 * tf ^ 3 - 2 * ti ^ 3) + X * (e ^ 2 - s ^ 2) / 2 * (-3 * tf ^ 2 + 3 * ti ^ 2)) / (tf - ti) ^ 4 * (tf - ti) ^ 4)
          with (2 * (X * (e - s) * (2 * tf ^ 3 - 2 * ti ^ 3) + X * ((e - s) * (e + s)) / 2 * (-3 * tf ^ 2 + 3 * ti ^ 2))) by (field; lra).
        rewrite V'. field. }
      apply Rmult_eq_reg_l in H0; assumption. }
    assert (e - s = tf - ti).
    { apply Rmult_eq_reg_r with ((tf - ti) ^ 3); [|assumption]. rewrite Y. ring. }
    lra.
  - intros [-> ->]. unfold fit2. f_equal; field; lra.
Qed.

(** Hence with the default fractions (1% and 10%) a motionless binary is reported as moving, on a grid that
    does not contain those times. *)
Definition trapezoid2 (y t : list R) : R :=
  match y, t with [y0; y1], [t0; t1] => (y0 + y1) / 2 * (t1 - t0) | _, _ => 0 end.
Theorem C42_motionless_refuted : exists t com x v ti tf, length com = length t /\ (forall y, In y com -> y = 1)
  /\ estimate trapezoid2 t com (1/100) (1/10) false = Ok (x, v, 0, ti, tf) /\ x <> 1 /\ v <> 0.
Proof.
  exists [0; 1], [1; 1].
  assert (E : exists p, estimate trapezoid2 [0; 1] [1; 1] (1/100) (1/10) false = Ok (fst p, snd p, 0, 1/100, 9/10)
             /\ p = fit2 (1/100) (9/10) 1 (1/2)).
  { unfold estimate. simpl last.
    replace (0 + (1 - 0) * (1 / 100)) with (1/100) by field. replace (1 - (1 - 0) * (1 / 10)) with (9/10) by field.
    assert (A1 : argmin (map (fun s => Rabs (s - 1/100)) [0; 1]) = Ok 0%nat).
    { simpl. rewrite (Rabs_left (0 - 1/100)), (Rabs_right (1 - 1/100)) by lra.
      destruct (Rltb_spec (1 - 1/100) (- (0 - 1/100))); [lra|reflexivity]. }
    assert (A2 : argmin (map (fun s => Rabs (s - 9/10)) [0; 1]) = Ok 1%nat).
    { simpl. rewrite (Rabs_left (0 - 9/10)), (Rabs_right (1 - 9/10)) by lra.
      destruct (Rltb_spec (1 - 9/10) (- (0 - 9/10))); [reflexivity|lra]. }
    rewrite A1. cbn [rbind]. rewrite A2. cbn [rbind]. unfold segment. simpl firstn.
    eexists. split; [|reflexivity]. unfold trapezoid2. simpl.
    f_equal. f_equal. f_equal. f_equal. f_equal; field. }
  destruct E as ([x v] & E & F). simpl in E. exists x, v, (1/100), (9/10).
  split; [reflexivity|]. split; [simpl; intros y [<-|[<-|[]]]; reflexivity|]. split; [exact E|].
  unfold fit2 in F. injection F as -> ->. split.
  - apply Rlt_not_eq. apply Rmult_lt_reg_r with ((9/10 - 1/100) ^ 4); [simpl; lra|].
    unfold Rdiv at 1. rewrite Rmult_assoc, Rinv_l; simpl; lra.
  - apply Rgt_not_eq. apply Rdiv_lt_0_compat; simpl; lra.
Qed.

(** * C54: the centre-of-mass trajectory *)
Definition com_row (a b : R) (xa xb : list R) : list R :=
  map (fun p => (a * fst p + b * snd p) / (a + b)) (combine xa xb).

Lemma bcast_same : forall A B D (f : A -> B -> D) a b, length a = length b ->
  bcast f a b = Ok (map (fun p => f (fst p) (snd p)) (combine a b)).
Proof. intros. unfold bcast. rewrite H, Nat.eqb_refl. reflexivity. Qed.

Lemma bcast_one : forall A B D (f : A -> B -> D) x b, bcast f [x] b = Ok (map (f x) b).
Proof.
  intros. unfold bcast. simpl length. destruct b as [|b0 [|b1 b]]; reflexivity.
Qed.
Lemma bcast_one_r : forall A B D (f : A -> B -> D) a y, bcast f a [y] = Ok (map (fun x => f x y) a).
Proof. intros. unfold bcast. simpl length. destruct a as [|a0 [|a1 a]]; reflexivity. Qed.

Lemma com_row_eq : forall a b xa xb,
  row_div (row_add (row_scale a xa) (row_scale b xb)) (a + b) = com_row a b xa xb.
Proof.
  intros a b. unfold row_div, row_add, row_scale, com_row. induction xa as [|x xa IH]; intros [|y xb]; simpl; try reflexivity.
  f_equal. apply IH.
Qed.

(** Two black holes: at every time the mass-weighted mean of the two positions, and the masses passed by the
    caller are ignored. *)
Theorem C54_black_holes : forall hor ma mb n, length (h_mA hor) = n -> length (h_mB hor) = n ->
  length (h_xA hor) = n -> length (h_xB hor) = n ->
  exists com, com_motion hor None ma mb = Ok (h_t hor, com) /\ length com = n
    /\ forall k, (k < n)%nat -> nth k com [] =
         com_row (nth k (h_mA hor) 0) (nth k (h_mB hor) 0) (nth k (h_xA hor) []) (nth k (h_xB hor) []).
Proof.
  intros [t mA xA mB xB] ma mb n. cbn [h_t h_mA h_mB h_xA h_xB com_motion]. intros La Lb Lxa Lxb.
  unfold weighted_mean. rewrite (bcast_same _ _ _ Rplus) by congruence. cbn [rbind].
  rewrite (bcast_same _ _ _ row_scale mA) by congruence. cbn [rbind].
  rewrite (bcast_same _ _ _ row_scale mB) by congruence. cbn [rbind].
  rewrite (bcast_same _ _ _ row_add) by (rewrite !map_length, !combine_length; lia). cbn [rbind].
  rewrite (bcast_same _ _ _ row_div) by (rewrite !map_length, !combine_length, !map_length, !combine_length; lia). cbn [rbind].
  eexists. split; [reflexivity|]. clear t ma mb.
  revert n mB xA xB La Lb Lxa Lxb.
  induction mA as [|a mA IH]; intros n [|b mB] [|x xA] [|y xB] La Lb Lxa Lxb; simpl in *; try lia.
  - split; [lia|]. intros; lia.
  - destruct n as [|n]; [lia|]. specialize (IH n mB xA xB ltac:(lia) ltac:(lia) ltac:(lia) ltac:(lia)).
    destruct IH as [IL IN]. split; [f_equal; exact IL|].
    intros [|k] Hk; [apply com_row_eq|]. apply IN. lia.
Qed.

Theorem C54_masses_ignored_refuted : exists hor mA mB t com com',
  com_motion hor None None None = Ok (t, com) /\ com_motion hor None (Some mA) (Some mB) = Ok (t, com')
  /\ com = com' /\ (* the mean with the given masses would differ *)
  com' <> map (fun p => com_row mA mB (fst p) (snd p)) (combine (h_xA hor) (h_xB hor)).
Proof.
  exists (mkhor [0] [1] [[0; 0; 0]] [1] [[2; 0; 0]]), 3, 1, [0]. eexists. eexists.
  split; [reflexivity|]. split; [reflexivity|]. split; [reflexivity|].
  intros E. simpl in E. unfold com_row, row_div, row_add, row_scale in E. simpl in E. injection E as E. lra.
Qed.

(** With positive masses each coordinate lies between those of the two bodies. *)
Theorem C54_between : forall a b xa xb k, 0 < a -> 0 < b -> (k < length xa)%nat -> (k < length xb)%nat ->
  Rmin (nth k xa 0) (nth k xb 0) <= nth k (com_row a b xa xb) 0 <= Rmax (nth k xa 0) (nth k xb 0).
Proof.
  intros a b xa xb k Ha Hb. revert xb k.
  induction xa as [|x xa IH]; intros [|y xb] k H1 H2; simpl in *; try lia.
  destruct k as [|k]; [|apply IH; lia].
  assert (E : (a * x + b * y) / (a + b) = x + b / (a + b) * (y - x)) by (field; lra).
  assert (W : 0 < b / (a + b) < 1).
  { split; [apply Rdiv_lt_0_compat; lra|]. apply Rmult_lt_reg_r with (a + b); [lra|]. unfold Rdiv. rewrite Rmult_assoc, Rinv_l by lra. lra. }
  rewrite E. unfold Rmin, Rmax. destruct (Rle_dec x y); nra.
Qed.

(** Two neutron stars of given masses, and a black hole with a neutron star: times and positions in units of
    the total mass; disagreeing time columns are rejected. *)
Theorem C54_neutron_stars : forall hor t1 x1 t2 x2 a b, length x1 = length t1 -> length x2 = length t1 ->
  (t1 = t2 -> com_motion hor (Some (mkmat (Some (t1, x1)) (Some (t2, x2)))) (Some a) (Some b)
     = Ok (map (fun t => t / (a + b)) t1,
           map (fun p => row_div (com_row a b (fst p) (snd p)) (a + b)) (combine x1 x2)))
  /\ (t1 <> t2 -> forall ma mb, com_motion hor (Some (mkmat (Some (t1, x1)) (Some (t2, x2)))) ma mb = Err ValueError)
  /\ (forall ma, com_motion hor (Some (mkmat (Some (t1, x1)) (Some (t2, x2)))) ma None = Err ValueError)
  /\ (forall mb, com_motion hor (Some (mkmat (Some (t1, x1)) (Some (t2, x2)))) None mb = Err ValueError).
Proof.
  intros hor t1 x1 t2 x2 a b L1 L2. unfold com_motion. cbn [ns1 ns2].
  split; [|split; [|split]].
  - intros <-. unfold list_Reqb. destruct (list_eq_dec Req_EM_T t1 t1) as [_|N]; [|congruence]. cbn [negb rbind].
    unfold weighted_mean. rewrite bcast_one. cbn [rbind map]. rewrite !bcast_one. cbn [rbind].
    rewrite (bcast_same _ _ _ row_add) by (rewrite !map_length; lia). cbn [rbind].
    rewrite bcast_one_r. cbn [rbind]. rewrite !bcast_one_r. cbn [rbind]. f_equal. f_equal.
    rewrite !map_map. clear L1. revert x2 L2. generalize (length t1) as n. clear t1. 
    induction x1 as [|r x1 IH]; intros n x2 L2; [reflexivity|]. destruct x2 as [|s x2]; [reflexivity|]. simpl.
    rewrite com_row_eq. f_equal. apply (IH (length x2) x2 eq_refl).
  - intros N ma mb. unfold list_Reqb. destruct (list_eq_dec Req_EM_T t1 t2); [congruence|]. reflexivity.
  - intros [ma|]; destruct (list_Reqb t1 t2); reflexivity.
  - intros [mb|]; destruct (list_Reqb t1 t2); reflexivity.
Qed.

Example C54_case : exists t com, com_motion (mkhor [0; 1] [3; 3] [[4; 0; 0]; [0; 4; 0]] [1; 1] [[0; 0; 0]; [0; 0; 0]]) None None None
  = Ok (t, com) /\ nth 1 com [] = com_row 3 1 [0; 4; 0] [0; 0; 0] /\ nth 1 (nth 1 com []) 0 = 3.
Proof.
  destruct (C54_black_holes (mkhor [0; 1] [3; 3] [[4; 0; 0]; [0; 4; 0]] [1; 1] [[0; 0; 0]; [0; 0; 0]]) None None 2
    eq_refl eq_refl eq_refl eq_refl) as (com & E & _ & N).
  exists [0; 1], com. split; [exact E|]. specialize (N 1%nat ltac:(lia)). simpl in N. split; [exact N|].
  rewrite N. unfold com_row. simpl. field.
Qed.

Example C42_case : exists C0 C1, is_int 0 2 (fun t => 1 + 3 * t + 0 * t ^ 2 / 2) C0
  /\ is_int 0 2 (fun t => t * (1 + 3 * t + 0 * t ^ 2 / 2)) C1 /\ fit2 0 2 C0 C1 = (1, 3).
Proof.
  pose proof (is_int_pow 0 2 0) as P0. pose proof (is_int_pow 0 2 1) as P1. pose proof (is_int_pow 0 2 2) as P2.
  eexists. eexists. split; [|split].
  - eapply is_int_ext; [|exact (is_int_lin _ _ _ _ 3 _ _ P0 P1)]. intros; simpl; field.
  - eapply is_int_ext; [|exact (is_int_lin _ _ _ _ 3 _ _ P1 P2)]. intros; simpl; field.
  - unfold fit2. simpl. f_equal; field.
Qed.
