(** C90: the sample waveform of a precessing binary (/repo/scri/sample_waveforms.py 383-533). *)
From Coq Require Import Reals ZArith List Bool Lia Lra Psatz.
From Verif Require Import Common Cplx Quat Modes_Model Times_Model Times_Proofs Tables_Model Kwargs_Model Transform_Model Transform_Proofs Modes_Proofs Modal_Model Modal_Proofs Rotate_Model Rotate_Proofs Motion_Model Motion_Proofs
  Superrest_Model Align_Model Corot_Model Transition_Model Transition_Proofs Pipeline_Model Pipeline_Proofs Sample_Model Sample_Proofs Precess_Model.
Import ListNotations.
Open Scope R_scope.

(** * Equally spaced times *)
Definition grid (a d : R) (n : nat) : list R := map (fun i => a + INR i * d) (seq 0 n).
Lemma grid_length : forall a d n, length (grid a d n) = n.
Proof. intros. unfold grid. rewrite map_length, seq_length. reflexivity. Qed.
Lemma grid_at : forall a d n k, (k < n)%nat -> at_ (grid a d n) k = a + INR k * d.
Proof. intros a d n k H. unfold at_, grid. rewrite (nth_indep _ 0 (a + INR 0 * d)) by (rewrite map_length, seq_length; exact H). rewrite (map_nth (fun i => a + INR i * d)), seq_nth by exact H. reflexivity. Qed.
Lemma grid_nondecreasing : forall a d n, 0 < d -> nondecreasing (grid a d n).
Proof.
  intros a d n H i j Hij. rewrite grid_length in Hij. change (at_ (grid a d n) i <= at_ (grid a d n) j). rewrite !grid_at by lia.
  assert (INR i <= INR j) by (apply le_INR; lia). nra.
Qed.
Lemma nth_map_R : forall (f : R -> R) l k, (k < length l)%nat -> nth k (map f l) 0 = f (nth k l 0).
Proof. intros f l k H. rewrite (nth_indep _ 0 (f 0)) by (rewrite map_length; exact H). apply map_nth. Qed.
Lemma nearest_spec : forall x t i, nearest x t = Ok i ->
  (i < length t)%nat /\ (forall j, (j < length t)%nat -> Rabs (at_ t i - x) <= Rabs (at_ t j - x)) /\ (forall j, (j < i)%nat -> Rabs (at_ t i - x) < Rabs (at_ t j - x)).
Proof.
  intros x t i H. unfold nearest in H. apply argmin_spec in H. rewrite map_length in H. destruct H as (A & B & D). split; [exact A|]. unfold at_. split; intros j Hj.
  - specialize (B j Hj). rewrite !nth_map_R in B by assumption. exact B.
  - specialize (D j Hj). rewrite !nth_map_R in D by (assumption || lia). exact D.
Qed.
Lemma nearest_total : forall x t, t <> [] -> exists i, nearest x t = Ok i.
Proof. intros x [|a t] H; [congruence|]. unfold nearest. cbn [map]. eexists; reflexivity. Qed.
Lemma below : forall a d x n, 0 < d -> a <= x -> exists k, a + INR k * d <= x < a + INR (S k) * d /\ (x <= a + INR n * d -> (k <= n)%nat).
Proof.
  intros a d x n Hd Hx. destruct (archimed ((x - a) / d)) as [A B]. assert (P : 0 <= (x - a) / d) by (apply Rmult_le_pos; [lra|apply Rlt_le, Rinv_0_lt_compat; exact Hd]).
  assert (E : (x - a) / d * d = x - a) by (field; lra). set (u := up ((x - a) / d)) in *. assert (U : (1 <= u)%Z) by (assert (IZR 0 < IZR u) by lra; apply lt_IZR in H; lia).
  exists (Z.to_nat (u - 1)). assert (EI : INR (Z.to_nat (u - 1)) = IZR u - 1) by (rewrite INR_IZR_INZ, Z2Nat.id, minus_IZR by lia; reflexivity).
  rewrite S_INR, EI. split; [split; nra|]. intros H. apply INR_le. rewrite EI. nra.
Qed.
Lemma nearest_grid : forall a d n x, 0 < d -> (0 < n)%nat -> a <= x -> x <= a + INR (n - 1) * d ->
  exists i, nearest x (grid a d n) = Ok i /\ (i < n)%nat /\ Rabs (a + INR i * d - x) <= d / 2.
Proof.
  intros a d n x Hd Hn Ha Hx. destruct (nearest_total x (grid a d n)) as (i & Ei). { intros E. apply (f_equal (@length R)) in E. rewrite grid_length in E. cbn in E. lia. }
  exists i. split; [exact Ei|]. destruct (nearest_spec _ _ _ Ei) as (Li & M & _). rewrite grid_length in *. split; [exact Li|].
  destruct (below a d x (n - 1) Hd Ha) as (k & [K1 K2] & K3). specialize (K3 Hx). rewrite S_INR in K2.
  assert (M1 := M k ltac:(lia)). rewrite !grid_at in M1 by lia. rewrite (Rabs_left1 (a + INR k * d - x)) in M1 by lra.
  destruct (Rle_dec (x - (a + INR k * d)) (d / 2)) as [S|S]; [lra|].
  destruct (Nat.eq_dec k (n - 1)) as [E|E]; [subst k; lra|].
  assert (M2 := M (Datatypes.S k) ltac:(lia)). rewrite !grid_at in M2 by lia. rewrite S_INR in M2. rewrite (Rabs_right (a + (INR k + 1) * d - x)) in M2 by lra. lra.
Qed.

(** The array of the times *)
Lemma times_of : forall t0 t1 d, 0 < d -> t0 <= t1 -> exists n, arange t0 (t1 + 99 / 100 * d) d = Ok (grid t0 d (S n)) /\ t1 - d / 100 <= t0 + INR n * d < t1 + 99 / 100 * d.
Proof.
  intros t0 t1 d Hd Ht. unfold arange. destruct (Req_EM_T d 0); [lra|].
  pose proof (ceiling_spec ((t1 + 99 / 100 * d - t0) / d)) as [A B]. set (c := ceiling _) in *.
  assert (E : (t1 + 99 / 100 * d - t0) / d * d = t1 + 99 / 100 * d - t0) by (field; lra). set (y := (t1 + 99 / 100 * d - t0) / d) in *.
  assert (P : 0 < y) by nra. assert (C1 : (1 <= c)%Z) by (assert (IZR 0 < IZR c) by lra; apply lt_IZR in H; lia).
  exists (Z.to_nat (c - 1)). assert (EN : Z.to_nat c = Datatypes.S (Z.to_nat (c - 1))) by lia. rewrite EN. split; [reflexivity|].
  rewrite INR_IZR_INZ, Z2Nat.id by lia. rewrite minus_IZR. split; nra.
Qed.

(** * Powers *)
Lemma power_pos : forall a b, 0 < a -> power a b = Fin (Rpower a b).
Proof. intros a b H. unfold power. destruct (Rltb_spec a 0); [lra|]. destruct (Req_EM_T a 0); [lra|reflexivity]. Qed.
Lemma Rpower_pos : forall a b, 0 < Rpower a b.
Proof. intros. apply exp_pos. Qed.
Lemma Rpower_falls : forall a b e, 0 < a -> a < b -> 0 < e -> Rpower b (- e) < Rpower a (- e).
Proof. intros a b e Ha Hb He. unfold Rpower. apply exp_increasing. assert (ln a < ln b) by (apply ln_increasing; assumption). nra. Qed.

(** What the orbit does long before the merger *)
Definition orbital_phase (nu tm s : R) : R := -4 * Rpower (nu * (tm - s) / 5) (5 / 8).
Definition orbital_frequency (nu tm s : R) : R := nu / 2 * Rpower (nu * (tm - s) / 5) (- (3 / 8)).
Lemma tau_pos : forall nu tm s, 0 < nu -> s < tm -> 0 < nu * (tm - s) / 5.
Proof. intros. apply Rmult_lt_0_compat; [apply Rmult_lt_0_compat; lra|lra]. Qed.
Lemma phase_before : forall nu tm s, 0 < nu -> s < tm -> phase_at nu tm s = Fin (orbital_phase nu tm s).
Proof. intros nu tm s H Hs. unfold phase_at. rewrite power_pos by (apply tau_pos; assumption). reflexivity. Qed.
Lemma frequency_before : forall nu tm s, 0 < nu -> s < tm -> frequency_at nu tm s = Fin (orbital_frequency nu tm s).
Proof. intros nu tm s H Hs. unfold frequency_at. rewrite power_pos by (apply tau_pos; assumption). reflexivity. Qed.
Lemma frequency_pos : forall nu tm s, 0 < nu -> 0 < orbital_frequency nu tm s.
Proof. intros. unfold orbital_frequency. apply Rmult_lt_0_compat; [lra|apply Rpower_pos]. Qed.
Lemma frequency_rises : forall nu tm s s', 0 < nu -> s < s' -> s' < tm -> orbital_frequency nu tm s < orbital_frequency nu tm s'.
Proof.
  intros nu tm s s' H Hs Ht. unfold orbital_frequency. apply Rmult_lt_compat_l; [lra|]. apply Rpower_falls; [apply tau_pos; lra| |lra].
  unfold Rdiv. apply Rmult_lt_compat_r; [lra|]. apply Rmult_lt_compat_l; lra.
Qed.
(** Five units before the merger the frequency has not yet reached 1/4. *)
Lemma frequency_low : forall nu tm s, 0 < nu <= 1 / 4 -> s <= tm - 5 -> orbital_frequency nu tm s <= 1 / 4.
Proof.
  intros nu tm s [H H4] Hs. unfold orbital_frequency.
  assert (A : Rpower (nu * (tm - s) / 5) (- (3 / 8)) <= Rpower nu (- (3 / 8))).
  { destruct (Req_dec (nu * (tm - s) / 5) nu) as [-> |N]; [lra|]. apply Rlt_le, Rpower_falls; [exact H| |lra]. assert (nu <= nu * (tm - s) / 5) by (assert (nu * 5 <= nu * (tm - s)) by (apply Rmult_le_compat_l; lra); lra). lra. }
  apply Rle_trans with (nu / 2 * Rpower nu (- (3 / 8))); [apply Rmult_le_compat_l; lra|].
  assert (E : nu * Rpower nu (- (3 / 8)) = Rpower nu (5 / 8)) by (rewrite <- (Rpower_1 nu) at 1 by exact H; rewrite <- Rpower_plus; f_equal; lra).
  assert (B : Rpower nu (5 / 8) <= Rpower (1 / 4) (5 / 8)) by (apply Rle_Rpower_l; lra).
  assert (D : Rpower (1 / 4) (5 / 8) <= 1 / 2).
  { replace (1 / 2) with (Rpower (1 / 4) (1 / 2)).
    - unfold Rpower. assert (L : ln (1 / 4) < 0) by (rewrite <- ln_1; apply ln_increasing; lra). destruct (Req_dec (5 / 8 * ln (1 / 4)) (1 / 2 * ln (1 / 4))) as [-> |]; [lra|]. apply Rlt_le, exp_increasing. nra.
    - replace (1 / 2) with (/ 2) at 1 by lra. rewrite Rpower_sqrt by lra. replace (1 / 4) with ((1 / 2) * (1 / 2)) by lra. apply sqrt_square. lra. }
  replace (nu / 2 * Rpower nu (- (3 / 8))) with (nu * Rpower nu (- (3 / 8)) / 2) by lra. rewrite E. lra.
Qed.

(** np.argmin for values that may be infinite *)
Lemma xlt_false_trans : forall a b c, a <> NaN -> b <> NaN -> c <> NaN -> xlt a b = false -> xlt b c = false -> xlt a c = false.
Proof.
  intros [a| | |] [b| | |] [c| | |]; cbn; intros; try congruence; try reflexivity.
  destruct (Rltb_spec a b); [congruence|]. destruct (Rltb_spec b c); [congruence|]. destruct (Rltb_spec a c); [lra|reflexivity].
Qed.
Lemma xargmin_from_spec : forall l best ib i, best <> NaN -> ~ In NaN l -> (ib < i)%nat ->
  (xargmin_from best ib i l = ib /\ (forall j, (j < length l)%nat -> xlt (nth j l NaN) best = false)) \/
  (exists k, (k < length l)%nat /\ xargmin_from best ib i l = (i + k)%nat /\ xlt best (nth k l NaN) = false /\ forall j, (j < length l)%nat -> xlt (nth j l NaN) (nth k l NaN) = false).
Proof.
  induction l as [|a l IH]; intros best ib i Hb Hl Hi; cbn [xargmin_from].
  { left. split; [reflexivity|]. cbn. intros; lia. }
  assert (Na : a <> NaN) by (intros ->; apply Hl; left; reflexivity). assert (Nl : ~ In NaN l) by (intros I; apply Hl; right; exact I).
  destruct (xlt a best) eqn:Eab.
  - right. assert (Eba : xlt best a = false). { destruct a as [a| | |], best as [b| | |]; cbn in *; try congruence; try reflexivity. destruct (Rltb_spec a b); [|congruence]. destruct (Rltb_spec b a); [lra|reflexivity]. }
    assert (Eaa : xlt a a = false). { destruct a as [a| | |]; cbn; try reflexivity. destruct (Rltb_spec a a); [lra|reflexivity]. }
    destruct (IH a i (Datatypes.S i) Na Nl ltac:(lia)) as [[E M]|(k & K & E & B & M)].
    + exists 0%nat. cbn [nth length]. split; [lia|]. split; [rewrite E; lia|]. split; [exact Eba|]. intros [|j] Hj; [exact Eaa|]. apply M. lia.
    + exists (Datatypes.S k). cbn [nth length]. split; [lia|]. split; [rewrite E; lia|]. assert (Nk : nth k l NaN <> NaN) by (intros X; apply Nl; rewrite <- X; apply nth_In; exact K).
      split; [exact (xlt_false_trans _ _ _ Hb Na Nk Eba B)|]. intros [|j] Hj; [exact B|]. apply M. lia.
  - destruct (IH best ib (Datatypes.S i) Hb Nl ltac:(lia)) as [[E M]|(k & K & E & B & M)].
    + left. split; [exact E|]. intros [|j] Hj; [exact Eab|]. apply M. cbn in Hj. lia.
    + right. exists (Datatypes.S k). cbn [nth length]. split; [lia|]. split; [rewrite E; lia|]. split; [exact B|]. assert (Nk : nth k l NaN <> NaN) by (intros X; apply Nl; rewrite <- X; apply nth_In; exact K).
      intros [|j] Hj; [exact (xlt_false_trans _ _ _ Na Hb Nk Eab B)|]. apply M. lia.
Qed.
Lemma xargmin_spec : forall l i, ~ In NaN l -> xargmin l = Ok i -> (i < length l)%nat /\ forall j, (j < length l)%nat -> xlt (nth j l NaN) (nth i l NaN) = false.
Proof.
  intros [|a l] i Hl H; [discriminate|]. cbn [xargmin] in H. injection H as <-. assert (Na : a <> NaN) by (intros ->; apply Hl; left; reflexivity). assert (Nl : ~ In NaN l) by (intros I; apply Hl; right; exact I).
  assert (Eaa : xlt a a = false). { destruct a as [a| | |]; cbn; try reflexivity. destruct (Rltb_spec a a); [lra|reflexivity]. }
  destruct (xargmin_from_spec l a 0 1 Na Nl ltac:(lia)) as [[E M]|(k & K & E & B & M)]; rewrite E; cbn [length].
  - split; [lia|]. intros [|j] Hj; [exact Eaa|]. apply M. lia.
  - split; [lia|]. cbn [Nat.add nth]. intros [|j] Hj; [exact B|]. apply M. lia.
Qed.
(** Filtering out the end of an array *)
Lemma filter_prefix : forall A (f : A -> bool) (dflt : A) l, (forall i j, (i <= j < length l)%nat -> f (nth j l dflt) = true -> f (nth i l dflt) = true) ->
  (length (filter f l) <= length l)%nat /\ (forall j, (j < length (filter f l))%nat -> nth j (filter f l) dflt = nth j l dflt) /\ (forall j, (j < length l)%nat -> ((j < length (filter f l))%nat <-> f (nth j l dflt) = true)).
Proof.
  intros A f d l. induction l as [|a l IH]; intros H; cbn [filter length].
  { split; [lia|]. split; intros; lia. }
  destruct (f a) eqn:Ea.
  - destruct IH as (L & E & I). { intros i j Hij. exact (H (Datatypes.S i) (Datatypes.S j) ltac:(cbn; lia)). }
    cbn [length]. split; [lia|]. split; intros [|j] Hj; cbn [nth]; try reflexivity.
    + apply E. lia.
    + split; [intros; exact Ea|lia].
    + rewrite <- I by lia. lia.
  - assert (Z : forall j, (j < Datatypes.S (length l))%nat -> f (nth j (a :: l) d) = false).
    { intros j Hj. destruct (f (nth j (a :: l) d)) eqn:E; [|reflexivity]. pose proof (H 0%nat j ltac:(cbn; lia) E) as Q. cbn in Q. congruence. }
    assert (F : filter f l = []). { assert (Q : forall x, In x l -> f x = false) by (intros x Hx; apply (In_nth _ _ d) in Hx; destruct Hx as (j & Hj & <-); exact (Z (Datatypes.S j) ltac:(lia))). clear - Q. induction l as [|b l IH]; [reflexivity|]. cbn. rewrite (Q b (or_introl eq_refl)). apply IH. intros x Hx. apply Q. right. exact Hx. }
    rewrite F. cbn. split; [lia|]. split; [lia|]. intros j Hj. split; [lia|]. intros E. pose proof (Z j ltac:(lia)) as Q. cbn in Q. congruence.
Qed.

Lemma each_nth : forall A B (f : A -> res B) l d, (forall x, In x l -> exists y, f x = Ok y) -> exists r, each f l = Ok r /\ length r = length l /\ forall k x, nth_error l k = Some x -> f x = Ok (nth k r d).
Proof.
  intros A B f l d H. destruct (each_exists _ _ f (fun x y => f x = Ok y) l) as (r & E & F2). { intros x Hx. destruct (H x Hx) as (y & E). exists y. auto. }
  exists r. split; [exact E|]. clear E H. induction F2 as [|x y l r Hxy F2 IH]; [split; [reflexivity|]; intros [|k] x; discriminate|]. destruct IH as [L IH]. split; [cbn; lia|].
  intros [|k] z; cbn; [intros [= <-]; exact Hxy|apply IH].
Qed.
Lemma step_ends : forall x0 x1 y0 y1 x, (x <= x0 -> smooth_step x0 x1 y0 y1 x = y0) /\ (x0 < x -> x1 <= x -> smooth_step x0 x1 y0 y1 x = y1).
Proof. intros. unfold smooth_step. split; intros; rcases. Qed.
Lemma transition_at : forall t x0 x1 y0 y1, nondecreasing t -> t <> [] -> x0 < nth (length t - 1) t 0 -> x1 <= nth (length t - 1) t 0 ->
  exists tr i j, transition_function t x0 x1 y0 y1 = Ok (tr, i, j) /\ length tr = length t /\ forall k, (k < length t)%nat -> at_ tr k = smooth_step x0 x1 y0 y1 (at_ t k).
Proof.
  intros t x0 x1 y0 y1 Ht Hn H0 H1. destruct (proj2 (C27_sorted t x0 x1 y0 y1 Ht) (conj Hn (conj H0 H1))) as ([[tr i] j] & E).
  exists tr, i, j. split; [exact E|]. destruct (C26_transition _ _ _ _ _ _ _ _ Ht E) as (-> & _). rewrite map_length. split; [reflexivity|]. intros k Hk. unfold at_. apply nth_map_R. exact Hk.
Qed.

(** * Rotations about the axes *)
Definition rot_z (x : R) : quat := mkq (cos (x / 2)) 0 0 (sin (x / 2)).
Definition rot_x (x : R) : quat := mkq (cos (x / 2)) (sin (x / 2)) 0 0.
Lemma sin_over : forall b, b <> 0 -> sin (Rabs b) / Rabs b * b = sin b.
Proof. intros b H. unfold Rabs. destruct (Rcase_abs b); [rewrite sin_neg|]; field; lra. Qed.
Lemma cos_abs : forall b, cos (Rabs b) = cos b.
Proof. intros b. unfold Rabs. destruct (Rcase_abs b); [apply cos_neg|reflexivity]. Qed.
Lemma turn_z_eq : forall x, turn_z x = rot_z x.
Proof.
  intros x. unfold turn_z, rot_z, qexp, qexp_vec, qvec. cbn [qw qx qy qz]. set (b := x / 2). assert (N : norm3 (0, 0, b) = Rabs b).
  { unfold norm3. rewrite <- sqrt_Rsqr_abs. f_equal. unfold Rsqr. cbn. ring. }
  rewrite N, exp_0. destruct (Req_EM_T (Rabs b) 0) as [E|E].
  - assert (B : b = 0) by (destruct (Req_dec b 0) as [|Nb]; [assumption|]; apply Rabs_no_R0 in Nb; contradiction). rewrite B. apply quat_eq; cbn; rewrite ?cos_0, ?sin_0; ring.
  - apply quat_eq; cbn; rewrite ?cos_abs; try ring. rewrite sin_over; [ring|]. intros ->. rewrite Rabs_R0 in E. lra.
Qed.
Lemma turn_x_eq : forall x, turn_x x = rot_x x.
Proof.
  intros x. unfold turn_x, rot_x, qexp, qexp_vec, qvec. cbn [qw qx qy qz]. set (b := x / 2). assert (N : norm3 (b, 0, 0) = Rabs b).
  { unfold norm3. rewrite <- sqrt_Rsqr_abs. f_equal. unfold Rsqr. cbn. ring. }
  rewrite N, exp_0. destruct (Req_EM_T (Rabs b) 0) as [E|E].
  - assert (B : b = 0) by (destruct (Req_dec b 0) as [|Nb]; [assumption|]; apply Rabs_no_R0 in Nb; contradiction). rewrite B. apply quat_eq; cbn; rewrite ?cos_0, ?sin_0; ring.
  - apply quat_eq; cbn; rewrite ?cos_abs; try ring. rewrite sin_over; [ring|]. intros ->. rewrite Rabs_R0 in E. lra.
Qed.
Lemma rot_z_unit : forall x, qnorm2 (rot_z x) = 1.
Proof. intros x. unfold qnorm2, rot_z. cbn. pose proof (sin2_cos2 (x / 2)) as H. unfold Rsqr in H. lra. Qed.
Lemma rot_x_unit : forall x, qnorm2 (rot_x x) = 1.
Proof. intros x. unfold qnorm2, rot_x. cbn. pose proof (sin2_cos2 (x / 2)) as H. unfold Rsqr in H. lra. Qed.

(** * The modes of two arguments *)
Definition args_fit (p : pargs) : Prop :=
  0 < pa_dt p <= 10 /\ 0 < pa_ratio p /\ (2 <= pa_hi p)%Z /\ pa_rate p <> 0 /\ 39 / 2 * pa_dt p < merger p - pa_t0 p.
Definition with_angles (p : pargs) (dot nut : option R) : pargs :=
  mkpa (pa_t0 p) (pa_t1 p) (pa_dt p) (pa_hi p) (pa_ratio p) (pa_opening p) dot (pa_rate p) nut.
(** The ratio of the larger to the smaller mass *)
Definition larger (q : R) : R := Rmax q (/ q).
Lemma ratio_eq : forall q, 0 < q -> (if Rltb q 1 then 1 / q else q) = larger q.
Proof.
  intros q H. unfold larger. assert (P : 0 < / q) by (apply Rinv_0_lt_compat; exact H). assert (E : q * / q = 1) by (field; lra). destruct (Rltb_spec q 1).
  - rewrite Rmax_right by nra. lra.
  - rewrite Rmax_left by nra. reflexivity.
Qed.
Lemma larger_inv : forall q, 0 < q -> larger (/ q) = larger q.
Proof. intros q H. unfold larger. rewrite Rinv_inv. apply Rmax_comm. Qed.
Lemma larger_ge : forall q, 0 < q -> 1 <= larger q.
Proof. intros q H. rewrite <- ratio_eq by exact H. destruct (Rltb_spec q 1); [|lra]. assert (P : 0 < / q) by (apply Rinv_0_lt_compat; exact H). assert (E : q * / q = 1) by (field; lra). unfold Rdiv. nra. Qed.
Lemma nu_bounds : forall q, 0 < q -> 0 < nu_of q <= 1 / 4.
Proof.
  intros q H. unfold nu_of. assert (P : 0 < (1 + q) ^ 2) by (apply pow_lt; lra). split; [apply Rmult_lt_0_compat; [exact H|apply Rinv_0_lt_compat; exact P]|].
  apply Rmult_le_reg_r with ((1 + q) ^ 2); [exact P|]. replace (q / (1 + q) ^ 2 * (1 + q) ^ 2) with q by (field; lra). pose proof (Rle_0_sqr (1 - q)) as S. unfold Rsqr in S. cbn [pow]. nra.
Qed.

(** quaternion.sqrt of a unit quaternion *)
Lemma qsqrt_square : forall q, qnorm2 q = 1 -> qmul (qsqrt q) (qsqrt q) = q /\ qnorm2 (qsqrt q) = 1.
Proof.
  intros q H. assert (S : qmul (qsqrt q) (qsqrt q) = q).
  { unfold qsqrt. assert (A : qabs q = 1) by (unfold qabs; rewrite H; apply sqrt_1). rewrite A. destruct (Req_EM_T 1 0); [lra|]. unfold qnorm2 in H.
    destruct (Req_EM_T (1 + qw q) 0) as [E|E].
    - assert (W : qw q = -1) by lra. rewrite W in H. rewrite sqrt_1. assert (qx q * qx q = 0 /\ qy q * qy q = 0 /\ qz q * qz q = 0) as (X & Y & Z).
      { pose proof (Rle_0_sqr (qx q)). pose proof (Rle_0_sqr (qy q)). pose proof (Rle_0_sqr (qz q)). unfold Rsqr in *. repeat split; lra. }
      apply Rmult_integral in X, Y, Z. apply quat_eq; cbn; [rewrite W|..]; try ring; [destruct X as [-> | ->]|destruct Y as [-> | ->]|destruct Z as [-> | ->]]; ring.
    - assert (P : 0 < 1 + qw q). { pose proof (Rle_0_sqr (qx q)). pose proof (Rle_0_sqr (qy q)). pose proof (Rle_0_sqr (qz q)). unfold Rsqr in *. assert (-1 <= qw q) by nra. lra. }
      set (s := 1 + qw q) in *. assert (C : sqrt (/ 2 / s) * sqrt (/ 2 / s) = / 2 / s) by (apply sqrt_sqrt; apply Rlt_le, Rmult_lt_0_compat; [lra|apply Rinv_0_lt_compat; exact P]).
      set (c := sqrt (/ 2 / s)) in *. assert (CS : c * c * s = / 2) by (rewrite C; field; lra). assert (W : qw q = s - 1) by (unfold s; ring). rewrite W in H.
      apply quat_eq; cbn; rewrite ?W.
      + replace (s * c * (s * c) - qx q * c * (qx q * c) - qy q * c * (qy q * c) - qz q * c * (qz q * c)) with (c * c * (s * s - (qx q * qx q + qy q * qy q + qz q * qz q))) by ring.
        replace (qx q * qx q + qy q * qy q + qz q * qz q) with (1 - (s - 1) * (s - 1)) by lra. replace (c * c * (s * s - (1 - (s - 1) * (s - 1)))) with (c * c * s * (2 * s - 2)) by ring. rewrite CS. lra.
      + transitivity (2 * (c * c * s) * qx q); [ring|]. rewrite CS. lra.
      + transitivity (2 * (c * c * s) * qy q); [ring|]. rewrite CS. lra.
      + transitivity (2 * (c * c * s) * qz q); [ring|]. rewrite CS. lra. }
  split; [exact S|]. apply (f_equal qnorm2) in S. rewrite qnorm2_mul, H in S. pose proof (qnorm2_nonneg (qsqrt q)). nra.
Qed.
Lemma rotv_mul : forall p q v, rotv (qmul p q) v = rotv p (rotv q v).
Proof. intros [a b c d] [e f g h] [[x y] z]. unfold rotv, qvec, qmul, qconj. cbn. f_equal; [f_equal|]; ring. Qed.
Lemma half : forall x, cos x = cos (x / 2) * cos (x / 2) - sin (x / 2) * sin (x / 2) /\ sin x = 2 * sin (x / 2) * cos (x / 2).
Proof. intros x. split; [rewrite <- cos_2a|rewrite <- sin_2a]; f_equal; lra. Qed.
Lemma rotv_rot_z : forall x a b c, rotv (rot_z x) (a, b, c) = (a * cos x - b * sin x, a * sin x + b * cos x, c).
Proof.
  intros x a b c. destruct (half x) as [-> ->]. unfold rotv, qvec, qmul, qconj, rot_z. cbn. pose proof (sin2_cos2 (x / 2)) as H. unfold Rsqr in H. set (s := sin (x / 2)) in *. set (k := cos (x / 2)) in *.
  f_equal; [f_equal; ring|]. transitivity (c * (s * s + k * k)); [ring|]. rewrite H. ring.
Qed.
Lemma rotv_rot_x : forall x a b c, rotv (rot_x x) (a, b, c) = (a, b * cos x - c * sin x, b * sin x + c * cos x).
Proof.
  intros x a b c. destruct (half x) as [-> ->]. unfold rotv, qvec, qmul, qconj, rot_x. cbn. pose proof (sin2_cos2 (x / 2)) as H. unfold Rsqr in H. set (s := sin (x / 2)) in *. set (k := cos (x / 2)) in *.
  f_equal; [f_equal; [|ring]|ring]. transitivity (a * (s * s + k * k)); [ring|]. rewrite H. ring.
Qed.
Lemma rot_z_back : forall x, qconj (rot_z x) = rot_z (- x).
Proof. intros x. unfold rot_z, qconj. cbn. replace (- x / 2) with (- (x / 2)) by lra. rewrite cos_neg, sin_neg. f_equal; ring. Qed.
Lemma rot_zero : rot_z 0 = q1 /\ rot_x 0 = q1.
Proof. unfold rot_z, rot_x. replace (0 / 2) with 0 by lra. rewrite cos_0, sin_0. split; reflexivity. Qed.

Section Waveform.
Variable integral : list R -> list R -> list R.
(** The integral has one value for every time. *)
Hypothesis integral_length : forall f t, length f = length t -> length (integral f t) = length t.

Section Phasing.
Variables (a d tm nu : R) (n : nat).
Hypothesis d_pos : 0 < d.
Hypothesis nu_ok : 0 < nu <= 1 / 4.
Hypothesis n_pos : (0 < n)%nat.
Hypothesis start : a < tm.
Hypothesis enough : tm < a + INR (n - 1) * d.
Let t := grid a d n.

Lemma t_at : forall k, (k < n)%nat -> at_ t k = a + INR k * d.
Proof. intros. apply grid_at. assumption. Qed.
Lemma t_len : length t = n.
Proof. apply grid_length. Qed.
Lemma t_mono : nondecreasing t.
Proof. apply grid_nondecreasing. exact d_pos. Qed.
Lemma t_last : nth (length t - 1) t 0 = a + INR (n - 1) * d.
Proof. rewrite t_len. apply t_at. lia. Qed.
Lemma t_lt : forall i j, (i < n)%nat -> (j < n)%nat -> (at_ t i < at_ t j <-> (i < j)%nat).
Proof.
  intros i j Hi Hj. rewrite !t_at by assumption. split; intros H.
  - destruct (lt_dec i j); [assumption|]. assert (INR j <= INR i) by (apply le_INR; lia). nra.
  - apply lt_INR in H. nra.
Qed.

Lemma phasing_ok : exists ph om, phasing integral nu tm t = Ok (ph, om) /\ length ph = n /\ length om = n /\
  (forall k, (k < n)%nat -> 0 < at_ om k) /\
  (forall k, (k < n)%nat -> tm <= at_ t k -> at_ om k = 1 / 4) /\
  (forall k, (k < n)%nat -> at_ t k + 10 + 2 * d <= tm -> at_ ph k = orbital_phase nu tm (at_ t k) /\ at_ om k = orbital_frequency nu tm (at_ t k)) /\
  (exists i0 p0, (i0 < n)%nat /\ at_ t i0 < tm /\ forall k, (i0 <= k < n)%nat -> at_ ph k = p0 + at_ (integral (skipn i0 om) (skipn i0 t)) (k - i0)).
Proof.
  unfold phasing. set (om0 := map (frequency_at nu tm) t). set (ph0 := map (phase_at nu tm) t). set (keep := fun x => negb (is_nan x)).
  assert (om_at : forall k, (k < n)%nat -> nth k om0 NaN = frequency_at nu tm (at_ t k)).
  { intros k Hk. unfold om0, at_. rewrite (nth_indep _ NaN (frequency_at nu tm 0)) by (rewrite map_length, t_len; exact Hk). apply map_nth. }
  assert (ph_at : forall k, (k < n)%nat -> nth k ph0 NaN = phase_at nu tm (at_ t k)).
  { intros k Hk. unfold ph0, at_. rewrite (nth_indep _ NaN (phase_at nu tm 0)) by (rewrite map_length, t_len; exact Hk). apply map_nth. }
  assert (om_len : length om0 = n) by (unfold om0; rewrite map_length; exact t_len).
  assert (kept : forall k, (k < n)%nat -> keep (nth k om0 NaN) = true <-> at_ t k <= tm).
  { intros k Hk. rewrite om_at by exact Hk. unfold keep, frequency_at, power. destruct (Rltb_spec (nu * (tm - at_ t k) / 5) 0) as [L|L].
    - cbn. split; [discriminate|]. intros H. exfalso. assert (0 <= nu * (tm - at_ t k)) by (apply Rmult_le_pos; lra). lra.
    - split; [|intros _; destruct (Req_EM_T _ 0); [destruct (Rltb _ _)|]; reflexivity]. intros _. destruct (Rle_dec (at_ t k) tm) as [G|G]; [exact G|exfalso]. apply L. assert (0 < nu * (at_ t k - tm)) by (apply Rmult_lt_0_compat; lra). lra. }
  destruct (filter_prefix _ keep NaN om0) as (FL & FE & FI).
  { intros i j Hij Hj. rewrite om_len in Hij. apply kept; [lia|]. apply kept in Hj; [|lia]. pose proof (t_mono i j ltac:(rewrite t_len; lia)). unfold at_ in *. lra. }
  rewrite om_len in *. set (fl := filter keep om0) in *.
  assert (F0 : (0 < length fl)%nat). { apply FI; [lia|]. apply kept; [lia|]. rewrite t_at by lia. cbn. lra. }
  set (ds := map (distance_x (1 / 4)) fl).
  assert (ds_len : length ds = length fl) by (unfold ds; apply map_length).
  assert (ds_at : forall k, (k < length fl)%nat -> nth k ds NaN = distance_x (1 / 4) (frequency_at nu tm (at_ t k))).
  { intros k Hk. unfold ds. change NaN with (distance_x (1 / 4) NaN) at 1. rewrite map_nth, FE, om_at by lia. reflexivity. }
  assert (ds_nan : ~ In NaN ds).
  { intros I. unfold ds in I. apply in_map_iff in I. destruct I as (x & E & I). apply filter_In in I. destruct I as [_ I]. destruct x; cbn in E, I; discriminate. }
  destruct (xargmin ds) as [i1|e] eqn:Ei1; [|destruct ds; [cbn in ds_len; lia|discriminate]]. cbn [rbind].
  destruct (xargmin_spec _ _ ds_nan Ei1) as (L1 & M1). rewrite ds_len in *.
  assert (lt_fl : forall k, (k < n)%nat -> at_ t k < tm -> (k < length fl)%nat). { intros k Hk H. apply FI; [exact Hk|]. apply kept; [exact Hk|]. lra. }
  assert (T0 : at_ t 0 < tm) by (rewrite t_at by lia; cbn; lra).
  assert (T1 : at_ t i1 < tm).
  { assert (H : at_ t i1 <= tm) by (apply kept; [lia|]; apply FI; lia). destruct (Req_dec (at_ t i1) tm) as [E|N]; [exfalso|lra].
    specialize (M1 0%nat F0). rewrite !ds_at in M1 by assumption. rewrite (frequency_before nu tm (at_ t 0)) in M1 by (assumption || lra). rewrite E in M1.
    unfold frequency_at, power in M1. replace (nu * (tm - tm) / 5) with 0 in M1 by lra. destruct (Rltb_spec 0 0); [lra|]. destruct (Req_EM_T 0 0); [|lra]. destruct (Rltb_spec (- (3 / 8)) 0); [|lra]. cbn in M1. discriminate. }
  assert (best : forall j, (j < n)%nat -> at_ t j < tm -> Rabs (orbital_frequency nu tm (at_ t i1) - 1 / 4) <= Rabs (orbital_frequency nu tm (at_ t j) - 1 / 4)).
  { intros j Hj H. specialize (M1 j (lt_fl j Hj H)). rewrite !ds_at in M1 by auto. rewrite !frequency_before in M1 by (assumption || lra). cbn in M1. destruct (Rltb_spec (Rabs (orbital_frequency nu tm (at_ t j) - 1 / 4)) (Rabs (orbital_frequency nu tm (at_ t i1) - 1 / 4))); [discriminate|lra]. }
  assert (L1n : (i1 < n)%nat) by lia. clear M1 Ei1 ds_nan ds_at ds_len.
  destruct (nearest_total (at_ t i1 - 5) t) as (i0 & Ei0). { intros E. apply (f_equal (@length R)) in E. rewrite t_len in E. cbn in E. lia. }
  rewrite Ei0. cbn [rbind]. destruct (nearest_spec _ _ _ Ei0) as (L0 & M0 & _). rewrite t_len in *.
  assert (T01 : at_ t i0 <= at_ t i1). { specialize (M0 i1 L1n). replace (at_ t i1 - (at_ t i1 - 5)) with 5 in M0 by lra. rewrite (Rabs_right 5) in M0 by lra. pose proof (Rle_abs (at_ t i0 - (at_ t i1 - 5))). lra. }
  destruct (transition_at t (at_ t i0) (at_ t i1) 0 1 t_mono) as (tr & k0 & k1 & Et & Lt & Tr); try (rewrite t_last; lra).
  { intros E. apply (f_equal (@length R)) in E. rewrite t_len in E. cbn in E. lia. }
  rewrite Et. cbn [rbind]. rewrite t_len in *.
  destruct (each_nth _ _ (fun k => if (k <? i1)%nat then let? w := settled (nth k om0 NaN) in Ok (w * (1 - at_ tr k) + 1 / 4 * at_ tr k) else Ok (1 / 4)) (seq 0 n) 0) as (om & Eom & Lom & Aom).
  { intros k Hk. apply in_seq in Hk. destruct (Nat.ltb_spec k i1); [|eauto]. rewrite om_at by lia. assert (at_ t k < at_ t i1) by (apply t_lt; lia). rewrite frequency_before by (assumption || lra). cbn. eauto. }
  rewrite seq_length in Lom. rewrite Eom. cbn [rbind].
  assert (omE : forall k, (k < n)%nat -> at_ om k = if (k <? i1)%nat then orbital_frequency nu tm (at_ t k) * (1 - at_ tr k) + 1 / 4 * at_ tr k else 1 / 4).
  { intros k Hk. specialize (Aom k k). rewrite (nth_error_nth' _ 0%nat) in Aom by (rewrite seq_length; exact Hk). rewrite seq_nth in Aom by exact Hk. specialize (Aom eq_refl).
    destruct (Nat.ltb_spec k i1); [|injection Aom as Aom; symmetry; exact Aom]. rewrite om_at in Aom by lia. assert (at_ t k < at_ t i1) by (apply t_lt; lia). rewrite frequency_before in Aom by (assumption || lra). cbn in Aom. injection Aom as Aom. symmetry. exact Aom. }
  destruct (each_nth _ _ settled (firstn i0 ph0) 0) as (ph & Eph & Lph & Aph).
  { intros x Hx. apply (In_nth _ _ NaN) in Hx. destruct Hx as (k & Hk & <-). rewrite firstn_length in Hk. rewrite nth_firstn_lt by lia. rewrite ph_at by lia. assert (at_ t k < at_ t i0) by (apply t_lt; lia). rewrite phase_before by (assumption || lra). cbn. eauto. }
  rewrite firstn_length in Lph. replace (length ph0) with n in Lph by (unfold ph0; rewrite map_length, t_len; reflexivity). rewrite Nat.min_l in Lph by lia.
  rewrite Eph. cbn [rbind]. rewrite (ph_at i0 L0), phase_before by (assumption || lra). cbn [settled rbind].
  assert (LI : length (integral (skipn i0 om) (skipn i0 t)) = (n - i0)%nat). { rewrite integral_length; rewrite !skipn_length, ?Lom, ?t_len; reflexivity. }
  eexists. exists om. split; [reflexivity|]. split; [rewrite app_length, map_length, Lph, LI; lia|]. split; [exact Lom|].
  split; [|split; [|split]].
  - intros k Hk. rewrite omE by exact Hk. destruct (Nat.ltb_spec k i1); [|lra]. rewrite Tr by exact Hk. pose proof (weight_bounds (at_ t i0) (at_ t i1) (at_ t k)) as W. unfold step_weight in W.
    pose proof (frequency_pos nu tm (at_ t k) (proj1 nu_ok)). set (w := smooth_step _ _ _ _ _) in *. destruct (Req_dec w 1) as [-> |]; [lra|]. assert (0 < orbital_frequency nu tm (at_ t k) * (1 - w)) by (apply Rmult_lt_0_compat; lra). lra.
  - intros k Hk H. rewrite omE by exact Hk. destruct (Nat.ltb_spec k i1) as [L|L]; [|reflexivity]. assert (at_ t k < at_ t i1) by (apply t_lt; lia). lra.
  - intros k Hk H. assert (Hk' := t_at k Hk).
    assert (late : at_ t k + 5 + d <= at_ t i1).
    { destruct (Rle_dec (at_ t k + 5 + d) (at_ t i1)) as [|G]; [assumption|exfalso].
      destruct (below a d (at_ t k + 5 + d) (n - 1) d_pos) as (j & [J1 J2] & J3). { assert (0 <= INR k * d) by (apply Rmult_le_pos; [apply pos_INR|lra]). lra. }
      specialize (J3 ltac:(lra)). assert (Jn : (Datatypes.S j < n)%nat). { destruct (le_lt_dec n (Datatypes.S j)); [exfalso|assumption]. replace (n - 1)%nat with j in enough by lia. lra. }
      rewrite S_INR in J2. assert (Ej : at_ t (Datatypes.S j) = a + (INR j + 1) * d) by (rewrite t_at, S_INR by exact Jn; reflexivity).
      specialize (best _ Jn ltac:(lra)).
      assert (R1 : orbital_frequency nu tm (at_ t i1) < orbital_frequency nu tm (at_ t (Datatypes.S j))) by (apply frequency_rises; lra).
      assert (R2 : orbital_frequency nu tm (at_ t (Datatypes.S j)) <= 1 / 4) by (apply frequency_low; [exact nu_ok|lra]).
      rewrite !Rabs_left1 in best by lra. lra. }
    assert (near : (k < i0)%nat).
    { apply t_lt; [exact Hk|exact L0|]. destruct (nearest_grid a d n (at_ t i1 - 5) d_pos n_pos) as (i & Ei & _ & Q).
      { assert (0 <= INR k * d) by (apply Rmult_le_pos; [apply pos_INR|lra]). lra. } { lra. }
      fold t in Ei. rewrite Ei0 in Ei. injection Ei as <-. rewrite <- t_at in Q by exact L0. unfold Rabs in Q. destruct (Rcase_abs _) in Q; lra. }
    split.
    + unfold at_ at 1. rewrite app_nth1 by lia. specialize (Aph k (nth k ph0 NaN)).
      assert (X : settled (nth k ph0 NaN) = Ok (nth k ph 0)). { apply Aph. rewrite (nth_error_nth' _ NaN) by (rewrite firstn_length; unfold ph0; rewrite map_length, t_len; lia). rewrite nth_firstn_lt by exact near. reflexivity. }
      rewrite ph_at in X by exact Hk. rewrite phase_before in X by (assumption || lra). cbn in X. injection X as X. symmetry. exact X.
    + rewrite omE by exact Hk. assert (near1 : (k < i1)%nat) by (apply t_lt; [exact Hk|exact L1n|lra]). destruct (Nat.ltb_spec k i1); [|lia]. rewrite Tr by exact Hk. assert (at_ t k < at_ t i0) by (apply t_lt; assumption).
      rewrite (proj1 (step_ends _ _ _ _ _)) by lra. lra.
  - exists i0, (orbital_phase nu tm (at_ t i0)). split; [exact L0|]. split; [lra|]. intros k Hk. unfold at_ at 1. rewrite app_nth2 by lia. rewrite Lph. rewrite nth_map_R by (rewrite LI; lia). reflexivity.
Qed.
End Phasing.

(** The arrays made of the values at every time *)
Definition modulation (ts te : R) (t ph : list R) (k : nat) : R := smooth_step ts te 1 0 (at_ t k) * cos (at_ ph k) / 40.
Definition damping (ts te tm : R) (s : R) : R :=
  if Rlt_dec s ts then 1 else 1 - smooth_step ts te 0 1 s + 9 / 4 * exp (- (s - tm) / (23 / 2)) * smooth_step ts te 0 1 s.
Definition bare (ts te : R) (t ph prec op : list R) (nut : R) (k : nat) : quat := frame_of (at_ ph k) (at_ prec k) (at_ op k) (nut * smooth_step ts te 0 1 (at_ t k)).
Definition settles (ts te : R) (t f g : list R) : Prop :=
  length g = length t /\ (forall k, (k < length t)%nat -> at_ t k <= ts -> at_ g k = at_ f k) /\
  (forall j k, (j < length t)%nat -> (k < length t)%nat -> te <= at_ t j -> te <= at_ t k -> at_ g j = at_ g k).

Lemma to_constant_ok : forall f t ts te, nondecreasing t -> length f = length t -> t <> [] -> ts < te -> te <= nth (length t - 1) t 0 ->
  exists g, transition_to_constant integral f t ts te = Ok g /\ settles ts te t f g.
Proof.
  intros f t ts te Ht Lf Hn H H'. assert (I : In (nth (length t - 1) t 0) t) by (apply nth_In; destruct t; [congruence|cbn; lia]).
  destruct (three_of_sorted t ts te Ht) as (a & b & c & E & T). { exists (nth (length t - 1) t 0). split; [exact I|]. split; lra. }
  assert (X : exists g, transition_to_constant integral f t ts te = Ok g).
  { unfold transition_to_constant. rewrite E, transition_three by exact T. cbn [rbind]. rewrite derivative_three by exact T. cbn [rbind]. eauto. }
  destruct X as (g & X). exists g. split; [exact X|]. destruct (C26_to_constant_ends integral integral_length f t ts te g Ht Lf X) as (L & A & B & _).
  split; [exact L|]. split; [exact A|]. intros j k Hj Hk J K. apply B; unfold at_ in *; auto; lra.
Qed.

Lemma corotating_ok : forall p, args_fit p -> let tm := merger p in let d := pa_dt p in let q := larger (pa_ratio p) in
  exists n ph om prec ts te, let t := grid (pa_t0 p) d n in
  (21 <= n)%nat /\ pa_t1 p - d / 100 <= pa_t0 p + INR (n - 1) * d < pa_t1 p + 99 / 100 * d /\
  Rabs (ts - tm) <= d / 2 /\ Rabs (te - ts - 20) <= d / 2 /\ length ph = n /\
  (forall k, (k < n)%nat -> 0 < at_ om k) /\
  (forall k, (k < n)%nat -> tm <= at_ t k -> at_ om k = 1 / 4) /\
  (forall k, (k < n)%nat -> at_ t k + 10 + 2 * d <= tm -> at_ ph k = orbital_phase (nu_of q) tm (at_ t k) /\ at_ om k = orbital_frequency (nu_of q) tm (at_ t k)) /\
  (phasing integral (nu_of q) tm t = Ok (ph, om) /\ exists i0 p0, (i0 < n)%nat /\ at_ t i0 < tm /\ forall k, (i0 <= k < n)%nat -> at_ ph k = p0 + at_ (integral (skipn i0 om) (skipn i0 t)) (k - i0)) /\
  length om = n /\
  settles ts te t (map (fun f => f / pa_rate p) ph) prec /\
  exists op, (forall rate, settles ts te t (map (fun s => pa_opening p + rate * s) t) (op rate)) /\
  forall dot nut, let F := bare ts te t ph prec (op (dflt (2 * pa_opening p / (te - pa_t0 p)) dot)) (dflt (pa_opening p / 10) nut) in
    precessing_corotating integral (with_angles p dot nut) =
    Ok (t, mkrw 2 (pa_hi p) (map (fun k => row_at (pa_hi p) q (at_ om k) (modulation ts te t ph k) (damping ts te tm (at_ t k))) (seq 0 n))
                (F1 (map (fun k => qmul (qconj (qsqrt (F 0%nat))) (F k)) (seq 0 n))) CorotatingFrame).
Proof.
  intros p (Hd & Hq & Hh & Hr & Hs) tm d q. fold tm d in Hs, Hd. assert (Etm : tm = pa_t1 p - 100) by reflexivity.
  destruct (times_of (pa_t0 p) (pa_t1 p) d) as (n' & Et & Ln); [lra|lra|]. set (n := Datatypes.S n') in *. replace n' with (n - 1)%nat in Ln by (unfold n; lia).
  assert (Hn : (0 < n)%nat) by (unfold n; lia). clearbody n. clear n'. set (t := grid (pa_t0 p) d n) in *.
  assert (tA := fun k (H : (k < n)%nat) => grid_at (pa_t0 p) d n k H). fold t in tA. assert (tL : length t = n) by apply grid_length. assert (tM : nondecreasing t) by (apply grid_nondecreasing; lra).
  assert (tLast : nth (length t - 1) t 0 = pa_t0 p + INR (n - 1) * d) by (rewrite tL; apply tA; lia). assert (tN : t <> []) by (intros E; rewrite E in tL; cbn in tL; lia).
  destruct (nearest_grid (pa_t0 p) d n tm) as (i0 & Ei0 & Li0 & Bi0); [lra|exact Hn|lra|lra|]. fold t in Ei0.
  assert (G20 : (20 <= i0)%nat).
  { destruct (le_lt_dec 20 i0) as [|L]; [assumption|exfalso]. assert (Q : INR i0 <= INR 19) by (apply le_INR; lia). rewrite (INR_IZR_INZ 19) in Q. change (IZR (Z.of_nat 19)) with 19 in Q. assert (INR i0 * d <= 19 * d) by (apply Rmult_le_compat_r; lra).
    unfold Rabs in Bi0. destruct (Rcase_abs _) in Bi0; lra. }
  set (ts := at_ t i0). assert (Ets : ts = pa_t0 p + INR i0 * d) by (apply tA; exact Li0). rewrite <- Ets in Bi0.
  assert (Bts : tm - d / 2 <= ts <= tm + d / 2) by (unfold Rabs in Bi0; destruct (Rcase_abs _) in Bi0; lra).
  destruct (nearest_grid (pa_t0 p) d n (ts + 20)) as (i1 & Ei1 & Li1 & Bi1); [lra|exact Hn|lra|lra|]. fold t in Ei1.
  set (te := at_ t i1). assert (Ete : te = pa_t0 p + INR i1 * d) by (apply tA; exact Li1). rewrite <- Ete in Bi1.
  assert (Bte : ts + 20 - d / 2 <= te <= ts + 20 + d / 2) by (unfold Rabs in Bi1; destruct (Rcase_abs _) in Bi1; lra).
  assert (Hnu : 0 < nu_of q <= 1 / 4) by (apply nu_bounds; unfold q; pose proof (larger_ge _ Hq); lra).
  destruct (phasing_ok (pa_t0 p) d tm (nu_of q) n) as (ph & om & Ep & Lph & Lom & P1 & P2 & P3 & P4); [lra|exact Hnu|exact Hn|lra|lra|]. fold t in Ep, P2, P3, P4.
  destruct (transition_at t ts te 0 1 tM tN) as (tr & a1 & a2 & Etr & Ltr & Atr); [lra|lra|].
  destruct (transition_at t ts te 1 0 tM tN) as (dn & b1 & b2 & Edn & Ldn & Adn); [lra|lra|].
  destruct (to_constant_ok (map (fun f => f / pa_rate p) ph) t ts te tM) as (prec & Eprec & Sprec); [rewrite map_length; lia|exact tN|lra|lra|].
  assert (Op : forall rate, exists g, transition_to_constant integral (map (fun s => pa_opening p + rate * s) t) t ts te = Ok g /\ settles ts te t (map (fun s => pa_opening p + rate * s) t) g).
  { intros rate. apply to_constant_ok; [exact tM|apply map_length|exact tN|lra|lra]. }
  exists n, ph, om, prec, ts, te. cbv zeta. split; [lia|]. split; [exact Ln|]. split; [exact Bi0|]. split; [replace (te - ts - 20) with (te - (ts + 20)) by lra; exact Bi1|].
  do 4 (split; [assumption|]). split; [exact (conj Ep P4)|]. split; [exact Lom|]. split; [exact Sprec|].
  exists (fun rate => match transition_to_constant integral (map (fun s => pa_opening p + rate * s) t) t ts te with Ok g => g | Err _ => [] end).
  split. { intros rate. destruct (Op rate) as (g & -> & S). exact S. }
  intros dot nut. unfold precessing_corotating, with_angles, merger. cbn [pa_t0 pa_t1 pa_dt pa_hi pa_ratio pa_opening pa_opening_dot pa_rate pa_nutation].
  fold d. rewrite Et. cbn [rbind]. rewrite <- Etm, Ei0. cbn [rbind]. destruct (Nat.ltb_spec i0 20); [lia|].
  destruct (zero_row 2 (pa_hi p)) as (row & -> & _); [lia|]. cbn [rbind]. rewrite ratio_eq by exact Hq. fold q. fold (nu_of q). rewrite Ep. cbn [rbind]. fold ts. rewrite Ei1. cbn [rbind]. fold te. rewrite Etr. cbn [rbind].
  replace (at_ t 0) with (pa_t0 p) by (rewrite tA by lia; cbn; ring).
  set (rate := dflt (2 * pa_opening p / (te - pa_t0 p)) dot). destruct (Op rate) as (g & Eg & _). rewrite Eg. cbn [rbind]. rewrite Eprec. cbn [rbind]. rewrite Edn. cbn [rbind]. rewrite tL.
  f_equal. f_equal. f_equal.
  - apply map_ext_in. intros k Hk. apply in_seq in Hk. f_equal; [unfold modulation; rewrite Adn by lia; reflexivity|].
    fold t. unfold damping. unfold at_ at 1. rewrite (nth_indep _ 0 (if (n <? i0)%nat then 1 else 1 * (1 - at_ tr n) + 9 / 4 * exp (- (at_ t n - tm) / (23 / 2)) * at_ tr n)) by (rewrite map_length, seq_length; lia).
    rewrite (map_nth (fun k => if (k <? i0)%nat then 1 else 1 * (1 - at_ tr k) + 9 / 4 * exp (- (at_ t k - tm) / (23 / 2)) * at_ tr k)), seq_nth by lia. cbn [Nat.add].
    rewrite Atr by lia. assert (TT : at_ t k < ts <-> (k < i0)%nat). { rewrite Ets, tA by lia. split; intros Q; [destruct (lt_dec k i0); [assumption|]; assert (INR i0 <= INR k) by (apply le_INR; lia); nra|apply lt_INR in Q; nra]. }
    destruct (Nat.ltb_spec k i0) as [J|J]; destruct (Rlt_dec (at_ t k) ts) as [Y|Y]; [reflexivity|exfalso; apply Y, TT, J|apply TT in Y; exfalso; lia|ring].
  - f_equal. rewrite map_map. assert (FE : forall k, (k < n)%nat -> frame_of (at_ ph k) (at_ prec k) (at_ g k) (dflt (pa_opening p / 10) nut * at_ tr k) = bare ts te t ph prec g (dflt (pa_opening p / 10) nut) k).
    { intros k Hk. unfold bare. rewrite Atr by lia. reflexivity. }
    apply map_ext_in. intros k Hk. apply in_seq in Hk. rewrite FE by lia. f_equal. f_equal. f_equal. rewrite <- FE by lia.
    destruct n as [|n']; [lia|]. reflexivity.
Qed.

Variable wigner : quat -> Z -> Z -> list C.
Variable garbage : Z -> list C.
Notation make := (fake_precessing_waveform integral wigner garbage).
Lemma corotating_is : forall p, make p false = precessing_corotating integral p.
Proof. intros p. unfold fake_precessing_waveform. destruct (precessing_corotating integral p) as [[t W]|e]; reflexivity. Qed.
Lemma with_same : forall p, with_angles p (pa_opening_dot p) (pa_nutation p) = p.
Proof. intros []. reflexivity. Qed.
Lemma frame_of_eq : forall phi prec op nut, frame_of phi prec op nut = qmul (qmul (qmul (rot_z phi) (rot_x nut)) (rot_z (- phi))) (qmul (qmul (rot_z prec) (rot_x op)) (qmul (rot_z (- prec)) (rot_z phi))).
Proof. intros. unfold frame_of. rewrite !turn_z_eq, !turn_x_eq, !rot_z_back, !qmul_assoc. reflexivity. Qed.
Lemma frame_of_unit : forall phi prec op nut, qnorm2 (frame_of phi prec op nut) = 1.
Proof. intros. rewrite frame_of_eq, !qnorm2_mul, !rot_z_unit, !rot_x_unit. ring. Qed.
Lemma damping_pos : forall ts te tm s, 0 < damping ts te tm s.
Proof.
  intros. unfold damping. destruct (Rlt_dec s ts); [lra|]. pose proof (weight_bounds ts te s) as W. unfold step_weight in W. set (w := smooth_step ts te 0 1 s) in *.
  pose proof (exp_pos (- (s - tm) / (23 / 2))) as E. set (e := exp _) in *. destruct (Req_dec w 0) as [-> |]; [lra|]. assert (0 < 9 / 4 * e * w) by (apply Rmult_lt_0_compat; lra). lra.
Qed.
Lemma modulation_small : forall ts te t ph k, Rabs (modulation ts te t ph k) <= 1 / 40.
Proof.
  intros. unfold modulation. rewrite smooth_step_affine. pose proof (weight_bounds ts te (at_ t k)) as W. set (w := step_weight _ _ _) in *. pose proof (COS_bound (at_ ph k)) as B. set (c := cos _) in *.
  unfold Rdiv. rewrite !Rabs_mult. rewrite (Rabs_right (/ 40)) by lra. rewrite (Rabs_right (1 + (0 - 1) * w)) by lra. assert (Rabs c <= 1) by (apply Rabs_le; lra). pose proof (Rabs_pos c). nra.
Qed.
Lemma row_length : forall hi q om mo r, (2 <= hi)%Z -> Z.of_nat (length (row_at hi q om mo r)) = ((hi + 1) ^ 2 - 2 ^ 2)%Z.
Proof. intros. unfold row_at. rewrite map_length, <- total_size by lia. unfold LM_total_size. ring. Qed.
Lemma row_mode : forall hi q om mo r l m, valid 2 hi l m -> mode 2 (row_at hi q om mo r) l m = Cscale r (Cscale (1 + sign_of m * mo) (pn_leading_order_amplitude l m (Rpower om (2 / 3)) q)).
Proof. intros hi q om mo r l m H. unfold row_at. rewrite mode_map by (lia || assumption). reflexivity. Qed.
Lemma nth_seq_map : forall A (f : nat -> A) n k dd, (k < n)%nat -> nth k (map f (seq 0 n)) dd = f k.
Proof. intros A f n k dd H. rewrite (nth_indep _ dd (f n)) by (rewrite map_length, seq_length; exact H). rewrite map_nth, seq_nth by exact H. reflexivity. Qed.

(** * C90 *)
(** ** What is returned, and when nothing is *)
Theorem C90_defined : forall p, args_fit p -> exists n t W f, make p false = Ok (t, W) /\ length t = n /\ (21 <= n)%nat /\
  (forall k, (k < n)%nat -> at_ t k = pa_t0 p + INR k * pa_dt p) /\ pa_t1 p - pa_dt p / 100 <= at_ t (n - 1) < pa_t1 p + 99 / 100 * pa_dt p /\
  wf W /\ rw_lo W = 2%Z /\ rw_hi W = pa_hi p /\ length (rw_data W) = n /\ rw_type W = CorotatingFrame /\ rw_frame W = F1 f /\ length f = n /\ Forall unitq f.
Proof.
  intros p H. pose proof H as (_ & _ & Hh & _). destruct (corotating_ok p H) as (n & ph & om & prec & ts & te & N & Ln & _ & _ & _ & _ & _ & _ & _ & _ & _ & op & _ & E).
  specialize (E (pa_opening_dot p) (pa_nutation p)). rewrite with_same in E. exists n. do 3 eexists. rewrite corotating_is. split; [exact E|]. split; [apply grid_length|]. split; [exact N|].
  split; [intros k Hk; apply grid_at; exact Hk|]. split; [rewrite grid_at by lia; exact Ln|].
  split; [split; [cbn; lia|]; cbn [rw_data rw_hi rw_lo]; apply Forall_forall; intros row Hr; apply in_map_iff in Hr; destruct Hr as (k & <- & _); apply row_length; exact Hh|].
  cbn [rw_lo rw_hi rw_data rw_type rw_frame]. split; [reflexivity|]. split; [reflexivity|]. split; [rewrite map_length, seq_length; reflexivity|]. split; [reflexivity|]. split; [reflexivity|].
  split; [rewrite map_length, seq_length; reflexivity|]. apply Forall_forall. intros q Hq. apply in_map_iff in Hq. destruct Hq as (k & <- & _). unfold unitq. rewrite qnorm2_mul, qnorm2_conj.
  unfold bare. rewrite (proj2 (qsqrt_square _ (frame_of_unit _ _ _ _))), frame_of_unit. ring.
Qed.
Theorem C90_space : forall p b, 0 < pa_dt p -> merger p - pa_t0 p <= 39 / 2 * pa_dt p -> make p b = Err ValueError.
Proof.
  intros p b Hd H. unfold fake_precessing_waveform. assert (X : precessing_corotating integral p = Err ValueError); [|rewrite X; reflexivity]. unfold precessing_corotating.
  assert (A : exists n, arange (pa_t0 p) (pa_t1 p + 99 / 100 * pa_dt p) (pa_dt p) = Ok (grid (pa_t0 p) (pa_dt p) n)) by (unfold arange; destruct (Req_EM_T (pa_dt p) 0); [lra|]; eexists; reflexivity).
  destruct A as (n & ->). cbn [rbind]. destruct (nearest (merger p) (grid (pa_t0 p) (pa_dt p) n)) as [i|e] eqn:Ei.
  - cbn [rbind]. destruct (Nat.ltb_spec i 20) as [|G]; [reflexivity|exfalso]. destruct (nearest_spec _ _ _ Ei) as (Li & _ & M). rewrite grid_length in Li. specialize (M 19%nat ltac:(lia)). rewrite !grid_at in M by lia.
    assert (Q : INR 20 <= INR i) by (apply le_INR; exact G). rewrite (INR_IZR_INZ 20) in Q. change (IZR (Z.of_nat 20)) with 20 in Q. rewrite (INR_IZR_INZ 19) in M. change (IZR (Z.of_nat 19)) with 19 in M.
    assert (20 * pa_dt p <= INR i * pa_dt p) by (apply Rmult_le_compat_r; lra). rewrite (Rabs_right (pa_t0 p + INR i * pa_dt p - merger p)) in M by lra. unfold Rabs in M. destruct (Rcase_abs _) in M; lra.
  - cbn [rbind]. unfold nearest in Ei. destruct (map _ _); [cbn in Ei; congruence|discriminate].
Qed.
Theorem C90_space_iff : forall p, 0 < pa_dt p <= 10 -> 0 < pa_ratio p -> (2 <= pa_hi p)%Z -> pa_rate p <> 0 -> (make p false = Err ValueError <-> merger p - pa_t0 p <= 39 / 2 * pa_dt p).
Proof.
  intros p Hd Hq Hh Hr. split; [|apply C90_space; lra]. intros E. destruct (Rle_dec (merger p - pa_t0 p) (39 / 2 * pa_dt p)) as [|G]; [assumption|exfalso].
  destruct (C90_defined p) as (n & t & W & f & E' & _); [repeat split; try assumption; lra|]. congruence.
Qed.
Theorem C90_backwards : forall p b, -100 <= pa_dt p < 0 -> 0 < pa_ratio p -> make p b = Err ValueError.
Proof.
  intros p b Hd Hq. unfold fake_precessing_waveform. assert (X : precessing_corotating integral p = Err ValueError); [|rewrite X; reflexivity]. unfold precessing_corotating.
  unfold arange. destruct (Req_EM_T (pa_dt p) 0) as [|_]; [lra|]. cbn [rbind]. set (c := ceiling _). fold (grid (pa_t0 p) (pa_dt p) (Z.to_nat c)). set (n := Z.to_nat c).
  destruct (nearest (merger p) (grid (pa_t0 p) (pa_dt p) n)) as [i|e] eqn:Ei.
  2: { cbn [rbind]. unfold nearest in Ei. destruct (map _ _); [cbn in Ei; congruence|discriminate]. }
  cbn [rbind]. destruct (Nat.ltb_spec i 20) as [|G]; [reflexivity|]. unfold zeros. destruct (LM_total_size 2 (pa_hi p) <? 0)%Z; [reflexivity|]. cbn [rbind].
  rewrite ratio_eq by exact Hq. fold (nu_of (larger (pa_ratio p))). set (nu := nu_of _). assert (Hnu : 0 < nu <= 1 / 4) by (apply nu_bounds; pose proof (larger_ge _ Hq); lra).
  assert (T : forall s, In s (grid (pa_t0 p) (pa_dt p) n) -> merger p < s).
  { intros s Hs. unfold grid in Hs. apply in_map_iff in Hs. destruct Hs as (k & <- & Hk). apply in_seq in Hk. pose proof (ceiling_spec ((pa_t1 p + 99 / 100 * pa_dt p - pa_t0 p) / pa_dt p)) as [_ B]. fold c in B.
    assert (Ez : (pa_t1 p + 99 / 100 * pa_dt p - pa_t0 p) / pa_dt p * pa_dt p = pa_t1 p + 99 / 100 * pa_dt p - pa_t0 p) by (field; lra). set (y := _ / _) in *.
    assert (K : INR k <= IZR c - 1). { assert (Q : INR k <= INR (n - 1)) by (apply le_INR; lia). rewrite (INR_IZR_INZ (n - 1)) in Q. replace (Z.of_nat (n - 1)) with (c - 1)%Z in Q by (unfold n in *; lia). rewrite minus_IZR in Q. exact Q. }
    assert (Q1 : INR k < y) by lra. assert (Q2 : 0 < (INR k - y) * pa_dt p) by (replace ((INR k - y) * pa_dt p) with ((y - INR k) * - pa_dt p) by ring; apply Rmult_lt_0_compat; lra).
    unfold merger. lra. }
  set (t := grid (pa_t0 p) (pa_dt p) n) in *. assert (P : phasing integral nu (merger p) t = Err ValueError); [|rewrite P; reflexivity]. unfold phasing.
  assert (F : filter (fun x => negb (is_nan x)) (map (frequency_at nu (merger p)) t) = []); [|rewrite F; reflexivity].
  clear - T Hnu. induction t as [|s t IH]; [reflexivity|]. cbn [map filter]. rewrite IH by (intros s' Hs'; apply T; right; exact Hs').
  assert (L : merger p < s) by (apply T; left; reflexivity). unfold frequency_at, power. destruct (Rltb_spec (nu * (merger p - s) / 5) 0) as [|G]; [reflexivity|exfalso]. apply G. assert (0 < nu * (s - merger p)) by (apply Rmult_lt_0_compat; lra). lra.
Qed.

Ltac described H E n Ln Bts Bte Lph P1 P2 P3 P4 Lom Sprec op Sop :=
  match type of H with args_fit ?p =>
    let ph := fresh "ph" in let om := fresh "om" in let prec := fresh "prec" in let ts := fresh "ts" in let te := fresh "te" in let N := fresh "N" in let X := fresh "X" in
    destruct (corotating_ok p H) as (n & ph & om & prec & ts & te & N & Ln & Bts & Bte & Lph & P1 & P2 & P3 & P4 & Lom & Sprec & op & Sop & X); cbv zeta in X;
    specialize (X (pa_opening_dot p) (pa_nutation p)); rewrite with_same in X; rewrite corotating_is, X in E; injection E as <- <-; rewrite grid_length in *; clear X
  end.
Ltac bounds B := let Q := fresh "Q" in pose proof B as Q; unfold Rabs in Q; destruct (Rcase_abs _) in Q.

(** ** Modes *)
Theorem C90_modes : forall p t W k, args_fit p -> make p false = Ok (t, W) -> (k < length t)%nat ->
  exists w s r, 0 < w /\ Rabs s <= 1 / 40 /\ 0 < r /\ (merger p + 20 + pa_dt p <= at_ t k -> s = 0) /\
  forall l m, valid 2 (pa_hi p) l m -> md W k l m = Cscale (r * (1 + IZR (Z.sgn m) * s)) (pn_leading_order_amplitude l m (Rpower w (2 / 3)) (larger (pa_ratio p))).
Proof.
  intros p t W k H E Hk. described H E n Ln Bts Bte Lph P1 P2 P3 P4 Lom Sprec op Sop.
  exists (at_ om k), (modulation ts te (grid (pa_t0 p) (pa_dt p) n) ph k), (damping ts te (merger p) (at_ (grid (pa_t0 p) (pa_dt p) n) k)).
  split; [apply P1; exact Hk|]. split; [apply modulation_small|]. split; [apply damping_pos|]. split.
  - intros L. unfold modulation. rewrite (proj2 (step_ends _ _ _ _ _)); [unfold Rdiv; ring|bounds Bts; bounds Bte; lra|bounds Bts; bounds Bte; lra].
  - intros l m V. unfold md. cbn [rw_lo rw_data]. rewrite nth_seq_map by exact Hk. rewrite row_mode by exact V. unfold sign_of. apply C_eq; cbn; ring.
Qed.
Theorem C90_reflection : forall p t W k, args_fit p -> make p false = Ok (t, W) -> (k < length t)%nat ->
  exists s, Rabs s <= 1 / 40 /\ (merger p + 20 + pa_dt p <= at_ t k -> s = 0) /\
  forall l m, valid 2 (pa_hi p) l m -> (0 < m)%Z -> Cscale (1 + s) (md W k l (- m)) = Cscale ((1 - s) * sgn l) (Conj (md W k l m)).
Proof.
  intros p t W k H E Hk. destruct (C90_modes p t W k H E Hk) as (w & s & r & _ & Bs & _ & S0 & M). exists s. split; [exact Bs|]. split; [exact S0|].
  intros l m V Hm. pose proof V as [Vl Vm]. rewrite !M by (exact V || (split; lia)). rewrite C73_pn_reflection by lia. replace (Z.sgn (- m)) with (-1)%Z by (symmetry; apply Z.sgn_neg; lia). replace (Z.sgn m) with 1%Z by (symmetry; apply Z.sgn_pos; lia).
  apply C_eq; cbn; ring.
Qed.
Theorem C90_vanishing : forall p t W k l m, args_fit p -> make p false = Ok (t, W) -> (k < length t)%nat -> valid 2 (pa_hi p) l m ->
  m = 0%Z \/ (pa_ratio p = 1 /\ Z.odd m = true) -> md W k l m = C0.
Proof.
  intros p t W k l m H E Hk V Hm. destruct (C90_modes p t W k H E Hk) as (w & s & r & _ & _ & _ & _ & M). rewrite M by exact V. pose proof V as [Vl _].
  destruct Hm as [-> |[Q O]]; [rewrite C73_pn_order_0 by lia|rewrite Q; unfold larger; rewrite Rinv_1, Rmax_left by lra; rewrite C73_pn_equal_masses by exact O]; apply C_eq; cbn; ring.
Qed.
(** Which of the masses comes first does not matter. *)
Theorem C90_masses : forall p b, 0 < pa_ratio p ->
  make (mkpa (pa_t0 p) (pa_t1 p) (pa_dt p) (pa_hi p) (/ pa_ratio p) (pa_opening p) (pa_opening_dot p) (pa_rate p) (pa_nutation p)) b = make p b.
Proof.
  intros p b H. assert (P : 0 < / pa_ratio p) by (apply Rinv_0_lt_compat; exact H). unfold fake_precessing_waveform, precessing_corotating, merger. cbn [pa_t0 pa_t1 pa_dt pa_hi pa_ratio pa_opening pa_opening_dot pa_rate pa_nutation].
  rewrite (ratio_eq _ P), (ratio_eq _ H), larger_inv by exact H. reflexivity.
Qed.

(** ** Long before and long after the merger *)
Definition opening_angle (p : pargs) (rate s : R) : R := pa_opening p + rate * s.
Theorem C90_inspiral_modes : forall p t W k l m, args_fit p -> make p false = Ok (t, W) -> (k < length t)%nat -> at_ t k + 10 + 2 * pa_dt p <= merger p -> valid 2 (pa_hi p) l m ->
  let nu := nu_of (larger (pa_ratio p)) in
  md W k l m = Cscale (1 + IZR (Z.sgn m) * (cos (orbital_phase nu (merger p) (at_ t k)) / 40))
    (pn_leading_order_amplitude l m (Rpower (orbital_frequency nu (merger p) (at_ t k)) (2 / 3)) (larger (pa_ratio p))).
Proof.
  intros p t W k l m H E Hk Hs V nu. pose proof (proj1 H) as Hd. described H E n Ln Bts Bte Lph P1 P2 P3 P4 Lom Sprec op Sop. set (t := grid (pa_t0 p) (pa_dt p) n) in *.
  unfold md. cbn [rw_lo rw_data]. rewrite nth_seq_map by exact Hk. rewrite row_mode by exact V. destruct (P3 k Hk Hs) as [A ->]. unfold modulation. rewrite A, (proj1 (step_ends _ _ _ _ _)) by (bounds Bts; lra).
  unfold damping. destruct (Rlt_dec (at_ t k) ts) as [|G]; [|exfalso; bounds Bts; lra]. unfold sign_of. fold nu. apply C_eq; cbn; unfold Rdiv; ring.
Qed.
Theorem C90_ringdown : forall p t W k l m, args_fit p -> make p false = Ok (t, W) -> (k < length t)%nat -> merger p + 20 + pa_dt p <= at_ t k -> valid 2 (pa_hi p) l m ->
  md W k l m = Cscale (9 / 4 * exp (- (2 / 23) * (at_ t k - merger p))) (pn_leading_order_amplitude l m (Rpower (1 / 4) (2 / 3)) (larger (pa_ratio p))).
Proof.
  intros p t W k l m H E Hk Hs V. pose proof (proj1 H) as Hd. described H E n Ln Bts Bte Lph P1 P2 P3 P4 Lom Sprec op Sop. set (t := grid (pa_t0 p) (pa_dt p) n) in *.
  unfold md. cbn [rw_lo rw_data]. rewrite nth_seq_map by exact Hk. rewrite row_mode by exact V. rewrite P2 by (exact Hk || lra). unfold modulation, damping. destruct (Rlt_dec (at_ t k) ts) as [G|_]; [exfalso; bounds Bts; lra|].
  rewrite !(proj2 (step_ends _ _ _ _ _)) by (bounds Bts; bounds Bte; lra). replace (- (2 / 23) * (at_ t k - merger p)) with (- (at_ t k - merger p) / (23 / 2)) by lra. set (x := exp _). apply C_eq; cbn; unfold Rdiv; ring.
Qed.

(** ** The frame *)
Definition cone (phi prec op : R) : quat := qmul (qmul (rot_z prec) (rot_x op)) (qmul (rot_z (- prec)) (rot_z phi)).
Lemma sqrt_tweak : forall q, qnorm2 q = 1 -> qmul (qconj (qsqrt q)) q = qsqrt q.
Proof.
  intros q H. destruct (qsqrt_square q H) as [S N]. rewrite <- S at 2. rewrite qmul_assoc, qmul_conj_l, N, qscale_1, qmul_1_l. reflexivity.
Qed.
Theorem C90_inspiral_frame : forall p t W f rate, args_fit p -> make p false = Ok (t, W) -> rw_frame W = F1 f -> pa_opening_dot p = Some rate -> pa_t0 p + 10 + 2 * pa_dt p <= merger p ->
  let nu := nu_of (larger (pa_ratio p)) in
  let F := fun k => let phi := orbital_phase nu (merger p) (at_ t k) in cone phi (phi / pa_rate p) (pa_opening p + rate * at_ t k) in
  qmul (nth 0 f q1) (nth 0 f q1) = F 0%nat /\
  forall k, (k < length t)%nat -> at_ t k + 10 + 2 * pa_dt p <= merger p -> nth k f q1 = qmul (qconj (nth 0 f q1)) (F k).
Proof.
  intros p t W f rate H E Ef Er H0 nu F. pose proof (proj1 H) as Hd. described H E n Ln Bts Bte Lph P1 P2 P3 P4 Lom Sprec op Sop. cbn [rw_frame] in Ef. injection Ef as <-. set (t := grid (pa_t0 p) (pa_dt p) n) in *. rewrite Er. cbn [dflt].
  destruct Sprec as (_ & Sprec & _). destruct (Sop rate) as (_ & Sop' & _). unfold t in Sprec at 1. unfold t in Sop' at 1. rewrite grid_length in *.
  assert (B : forall k, (k < n)%nat -> at_ t k + 10 + 2 * pa_dt p <= merger p -> bare ts te t ph prec (op rate) (dflt (pa_opening p / 10) (pa_nutation p)) k = F k).
  { intros k Hk Hs. unfold bare. assert (L : at_ t k <= ts) by (bounds Bts; lra). rewrite (proj1 (step_ends _ _ _ _ _)) by exact L. rewrite Rmult_0_r. rewrite (Sprec k Hk L), (Sop' k Hk L). unfold at_ at 2 3. rewrite !nth_map_R by (rewrite ?Lph; unfold t; rewrite ?grid_length; exact Hk).
    change (nth k ph 0) with (at_ ph k). change (nth k t 0) with (at_ t k). rewrite (proj1 (P3 k Hk Hs)). rewrite frame_of_eq, (proj2 rot_zero), qmul_1_r. unfold F, cone. fold nu. set (phi := orbital_phase _ _ _).
    assert (Z : qmul (rot_z phi) (rot_z (- phi)) = q1) by (rewrite <- rot_z_back, qmul_conj_r, rot_z_unit; apply qscale_1). rewrite Z, qmul_1_l. reflexivity. }
  assert (T0 : at_ t 0 + 10 + 2 * pa_dt p <= merger p) by (unfold t; rewrite grid_at by lia; cbn; lra).
  assert (U : qnorm2 (F 0%nat) = 1) by (rewrite <- B by (lia || exact T0); apply frame_of_unit).
  rewrite !nth_seq_map by lia. rewrite !B by (lia || exact T0). rewrite sqrt_tweak by exact U. split; [apply (qsqrt_square _ U)|].
  intros k Hk Hs. rewrite nth_seq_map by exact Hk. rewrite !B by (assumption || lia). reflexivity.
Qed.
(** The direction of the axis: it circles with the orbital phase divided by precession_relative_rate. *)
Definition on_cone (opening turned : R) : vec3 := (sin opening * sin turned, - (sin opening * cos turned), cos opening).
Lemma cone_axis : forall phi prec op, rotv (cone phi prec op) (0, 0, 1) = on_cone op prec.
Proof. intros. unfold cone, on_cone. rewrite !rotv_mul, !rotv_rot_z, !Rmult_0_l, rotv_rot_x, rotv_rot_z. f_equal; [f_equal; ring|ring]. Qed.
Theorem C90_precession : forall p t W f rate k, args_fit p -> make p false = Ok (t, W) -> rw_frame W = F1 f -> pa_opening_dot p = Some rate -> (k < length t)%nat -> at_ t k + 10 + 2 * pa_dt p <= merger p ->
  rotv (nth k f q1) (0, 0, 1) = rotv (qconj (nth 0 f q1)) (on_cone (pa_opening p + rate * at_ t k) (orbital_phase (nu_of (larger (pa_ratio p))) (merger p) (at_ t k) / pa_rate p)).
Proof.
  intros p t W f rate k H E Ef Er Hk Hs. pose proof (proj1 H) as Hd. assert (T0 : pa_t0 p + 10 + 2 * pa_dt p <= merger p).
  { destruct (C90_defined p H) as (n & t' & W' & f' & E' & L & _ & T & _). rewrite E' in E. injection E as <- <-. rewrite L in Hk. rewrite T in Hs by exact Hk. assert (0 <= INR k * pa_dt p) by (apply Rmult_le_pos; [apply pos_INR|lra]). lra. }
  destruct (C90_inspiral_frame p t W f rate H E Ef Er T0) as (_ & F). rewrite F by assumption. rewrite rotv_mul, cone_axis. reflexivity.
Qed.
(** Before the merger the nutation angle makes no difference, and the modes never depend on it or on the rate of opening. *)
Theorem C90_nutation : forall p dot nut dot' nut' t W f t' W' f', args_fit p -> make (with_angles p dot nut) false = Ok (t, W) -> rw_frame W = F1 f ->
  make (with_angles p dot' nut') false = Ok (t', W') -> rw_frame W' = F1 f' ->
  t' = t /\ rw_data W' = rw_data W /\ (dot' = dot -> forall k, (k < length t)%nat -> at_ t k <= merger p - pa_dt p / 2 -> nth k f' q1 = nth k f q1).
Proof.
  intros p dot nut dot' nut' t W f t' W' f' H E Ef E' Ef'. pose proof (proj1 H) as Hd. destruct (corotating_ok p H) as (n & ph & om & prec & ts & te & N & Ln & Bts & Bte & Lph & P1 & P2 & P3 & P4 & Lom & Sprec & op & Sop & X). cbv zeta in X.
  rewrite corotating_is, X in E, E'. injection E as <- <-. injection E' as <- <-. cbn [rw_frame rw_data] in *. injection Ef as <-. injection Ef' as <-. split; [reflexivity|]. split; [reflexivity|].
  intros -> k Hk L. rewrite grid_length in Hk. rewrite !nth_seq_map by exact Hk. set (tt := grid (pa_t0 p) (pa_dt p) n) in *.
  assert (B : forall j, (j < n)%nat -> at_ tt j <= ts -> forall x, bare ts te tt ph prec (op (dflt (2 * pa_opening p / (te - pa_t0 p)) dot)) x j = bare ts te tt ph prec (op (dflt (2 * pa_opening p / (te - pa_t0 p)) dot)) 0 j).
  { intros j Hj Lj x. unfold bare. rewrite (proj1 (step_ends _ _ _ _ _)) by exact Lj. rewrite !Rmult_0_r. reflexivity. }
  assert (Lk : at_ tt k <= ts) by (bounds Bts; lra). assert (L0 : at_ tt 0 <= ts) by (pose proof (grid_nondecreasing (pa_t0 p) (pa_dt p) n ltac:(lra) 0%nat k ltac:(rewrite grid_length; lia)); unfold at_, tt in *; lra).
  rewrite !(B k Hk Lk (dflt _ nut')), !(B k Hk Lk (dflt _ nut)), !(B 0%nat ltac:(lia) L0 (dflt _ nut')), !(B 0%nat ltac:(lia) L0 (dflt _ nut)). reflexivity.
Qed.
(** Without nutation the axis is at rest after the merger. *)
Theorem C90_settling : forall p t W f j k, args_fit p -> make p false = Ok (t, W) -> rw_frame W = F1 f -> pa_nutation p = Some 0 -> (j < length t)%nat -> (k < length t)%nat ->
  merger p + 20 + pa_dt p <= at_ t j -> merger p + 20 + pa_dt p <= at_ t k -> rotv (nth j f q1) (0, 0, 1) = rotv (nth k f q1) (0, 0, 1).
Proof.
  intros p t W f j k H E Ef Hn Hj Hk Lj Lk. pose proof (proj1 H) as Hd. described H E n Ln Bts Bte Lph P1 P2 P3 P4 Lom Sprec op Sop. cbn [rw_frame] in Ef. injection Ef as <-. set (t := grid (pa_t0 p) (pa_dt p) n) in *. rewrite Hn. cbn [dflt].
  set (rate := dflt _ _). destruct Sprec as (_ & _ & Sprec). destruct (Sop rate) as (_ & _ & Sop'). unfold t in Sprec at 1 2. unfold t in Sop' at 1 2. rewrite grid_length in *.
  assert (Te : te <= merger p + 20 + pa_dt p) by (bounds Bts; bounds Bte; lra).
  rewrite !nth_seq_map by assumption. rewrite !rotv_mul. f_equal. unfold bare. rewrite !Rmult_0_l. rewrite (Sprec j k), (Sop' j k) by (assumption || lra).
  assert (Z : forall phi a b, rotv (frame_of phi a b 0) (0, 0, 1) = on_cone b a).
  { intros phi a b. rewrite frame_of_eq, (proj2 rot_zero), qmul_1_r. replace (qmul (rot_z phi) (rot_z (- phi))) with q1 by (symmetry; rewrite <- rot_z_back, qmul_conj_r, rot_z_unit; apply qscale_1). rewrite qmul_1_l. apply cone_axis. }
  rewrite !Z. reflexivity.
Qed.
(** The default rate of opening is reckoned up to twenty units after the merger. *)
Theorem C90_opening_rate : forall p nut, args_fit p -> exists te, Rabs (te - (merger p + 20)) <= pa_dt p /\
  make (with_angles p None nut) false = make (with_angles p (Some (2 * pa_opening p / (te - pa_t0 p))) nut) false.
Proof.
  intros p nut H. destruct (corotating_ok p H) as (n & ph & om & prec & ts & te & N & Ln & Bts & Bte & Lph & P1 & P2 & P3 & P4 & Lom & Sprec & op & Sop & X). cbv zeta in X.
  exists te. split; [apply Rabs_le; bounds Bts; bounds Bte; lra|]. rewrite !corotating_is, !X. reflexivity.
Qed.

(** Where the integrand is constant the integral is linear (so it is for the trapezoidal rule). *)
Definition steady : Prop := forall f t c j, length f = length t -> (S j < length t)%nat -> nth j f 0 = c -> nth (S j) f 0 = c ->
  nth (S j) (integral f t) 0 - nth j (integral f t) 0 = c * (nth (S j) t 0 - nth j t 0).
Lemma phase_step : forall p ph om n k, steady -> 0 < pa_dt p -> let t := grid (pa_t0 p) (pa_dt p) n in length om = n -> 
  (forall k, (k < n)%nat -> merger p <= at_ t k -> at_ om k = 1 / 4) ->
  (exists i0 p0, (i0 < n)%nat /\ at_ t i0 < merger p /\ forall k, (i0 <= k < n)%nat -> at_ ph k = p0 + at_ (integral (skipn i0 om) (skipn i0 t)) (k - i0)) ->
  (S k < n)%nat -> merger p <= at_ t k -> at_ ph (S k) = at_ ph k + pa_dt p / 4.
Proof.
  intros p ph om n k St Hd t Lom P2 (i0 & p0 & L0 & T0 & P) Hk Hm. assert (tL : length t = n) by apply grid_length. assert (tA := fun j (H : (j < n)%nat) => grid_at (pa_t0 p) (pa_dt p) n j H). fold t in tA.
  assert (I : (i0 < k)%nat). { destruct (lt_dec i0 k); [assumption|exfalso]. rewrite tA in T0, Hm by lia. assert (INR k <= INR i0) by (apply le_INR; lia). nra. }
  assert (T1 : at_ t (S k) = at_ t k + pa_dt p) by (rewrite !tA, S_INR by lia; ring).
  rewrite !P by lia. specialize (St (skipn i0 om) (skipn i0 t) (1 / 4) (k - i0)%nat). rewrite !skipn_length, !nth_skipn in St. replace (i0 + (k - i0))%nat with k in St by lia. replace (i0 + S (k - i0))%nat with (S k) in St by lia.
  specialize (St ltac:(lia) ltac:(lia) (P2 k ltac:(lia) Hm) (P2 (S k) Hk ltac:(lra))). fold (at_ t (S k)) (at_ t k) in St. rewrite T1 in St. replace (S k - i0)%nat with (S (k - i0)) by lia. unfold at_ in *. lra.
Qed.
Lemma rotv_inj : forall q u v, qnorm2 q = 1 -> rotv q u = rotv q v -> u = v.
Proof. intros q u v H E. assert (B : forall w, rotv (qconj q) (rotv q w) = w). { intros w. rewrite <- rotv_mul, qmul_conj_l, H, qscale_1. destruct w as [[x y] z]. unfold rotv, qvec, q1. cbn. f_equal; [f_equal|]; ring. } rewrite <- (B u), E. apply B. Qed.
Lemma frame_axis : forall phi a b nut, rotv (frame_of phi a b nut) (0, 0, 1) = rotv (rot_z phi) (rotv (rot_x nut) (rotv (rot_z (- phi)) (on_cone b a))).
Proof. intros. rewrite frame_of_eq, rotv_mul. fold (cone phi a b). rewrite cone_axis, !rotv_mul. reflexivity. Qed.
Lemma circling : forall phi dl nut x y z, x * x + y * y + z * z = 1 -> sin nut <> 0 -> 0 < dl <= 5 / 2 ->
  let e := fun f => rotv (rot_z f) (rotv (rot_x nut) (rotv (rot_z (- f)) (x, y, z))) in e phi = e (phi + dl) -> e (phi + dl) = e (phi + dl + dl) -> False.
Proof.
  intros phi dl nut x y z U Hn Hd e. unfold e. rewrite !rotv_rot_z, !rotv_rot_x, !rotv_rot_z. rewrite !cos_neg, !sin_neg. intros A B. injection A as A1 A2 A3. injection B as _ _ B3.
  assert (Sd : 0 < sin dl) by (apply sin_gt_0; [lra|]; pose proof PI2_3_2; lra). pose proof (sin2_cos2 dl) as D1. pose proof (sin2_cos2 phi) as D2. unfold Rsqr in D1, D2. assert (Cd : cos dl < 1) by nra.
  set (sn := sin nut) in *. set (cn := cos nut) in *.
  (* the third component *)
  assert (F : forall u v, (x * - sin u + y * cos u) * sn + z * cn = (x * - sin v + y * cos v) * sn + z * cn -> x * - sin u + y * cos u = x * - sin v + y * cos v).
  { intros u v Q. apply Rmult_eq_reg_r with sn; [lra|exact Hn]. }
  apply F in A3, B3. rewrite !cos_plus, !sin_plus in A3. rewrite (cos_plus (phi + dl) dl), (sin_plus (phi + dl) dl), (cos_plus phi dl), (sin_plus phi dl) in B3. rewrite cos_plus, sin_plus in A1, A2. set (C := cos phi) in *. set (S := sin phi) in *. set (c := cos dl) in *. set (s := sin dl) in *. clear F.
  set (f := y * C - x * S). set (g := x * C + y * S).
  assert (E1 : f = c * f - s * g) by (unfold f, g; lra).
  assert (E2 : c * f - s * g = c * (c * f - s * g) - s * (c * g + s * f)) by (unfold f, g; lra).
  assert (E3 : s * g = s * (c * g + s * f)) by (rewrite <- E1 in E2; lra).
  assert (G : g = c * g + s * f) by (apply Rmult_eq_reg_l with s; lra).
  assert (F0 : f = 0). { assert (Q : (1 - c) * f = - (s * g)) by lra. assert (Q' : (1 - c) * g = s * f) by lra. assert (W : ((1 - c) * (1 - c) + s * s) * f = 0) by nra. apply Rmult_integral in W. destruct W as [W|W]; [nra|exact W]. }
  assert (G0 : g = 0) by (rewrite F0 in G; nra).
  assert (X : x = 0) by (assert (H : x * (S * S + C * C) = C * g - S * f) by (unfold f, g; ring); rewrite F0, G0, D2 in H; lra). assert (Y : y = 0) by (assert (H : y * (S * S + C * C) = S * g + C * f) by (unfold f, g; ring); rewrite F0, G0, D2 in H; lra).
  rewrite X, Y in *. assert (Z : z * sn <> 0) by (apply Rmult_integral_contrapositive_currified; [intros ->; lra|exact Hn]).
  assert (K1 : S = S * c + C * s) by (apply Rmult_eq_reg_l with (z * sn); [lra|exact Z]). assert (K2 : C = C * c - S * s) by (apply Rmult_eq_reg_l with (z * sn); [lra|exact Z]).
  assert (K3 : S * S + C * C = c * (S * S + C * C)) by (transitivity (S * (S * c + C * s) + C * (C * c - S * s)); [rewrite <- K1, <- K2; reflexivity|ring]). rewrite D2 in K3. lra.
Qed.
(** With nutation the axis goes on circling after the merger: at no three successive times is it the same. *)
Theorem C90_settling_refuted : forall p t W f k, steady -> args_fit p -> make p false = Ok (t, W) -> rw_frame W = F1 f -> sin (dflt (pa_opening p / 10) (pa_nutation p)) <> 0 -> (k + 2 < length t)%nat ->
  merger p + 20 + pa_dt p <= at_ t k -> ~ (rotv (nth k f q1) (0, 0, 1) = rotv (nth (k + 1) f q1) (0, 0, 1) /\ rotv (nth (k + 1) f q1) (0, 0, 1) = rotv (nth (k + 2) f q1) (0, 0, 1)).
Proof.
  intros p t W f k St H E Ef Hn Hk Lk. pose proof (proj1 H) as Hd. described H E n Ln Bts Bte Lph P1 P2 P3 P4 Lom Sprec op Sop. cbn [rw_frame] in Ef. injection Ef as <-. set (t := grid (pa_t0 p) (pa_dt p) n) in *.
  set (nut := dflt (pa_opening p / 10) (pa_nutation p)) in *. set (rate := dflt _ _). destruct Sprec as (_ & _ & Sprec). destruct (Sop rate) as (_ & _ & Sop'). unfold t in Sprec at 1 2. unfold t in Sop' at 1 2. rewrite grid_length in *.
  assert (Te : te <= merger p + 20 + pa_dt p) by (bounds Bts; bounds Bte; lra). assert (Ts : ts < merger p + 20 + pa_dt p) by (bounds Bts; lra).
  assert (T1 : at_ t k <= at_ t (k + 1)) by (apply (grid_nondecreasing (pa_t0 p) (pa_dt p) n); [lra|rewrite grid_length; lia]). assert (T2 : at_ t k <= at_ t (k + 2)) by (apply (grid_nondecreasing (pa_t0 p) (pa_dt p) n); [lra|rewrite grid_length; lia]).
  assert (Q1 : at_ ph (k + 1) = at_ ph k + pa_dt p / 4) by (rewrite Nat.add_1_r; apply (phase_step p ph om n k); auto; try exact (proj2 P4); [lra|lia|fold t; lra]).
  assert (Q2 : at_ ph (k + 2) = at_ ph k + pa_dt p / 4 + pa_dt p / 4) by (replace (k + 2)%nat with (S (k + 1)) by lia; rewrite <- Q1; apply (phase_step p ph om n (k + 1)); auto; try exact (proj2 P4); [lra|lia|fold t; lra]).
  rewrite !nth_seq_map by lia. rewrite !rotv_mul. set (F0 := bare _ _ _ _ _ _ _ 0%nat). assert (UT : qnorm2 (qconj (qsqrt F0)) = 1) by (rewrite qnorm2_conj; apply (proj2 (qsqrt_square F0 (frame_of_unit _ _ _ _)))).
  intros [A B]. apply (rotv_inj _ _ _ UT) in A, B. unfold bare in A, B. rewrite !(proj2 (step_ends _ _ _ _ _)) in A by lra. rewrite !(proj2 (step_ends _ _ _ _ _)) in B by lra. rewrite !Rmult_1_r in A, B.
  rewrite (Sprec (k + 1)%nat k), (Sop' (k + 1)%nat k) in A by (lia || lra). rewrite (Sprec (k + 1)%nat k), (Sop' (k + 1)%nat k) in B by (lia || lra). rewrite (Sprec (k + 2)%nat k), (Sop' (k + 2)%nat k) in B by (lia || lra).
  rewrite !frame_axis in A. rewrite !frame_axis in B. rewrite Q1 in A. rewrite Q1, Q2 in B. set (b := at_ (op rate) k) in *. set (a := at_ prec k) in *.
  refine (circling (at_ ph k) (pa_dt p / 4) nut (sin b * sin a) (- (sin b * cos a)) (cos b) _ Hn _ A B); [|lra].
  pose proof (sin2_cos2 a) as Sa. pose proof (sin2_cos2 b) as Sb. unfold Rsqr in *. transitivity (sin b * sin b * (sin a * sin a + cos a * cos a) + cos b * cos b); [ring|]. rewrite Sa. lra.
Qed.
(** The same for any rule of integration (splines, say) with which the orbital phase goes forward by at most 3 in every step after the merger. *)
Definition advances (p : pargs) (t : list R) : Prop := forall ph om, phasing integral (nu_of (larger (pa_ratio p))) (merger p) t = Ok (ph, om) ->
  forall k, (S k < length t)%nat -> merger p <= at_ t k -> 0 < at_ ph (S k) - at_ ph k <= 3.
Lemma circling_uneven : forall phi d1 d2 nut x y z, x * x + y * y + z * z = 1 -> sin nut <> 0 -> 0 < d1 <= 3 -> 0 < d2 <= 3 ->
  let e := fun f => rotv (rot_z f) (rotv (rot_x nut) (rotv (rot_z (- f)) (x, y, z))) in e phi = e (phi + d1) -> e (phi + d1) = e (phi + d1 + d2) -> False.
Proof.
  intros phi d1 d2 nut x y z U Hn H1 H2 e A B. pose proof (eq_trans A B) as D. unfold e in A, D. rewrite !rotv_rot_z, !rotv_rot_x, !rotv_rot_z in A. rewrite !rotv_rot_z, !rotv_rot_x, !rotv_rot_z in D.
  rewrite !cos_neg, !sin_neg in A. rewrite !cos_neg, !sin_neg in D. injection A as A1 A2 A3. injection D as _ _ D3. pose proof PI2_3_2 as PI3.
  set (sn := sin nut) in *. set (cn := cos nut) in *.
  assert (F : forall u v, (x * - sin u + y * cos u) * sn + z * cn = (x * - sin v + y * cos v) * sn + z * cn -> x * - sin u + y * cos u = x * - sin v + y * cos v).
  { intros u v Q. apply Rmult_eq_reg_r with sn; [lra|exact Hn]. }
  apply F in A3, D3. clear F B e.
  set (f := y * cos phi - x * sin phi). set (g := x * cos phi + y * sin phi).
  assert (Hh : forall d, x * - sin (phi + d) + y * cos (phi + d) = f * cos d - g * sin d) by (intros d; rewrite cos_plus, sin_plus; unfold f, g; ring).
  rewrite Rplus_assoc in D3. rewrite Hh in A3, D3. assert (L1 : f * (1 - cos d1) + g * sin d1 = 0) by (unfold f, g in *; lra). assert (L2 : f * (1 - cos (d1 + d2)) + g * sin (d1 + d2) = 0) by (unfold f, g in *; lra).
  set (a := d1 / 2) in *. set (b := (d1 + d2) / 2) in *. replace d1 with (2 * a) in L1 by (unfold a; lra). replace (d1 + d2) with (2 * b) in L2 by (unfold b; lra).
  rewrite cos_2a_sin, sin_2a in L1, L2.
  assert (Sa : 0 < sin a) by (apply sin_gt_0; unfold a; lra). assert (Sb : 0 < sin b) by (apply sin_gt_0; unfold b; lra). assert (Sc : 0 < sin (b - a)) by (apply sin_gt_0; unfold a, b; lra). rewrite sin_minus in Sc.
  assert (M1 : f * sin a + g * cos a = 0) by (apply Rmult_eq_reg_l with (2 * sin a); [|lra]; rewrite Rmult_0_r, <- L1; ring).
  assert (M2 : f * sin b + g * cos b = 0) by (apply Rmult_eq_reg_l with (2 * sin b); [|lra]; rewrite Rmult_0_r, <- L2; ring).
  assert (F0 : f * (sin b * cos a - cos b * sin a) = 0) by (transitivity (cos a * (f * sin b + g * cos b) - cos b * (f * sin a + g * cos a)); [ring|rewrite M1, M2; ring]).
  assert (G0 : g * (sin b * cos a - cos b * sin a) = 0) by (transitivity (sin b * (f * sin a + g * cos a) - sin a * (f * sin b + g * cos b)); [ring|rewrite M1, M2; ring]).
  apply Rmult_integral in F0, G0. destruct F0 as [F0|F0]; [|lra]. destruct G0 as [G0|G0]; [|lra].
  pose proof (sin2_cos2 phi) as P2. unfold Rsqr in P2. rewrite cos_plus, sin_plus in A1, A2. clear Hh A3 D3 L1 L2 M1 M2.
  assert (X : x = 0) by (assert (H : x * (sin phi * sin phi + cos phi * cos phi) = cos phi * g - sin phi * f) by (unfold f, g; ring); rewrite F0, G0, P2 in H; lra).
  assert (Y : y = 0) by (assert (H : y * (sin phi * sin phi + cos phi * cos phi) = sin phi * g + cos phi * f) by (unfold f, g; ring); rewrite F0, G0, P2 in H; lra).
  clear f g F0 G0. rewrite X, Y in *. assert (Z : z * sn <> 0) by (apply Rmult_integral_contrapositive_currified; [intros ->; lra|exact Hn]).
  set (S := sin phi) in *. set (C := cos phi) in *. set (c := cos d1) in *. set (s := sin d1) in *.
  assert (K1 : S = S * c + C * s) by (apply Rmult_eq_reg_l with (z * sn); [lra|exact Z]). assert (K2 : C = C * c - S * s) by (apply Rmult_eq_reg_l with (z * sn); [lra|exact Z]).
  assert (K3 : S * S + C * C = c * (S * S + C * C)) by (transitivity (S * (S * c + C * s) + C * (C * c - S * s)); [rewrite <- K1, <- K2; reflexivity|ring]). rewrite P2 in K3.
  assert (Cd : c = 1 - 2 * sin a * sin a) by (unfold c, a; replace d1 with (2 * (d1 / 2)) at 1 by lra; apply cos_2a_sin). nra.
Qed.
Lemma steady_advances : forall p t W, steady -> args_fit p -> make p false = Ok (t, W) -> advances p t.
Proof.
  intros p t W St H E ph' om' E' k Hk Hm. pose proof (proj1 H) as Hd. described H E n Ln Bts Bte Lph P1 P2 P3 P4 Lom Sprec op Sop. rewrite (proj1 P4) in E'. injection E' as <- <-.
  rewrite (phase_step p ph om n k St (proj1 Hd) Lom P2 (proj2 P4) Hk Hm). lra.
Qed.
Theorem C90_circling_refuted : forall p t W f k, args_fit p -> make p false = Ok (t, W) -> advances p t -> rw_frame W = F1 f -> sin (dflt (pa_opening p / 10) (pa_nutation p)) <> 0 -> (k + 2 < length t)%nat ->
  merger p + 20 + pa_dt p <= at_ t k -> ~ (rotv (nth k f q1) (0, 0, 1) = rotv (nth (k + 1) f q1) (0, 0, 1) /\ rotv (nth (k + 1) f q1) (0, 0, 1) = rotv (nth (k + 2) f q1) (0, 0, 1)).
Proof.
  intros p t W f k H E Ad Ef Hn Hk Lk. pose proof (proj1 H) as Hd. described H E n Ln Bts Bte Lph P1 P2 P3 P4 Lom Sprec op Sop. cbn [rw_frame] in Ef. injection Ef as <-. set (t := grid (pa_t0 p) (pa_dt p) n) in *.
  set (nut := dflt (pa_opening p / 10) (pa_nutation p)) in *. set (rate := dflt _ _). destruct Sprec as (_ & _ & Sprec). destruct (Sop rate) as (_ & _ & Sop'). unfold t in Sprec at 1 2. unfold t in Sop' at 1 2. rewrite grid_length in *.
  assert (Te : te <= merger p + 20 + pa_dt p) by (bounds Bts; bounds Bte; lra). assert (Ts : ts < merger p + 20 + pa_dt p) by (bounds Bts; lra).
  assert (T1 : at_ t k <= at_ t (k + 1)) by (apply (grid_nondecreasing (pa_t0 p) (pa_dt p) n); [lra|rewrite grid_length; lia]). assert (T2 : at_ t k <= at_ t (k + 2)) by (apply (grid_nondecreasing (pa_t0 p) (pa_dt p) n); [lra|rewrite grid_length; lia]).
  assert (tL : length t = n) by apply grid_length.
  pose proof (Ad ph om (proj1 P4) k ltac:(lia) ltac:(lra)) as Q1. pose proof (Ad ph om (proj1 P4) (k + 1)%nat ltac:(lia) ltac:(lra)) as Q2. replace (S k) with (k + 1)%nat in Q1 by lia. replace (S (k + 1)) with (k + 2)%nat in Q2 by lia.
  rewrite !nth_seq_map by lia. rewrite !rotv_mul. set (F0 := bare _ _ _ _ _ _ _ 0%nat). assert (UT : qnorm2 (qconj (qsqrt F0)) = 1) by (rewrite qnorm2_conj; apply (proj2 (qsqrt_square F0 (frame_of_unit _ _ _ _)))).
  intros [A B]. apply (rotv_inj _ _ _ UT) in A, B. unfold bare in A, B. rewrite !(proj2 (step_ends _ _ _ _ _)) in A by lra. rewrite !(proj2 (step_ends _ _ _ _ _)) in B by lra. rewrite !Rmult_1_r in A, B.
  rewrite (Sprec (k + 1)%nat k), (Sop' (k + 1)%nat k) in A by (lia || lra). rewrite (Sprec (k + 1)%nat k), (Sop' (k + 1)%nat k) in B by (lia || lra). rewrite (Sprec (k + 2)%nat k), (Sop' (k + 2)%nat k) in B by (lia || lra).
  rewrite !frame_axis in A. rewrite !frame_axis in B. set (b := at_ (op rate) k) in *. set (a := at_ prec k) in *.
  set (d1 := at_ ph (k + 1) - at_ ph k) in *. set (d2 := at_ ph (k + 2) - at_ ph (k + 1)) in *.
  replace (at_ ph (k + 1)) with (at_ ph k + d1) in A, B by (unfold d1; ring). replace (at_ ph (k + 2)) with (at_ ph k + d1 + d2) in B by (unfold d1, d2; ring).
  refine (circling_uneven (at_ ph k) d1 d2 nut (sin b * sin a) (- (sin b * cos a)) (cos b) _ Hn Q1 Q2 A B).
  pose proof (sin2_cos2 a) as Sa. pose proof (sin2_cos2 b) as Sb. unfold Rsqr in *. transitivity (sin b * sin b * (sin a * sin a + cos a * cos a) + cos b * cos b); [ring|]. rewrite Sa. lra.
Qed.
End Waveform.

(** The documentation has the axis precess at a fraction precession_relative_rate of the orbital rate. *)
Theorem C90_precession_refuted : forall integral wigner garbage, (forall f t, length f = length t -> length (integral f t) = length t) ->
  exists p t W f k, args_fit p /\ fake_precessing_waveform integral wigner garbage p false = Ok (t, W) /\ rw_frame W = F1 f /\ pa_opening_dot p = Some 0 /\ (k < length t)%nat /\ at_ t k + 10 + 2 * pa_dt p <= merger p /\
  rotv (nth k f q1) (0, 0, 1) <> rotv (qconj (nth 0 f q1)) (on_cone (pa_opening p) (pa_rate p * orbital_phase (nu_of (larger (pa_ratio p))) (merger p) (at_ t k))).
Proof.
  intros integral wigner garbage IL. set (T := Rpower (5 / 2 * PI) (8 / 5)). set (p := mkpa (-20 * T) 100 (1 / 10) 2 1 (PI / 2) (Some 0) (1 / 10) None).
  assert (P3 : 3 < PI) by (pose proof PI2_3_2; lra).
  assert (T1 : 1 <= T). { unfold T, Rpower. rewrite <- exp_0. apply Rlt_le, exp_increasing. assert (0 < ln (5 / 2 * PI)) by (rewrite <- ln_1; apply ln_increasing; lra). lra. }
  assert (M : merger p = 0) by (unfold merger, p; cbn; lra).
  assert (A : args_fit p) by (unfold args_fit; rewrite M; cbn; repeat split; try lra; lia).
  destruct (C90_defined integral IL wigner garbage p A) as (n & t & W & f & E & L & N & Tk & _ & _ & _ & _ & _ & _ & Ef & Lf & Uf).
  exists p, t, W, f, 0%nat. assert (T0 : at_ t 0 = -20 * T) by (rewrite Tk by lia; cbn; lra).
  split; [exact A|]. split; [exact E|]. split; [exact Ef|]. split; [reflexivity|]. split; [lia|]. assert (S0 : at_ t 0 + 10 + 2 * pa_dt p <= merger p) by (rewrite T0, M; cbn; lra). split; [exact S0|].
  rewrite (C90_precession integral IL wigner garbage p t W f 0 0 A E Ef eq_refl ltac:(lia) S0). intros X.
  apply rotv_inj in X; [|rewrite qnorm2_conj; rewrite Forall_forall in Uf; apply Uf, nth_In; lia].
  assert (PH : orbital_phase (nu_of (larger (pa_ratio p))) (merger p) (at_ t 0) = - (10 * PI)).
  { unfold orbital_phase. rewrite M, T0. cbn [pa_ratio p]. unfold larger. rewrite Rinv_1, Rmax_left by lra. replace (nu_of 1 * (0 - -20 * T) / 5) with T by (unfold nu_of; field). unfold T. rewrite Rpower_mult. replace (8 / 5 * (5 / 8)) with 1 by lra. rewrite Rpower_1 by lra. lra. }
  rewrite PH in X. cbn [pa_opening pa_rate p] in X. unfold on_cone in X. injection X as _ X _. rewrite Rmult_0_l, Rplus_0_r, sin_PI2 in X.
  replace (- (10 * PI) / (1 / 10)) with (- (0 + 2 * INR 50 * PI)) in X by (rewrite (INR_IZR_INZ 50); cbn; lra). rewrite cos_neg, cos_period, cos_0 in X. replace (1 / 10 * - (10 * PI)) with (- PI) in X by lra. rewrite cos_neg, cos_PI in X. lra.
Qed.

(** ** The inertial frame *)
Theorem C90_inertial : forall Dw integral wigner garbage p, (forall q lo hi, (0 <= lo <= hi)%Z -> holds lo hi (wigner q lo hi) (fun l i j => Dw q l (i - l)%Z (j - l)%Z)) ->
  (forall f t, length f = length t -> length (integral f t) = length t) -> args_fit p ->
  exists t W f W', fake_precessing_waveform integral wigner garbage p false = Ok (t, W) /\ rw_frame W = F1 f /\ fake_precessing_waveform integral wigner garbage p true = Ok (t, W') /\
  rw_type W' = InertialFrame /\ rw_frame W' = F1 (repeat q1 (length t)) /\ wf W' /\ rw_hi W' = pa_hi p /\
  forall k l m, (k < length t)%nat -> valid 2 (pa_hi p) l m -> md W' k l m = turn Dw (qconj (nth k f q1)) (md W k) l m.
Proof.
  intros Dw integral wigner garbage p HW IL A. destruct (C90_defined integral IL wigner garbage p A) as (n & t & W & f & E & L & N & _ & _ & Wf & Wl & Wh & Wd & Wt & Ef & Lf & Uf).
  destruct (C25_series Dw wigner garbage HW W (map qconj f) (RArr1 (map qconj f)) Wf) with (f := f) as (W1 & E1 & Wf1 & T1 & f1 & F1' & Lf1 & G1); rewrite ?map_length; try lia; auto.
  exists t, W, f, (mkrw (rw_lo W1) (rw_hi W1) (rw_data W1) (rw_frame W1) InertialFrame). split; [exact E|]. split; [exact Ef|].
  assert (E2 : fake_precessing_waveform integral wigner garbage p true = Ok (t, mkrw (rw_lo W1) (rw_hi W1) (rw_data W1) (rw_frame W1) InertialFrame)).
  { rewrite (corotating_is integral wigner garbage) in E. unfold fake_precessing_waveform. rewrite E. cbn [rbind]. unfold to_inertial. rewrite Ef. cbn [frame_rotors conj_rotors rbind]. rewrite E1. reflexivity. }
  split; [exact E2|]. split; [reflexivity|]. destruct T1 as (Tl & Th & Td & _ & Tm). split.
  { cbn [rw_frame]. rewrite F1'. f_equal. apply nth_ext with q1 q1; [rewrite repeat_length, Lf1, map_length; lia|]. intros k Hk. rewrite Lf1, map_length in Hk. rewrite nth_repeat, G1 by (rewrite map_length; exact Hk).
    rewrite (nth_indep (map qconj f) q1 (qconj q1)) by (rewrite map_length; exact Hk). rewrite map_nth. rewrite Forall_forall in Uf. apply mul_conj_unit, Uf, nth_In. exact Hk. }
  split; [exact Wf1|]. split; [cbn; lia|]. intros k l m Hk V. unfold md in *. cbn [rw_lo rw_data]. rewrite Tm by (rewrite ?Wd, ?Wl, ?Wh; (lia || exact V)).
  rewrite (nth_indep (map qconj f) q1 (qconj q1)) by (rewrite map_length; lia). rewrite map_nth. reflexivity.
Qed.

(** * Cases *)
(** The trapezoidal rule *)
Fixpoint trapezoid_from (acc : R) (f t : list R) : list R :=
  match f, t with
  | a :: f', s :: t' => acc :: trapezoid_from (acc + (a + nth 0 f' 0) / 2 * (nth 0 t' 0 - s)) f' t'
  | _, _ => map (fun _ => acc) t
  end.
Definition trapezoid : list R -> list R -> list R := trapezoid_from 0.
Lemma trapezoid_length : forall f t, length f = length t -> length (trapezoid f t) = length t.
Proof. intros f t. unfold trapezoid. generalize 0. revert t. induction f as [|a f IH]; intros [|s t] x H; cbn in *; try discriminate; [reflexivity|]. f_equal. apply IH. lia. Qed.
Lemma trapezoid_step : forall f x t c j, length f = length t -> (S j < length t)%nat -> nth j f 0 = c -> nth (S j) f 0 = c ->
  nth (S j) (trapezoid_from x f t) 0 - nth j (trapezoid_from x f t) 0 = c * (nth (S j) t 0 - nth j t 0).
Proof.
  induction f as [|a f IH]; intros x [|s t] c j L Hj A B; cbn in L; try discriminate; [cbn in Hj; lia|]. cbn [trapezoid_from].
  destruct j as [|j].
  - destruct f as [|b f]; destruct t as [|u t]; cbn in *; try lia. subst. field.
  - cbn [nth] in *. change (nth (S j) (trapezoid_from (x + (a + nth 0 f 0) / 2 * (nth 0 t 0 - s)) f t) 0 - nth j (trapezoid_from (x + (a + nth 0 f 0) / 2 * (nth 0 t 0 - s)) f t) 0 = c * (nth (S j) t 0 - nth j t 0)).
    apply IH; auto; cbn in Hj; lia.
Qed.
Lemma trapezoid_steady : steady trapezoid.
Proof. intros f t c j. apply trapezoid_step. Qed.
(** The default arguments *)
Definition default_args : pargs := mkpa (-20) 20000 (1 / 10) 8 2 (PI / 6) None (1 / 10) None.
Example C90_case : args_fit default_args /\ (forall f t, length f = length t -> length (trapezoid f t) = length t) /\ steady trapezoid /\
  sin (dflt (pa_opening default_args / 10) (pa_nutation default_args)) <> 0 /\
  (exists n t W, fake_precessing_waveform trapezoid (fun _ _ _ => []) (fun _ => []) default_args false = Ok (t, W) /\ length t = n /\ (3 <= n)%nat /\ at_ t 0 + 10 + 2 * (1 / 10) <= merger default_args /\
     merger default_args + 20 + 1 / 10 <= at_ t (n - 3)).
Proof.
  assert (A : args_fit default_args) by (unfold args_fit, merger, default_args; cbn; repeat split; try lra; lia). split; [exact A|]. split; [exact trapezoid_length|]. split; [exact trapezoid_steady|]. split.
  - cbn. apply Rgt_not_eq. pose proof PI_RGT_0. apply sin_gt_0; lra.
  - destruct (C90_defined trapezoid trapezoid_length (fun _ _ _ => []) (fun _ => []) default_args A) as (n & t & W & f & E & L & N & T & Last & _). exists n, t, W. split; [exact E|]. split; [exact L|]. split; [lia|].
    rewrite T by lia. split; [cbn; unfold merger; cbn; lra|]. rewrite T in Last by lia. rewrite T by lia. unfold merger. cbn [default_args pa_t0 pa_t1 pa_dt] in *. replace (n - 1)%nat with (S (S (n - 3))) in Last by lia. rewrite !S_INR in Last. lra.
Qed.
Example C90_case_short : fake_precessing_waveform trapezoid (fun _ _ _ => []) (fun _ => []) (mkpa 0 50 (1 / 10) 8 2 (PI / 6) None (1 / 10) None) true = Err ValueError.
Proof. apply C90_space; unfold merger; cbn; lra. Qed.
