(** * Simpson's rule and the estimate of the motion of the centre of mass (property C96) *)
From Coq Require Import String Reals List Arith Bool Lia Lra.
From Verif Require Import Common Motion_Model Motion_Proofs Transform_Proofs Comfile_Model Comfile_Proofs Simpson_Model.
Import ListNotations.
Open Scope R_scope.

(** ** Specification *)
(** The fit uses the samples from number i to number j, and these are at the ends of the chosen interval. *)
Definition ends (t : list R) (sb se : R) (i j : nat) : Prop :=
  (i < j < length t)%nat /\ nth i t 0 = nth 0 t 0 + (last t 0 - nth 0 t 0) * sb /\ nth j t 0 = last t 0 - (last t 0 - nth 0 t 0) * se.
(** Length of the step that ends at sample k + 1 *)
Definition step (t : list R) (k : nat) : R := nth (S k) t 0 - nth k t 0.

(** ** One pair of intervals after the other *)
Lemma basic_sum : forall f F e k ts, (length ts = 2 * k + 1 \/ length ts = 2 * k + 2)%nat ->
  (forall i, (i < k)%nat -> panel (f (nth (2 * i) ts 0)) (f (nth (2 * i + 1) ts 0)) (f (nth (2 * i + 2) ts 0)) (step ts (2 * i)) (step ts (2 * i + 1))
     = F (nth (2 * i + 2) ts 0) - F (nth (2 * i) ts 0) + e) ->
  basic (map f ts) ts = F (nth (2 * k) ts 0) - F (nth 0 ts 0) + INR k * e.
Proof.
  intros f F e. induction k as [|k IH]; intros ts L P.
  - change (2 * 0)%nat with 0%nat. change (INR 0) with 0. destruct ts as [|a [|b [|c ts]]]; cbn [length] in L; try lia; cbn [map basic nth]; lra.
  - destruct ts as [|a [|b [|c ts]]]; cbn [length] in L; try lia. pose proof (P 0%nat ltac:(lia)) as P0.
    change (nth (2 * 0) (a :: b :: c :: ts) 0) with a in P0. change (nth (2 * 0 + 1) (a :: b :: c :: ts) 0) with b in P0.
    change (nth (2 * 0 + 2) (a :: b :: c :: ts) 0) with c in P0. unfold step in P0.
    change (nth (S (2 * 0)) (a :: b :: c :: ts) 0) with b in P0. change (nth (2 * 0) (a :: b :: c :: ts) 0) with a in P0.
    change (nth (S (2 * 0 + 1)) (a :: b :: c :: ts) 0) with c in P0. change (nth (2 * 0 + 1) (a :: b :: c :: ts) 0) with b in P0.
    assert (T : basic (map f (c :: ts)) (c :: ts) = F (nth (2 * k) (c :: ts) 0) - F (nth 0 (c :: ts) 0) + INR k * e).
    { apply IH; [cbn [length]; lia|]. intros i Hi. specialize (P (S i) ltac:(lia)). unfold step in *.
      replace (2 * S i)%nat with (S (S (2 * i))) in P by lia. cbn [Nat.add nth] in P. cbn [Nat.add]. exact P. }
    change (basic (map f (a :: b :: c :: ts)) (a :: b :: c :: ts)) with (panel (f a) (f b) (f c) (b - a) (c - b) + basic (map f (c :: ts)) (c :: ts)).
    rewrite P0, T. replace (2 * S k)%nat with (S (S (2 * k))) by lia. cbn [nth]. rewrite S_INR. ring.
Qed.

Definition quad (a b c t : R) : R := a + b * t + c * t ^ 2.
Definition Quad (a b c t : R) : R := a * t + b * t ^ 2 / 2 + c * t ^ 3 / 3.
Lemma quad_int : forall a b c s e, is_int s e (fun t => a + b * t + c * t ^ 2) (Quad a b c e - Quad a b c s).
Proof.
  intros a b c s e. unfold Quad.
  replace (a * e + b * e ^ 2 / 2 + c * e ^ 3 / 3 - (a * s + b * s ^ 2 / 2 + c * s ^ 3 / 3)) with
    ((e ^ 1 - s ^ 1) / INR 1 + (a - 1) * ((e ^ 1 - s ^ 1) / INR 1) + b * ((e ^ 2 - s ^ 2) / INR 2) + c * ((e ^ 3 - s ^ 3) / INR 3)) by (simpl; field).
  eapply is_int_ext; [|exact (is_int_lin _ _ _ _ c _ _ (is_int_lin _ _ _ _ b _ _ (is_int_lin _ _ _ _ (a - 1) _ _ (is_int_pow s e 0) (is_int_pow s e 0)) (is_int_pow s e 1)) (is_int_pow s e 2))].
  intros t. cbn beta. ring.
Qed.
Lemma panel_quad : forall a b c t0 t1 t2, t0 < t1 -> t1 < t2 ->
  panel (quad a b c t0) (quad a b c t1) (quad a b c t2) (t1 - t0) (t2 - t1) = Quad a b c t2 - Quad a b c t0.
Proof. intros a b c t0 t1 t2 H1 H2. unfold panel, quad, Quad. cbv zeta. field. lra. Qed.
Lemma basic_quad : forall a b c k ts, increasing ts -> (length ts = 2 * k + 1 \/ length ts = 2 * k + 2)%nat ->
  basic (map (quad a b c) ts) ts = Quad a b c (nth (2 * k) ts 0) - Quad a b c (nth 0 ts 0).
Proof.
  intros a b c k ts HI L. rewrite (basic_sum _ (Quad a b c) 0 k ts L); [ring|]. intros i Hi. pose proof (increasing_up ts HI) as UP. unfold step.
  replace (S (2 * i)) with (2 * i + 1)%nat by lia. replace (S (2 * i + 1)) with (2 * i + 2)%nat by lia.
  rewrite panel_quad by (apply UP; lia). ring.
Qed.
Lemma map_at : forall (f : R -> R) ts k, (k < length ts)%nat -> nth k (map f ts) 0 = f (nth k ts 0).
Proof. intros f ts k H. rewrite (nth_indep _ 0 (f 0)) by (rewrite map_length; exact H). apply map_nth. Qed.
Lemma odd_form : forall n, Nat.odd n = true -> exists k, n = (2 * k + 1)%nat.
Proof. intros n H. apply Nat.odd_spec in H. exact H. Qed.
Lemma even_form : forall n, (0 < n)%nat -> Nat.odd n = false -> exists k, n = (2 * k + 2)%nat.
Proof. intros n P H. rewrite <- Nat.negb_even in H. apply negb_false_iff, Nat.even_spec in H. destruct H as [m ->]. exists (m - 1)%nat. lia. Qed.
Lemma tl_at : forall (ts : list R) k, nth k (tl ts) 0 = nth (S k) ts 0.
Proof. intros [|a ts] k; [destruct k; reflexivity|reflexivity]. Qed.
Lemma tl_map : forall (f : R -> R) ts, tl (map f ts) = map f (tl ts).
Proof. intros f [|a ts]; reflexivity. Qed.

(** ** Simpson's rule *)
(** An odd number of samples, at any increasing times: polynomials of degree two are integrated exactly, in every version. *)
Theorem C96_simpson : simpson simps_avg /\ simpson simps_new.
Proof.
  split; intros ts a b c HI HO; pose proof HO as HO'; apply odd_form in HO'; destruct HO' as [k L];
    [unfold simps_avg|unfold simps_new]; rewrite map_length, HO; rewrite last_nth_R, L; replace (2 * k + 1 - 1)%nat with (2 * k)%nat by lia;
    fold (quad a b c); change (fun t : R => a + b * t + c * t ^ 2) with (quad a b c); rewrite (basic_quad a b c k ts HI (or_introl L)); apply quad_int.
Qed.
(** Zeros integrate to zero. *)
Theorem C96_zero : (forall ts, simps_avg (map (fun _ => 0) ts) ts = 0) /\ (forall ts, simps_new (map (fun _ => 0) ts) ts = 0).
Proof.
  assert (Z : forall k (ts : list R), nth k (map (fun _ => 0) ts) 0 = 0).
  { induction k as [|k IH]; intros [|a ts]; try reflexivity. apply IH. }
  assert (B0 : forall n ts, (length ts <= n)%nat -> basic (map (fun _ => 0) ts) ts = 0).
  { induction n as [|n IH]; intros [|a [|b [|c ts]]] L; cbn [length] in L; try lia; try reflexivity.
    change (panel 0 0 0 (b - a) (c - b) + basic (map (fun _ => 0) (c :: ts)) (c :: ts) = 0). rewrite IH by (cbn [length]; lia). unfold panel. cbv zeta. ring. }
  assert (B : forall ts, basic (map (fun _ => 0) ts) ts = 0) by (intros ts; apply (B0 (length ts)); lia).
  split; intros ts; [unfold simps_avg|unfold simps_new]; rewrite map_length; unfold trapezoid; rewrite ?tl_map, !B, !Z; destruct (Nat.odd _); try reflexivity;
    try (destruct (Nat.leb _ _)); cbv zeta; unfold Rdiv; ring.
Qed.

(** An even number of samples.  Up to scipy 1.10 the integral of a parabola is too large by the cubes of the first and the last step ... *)
Theorem C96_even_average : forall ts a b c, increasing ts -> (0 < length ts)%nat -> Nat.odd (length ts) = false ->
  is_int (nth 0 ts 0) (last ts 0) (fun t => a + b * t + c * t ^ 2)
    (simps_avg (map (fun t => a + b * t + c * t ^ 2) ts) ts - c * (step ts 0 ^ 3 + step ts (length ts - 2) ^ 3) / 12).
Proof.
  intros ts a b c HI HP HE. destruct (even_form _ HP HE) as [k L]. change (fun t : R => a + b * t + c * t ^ 2) with (quad a b c).
  replace (simps_avg (map (quad a b c) ts) ts - c * (step ts 0 ^ 3 + step ts (length ts - 2) ^ 3) / 12) with (Quad a b c (last ts 0) - Quad a b c (nth 0 ts 0)); [apply quad_int|].
  unfold simps_avg. rewrite map_length, HE, (basic_quad a b c k ts HI (or_intror L)), tl_map.
  rewrite (basic_quad a b c k (tl ts)); [|destruct ts; [exact HI|eapply increasing_tail; exact HI]|left; destruct ts; cbn [length tl] in *; lia].
  rewrite !tl_at. unfold trapezoid, step. rewrite !map_at by lia. rewrite last_nth_R.
  replace (S (length ts - 2)) with (length ts - 1)%nat by lia. replace (length ts - 2)%nat with (2 * k)%nat by lia. replace (length ts - 1)%nat with (S (2 * k)) by lia.
  unfold Quad, quad. field.
Qed.
(** ... and from 1.11 it is exact, except for two samples, where trapezoids are used. *)
Theorem C96_even_new : forall ts a b c, increasing ts -> (2 < length ts)%nat -> Nat.odd (length ts) = false ->
  is_int (nth 0 ts 0) (last ts 0) (fun t => a + b * t + c * t ^ 2) (simps_new (map (fun t => a + b * t + c * t ^ 2) ts) ts).
Proof.
  intros ts a b c HI HP HE. destruct (even_form _ (Nat.lt_trans _ _ _ Nat.lt_0_2 HP) HE) as [k L]. change (fun t : R => a + b * t + c * t ^ 2) with (quad a b c).
  replace (simps_new (map (quad a b c) ts) ts) with (Quad a b c (last ts 0) - Quad a b c (nth 0 ts 0)); [apply quad_int|].
  unfold simps_new. rewrite map_length, HE, (basic_quad a b c k ts HI (or_intror L)). rewrite (proj2 (Nat.leb_gt _ _) HP). cbv zeta.
  rewrite !map_at by lia. rewrite last_nth_R. pose proof (increasing_up ts HI) as UP.
  replace (2 * k)%nat with (length ts - 2)%nat by lia.
  pose proof (UP (length ts - 3)%nat (length ts - 2)%nat ltac:(lia)). pose proof (UP (length ts - 2)%nat (length ts - 1)%nat ltac:(lia)).
  unfold Quad, quad. field. lra.
Qed.

(** Two samples: a trapezoid, in every version. *)
Theorem C96_two : forall t0 t1 a b c, t0 < t1 -> let f := fun t => a + b * t + c * t ^ 2 in
  simps_avg [f t0; f t1] [t0; t1] = simps_new [f t0; f t1] [t0; t1] /\
  is_int t0 t1 f (simps_new [f t0; f t1] [t0; t1] - c * (t1 - t0) ^ 3 / 6).
Proof.
  intros t0 t1 a b c H f. unfold simps_avg, simps_new, trapezoid. cbn [length Nat.odd Nat.even negb Nat.leb nth tl basic Nat.sub]. split; [field|].
  replace (/ 2 * (t1 - t0) * (f t1 + f t0) - c * (t1 - t0) ^ 3 / 6) with (Quad a b c t1 - Quad a b c t0) by (unfold Quad, f; field). apply quad_int.
Qed.

(** ** The estimate *)
Lemma estimate_ends : forall simps t f sb se accel i j, increasing t -> ends t sb se i j ->
  let ts := segment i j t in let M k := simps (map (fun u => u ^ k * f u) ts) ts in
  estimate simps t (map f t) sb se accel =
    (let ti := nth i t 0 in let tf := nth j t 0 in
     if accel then let '(x, v, a) := fit3 ti tf (simps (map f ts) ts) (M 1%nat) (M 2%nat) in Ok (x, v, a, ti, tf)
     else let '(x, v) := fit2 ti tf (simps (map f ts) ts) (M 1%nat) in Ok (x, v, 0, ti, tf)).
Proof.
  intros simps t f sb se accel i j HI (Hij & Ei & Ej) ts M. cbv zeta.
  assert (N : t <> []) by (intros ->; cbn in Hij; lia).
  assert (T : exists x v a, estimate simps t (map f t) sb se accel = Ok (x, v, a, nth i t 0, nth j t 0)).
  { rewrite Ei, Ej. clear -N. destruct t as [|t0 t]; [congruence|]. unfold estimate. rewrite (last_default _ (t0 :: t) 0 t0) by discriminate. cbn [nth].
    match goal with |- context [argmin ?l] => destruct (argmin_ok l) as [p Ep]; [discriminate|] end. rewrite Ep. cbn [rbind].
    match goal with |- context [argmin ?l] => destruct (argmin_ok l) as [q Eq]; [discriminate|] end. rewrite Eq. cbn [rbind]. cbv zeta.
    destruct accel; [destruct (fit3 _ _ _ _ _) as [[x v] a]; exists x, v, a; reflexivity|destruct (fit2 _ _ _ _) as [x v]; exists x, v, 0; reflexivity]. }
  destruct T as (x & v & a & E). rewrite E.
  destruct (C42_estimate _ _ _ _ _ _ _ _ _ _ _ (map_length _ _) E) as (t0 & tl & i' & j' & H0 & Hl & Eti & Etf & Li & Lj & Mi & Mj & F).
  cbv zeta in F. pose proof (increasing_up t HI) as UP.
  assert (Same : forall p q, (p < length t)%nat -> (q < length t)%nat -> (forall k, (k < length t)%nat -> Rabs (nth p t 0 - nth q t 0) <= Rabs (nth k t 0 - nth q t 0)) -> p = q).
  { intros p q Hp Hq K. specialize (K q Hq). rewrite (Rminus_diag_eq (nth q t 0) (nth q t 0) eq_refl), Rabs_R0 in K. pose proof (Rabs_pos (nth p t 0 - nth q t 0)).
    assert (Z : nth p t 0 - nth q t 0 = 0). { destruct (Req_dec (nth p t 0 - nth q t 0) 0) as [Z|Z]; [exact Z|]. pose proof (Rabs_pos_lt _ Z). lra. }
    destruct (lt_eq_lt_dec p q) as [[l|l]|l]; [|exact l|].
    - pose proof (UP p q ltac:(lia)). lra.
    - pose proof (UP q p ltac:(lia)). lra. }
  assert (i' = i) by (apply Same; [exact Li|lia|exact Mi]). assert (j' = j) by (apply Same; [exact Lj|lia|exact Mj]). subst i' j'.
  rewrite segment_map, zip_map in F. rewrite zip_map in F. cbn [fst snd] in F. fold ts in F.
  fold (M 1%nat) in F. fold (M 2%nat) in F. destruct accel; [rewrite F; reflexivity|]. destruct F as [-> ->]. reflexivity.
Qed.
Lemma segment_facts : forall t i j, increasing t -> (i < j < length t)%nat -> let ts := segment i j t in
  increasing ts /\ length ts = Datatypes.S (j - i) /\ nth 0 ts 0 = nth i t 0 /\ last ts 0 = nth j t 0 /\ nth i t 0 < nth j t 0 /\
  (forall k, (i + k < j)%nat -> step ts k = step t (i + k)).
Proof.
  intros t i j HI H ts. assert (LT : length ts = Datatypes.S (j - i)) by (apply segment_length; lia).
  split; [unfold ts, segment; apply increasing_first, increasing_skip, HI|]. split; [exact LT|].
  split; [unfold ts; rewrite segment_nth by lia; rewrite Nat.add_0_r; reflexivity|].
  split; [rewrite last_nth_R, LT; unfold ts; rewrite segment_nth by lia; f_equal; lia|].
  split; [apply increasing_up; [exact HI|lia]|].
  intros k Hk. unfold step, ts. rewrite !segment_nth by lia. replace (i + Datatypes.S k)%nat with (Datatypes.S (i + k)) by lia. reflexivity.
Qed.
Lemma component_value : forall simps t x v sb se i j e, increasing t -> ends t sb se i j ->
  (forall a b c, is_int (nth i t 0) (nth j t 0) (fun u => a + b * u + c * u ^ 2) (simps (map (fun u => a + b * u + c * u ^ 2) (segment i j t)) (segment i j t) - c * e)) ->
  estimate simps t (map (fun u => x + v * u) t) sb se false =
    (let ti := nth i t 0 in let tf := nth j t 0 in let r := 12 * e / (tf - ti) ^ 3 in Ok (x - (ti + tf) / 2 * (v * r), v * (1 + r), 0, ti, tf)).
Proof.
  intros simps t x v sb se i j e HI HE HS. rewrite (estimate_ends simps t _ sb se false i j HI HE). cbv zeta.
  destruct HE as (Hij & _). assert (TT : nth i t 0 < nth j t 0) by (apply increasing_up; [exact HI|lia]). set (ts := segment i j t) in *.
  replace (map (fun u => x + v * u) ts) with (map (fun u => x + v * u + 0 * u ^ 2) ts) by (apply map_ext; intros; ring).
  replace (map (fun u => u ^ 1 * (x + v * u)) ts) with (map (fun u => 0 + x * u + v * u ^ 2) ts) by (apply map_ext; intros; ring).
  pose proof (is_int_unique _ _ _ _ _ (HS x v 0) (quad_int x v 0 _ _)) as S0. pose proof (is_int_unique _ _ _ _ _ (HS 0 x v) (quad_int 0 x v _ _)) as S1.
  set (c0 := simps (map (fun u => x + v * u + 0 * u ^ 2) ts) ts) in *. set (c1 := simps (map (fun u => 0 + x * u + v * u ^ 2) ts) ts) in *.
  set (ti := nth i t 0) in *. set (tf := nth j t 0) in *. unfold Quad in S0, S1.
  assert (V0 : c0 = x * (tf - ti) + v * (tf ^ 2 - ti ^ 2) / 2) by lra. assert (V1 : c1 = x * (tf ^ 2 - ti ^ 2) / 2 + v * (tf ^ 3 - ti ^ 3) / 3 + v * e) by lra.
  rewrite V0, V1. unfold fit2. f_equal. repeat (apply f_equal2; [|reflexivity]). f_equal; field; lra.
Qed.
Lemma three_components : forall simps horizons_in matter_in ph hor x v sb se mA mB r s ti tf, horizons_in ph = Some hor -> uniform hor x v ->
  (forall x v, estimate simps (h_t hor) (map (fun u => x + v * u) (h_t hor)) sb se false = Ok (x - s * (v * r), v * (1 + r), 0, ti, tf)) ->
  estimate_avg simps horizons_in matter_in ph None sb se mA mB =
    (let '(x1, x2, x3) := x in let '(v1, v2, v3) := v in
     Ok ((x1 - s * (v1 * r), x2 - s * (v2 * r), x3 - s * (v3 * r)), (v1 * (1 + r), v2 * (1 + r), v3 * (1 + r)), ti, tf)).
Proof.
  intros simps horizons_in matter_in ph hor x v sb se mA mB r s ti tf HH HU HE. unfold estimate_avg. cbn [rbind needs_horizons]. rewrite HH. cbn [rbind].
  destruct (com_uniform hor x v mA mB HU) as (com & E & C). rewrite E. cbn [rbind]. cbv zeta. destruct x as [[x1 x2] x3], v as [[v1 v2] v3]. destruct C as (C1 & C2 & C3).
  rewrite C1, C2, C3. do 3 (rewrite HE; cbn [rbind]). reflexivity.
Qed.

(** Two black holes whose mass-weighted mean position is x + v t, samples at both ends of the chosen interval, an even number of steps
    apart: the estimate is x and v, whatever the version of scipy and the spacing of the samples. *)
Theorem C96_uniform : forall simps horizons_in matter_in ph hor x v sb se mA mB i j, simps = simps_avg \/ simps = simps_new ->
  horizons_in ph = Some hor -> uniform hor x v -> increasing (h_t hor) -> ends (h_t hor) sb se i j -> Nat.even (j - i) = true ->
  estimate_avg simps horizons_in matter_in ph None sb se mA mB = Ok (x, v, nth i (h_t hor) 0, nth j (h_t hor) 0).
Proof.
  intros simps horizons_in matter_in ph hor x v sb se mA mB i j HS HH HU HI HE EV.
  assert (SS : simpson simps) by (destruct HS as [->| ->]; apply C96_simpson). pose proof HE as (Hij & _).
  destruct (segment_facts (h_t hor) i j HI Hij) as (IT & LT & B0 & B1 & TT & _).
  rewrite (three_components _ _ _ _ hor x v _ _ _ _ 0 ((nth i (h_t hor) 0 + nth j (h_t hor) 0) / 2) (nth i (h_t hor) 0) (nth j (h_t hor) 0) HH HU).
  - destruct x as [[x1 x2] x3], v as [[v1 v2] v3]. rewrite !Rmult_0_r, !Rminus_0_r, !Rplus_0_r, !Rmult_1_r. reflexivity.
  - intros x' v'. rewrite (component_value simps _ x' v' sb se i j 0 HI HE).
    + cbv zeta. replace (12 * 0 / (nth j (h_t hor) 0 - nth i (h_t hor) 0) ^ 3) with 0 by (unfold Rdiv; ring). reflexivity.
    + intros a b c. rewrite <- B0, <- B1. rewrite Rmult_0_r, Rminus_0_r. apply SS; [exact IT|]. rewrite LT, Nat.odd_succ. exact EV.
Qed.
(** From scipy 1.11 the number of steps does not matter if there are at least two. *)
Theorem C96_uniform_new : forall horizons_in matter_in ph hor x v sb se mA mB i j,
  horizons_in ph = Some hor -> uniform hor x v -> increasing (h_t hor) -> ends (h_t hor) sb se i j -> (1 < j - i)%nat ->
  estimate_avg simps_new horizons_in matter_in ph None sb se mA mB = Ok (x, v, nth i (h_t hor) 0, nth j (h_t hor) 0).
Proof.
  intros horizons_in matter_in ph hor x v sb se mA mB i j HH HU HI HE LE. pose proof HE as (Hij & _).
  destruct (segment_facts (h_t hor) i j HI Hij) as (IT & LT & B0 & B1 & TT & _).
  destruct (Nat.odd (length (segment i j (h_t hor)))) eqn:OD.
  - apply (C96_uniform simps_new); try assumption; [right; reflexivity|]. rewrite LT, Nat.odd_succ in OD. exact OD.
  - rewrite (three_components _ _ _ _ hor x v _ _ _ _ 0 ((nth i (h_t hor) 0 + nth j (h_t hor) 0) / 2) (nth i (h_t hor) 0) (nth j (h_t hor) 0) HH HU).
    + destruct x as [[x1 x2] x3], v as [[v1 v2] v3]. rewrite !Rmult_0_r, !Rminus_0_r, !Rplus_0_r, !Rmult_1_r. reflexivity.
    + intros x' v'. rewrite (component_value simps_new _ x' v' sb se i j 0 HI HE).
      * cbv zeta. replace (12 * 0 / (nth j (h_t hor) 0 - nth i (h_t hor) 0) ^ 3) with 0 by (unfold Rdiv; ring). reflexivity.
      * intros a b c. rewrite <- B0, <- B1. rewrite Rmult_0_r, Rminus_0_r. apply C96_even_new; [exact IT|lia|exact OD].
Qed.
(** Up to scipy 1.10, an odd number of steps apart, every velocity is reported too large, by the cubes of the first and the last step over the
    cube of the interval, and the position is off accordingly. *)
Theorem C96_uniform_refuted : forall horizons_in matter_in ph hor x1 x2 x3 v1 v2 v3 sb se mA mB i j,
  horizons_in ph = Some hor -> uniform hor (x1, x2, x3) (v1, v2, v3) -> increasing (h_t hor) -> ends (h_t hor) sb se i j -> Nat.even (j - i) = false ->
  let t := h_t hor in let ti := nth i t 0 in let tf := nth j t 0 in let r := (step t i ^ 3 + step t (j - 1) ^ 3) / (tf - ti) ^ 3 in let s := (ti + tf) / 2 in
  estimate_avg simps_avg horizons_in matter_in ph None sb se mA mB =
    Ok ((x1 - s * (v1 * r), x2 - s * (v2 * r), x3 - s * (v3 * r)), (v1 * (1 + r), v2 * (1 + r), v3 * (1 + r)), ti, tf) /\ 0 < r <= 2.
Proof.
  intros horizons_in matter_in ph hor x1 x2 x3 v1 v2 v3 sb se mA mB i j HH HU HI HE EV t ti tf r s. pose proof HE as (Hij & _).
  destruct (segment_facts (h_t hor) i j HI Hij) as (IT & LT & B0 & B1 & TT & ST). fold t in IT, LT, B0, B1, TT, ST. split.
  - rewrite (three_components simps_avg _ _ _ hor (x1, x2, x3) (v1, v2, v3) _ _ _ _ r s ti tf HH HU); [reflexivity|].
    intros x' v'. rewrite (component_value simps_avg _ x' v' sb se i j ((step t i ^ 3 + step t (j - 1) ^ 3) / 12) HI HE).
    + cbv zeta. fold t ti tf s. replace (12 * ((step t i ^ 3 + step t (j - 1) ^ 3) / 12) / (tf - ti) ^ 3) with r; [reflexivity|].
      unfold r. fold ti tf in TT. field. lra.
    + intros a b c. fold t. rewrite <- B0, <- B1.
      replace (c * ((step t i ^ 3 + step t (j - 1) ^ 3) / 12)) with (c * (step (segment i j t) 0 ^ 3 + step (segment i j t) (length (segment i j t) - 2) ^ 3) / 12).
      * apply C96_even_average; [exact IT|lia|]. rewrite LT, Nat.odd_succ. exact EV.
      * rewrite LT, !ST by lia. rewrite Nat.add_0_r. replace (i + (Datatypes.S (j - i) - 2))%nat with (j - 1)%nat by lia. field.
  - pose proof (increasing_up t HI) as UP.
    assert (B : forall k, (i <= k < j)%nat -> 0 < step t k <= tf - ti).
    { intros k Hk. unfold step, ti, tf. pose proof (UP k (Datatypes.S k) ltac:(fold t in Hij; lia)).
      assert (nth i t 0 <= nth k t 0) by (destruct (Nat.eq_dec i k) as [->|]; [lra|left; apply UP; fold t in Hij; lia]).
      assert (nth (Datatypes.S k) t 0 <= nth j t 0) by (destruct (Nat.eq_dec (Datatypes.S k) j) as [->|]; [lra|left; apply UP; fold t in Hij; lia]). lra. }
    pose proof (B i ltac:(lia)) as [P1 Q1]. pose proof (B (j - 1)%nat ltac:(lia)) as [P2 Q2].
    assert (D : 0 < (tf - ti) ^ 3) by (apply pow_lt; fold ti tf in TT; lra).
    pose proof (pow_lt _ 3 P1). pose proof (pow_lt _ 3 P2). pose proof (pow_incr _ _ 3 (conj (Rlt_le _ _ P1) Q1)). pose proof (pow_incr _ _ 3 (conj (Rlt_le _ _ P2) Q2)).
    unfold r. split; [apply Rdiv_lt_0_compat; lra|]. apply Rmult_le_reg_r with ((tf - ti) ^ 3); [exact D|]. unfold Rdiv. rewrite Rmult_assoc, Rinv_l by lra. lra.
Qed.

(** A centre of mass at the origin is reported at rest at the origin, without conditions on the samples. *)
Theorem C96_centred : forall simps horizons_in matter_in ph hor sb se mA mB, simps = simps_avg \/ simps = simps_new -> horizons_in ph = Some hor ->
  uniform hor (0, 0, 0) (0, 0, 0) -> h_t hor <> [] -> exists ti tf, estimate_avg simps horizons_in matter_in ph None sb se mA mB = Ok ((0, 0, 0), (0, 0, 0), ti, tf).
Proof. intros simps horizons_in matter_in ph hor sb se mA mB HS HH HU HN. apply (estimate_centred simps _ _ _ hor); try assumption. destruct HS as [->| ->]; apply C96_zero. Qed.

(** ** With acceleration *)
Lemma even_steps : forall t i h n, (forall k, (i <= k < i + n)%nat -> step t k = h) -> nth (i + n) t 0 = nth i t 0 + INR n * h.
Proof.
  intros t i h. induction n as [|n IH]; intros H; [rewrite Nat.add_0_r; change (INR 0) with 0; ring|].
  rewrite S_INR. pose proof (H (i + n)%nat ltac:(lia)) as E. unfold step in E. rewrite Nat.add_succ_r.
  assert (nth (i + n) t 0 = nth i t 0 + INR n * h) by (apply IH; intros; apply H; lia). lra.
Qed.
(** Uniformly accelerated motion, 2n equal steps: the acceleration is reported too large by 3 a / (2 n^4), and position and velocity are off
    accordingly; uniform motion is recovered. *)
Theorem C96_acceleration : forall simps t x v a sb se i n h, simps = simps_avg \/ simps = simps_new ->
  increasing t -> ends t sb se i (i + 2 * n) -> (forall k, (i <= k < i + 2 * n)%nat -> step t k = h) ->
  let ti := nth i t 0 in let tf := nth (i + 2 * n) t 0 in let d := 3 * a / (2 * INR n ^ 4) in
  estimate simps t (map (fun u => x + v * u + a * u ^ 2 / 2) t) sb se true =
    Ok (x + (tf ^ 2 + 4 * tf * ti + ti ^ 2) / 12 * d, v - (tf + ti) / 2 * d, a + d, ti, tf).
Proof.
  intros simps t x v a sb se i n h HS HI HE ST ti tf d. pose proof HE as (Hij & _). assert (N : (0 < n)%nat) by lia.
  destruct (segment_facts t i (i + 2 * n) HI Hij) as (IT & LT & B0 & B1 & TT & SS). fold ti tf in TT.
  rewrite (estimate_ends simps t _ sb se true i (i + 2 * n) HI HE). cbv zeta. set (ts := segment i (i + 2 * n) t) in *. fold ti tf.
  assert (OD : Nat.odd (length ts) = true). { rewrite LT, Nat.odd_succ. apply Nat.even_spec. exists n. lia. }
  assert (SB : forall f : R -> R, simps (map f ts) ts = basic (map f ts) ts) by (intros f; destruct HS as [->| ->]; [unfold simps_avg|unfold simps_new]; rewrite map_length, OD; reflexivity).
  rewrite !SB. assert (L : (length ts = 2 * n + 1)%nat) by lia.
  assert (N0 : INR n <> 0) by (apply not_0_INR; lia).
  assert (TF : tf = ti + 2 * INR n * h). { unfold tf, ti. rewrite (even_steps t i h (2 * n) ST), mult_INR. simpl (INR 2). ring. }
  assert (HP : 0 < h). { pose proof (ST i ltac:(lia)) as E. unfold step in E. pose proof (increasing_up t HI i (Datatypes.S i) ltac:(lia)). lra. }
  assert (PS : forall k, (k < 2 * n)%nat -> nth (k + 1) ts 0 = nth k ts 0 + h).
  { intros k Hk. pose proof (SS k ltac:(lia)) as E. rewrite (ST (i + k)%nat) in E by lia. unfold step in E. rewrite Nat.add_1_r. lra. }
  assert (BS : forall f F e, (forall s, panel (f s) (f (s + h)) (f (s + h + h)) h h = F (s + h + h) - F s + e) -> basic (map f ts) ts = F tf - F ti + INR n * e).
  { intros f F e P. rewrite (basic_sum f F e n ts (or_introl L)).
    - rewrite B0. rewrite last_nth_R, L in B1. replace (2 * n + 1 - 1)%nat with (2 * n)%nat in B1 by lia. rewrite B1. reflexivity.
    - intros k Hk. rewrite (SS (2 * k)%nat), (SS (2 * k + 1)%nat), !ST by lia. replace (2 * k + 2)%nat with (2 * k + 1 + 1)%nat by lia. rewrite !PS by lia. apply P. }
  rewrite (BS _ (fun s => x * s + v * s ^ 2 / 2 + a * s ^ 3 / 6) 0) by (intros s; unfold panel; cbv zeta; field; lra).
  rewrite (BS _ (fun s => x * s ^ 2 / 2 + v * s ^ 3 / 3 + a * s ^ 4 / 8) 0) by (intros s; unfold panel; cbv zeta; field; lra).
  rewrite (BS _ (fun s => x * s ^ 3 / 3 + v * s ^ 4 / 4 + a * s ^ 5 / 10) (2 * a * h ^ 5 / 15)) by (intros s; unfold panel; cbv zeta; field; lra).
  unfold fit3, d. rewrite TF. f_equal. repeat (apply f_equal2; [|reflexivity]). f_equal; [f_equal|]; field; split; lra.
Qed.
Theorem C96_acceleration_refuted : exists t x v a sb se, increasing t /\ ends t sb se 0 2 /\ (forall k, (k < 2)%nat -> step t k = 1) /\
  estimate simps_avg t (map (fun u => x + v * u + a * u ^ 2 / 2) t) sb se true = Ok (1 / 2, - 3 / 2, 5 / 2, 0, 2) /\ (x, v, a) = (0, 0, 1).
Proof.
  exists [0; 1; 2], 0, 0, 1, 0, 0.
  assert (I : increasing [0; 1; 2]) by (repeat constructor; lra).
  assert (E : ends [0; 1; 2] 0 0 0 2) by (unfold ends; cbn; split; [lia|split; lra]).
  assert (S1 : forall k, (k < 2)%nat -> step [0; 1; 2] k = 1) by (intros [|[|k]] H; unfold step; cbn; (lra || lia)).
  split; [exact I|]. split; [exact E|]. split; [exact S1|]. split; [|reflexivity].
  rewrite (C96_acceleration simps_avg [0; 1; 2] 0 0 1 0 0 0 1 1 (or_introl eq_refl) I E); [|intros k Hk; apply S1; lia].
  cbn [nth Nat.add Nat.mul]. simpl (INR 1). f_equal. repeat (apply f_equal2; [|reflexivity]). f_equal; [f_equal|]; field.
Qed.

(** ** Case *)
(** Two equal black holes that move along x with velocity 1, four samples: with scipy up to 1.10 the velocity is reported as 29/27. *)
Definition four : horizons := mkhor [0; 1; 2; 3] [1; 1; 1; 1] [[0; 1; 0]; [1; 1; 0]; [2; 1; 0]; [3; 1; 0]] [1; 1; 1; 1] [[0; -1; 0]; [1; -1; 0]; [2; -1; 0]; [3; -1; 0]].
Example C96_case : uniform four (0, 0, 0) (1, 0, 0) /\ increasing (h_t four) /\ ends (h_t four) 0 0 0 3 /\ ends (h_t four) 0 (1 / 3) 0 2 /\
  (forall m, estimate_avg simps_avg (fun _ => Some four) m "Horizons.h5" None 0 0 None None = Ok ((- (1 / 9), 0, 0), (29 / 27, 0, 0), 0, 3)) /\
  (forall m, estimate_avg simps_new (fun _ => Some four) m "Horizons.h5" None 0 0 None None = Ok ((0, 0, 0), (1, 0, 0), 0, 3)) /\
  (forall m, estimate_avg simps_avg (fun _ => Some four) m "Horizons.h5" None 0 (1 / 3) None None = Ok ((0, 0, 0), (1, 0, 0), 0, 2)).
Proof.
  assert (U : uniform four (0, 0, 0) (1, 0, 0)).
  { unfold uniform, four. cbn [h_t h_mA h_mB h_xA h_xB length]. repeat (split; [reflexivity|]).
    intros [|[|[|[|k]]]] Hk; try lia; cbn [nth]; do 6 eexists; (split; [reflexivity|]); (split; [reflexivity|]); cbv zeta; repeat split; lra. }
  assert (I : increasing (h_t four)) by (cbn [four h_t]; repeat constructor; lra).
  assert (E3 : ends (h_t four) 0 0 0 3) by (unfold ends; cbn; split; [lia|split; lra]).
  assert (E2 : ends (h_t four) 0 (1 / 3) 0 2) by (unfold ends; cbn; split; [lia|split; lra]).
  split; [exact U|]. split; [exact I|]. split; [exact E3|]. split; [exact E2|]. split; [|split]; intros m.
  - destruct (C96_uniform_refuted (fun _ => Some four) m "Horizons.h5" four 0 0 0 1 0 0 0 0 None None 0 3 eq_refl U I E3 eq_refl) as [-> _].
    unfold step. cbn [four h_t nth Nat.sub]. f_equal. repeat (apply f_equal2; [|reflexivity]). repeat apply f_equal2; field.
  - rewrite (C96_uniform_new (fun _ => Some four) m "Horizons.h5" four (0, 0, 0) (1, 0, 0) 0 0 None None 0 3 eq_refl U I E3); [reflexivity|lia].
  - rewrite (C96_uniform simps_avg (fun _ => Some four) m "Horizons.h5" four (0, 0, 0) (1, 0, 0) 0 (1 / 3) None None 0 2 (or_introl eq_refl) eq_refl U I E2 eq_refl). reflexivity.
Qed.

(** ** Combinations of trajectories *)
(** p times one sequence plus q times another *)
Definition mix (p q : R) (l1 l2 : list R) : list R := map (fun z => p * fst z + q * snd z) (combine l1 l2).
Lemma mix_nth : forall p q l1 l2 k, length l1 = length l2 -> nth k (mix p q l1 l2) 0 = p * nth k l1 0 + q * nth k l2 0.
Proof.
  unfold mix. intros p q. induction l1 as [|a l1 IH]; intros [|b l2] k L; cbn [length] in L; try lia; destruct k as [|k]; cbn [combine map nth fst snd]; try ring.
  apply IH. lia.
Qed.
Lemma mix_length : forall p q l1 l2, length l1 = length l2 -> length (mix p q l1 l2) = length l1.
Proof. intros p q l1 l2 L. unfold mix. rewrite map_length, combine_length, L. apply Nat.min_id. Qed.
Lemma mix_tl : forall p q l1 l2, length l1 = length l2 -> tl (mix p q l1 l2) = mix p q (tl l1) (tl l2).
Proof. intros p q [|a l1] [|b l2] L; cbn [length] in L; try lia; reflexivity. Qed.
Lemma mix_firstn : forall p q k l1 l2, length l1 = length l2 -> firstn k (mix p q l1 l2) = mix p q (firstn k l1) (firstn k l2).
Proof. unfold mix. intros p q. induction k as [|k IH]; intros [|a l1] [|b l2] L; cbn [length] in L; try lia; cbn [firstn combine map]; [reflexivity..|]. rewrite IH by lia. reflexivity. Qed.
Lemma mix_skipn : forall p q k l1 l2, length l1 = length l2 -> skipn k (mix p q l1 l2) = mix p q (skipn k l1) (skipn k l2).
Proof. unfold mix. intros p q. induction k as [|k IH]; intros [|a l1] [|b l2] L; cbn [length] in L; try lia; cbn [skipn combine map]; [reflexivity..|]. apply IH. lia. Qed.
Lemma mix_segment : forall p q i j l1 l2, length l1 = length l2 -> segment i j (mix p q l1 l2) = mix p q (segment i j l1) (segment i j l2).
Proof. intros p q i j l1 l2 L. unfold segment. rewrite mix_skipn by exact L. apply mix_firstn. rewrite !skipn_length, L. reflexivity. Qed.
Lemma mix_moment : forall p q k t l1 l2, length l1 = length l2 ->
  map (fun z => fst z ^ k * snd z) (combine t (mix p q l1 l2)) = mix p q (map (fun z => fst z ^ k * snd z) (combine t l1)) (map (fun z => fst z ^ k * snd z) (combine t l2)).
Proof.
  unfold mix. intros p q k. induction t as [|u t IH]; intros [|a l1] [|b l2] L; cbn [length] in L; try lia; [reflexivity..|].
  cbn [combine map fst snd]. rewrite IH by lia. f_equal. ring.
Qed.
Lemma basic_mix : forall p q n l1 l2 ts, (length l1 <= n)%nat -> length l1 = length l2 -> basic (mix p q l1 l2) ts = p * basic l1 ts + q * basic l2 ts.
Proof.
  intros p q. induction n as [|n IH]; intros [|a1 [|b1 [|c1 l1]]] [|a2 [|b2 [|c2 l2]]] ts L E; cbn [length] in L, E; try lia; try (cbn; ring).
  destruct ts as [|t0 [|t1 [|t2 ts]]]; try (cbn; ring).
  change (panel (p * a1 + q * a2) (p * b1 + q * b2) (p * c1 + q * c2) (t1 - t0) (t2 - t1) + basic (mix p q (c1 :: l1) (c2 :: l2)) (t2 :: ts) =
    p * (panel a1 b1 c1 (t1 - t0) (t2 - t1) + basic (c1 :: l1) (t2 :: ts)) + q * (panel a2 b2 c2 (t1 - t0) (t2 - t1) + basic (c2 :: l2) (t2 :: ts))).
  rewrite IH by (cbn [length]; lia). unfold panel. cbv zeta. ring.
Qed.
Lemma simps_mix : forall simps p q l1 l2 ts, simps = simps_avg \/ simps = simps_new -> length l1 = length l2 ->
  simps (mix p q l1 l2) ts = p * simps l1 ts + q * simps l2 ts.
Proof.
  intros simps p q l1 l2 ts HS L. assert (LT : length (tl l1) = length (tl l2)) by (destruct l1, l2; cbn in *; lia).
  destruct HS as [->| ->]; [unfold simps_avg|unfold simps_new]; cbv zeta; rewrite mix_length, <- L by exact L; destruct (Nat.odd (length l1));
    rewrite ?(mix_tl p q l1 l2 L), ?(basic_mix p q (length l1) l1 l2 ts (le_n _) L); try reflexivity.
  - rewrite (basic_mix p q (length (tl l1)) (tl l1) (tl l2) _ (le_n _) LT). unfold trapezoid. rewrite !mix_nth by exact L. lra.
  - destruct (Nat.leb (length l1) 2); unfold trapezoid; rewrite !mix_nth by exact L; ring.
Qed.
Lemma ok5 : forall x x' v v' a a' s e : R, x = x' -> v = v' -> a = a' -> (Ok (x, v, a, s, e) : res (R * R * R * R * R)) = Ok (x', v', a', s, e).
Proof. intros. subst. reflexivity. Qed.
(** The fit of a combination of two trajectories is the combination of the fits, so that turning or rescaling the axes of the
    coordinates turns or rescales the reported position, velocity and acceleration. *)
Theorem C96_linear : forall simps t c1 c2 p q sb se accel x1 v1 a1 ti tf x2 v2 a2 ti' tf', simps = simps_avg \/ simps = simps_new -> length c1 = length c2 ->
  estimate simps t c1 sb se accel = Ok (x1, v1, a1, ti, tf) -> estimate simps t c2 sb se accel = Ok (x2, v2, a2, ti', tf') ->
  estimate simps t (map (fun z => p * fst z + q * snd z) (combine c1 c2)) sb se accel = Ok (p * x1 + q * x2, p * v1 + q * v2, p * a1 + q * a2, ti, tf).
Proof.
  intros simps t c1 c2 p q sb se accel x1 v1 a1 ti tf x2 v2 a2 ti' tf' HS L H1 H2. fold (mix p q c1 c2). unfold estimate in *.
  destruct t as [|t0 t]; [discriminate|]. set (ts := t0 :: t) in *. cbv zeta in *.
  destruct (argmin (map (fun s => Rabs (s - (t0 + (last ts t0 - t0) * sb))) ts)) as [i|]; [|discriminate]. cbn [rbind] in *.
  destruct (argmin (map (fun s => Rabs (s - (last ts t0 - (last ts t0 - t0) * se))) ts)) as [j|]; [|discriminate]. cbn [rbind] in *.
  assert (SM : forall l1 l2, length l1 = length l2 -> simps (segment i j (mix p q l1 l2)) (segment i j ts) = p * simps (segment i j l1) (segment i j ts) + q * simps (segment i j l2) (segment i j ts)).
  { intros l1 l2 E. rewrite mix_segment by exact E. apply simps_mix; [exact HS|]. unfold segment. rewrite !firstn_length, !skipn_length, E. reflexivity. }
  assert (ML : forall k, length (map (fun z => fst z ^ k * snd z) (combine ts c1)) = length (map (fun z => fst z ^ k * snd z) (combine ts c2))).
  { intros k. rewrite !map_length, !combine_length, L. reflexivity. }
  rewrite !mix_moment, !SM by (exact L || apply ML).
  revert H1 H2. clear. generalize (t0 + (last ts t0 - t0) * sb) (last ts t0 - (last ts t0 - t0) * se). intros u w.
  generalize (simps (segment i j c1) (segment i j ts)) (simps (segment i j c2) (segment i j ts)).
  generalize (simps (segment i j (map (fun z => fst z ^ 1 * snd z) (combine ts c1))) (segment i j ts)) (simps (segment i j (map (fun z => fst z ^ 1 * snd z) (combine ts c2))) (segment i j ts)).
  generalize (simps (segment i j (map (fun z => fst z ^ 2 * snd z) (combine ts c1))) (segment i j ts)) (simps (segment i j (map (fun z => fst z ^ 2 * snd z) (combine ts c2))) (segment i j ts)).
  intros e1 e2 d1 d2 b1 b2. unfold fit2, fit3, Rdiv. generalize (/ (w - u) ^ 5) (/ (w - u) ^ 4) (/ (w - u) ^ 3). intros f5 f4 f3 H1 H2.
  destruct accel; injection H1 as <- <- <- <- <-; injection H2 as <- <- <- _ _; apply ok5; ring.
Qed.
(** Straight lines, three samples: twice one plus three times the other *)
Example C96_case_linear : forall x v y w, let line x v := map (fun u => x + v * u + 0 * u ^ 2 / 2) [0; 1; 2] in
  estimate simps_avg [0; 1; 2] (line x v) 0 0 true = Ok (x, v, 0, 0, 2) /\
  estimate simps_avg [0; 1; 2] (map (fun z => 2 * fst z + 3 * snd z) (combine (line x v) (line y w))) 0 0 true = Ok (2 * x + 3 * y, 2 * v + 3 * w, 2 * 0 + 3 * 0, 0, 2).
Proof.
  intros x v y w line. assert (I : increasing [0; 1; 2]) by (repeat constructor; lra).
  assert (E : ends [0; 1; 2] 0 0 0 2) by (unfold ends; cbn; split; [lia|split; lra]).
  assert (H : forall x v, estimate simps_avg [0; 1; 2] (line x v) 0 0 true = Ok (x, v, 0, 0, 2)).
  { intros x' v'. unfold line. rewrite (C96_acceleration simps_avg [0; 1; 2] x' v' 0 0 0 0 1 1 (or_introl eq_refl) I E); [|intros [|[|k]] Hk; unfold step; cbn; (lra || lia)].
    cbn [nth Nat.add Nat.mul]. simpl (INR 1). apply ok5; field. }
  split; [apply H|]. eapply C96_linear; [left; reflexivity|reflexivity|apply H|apply H].
Qed.
