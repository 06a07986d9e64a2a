(** C95: the properties of splines that other theorems assume of [CubicSpline] hold of the spline of [Spline_Model]. *)
From Coq Require Import Reals ZArith List Bool Lia Lra.
From Verif Require Import Common Cplx Times_Model Times_Proofs Validity_Proofs ABD_Proofs Constraints_Model Spline_Model Spline_Proofs.
From Verif Require Abdpipe_Model ABD_Model Product_Proofs Bianchi_Proofs Transform_Proofs Pipeline_Proofs Linear_Proofs Rest_Proofs Fake_Proofs Abdpipe_Proofs Bianchimodes_Proofs Constraints_Proofs Charges_Proofs.
Import ListNotations.
Open Scope R_scope.

(** The derivative of order [n] *)
Definition nth_derivative (n : nat) (xs : list R) (ys : list C) (v : R) : C := spline (Z.of_nat n) xs ys v.
(** The spline as a function or an exception *)
Definition spline_or_error (xs : list R) (ys : list C) : res (R -> C) :=
  if (length xs <? 2)%nat || negb (increasingb xs) || negb (length ys =? length xs)%nat then Err ValueError else Ok (spline 0 xs ys).
(** The same for real values *)
Definition real_or_error (xs ys : list R) : res (R -> R) :=
  if (length xs <? 2)%nat || negb (increasingb xs) || negb (length ys =? length xs)%nat then Err ValueError else Ok (spline_real 0 xs ys).

(** The inductive and the pointwise form of increasing times *)
Lemma inc_pointwise : forall l, Transform_Proofs.increasing l -> increasing l.
Proof.
  induction 1 as [|a|a b r Hab H IH]; intros i j u w Hij Hu Hw.
  - destruct i; discriminate.
  - destruct j as [|[|j]]; cbn in Hw; (lia || discriminate).
  - destruct i as [|i], j as [|j]; try lia; cbn [nth_error] in Hu, Hw.
    + injection Hu as <-. destruct j as [|j]; [cbn in Hw; now injection Hw as <-|]. assert (b < w) by (apply (IH 0%nat (S j)); (lia || easy)). lra.
    + apply (IH i j); (lia || easy).
Qed.
Lemma ok_spline : forall xs ys, increasing xs -> (2 <= length xs)%nat -> length ys = length xs -> spline_or_error xs ys = Ok (spline 0 xs ys).
Proof. intros xs ys Hi H2 Hl. unfold spline_or_error. destruct (Nat.ltb_spec (length xs) 2); [lia|]. rewrite Hl, Nat.eqb_refl. now rewrite inc_true. Qed.
Lemma ok_real : forall xs ys, increasing xs -> (2 <= length xs)%nat -> length ys = length xs -> real_or_error xs ys = Ok (spline_real 0 xs ys).
Proof. intros xs ys Hi H2 Hl. unfold real_or_error. destruct (Nat.ltb_spec (length xs) 2); [lia|]. rewrite Hl, Nat.eqb_refl. now rewrite inc_true. Qed.
Lemma real_inv : forall xs ys f, real_or_error xs ys = Ok f -> increasing xs /\ (2 <= length xs)%nat /\ length ys = length xs /\ f = spline_real 0 xs ys.
Proof.
  intros xs ys f H. unfold real_or_error in H. destruct (Nat.ltb_spec (length xs) 2); [discriminate|]. destruct (increasingb xs) eqn:E; [|discriminate].
  destruct (Nat.eqb_spec (length ys) (length xs)); [|discriminate]. cbn in H. injection H as <-. repeat split; try easy. apply inc_pointwise. now apply Constraints_Proofs.increasingb_iff.
Qed.
Lemma nth_part : forall (h : C -> R) l i, h C0 = 0 -> nth i (map h l) 0 = h (nth i l C0).
Proof. intros h l i H. rewrite <- H. apply map_nth. Qed.
Theorem C95_passes : Abdpipe_Proofs.passes spline_or_error.
Proof.
  intros xs ys Hi%inc_pointwise H2 Hl. exists (spline 0 xs ys). split; [apply ok_spline; assumption|]. intros i H. unfold spline. rewrite !order_through by (assumption || lia).
  rewrite !nth_part by easy. now destruct (nth i ys C0).
Qed.
Lemma cubic_parts : forall c0 c1 c2 c3 xs,
  map re (map (Bianchimodes_Proofs.cubic c0 c1 c2 c3) xs) = map (fun v => re c0 + re c1 * v + re c2 * v ^ 2 + re c3 * v ^ 3) xs /\
  map im (map (Bianchimodes_Proofs.cubic c0 c1 c2 c3) xs) = map (fun v => im c0 + im c1 * v + im c2 * v ^ 2 + im c3 * v ^ 3) xs.
Proof. intros. rewrite !map_map. split; apply map_ext; intros v; unfold Bianchimodes_Proofs.cubic; cbn; ring. Qed.
Lemma cubic_values : forall xs c0 c1 c2 c3, increasing xs -> (4 <= length xs)%nat -> let ys := map (Bianchimodes_Proofs.cubic c0 c1 c2 c3) xs in forall v,
  spline 0 xs ys v = Bianchimodes_Proofs.cubic c0 c1 c2 c3 v /\
  spline 1 xs ys v = (c1 + Cscale (2 * v) c2 + Cscale (3 * v * v) c3)%C /\ spline 2 xs ys v = (Cscale 2 c2 + Cscale (6 * v) c3)%C.
Proof.
  intros xs c0 c1 c2 c3 Hi H4 ys v. unfold spline, ys. destruct (cubic_parts c0 c1 c2 c3 xs) as [-> ->].
  destruct (C95_cubic xs (re c0) (re c1) (re c2) (re c3) Hi H4 v) as (A & B & D & _). destruct (C95_cubic xs (im c0) (im c1) (im c2) (im c3) Hi H4 v) as (A' & B' & D' & _).
  cbv zeta in *. rewrite A, A', B, B', D, D'. repeat split; apply C_eq; unfold Bianchimodes_Proofs.cubic; cbn; ring.
Qed.
Theorem C95_cubics : Bianchimodes_Proofs.cubics spline_or_error.
Proof.
  intros xs c0 c1 c2 c3 Hi%inc_pointwise H4. eexists. split; [apply ok_spline; (assumption || lia || apply map_length)|]. intros v. now apply cubic_values.
Qed.
Theorem C95_derives : Constraints_Proofs.derives nth_derivative.
Proof.
  intros xs c0 c1 c2 c3 Hi%inc_pointwise H4 v. unfold nth_derivative. cbn [Z.of_nat Pos.of_succ_nat Pos.succ]. set (ys := map (Bianchimodes_Proofs.cubic c0 c1 c2 c3) xs).
  assert (V := cubic_values xs c0 c1 c2 c3 Hi H4). cbv zeta in V. fold ys in V. split; [apply V|].
  assert (H2 : (2 <= length xs)%nat) by lia.
  split.
  - split; (eapply deriv_local; [exact Rlt_0_1| |apply (order_deriv xs _ Hi H2 0); lia]).
    + intros w _. cbv beta. rewrite <- (proj1 (V w)). reflexivity.
    + intros w _. cbv beta. rewrite <- (proj1 (V w)). reflexivity.
  - split; apply (order_deriv xs _ Hi H2 1); lia.
Qed.

(** ** Linearity and shifts *)
Section Linear.
Variables x y y1 y2 : nat -> R.
Variables a b : R.
Variable m : nat.
Hypothesis inc : forall i, (i < m)%nat -> x i < x (S i).
Hypothesis H1 : (1 <= m)%nat.
Hypothesis Hy : forall i, y i = a * y1 i + b * y2 i.
Lemma sl_lin : forall i, sl x y i = a * sl x y1 i + b * sl x y2 i.
Proof. intros. unfold sl, Rdiv. rewrite !Hy. ring. Qed.
Lemma slope_lin : forall i, (i <= m)%nat -> slope x y m i = a * slope x y1 m i + b * slope x y2 m i.
Proof.
  intros i Hi. destruct (le_lt_dec 3 m) as [H3|H3].
  - assert (HR : rows x y m (fun i => a * slope x y1 m i + b * slope x y2 m i)).
    { assert (L : forall i, rhs x y m i = a * rhs x y1 m i + b * rhs x y2 m i).
      { intros k. unfold rhs. rewrite !sl_lin. destruct (k =? 0)%nat; [|destruct (k =? m)%nat]; cbv zeta; unfold Rdiv; ring. }
      destruct (rows_slope x y1 m inc H3) as (A & B & D). destruct (rows_slope x y2 m inc H3) as (A' & B' & D'). repeat split.
      - rewrite L, <- A, <- A'. ring.
      - intros k Hk. rewrite L, <- B, <- B' by easy. ring.
      - rewrite L, <- D, <- D'. ring. }
    rewrite (slope_back x y m) by assumption. rewrite <- (rows_unique x y m inc H3 _ HR) by lia. cbv beta. now replace (m - (m - i))%nat with i by lia.
  - unfold slope. destruct m as [|[|[|k]]]; try lia; rewrite !sl_lin; [easy|]. cbv zeta. destruct i as [|[|i]]; unfold Rdiv; ring.
Qed.
Lemma hermite_lin : forall i u, (i < m)%nat -> peval (hermite x y (slope x y m) i) u = a * peval (hermite x y1 (slope x y1 m) i) u + b * peval (hermite x y2 (slope x y2 m) i) u.
Proof. intros i u Hi. unfold hermite. rewrite !slope_lin, sl_lin, Hy by lia. cbn [peval]. unfold Rdiv. ring. Qed.
Lemma pderiv_lin : forall n p q r, (forall u, peval p u = a * peval q u + b * peval r u) ->
  forall u, peval (Nat.iter n pderiv p) u = a * peval (Nat.iter n pderiv q) u + b * peval (Nat.iter n pderiv r) u.
Proof.
  induction n as [|n IH]; intros p q r H u; [apply H|]. cbn [Nat.iter nat_rect]. specialize (IH p q r H). unfold Nat.iter in IH.
  eapply uniqueness_limite; [apply peval_deriv|].
  eapply deriv_local with (d := 1); [lra|intros w _; apply IH|].
  apply (derivable_pt_lim_plus (mult_real_fct a _) (mult_real_fct b _)); apply derivable_pt_lim_scal; apply peval_deriv.
Qed.
End Linear.
Lemma iter_pp : forall n c i, Nat.iter n ppderiv c i = Nat.iter n pderiv (c i).
Proof. induction n; intros; cbn [Nat.iter nat_rect]; [easy|]. unfold ppderiv at 1. unfold Nat.iter in IHn. now rewrite IHn. Qed.
Lemma spline_lin : forall n xs ys ys1 ys2 a b v, increasing xs -> (2 <= length xs)%nat -> (forall i, nth i ys 0 = a * nth i ys1 0 + b * nth i ys2 0) ->
  spline_real (Z.of_nat n) xs ys v = a * spline_real (Z.of_nat n) xs ys1 v + b * spline_real (Z.of_nat n) xs ys2 v.
Proof.
  intros n xs ys ys1 ys2 a b v Hi H2 H. unfold spline_real, order_of. destruct (Z.ltb_spec (Z.of_nat n) 0); [lia|]. rewrite Nat2Z.id.
  unfold ppval. set (x := fun i => nth i xs 0). set (m := (length xs - 1)%nat). assert (L := piece_le x (m - 1) v). set (i := piece x (m - 1) v) in *.
  rewrite !iter_pp. apply pderiv_lin. intros u. apply hermite_lin; try (unfold m in *; lia); [|exact H]. apply inc_list; assumption.
Qed.
Section Shift.
Variables x x' y : nat -> R.
Variable a : R.
Variable m : nat.
Hypothesis inc : forall i, (i < m)%nat -> x i < x (S i).
Hypothesis H1 : (1 <= m)%nat.
Hypothesis Hx : forall i, (i <= m)%nat -> x' i = x i - a.
Lemma dx_shift : forall i, (i < m)%nat -> dx x' i = dx x i.
Proof. intros. unfold dx. rewrite !Hx by lia. ring. Qed.
Lemma sl_shift : forall i, (i < m)%nat -> sl x' y i = sl x y i.
Proof. intros. unfold sl. now rewrite dx_shift. Qed.
Lemma inc_shift : forall i, (i < m)%nat -> x' i < x' (S i).
Proof. intros i H. rewrite !Hx by lia. specialize (inc i H). lra. Qed.
Lemma slope_shift : forall i, (i <= m)%nat -> slope x' y m i = slope x y m i.
Proof.
  intros i Hi. destruct (le_lt_dec 3 m) as [H3|H3].
  - assert (HR : rows x' y m (slope x y m)).
    { destruct (rows_slope x y m inc H3) as (A & B & D). unfold rows, rhs, lower, diag, upper in *. cbv zeta in *. repeat split.
      - cbn [Nat.eqb] in *. rewrite !dx_shift, !sl_shift, !Hx by lia. replace (x 2%nat - a - (x 0%nat - a)) with (x 2%nat - x 0%nat) by ring. exact A.
      - intros k Hk. specialize (B k Hk). destruct (Nat.eqb_spec k 0); [lia|]. destruct (Nat.eqb_spec k m); [lia|]. rewrite !dx_shift, !sl_shift by lia. exact B.
      - destruct (Nat.eqb_spec m 0); [lia|]. rewrite Nat.eqb_refl in *. rewrite !dx_shift, !sl_shift, !Hx by lia. replace (x m - a - (x (m - 2)%nat - a)) with (x m - x (m - 2)%nat) by ring. exact D. }
    rewrite (slope_back x' y m) by (assumption || exact inc_shift). rewrite <- (rows_unique x' y m inc_shift H3 _ HR) by lia. now replace (m - (m - i))%nat with i by lia.
  - assert (D := dx_shift). assert (L := sl_shift). unfold slope. clear Hx inc. destruct m as [|[|[|k]]]; try lia.
    + apply L. lia.
    + cbv zeta. now rewrite !D, !L by lia.
Qed.
Lemma hermite_shift : forall i, (i < m)%nat -> hermite x' y (slope x' y m) i = hermite x y (slope x y m) i.
Proof. intros i H. unfold hermite. now rewrite !slope_shift, dx_shift, sl_shift by lia. Qed.
Lemma piece_shift : forall k v, (k <= m)%nat -> piece x' k (v - a) = piece x k v.
Proof.
  induction k; intros v H; cbn [piece]; [easy|]. rewrite IHk, Hx by lia. destruct (Rleb_spec (x (S k) - a) (v - a)), (Rleb_spec (x (S k)) v); (easy || lra).
Qed.
End Shift.
Lemma spline_shift : forall n xs ys a v, increasing xs -> (2 <= length xs)%nat ->
  spline_real (Z.of_nat n) (map (fun t => t - a) xs) ys (v - a) = spline_real (Z.of_nat n) xs ys v.
Proof.
  intros n xs ys a v Hi H2. unfold spline_real, order_of. destruct (Z.ltb_spec (Z.of_nat n) 0); [lia|]. rewrite Nat2Z.id, map_length.
  set (x := fun i => nth i xs 0). set (x' := fun i => nth i (map (fun t => t - a) xs) 0). set (y := fun i => nth i ys 0). set (m := (length xs - 1)%nat).
  assert (inc : forall i, (i < m)%nat -> x i < x (S i)) by (apply inc_list; assumption).
  assert (Hx : forall i, (i <= m)%nat -> x' i = x i - a).
  { intros i Hb. unfold x', x. rewrite (nth_indep _ 0 (0 - a)) by (rewrite map_length; unfold m in *; lia). now rewrite (map_nth (fun t => t - a)). }
  unfold ppval. rewrite (piece_shift x x' a m) by (assumption || lia). assert (L := piece_le x (m - 1) v). set (i := piece x (m - 1) v) in *.
  assert (i < m)%nat by (unfold m in *; lia). rewrite !iter_pp, (hermite_shift x x' y a m) by (assumption || (unfold m; lia)). f_equal. rewrite Hx by lia. ring.
Qed.
Theorem C95_linear : Charges_Proofs.linear_spline nth_derivative.
Proof.
  split.
  - intros n xs f g c v Hi%inc_pointwise H2 vals. unfold nth_derivative, spline, vals.
    assert (L : forall (h h1 h2 : nat -> R) p q, (forall j, h j = p * h1 j + q * h2 j) -> forall i, nth i (map h (seq 0 (length xs))) 0 = p * nth i (map h1 (seq 0 (length xs))) 0 + q * nth i (map h2 (seq 0 (length xs))) 0).
    { intros h h1 h2 p q H i. destruct (le_lt_dec (length xs) i) as [G|G].
      - rewrite !nth_overflow by (rewrite map_length, seq_length; easy). ring.
      - assert (M : forall h0 : nat -> R, nth i (map h0 (seq 0 (length xs))) 0 = h0 i) by (intros h0; rewrite (nth_indep _ 0 (h0 0%nat)) by (now rewrite map_length, seq_length); rewrite map_nth, seq_nth by easy; easy).
        rewrite !M. apply H. }
    rewrite !map_map. destruct c as [cr ci]. apply C_eq; cbn [re im Cmul Cadd].
    + rewrite (spline_lin n xs _ (map (fun j => cr * re (f j) + - ci * im (f j)) (seq 0 (length xs))) (map (fun j => re (g j)) (seq 0 (length xs))) 1 1 v Hi H2) by (apply L; intros; ring).
      rewrite (spline_lin n xs _ (map (fun j => re (f j)) (seq 0 (length xs))) (map (fun j => im (f j)) (seq 0 (length xs))) cr (- ci) v Hi H2) by (apply L; intros; ring). ring.
    + rewrite (spline_lin n xs _ (map (fun j => cr * im (f j) + ci * re (f j)) (seq 0 (length xs))) (map (fun j => im (g j)) (seq 0 (length xs))) 1 1 v Hi H2) by (apply L; intros; ring).
      rewrite (spline_lin n xs _ (map (fun j => im (f j)) (seq 0 (length xs))) (map (fun j => re (f j)) (seq 0 (length xs))) cr ci v Hi H2) by (apply L; intros; ring). ring.
  - intros n xs ys v a Hi%inc_pointwise H2 Hl. unfold nth_derivative, spline. now rewrite !spline_shift.
Qed.

(** ** Real splines *)
Theorem C95_interpolates : Pipeline_Proofs.interpolates real_or_error.
Proof.
  intros xs ys Hi%inc_pointwise H4 Hl. exists (spline_real 0 xs ys). split; [apply ok_real; (assumption || lia)|]. intros i H. apply order_through; (assumption || lia).
Qed.
Theorem C95_straight : Linear_Proofs.straight real_or_error.
Proof.
  intros xs a b Hi%inc_pointwise H4. eexists. split; [apply ok_real; (assumption || lia || apply map_length)|]. intros v.
  replace (map (fun x => a * x + b) xs) with (map (fun v => b + a * v + 0 * v ^ 2 + 0 * v ^ 3) xs) by (apply map_ext; intros; ring).
  rewrite (proj1 (C95_cubic xs b a 0 0 Hi H4 v)). ring.
Qed.
Theorem C95_by_parts : Abdpipe_Proofs.by_parts real_or_error spline_or_error.
Proof.
  intros xs ys H4. unfold spline_or_error, real_or_error. rewrite !map_length. destruct (_ || _); reflexivity.
Qed.
Theorem C95_scales : Abdpipe_Proofs.scales real_or_error.
Proof.
  intros c xs ys f H. destruct (real_inv _ _ _ H) as (Hi & H2 & Hl & ->). eexists. split; [apply ok_real; try assumption; now rewrite map_length|].
  intros u. change 0%Z with (Z.of_nat 0). rewrite (spline_lin 0 xs (map (Rmult c) ys) ys ys c 0 u Hi H2); [ring|].
  intros i. replace 0 with (c * 0) at 1 by ring. rewrite map_nth. ring.
Qed.
Theorem C95_keeps_constants : forall t, Transform_Proofs.increasing t -> (2 <= length t)%nat -> Rest_Proofs.keeps_constants real_or_error t.
Proof.
  intros t Hi%inc_pointwise H2 c. eexists. split; [apply ok_real; (assumption || lia || apply map_length)|]. intros v. destruct (le_lt_dec 4 (length t)) as [H4|H4].
  - replace (map (fun _ => c) t) with (map (fun v => c + 0 * v + 0 * v ^ 2 + 0 * v ^ 3) t) by (apply map_ext; intros; ring). rewrite (proj1 (C95_cubic t c 0 0 0 Hi H4 v)). ring.
  - assert (inc := inc_list t Hi H2).
    destruct t as [|a [|b [|d [|e r]]]]; cbn [length] in *; try lia.
    + unfold spline_real, ppval, order_of, hermite, slope, sl, dx. cbn. unfold Rdiv. ring.
    + unfold spline_real, ppval. set (i := piece _ _ v). assert (L : (i <= 1)%nat) by apply piece_le. clearbody i.
      destruct i as [|[|i]]; [| |lia]; unfold order_of, hermite, slope, sl, dx; cbn; unfold Rdiv; ring.
Qed.
(** Another unit and origin of time *)
Section Affine.
Variables x x' y : nat -> R.
Variables s b : R.
Variable m : nat.
Hypothesis inc : forall i, (i < m)%nat -> x i < x (S i).
Hypothesis H1 : (1 <= m)%nat.
Hypothesis Hs : 0 < s.
Hypothesis Hx : forall i, (i <= m)%nat -> x' i = s * x i + b.
Lemma dx_affine : forall i, (i < m)%nat -> dx x' i = s * dx x i.
Proof. intros. unfold dx. rewrite !Hx by lia. ring. Qed.
Lemma dx_not_0 : forall i, (i < m)%nat -> dx x i <> 0.
Proof. intros i H. unfold dx. specialize (inc i H). lra. Qed.
Lemma sl_affine : forall i, (i < m)%nat -> sl x' y i = sl x y i / s.
Proof. intros i H. assert (N := dx_not_0 i H). unfold sl. rewrite dx_affine by easy. field. lra. Qed.
Lemma inc_affine : forall i, (i < m)%nat -> x' i < x' (S i).
Proof. intros i H. rewrite !Hx by lia. specialize (inc i H). nra. Qed.
Lemma slope_affine : forall i, (i <= m)%nat -> slope x' y m i = slope x y m i / s.
Proof.
  intros i Hi. destruct (le_lt_dec 3 m) as [H3|H3].
  - assert (HR : rows x' y m (fun i => slope x y m i / s)).
    { destruct (rows_slope x y m inc H3) as (A & B & D). unfold rows, rhs, lower, diag, upper in *. cbv zeta in *. repeat split.
      - cbn [Nat.eqb] in *. assert (G : x 0%nat < x 2%nat) by (apply (x_lt x m inc); lia).
        rewrite !dx_affine, !sl_affine, !Hx by lia. transitivity (dx x 1 * slope x y m 0 + (x 2%nat - x 0%nat) * slope x y m 1); [field; lra|]. rewrite A. field. split; [|split]; nra.
      - intros k Hk. specialize (B k Hk). destruct (Nat.eqb_spec k 0); [lia|]. destruct (Nat.eqb_spec k m); [lia|]. rewrite !dx_affine, !sl_affine by lia.
        transitivity (dx x k * slope x y m (k - 1) + 2 * (dx x (k - 1) + dx x k) * slope x y m k + dx x (k - 1) * slope x y m (S k)); [field; lra|]. rewrite B. field. lra.
      - destruct (Nat.eqb_spec m 0); [lia|]. rewrite Nat.eqb_refl in *. assert (G : x (m - 2)%nat < x m) by (apply (x_lt x m inc); lia).
        rewrite !dx_affine, !sl_affine, !Hx by lia. transitivity ((x m - x (m - 2)%nat) * slope x y m (m - 1) + dx x (m - 2) * slope x y m m); [field; lra|]. rewrite D. field. split; [|split]; nra. }
    rewrite (slope_back x' y m) by (assumption || exact inc_affine). rewrite <- (rows_unique x' y m inc_affine H3 _ HR) by lia. cbv beta. now replace (m - (m - i))%nat with i by lia.
  - assert (D := dx_affine). assert (L := sl_affine). assert (P := fun i H => dx_pos x m inc i H). unfold slope. clear Hx inc. destruct m as [|[|[|k]]]; try lia.
    + apply L. lia.
    + cbv zeta. rewrite !D, !L by lia. assert (P0 := P 0%nat ltac:(lia)). assert (P1 := P 1%nat ltac:(lia)).
      assert (s * dx x 0 + s * dx x 1 <> 0) by nra. destruct i as [|[|i]]; field; split; nra.
Qed.
Lemma hermite_affine : forall i u, (i < m)%nat -> peval (hermite x' y (slope x' y m) i) (s * u) = peval (hermite x y (slope x y m) i) u.
Proof. intros i u H. assert (N := dx_not_0 i H). unfold hermite. rewrite !slope_affine, dx_affine, sl_affine by lia. cbn [peval]. field. lra. Qed.
Lemma piece_affine : forall k v, (k <= m)%nat -> piece x' k (s * v + b) = piece x k v.
Proof.
  induction k; intros v H; cbn [piece]; [easy|]. rewrite IHk, Hx by lia. destruct (Rleb_spec (s * x (S k) + b) (s * v + b)), (Rleb_spec (x (S k)) v); (easy || nra).
Qed.
End Affine.
Theorem C95_covariant : Fake_Proofs.covariant real_or_error.
Proof.
  intros xs ys s b f Hs H. destruct (real_inv _ _ _ H) as (Hi & H2 & Hl & ->). exists (spline_real 0 (map (fun t => s * t + b) xs) ys). split.
  - apply ok_real; rewrite ?map_length; try easy. intros i j u w Hij Hu Hw. rewrite nth_error_map in Hu, Hw.
    destruct (nth_error xs i) as [u'|] eqn:E; [|discriminate]. destruct (nth_error xs j) as [w'|] eqn:E'; [|discriminate]. cbn in Hu, Hw. injection Hu as <-. injection Hw as <-.
    specialize (Hi i j u' w' Hij E E'). nra.
  - intros v. unfold spline_real. rewrite map_length. set (x := fun i => nth i xs 0). set (x' := fun i => nth i (map (fun t => s * t + b) xs) 0). set (y := fun i => nth i ys 0). set (m := (length xs - 1)%nat).
    assert (inc : forall i, (i < m)%nat -> x i < x (S i)) by (apply inc_list; assumption).
    assert (Hx : forall i, (i <= m)%nat -> x' i = s * x i + b).
    { intros i Hb. unfold x', x. rewrite (nth_indep _ 0 (s * 0 + b)) by (rewrite map_length; unfold m in *; lia). now rewrite (map_nth (fun t => s * t + b)). }
    unfold ppval. rewrite (piece_affine x x' s b m) by (assumption || lia). assert (L := piece_le x (m - 1) v). set (i := piece x (m - 1) v) in *.
    assert (i < m)%nat by (unfold m in *; lia). change (peval (hermite x' y (slope x' y m) i) (s * v + b - x' i) = peval (hermite x y (slope x y m) i) (v - x i)).
    rewrite <- (hermite_affine x x' y s b m) by (assumption || (unfold m; lia)). f_equal. rewrite Hx by lia. ring.
Qed.

(** ** Derivatives and integrals as matrices *)
Lemma order_lin : forall k xs ys ys1 ys2 a b, increasing xs -> (2 <= length xs)%nat -> (forall i, nth i ys 0 = a * nth i ys1 0 + b * nth i ys2 0) ->
  forall v, spline_real k xs ys v = a * spline_real k xs ys1 v + b * spline_real k xs ys2 v.
Proof.
  intros k xs ys ys1 ys2 a b Hi H2 H. destruct (Z.leb_spec 0 k) as [P|N].
  - rewrite <- (Z2Nat.id k P). intros v. now apply spline_lin.
  - assert (E : k = (- Z.of_nat (Z.to_nat (- k)))%Z) by lia. rewrite E. generalize (Z.to_nat (- k)). clear k N E. induction n as [|n IH].
    + intros v. now apply (spline_lin 0).
    + set (k := (- Z.of_nat (S n))%Z). assert (Ek : (- Z.of_nat n)%Z = (k + 1)%Z) by (unfold k; lia). rewrite Ek in IH.
      apply (same_derivative _ _ (spline_real (k + 1) xs ys) (nth 0 xs 0)).
      * intros v. apply order_deriv; (assumption || (unfold k; lia)).
      * intros v. rewrite IH. apply (derivable_pt_lim_plus (mult_real_fct a _) (mult_real_fct b _)); apply derivable_pt_lim_scal; apply order_deriv; (assumption || (unfold k; lia)).
      * rewrite !order_start by (assumption || (unfold k; lia)). ring.
Qed.
(** The data that are 1 at one point *)
Definition unit_at (n j : nat) : list R := map (fun i => if (i =? j)%nat then 1 else 0) (seq 0 n).
Lemma nth_vals : forall (h : nat -> R) n i, nth i (map h (seq 0 n)) 0 = if (i <? n)%nat then h i else 0.
Proof.
  intros h n i. destruct (Nat.ltb_spec i n).
  - rewrite (nth_indep _ 0 (h 0%nat)) by (now rewrite map_length, seq_length). rewrite map_nth, seq_nth by easy. easy.
  - apply nth_overflow. now rewrite map_length, seq_length.
Qed.
Lemma order_sum : forall k xs (h : nat -> C) v, increasing xs -> (2 <= length xs)%nat -> let n := length xs in
  spline k xs (map h (seq 0 n)) v = csum (fun j => Cscale (spline_real k xs (unit_at n j) v) (h j)) (seq 0 n).
Proof.
  intros k xs h v Hi H2 n.
  assert (Z0 : forall r, spline_real k xs (map (fun _ => 0) (seq 0 n)) v = r -> r = 0).
  { intros r <-. rewrite (order_lin k xs _ (map (fun _ => 0) (seq 0 n)) (map (fun _ => 0) (seq 0 n)) 0 0 Hi H2); [ring|]. intros i. rewrite nth_vals. destruct (_ <? _)%nat; ring. }
  assert (G : forall (g : nat -> R) N, spline_real k xs (map (fun i => if (i <? N)%nat then g i else 0) (seq 0 n)) v = fold_right (fun j r => g j * spline_real k xs (unit_at n j) v + r) 0 (seq 0 N)).
  { intros g. assert (A : forall N s, spline_real k xs (map (fun i => if (s <=? i)%nat && (i <? s + N)%nat then g i else 0) (seq 0 n)) v = fold_right (fun j r => g j * spline_real k xs (unit_at n j) v + r) 0 (seq s N)).
    { induction N as [|N IH]; intros s; cbn [seq fold_right].
      - apply Z0. f_equal. apply map_ext. intros i. destruct (Nat.leb_spec s i), (Nat.ltb_spec i (s + 0)); cbn; (easy || lia).
      - rewrite <- IH. rewrite (order_lin k xs _ (unit_at n s) (map (fun i => if (S s <=? i)%nat && (i <? S s + N)%nat then g i else 0) (seq 0 n)) (g s) 1 Hi H2); [ring|].
        intros i. unfold unit_at. rewrite !nth_vals. destruct (i <? n)%nat; [|ring].
        destruct (Nat.eqb_spec i s) as [E|Ne], (Nat.leb_spec s i), (Nat.ltb_spec i (s + S N)), (Nat.leb_spec (S s) i), (Nat.ltb_spec i (S s + N)); cbn [andb]; try lia; try ring; subst i; ring. }
    intros N. rewrite <- A. f_equal. }
  assert (F : forall g : nat -> R, spline_real k xs (map g (seq 0 n)) v = fold_right (fun j r => g j * spline_real k xs (unit_at n j) v + r) 0 (seq 0 n)).
  { intros g. rewrite <- G. f_equal. apply map_ext_in. intros i Hb. apply in_seq in Hb. destruct (Nat.ltb_spec i n); (easy || lia). }
  unfold spline. rewrite !map_map, !F. generalize (seq 0 n). induction l as [|j l IH]; cbn [fold_right csum]; [easy|]. rewrite <- IH. apply C_eq; cbn; ring.
Qed.
(** from_initial_values takes derivatives and integrals of the sampled shear: these are matrices acting on the samples, as [ABD_Model.apply_time] has them. *)
Theorem C95_matrices : forall k t, increasing t -> (2 <= length t)%nat -> exists M : nat -> nat -> R, forall (f : ABD_Model.series) i l m, (i < length t)%nat ->
  ABD_Model.apply_time (length t) M f i l m = spline k t (map (fun j => f j l m) (seq 0 (length t))) (nth i t 0).
Proof.
  intros k t Hi H2. exists (fun i j => spline_real k t (unit_at (length t) j) (nth i t 0)). intros f i l m Hb. unfold ABD_Model.apply_time. symmetry. apply (order_sum k t (fun j => f j l m)); assumption.
Qed.
(** Bondi data sampled from a solution cubic in time: no violation, with the derivatives taken by this spline. *)
Theorem C77_solution_spline : forall a B sd sdd sddd, Abdpipe_Proofs.data_ok (ad_data a) -> Transform_Proofs.increasing (Abdpipe_Model.bd_u (ad_data a)) ->
  (4 <= length (Abdpipe_Model.bd_u (ad_data a)))%nat -> Bianchimodes_Proofs.samples (ad_data a) B ->
  Bianchi_Proofs.bondi_solution (Abdpipe_Model.bd_hi (ad_data a)) B sd sdd sddd -> (forall f, (f < 6)%nat -> Bianchimodes_Proofs.polynomial 3 (fun t => Bianchi_Proofs.bfield (B t) f)) -> ad_tr a = Sum ->
  bondi_violation_norms Product_Proofs.product_table nth_derivative a = Ok (repeat (repeat 0 (length (Abdpipe_Model.bd_u (ad_data a)))) 6).
Proof. intros a B sd sdd sddd. intros. eapply Constraints_Proofs.C77_solution; eauto. apply C95_derives. Qed.
