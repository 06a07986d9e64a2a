(** * Least squares: existence, uniqueness, and linearity of extrapolation (properties C43 and C70) *)
From Coq Require Import String Reals ZArith List Bool Lia Lra Permutation.
From Verif Require Quat ABD_Model Superrest_Model Kwargs_Proofs Rest_Model Rest_Proofs.
From Verif Require Import Common Cplx Extrap_Model Extrap_Proofs Polyfit_Model.
Import ListNotations.
Open Scope R_scope.

Lemma value_poly : forall c x, value c x = poly c x.
Proof. induction c as [|a c IH]; intros x; [reflexivity|]. cbn [value poly]. rewrite IH. reflexivity. Qed.
Lemma combination_length : forall c k d, length c = length d -> length (combination c k d) = length c.
Proof. intros c k d H. unfold combination. rewrite map_length, combine_length, H, Nat.min_id. reflexivity. Qed.
Lemma combination_poly : forall c k d x, length c = length d -> poly (combination c k d) x = (poly c x + k * poly d x)%C.
Proof.
  intros c k. induction c as [|a c IH]; intros [|b d] x H; cbn [length] in H; try lia; [cbn; ring|].
  change (combination (a :: c) k (b :: d)) with ((a + k * b)%C :: combination c k d). cbn [poly]. rewrite IH by lia. ring.
Qed.
Lemma poly_snoc : forall c a x, poly (c ++ [a]) x = (poly c x + a * RtoC (x ^ length c))%C.
Proof.
  induction c as [|b c IH]; intros a x; [cbn; cx|]. cbn [app poly length]. rewrite IH.
  replace (RtoC (x ^ S (length c))) with (RtoC x * RtoC (x ^ length c))%C by cx. ring.
Qed.
Lemma poly_zeros : forall n x, poly (repeat C0 n) x = C0.
Proof. induction n as [|n IH]; intros x; [reflexivity|]. cbn [repeat poly]. rewrite IH. ring. Qed.

Lemma re_csum : forall (h : nat -> C) l, re (csum h l) = rsum (fun i => re (h i)) l.
Proof. intros h. induction l as [|a k IH]; [reflexivity|]. cbn [csum rsum]. rewrite <- IH. reflexivity. Qed.
Lemma rsum_sub_nat : forall (u v : nat -> R) l, rsum u l - rsum v l = rsum (fun i => u i - v i) l.
Proof. intros u v. induction l as [|a k IH]; cbn [rsum]; [lra|]. rewrite <- IH. lra. Qed.

(** ** Inner products *)
Section Inner.
Variable l : list nat.
Variable X : nat -> R.
Notation ip := (inner l).
Notation P c := (fun i => poly c (X i)).
Lemma ip_lin : forall f k g h, ip (fun i => f i + k * g i)%C h = (ip f h + k * ip g h)%C.
Proof. intros f k g h. unfold inner. rewrite <- csum_scale, <- csum_add. apply csum_ext. intros i _. ring. Qed.
Lemma ip_ext : forall f f' g g', (forall i, In i l -> f i = f' i) -> (forall i, In i l -> g i = g' i) -> ip f g = ip f' g'.
Proof. intros f f' g g' H H'. apply csum_ext. intros i I. rewrite (H i I), (H' i I). reflexivity. Qed.
Lemma ip_conj : forall f g, ip f g = Conj (ip g f).
Proof. intros f g. unfold inner. rewrite csum_conj. apply csum_ext. intros i _. apply C_eq; cbn; ring. Qed.
Lemma ip_self : forall f, ip f f = RtoC (rsum (fun i => norm2 (f i)) l).
Proof. intros f. unfold inner. rewrite <- csum_RtoC. apply csum_ext. intros i _. apply C_eq; cbn; unfold norm2; ring. Qed.
Lemma ip_zero : forall f g, rsum (fun i => norm2 (g i)) l = 0 -> ip f g = C0.
Proof.
  intros f g Z. apply csum_const0. intros i I. pose proof (rsum_zero _ _ (fun j _ => norm2_nonneg (g j)) Z i I) as E. apply norm2_zero in E. rewrite E. apply C_eq; cbn; ring.
Qed.
Definition orthogonal (n : nat) (f : nat -> C) : Prop := forall d, length d = n -> ip f (P d) = C0.

(** Distance after a step along a polynomial *)
Lemma moved_norm : forall f g s, rsum (fun i => norm2 (f i - s * g i)%C) l =
  rsum (fun i => norm2 (f i)) l - 2 * re (Conj s * ip f g)%C + norm2 s * rsum (fun i => norm2 (g i)) l.
Proof.
  intros f g s. unfold inner. rewrite <- csum_scale. rewrite <- rsum_scale.
  rewrite re_csum. replace (2 * rsum (fun i => re (Conj s * (Conj (g i) * f i))%C) l) with (rsum (fun i => 2 * re (Conj s * (Conj (g i) * f i))%C) l) by (rewrite rsum_scale; reflexivity).
  rewrite rsum_sub_nat, <- rsum_add. apply rsum_ext. intros i _. unfold norm2. cbn. ring.
Qed.
(** The nearest polynomials are those from which the data differ by something orthogonal to all polynomials. *)
Lemma nearest_orthogonal : forall n y c, length c = n -> (forall c', length c' = n -> rsum (fun i => norm2 (y i - poly c (X i))%C) l <= rsum (fun i => norm2 (y i - poly c' (X i))%C) l) ->
  orthogonal n (fun i => y i - poly c (X i))%C.
Proof.
  intros n y c L B d Ld. set (f := fun i => (y i - poly c (X i))%C). set (M := rsum (fun i => norm2 (poly d (X i))) l).
  destruct (Req_dec M 0) as [Z|Z]; [apply ip_zero; exact Z|]. assert (MP : 0 < M).
  { assert (0 <= M) by (apply rsum_nonneg; intros; apply norm2_nonneg). lra. }
  set (u := ip f (P d)). set (s := (u * RtoC (/ M))%C). specialize (B (combination c s d) ltac:(rewrite combination_length; lia)).
  assert (E : rsum (fun i => norm2 (y i - poly (combination c s d) (X i))%C) l = rsum (fun i => norm2 (f i - s * poly d (X i))%C) l).
  { apply rsum_ext. intros i _. rewrite combination_poly by lia. unfold f. f_equal. ring. }
  rewrite E, (moved_norm f (P d) s) in B. fold u M in B. fold f in B.
  assert (K : re (Conj s * u)%C = norm2 u / M) by (unfold s, norm2; cbn; field; exact Z).
  assert (K2 : norm2 s * M = norm2 u / M) by (unfold s, norm2; cbn; field; exact Z).
  rewrite K, K2 in B. change (fun i => norm2 (y i - poly c (X i))%C) with (fun i => norm2 (f i)) in B. assert (norm2 u / M <= 0) by lra.
  apply norm2_zero. pose proof (norm2_nonneg u). assert (norm2 u = norm2 u / M * M) by (field; exact Z). nra.
Qed.
Lemma orthogonal_nearest : forall n y c, length c = n -> orthogonal n (fun i => y i - poly c (X i))%C ->
  forall c', length c' = n -> rsum (fun i => norm2 (y i - poly c (X i))%C) l <= rsum (fun i => norm2 (y i - poly c' (X i))%C) l.
Proof.
  intros n y c L O c' L'. set (d := combination c' (- C1)%C c). assert (Ld : length d = n) by (unfold d; rewrite combination_length; lia).
  replace (rsum (fun i => norm2 (y i - poly c' (X i))%C) l) with (rsum (fun i => norm2 ((y i - poly c (X i)) - C1 * poly d (X i))%C) l).
  - rewrite (moved_norm (fun i => y i - poly c (X i))%C (P d) C1), (O d Ld).
    assert (0 <= rsum (fun i => norm2 (poly d (X i))) l) by (apply rsum_nonneg; intros; apply norm2_nonneg). replace (norm2 C1) with 1 by (unfold norm2; cbn; ring).
    replace (re (Conj C1 * C0)%C) with 0 by (cbn; ring). lra.
  - apply rsum_ext. intros i _. unfold d. rewrite combination_poly by lia. f_equal. ring.
Qed.
Lemma project_length : forall n y, length (project l X n y) = n.
Proof.
  induction n as [|n IH]; intros y; [reflexivity|]. cbn [project]. rewrite combination_length; rewrite ?combination_length; rewrite !app_length, ?repeat_length, ?IH; cbn [length]; lia.
Qed.
Lemma project_orthogonal : forall n y, orthogonal n (fun i => y i - poly (project l X n y) (X i))%C.
Proof.
  induction n as [|n IH]; intros y d Ld.
  - destruct d; [|discriminate]. cbn [poly]. apply csum_const0. intros i _. apply C_eq; cbn; ring.
  - cbn [project]. set (mono := fun i => RtoC (X i ^ n)). set (m := project l X n mono). set (q := combination (repeat C0 n ++ [C1]) (- C1)%C (m ++ [C0])).
    set (Q := fun i => value q (X i)). set (beta := if Req_EM_T _ 0 then _ else _). set (b := project l X n y).
    assert (Lm : length m = n) by apply project_length. assert (Lb : length b = n) by apply project_length.
    assert (LQ : length (repeat C0 n ++ [C1]) = length (m ++ [C0])) by (rewrite !app_length, repeat_length, Lm; reflexivity).
    assert (Lq : length q = S n) by (unfold q; rewrite combination_length by exact LQ; rewrite app_length, repeat_length; cbn; lia).
    assert (EQ : forall i, Q i = (mono i - poly m (X i))%C).
    { intros i. unfold Q, q. rewrite value_poly, combination_poly by exact LQ. rewrite !poly_snoc, poly_zeros, repeat_length. unfold mono. ring. }
    assert (OQ : forall e, length e = n -> ip Q (P e) = C0).
    { intros e Le. rewrite (ip_ext Q (fun i => mono i - poly m (X i))%C (P e) (P e)) by (intros; auto). exact (IH mono e Le). }
    set (r := fun i => (y i - poly b (X i))%C).
    assert (ER : forall i, (y i - poly (combination (b ++ [C0]) beta q) (X i) = r i + (- beta) * Q i)%C).
    { intros i. rewrite combination_poly by (rewrite app_length, Lb, Lq; cbn; lia). rewrite poly_snoc. unfold r, Q. change (value q (X i)) with (poly q (X i)). ring. }
    rewrite (ip_ext _ (fun i => r i + (- beta) * Q i)%C (P d) (P d)) by (intros; auto).
    assert (IQ : (ip r Q + (- beta) * ip Q Q = C0)%C).
    { assert (RY : ip r Q = ip y Q).
      { rewrite (ip_ext r (fun i => y i + (- C1) * poly b (X i))%C Q Q) by (intros; unfold r; try reflexivity; ring). rewrite ip_lin.
        rewrite (ip_conj (P b) Q), (OQ b Lb). apply C_eq; cbn; ring. }
      rewrite RY. unfold beta. match goal with |- context [Req_EM_T ?a 0] => destruct (Req_EM_T a 0) as [Z|Z] end; change (rsum (fun i => norm2 (Q i)) l = 0) in Z || change (rsum (fun i => norm2 (Q i)) l <> 0) in Z.
      - rewrite (ip_zero y Q Z). ring.
      - assert (NZ : ip Q Q <> C0). { rewrite ip_self. intros E. apply Z. apply (f_equal re) in E. exact E. }
        field. exact NZ. }
    destruct (exists_last (l := d)) as (e & a & Ed); [intros ->; discriminate|]. subst d. rewrite app_length in Ld. cbn [length] in Ld. assert (Le : length e = n) by lia.
    set (e' := combination e a m). assert (Le' : length e' = n) by (unfold e'; rewrite combination_length; lia).
    rewrite ip_conj. rewrite (ip_ext (P (e ++ [a])) (fun i => poly e' (X i) + a * Q i)%C _ (fun i => r i + (- beta) * Q i)%C).
    + rewrite ip_lin. rewrite (ip_conj (P e')), (ip_conj Q (fun i => r i + (- beta) * Q i)%C), !ip_lin, (OQ e' Le'), IQ.
      pose proof (IH y e' Le') as R0. fold b r in R0. change (fun i => (y i - poly b (X i))%C) with r in R0. rewrite R0. apply C_eq; cbn; ring.
    + intros i _. rewrite poly_snoc, Le. unfold e'. rewrite combination_poly by lia. rewrite EQ. unfold mono. ring.
    + intros; reflexivity.
Qed.
End Inner.

(** ** Sums over samples *)
Lemma combine_seq : forall (x : list R) (y : list C), length y = length x -> combine x y = map (fun i => (nth i x 0, nth i y C0)) (seq 0 (length x)).
Proof.
  induction x as [|a x IH]; intros [|b y] H; cbn [length] in H; try lia; [reflexivity|]. cbn [combine length seq map nth]. f_equal.
  rewrite <- seq_shift, map_map. apply IH. lia.
Qed.
Lemma misfit_seq : forall x y c, length y = length x -> misfit x y c = rsum (fun i => norm2 (nth i y C0 - poly c (nth i x 0))%C) (seq 0 (length x)).
Proof. intros x y c H. unfold misfit. rewrite combine_seq by exact H. rewrite rsum_map. reflexivity. Qed.
Lemma best_orthogonal : forall x y N c, length y = length x -> length c = S N ->
  (best_fit x y N c <-> orthogonal (seq 0 (length x)) (fun i => nth i x 0) (S N) (fun i => nth i y C0 - poly c (nth i x 0))%C).
Proof.
  intros x y N c H L. split.
  - intros [_ B]. apply (nearest_orthogonal _ (fun i => nth i x 0) (S N) (fun i => nth i y C0) c L). intros c' L'. rewrite <- !misfit_seq by exact H. apply B, L'.
  - intros O. split; [exact L|]. intros c' L'. rewrite !misfit_seq by exact H. exact (orthogonal_nearest _ (fun i => nth i x 0) (S N) (fun i => nth i y C0) c L O c' L').
Qed.

(** ** Theorems *)
(** Least-squares polynomials exist, for every number of points and every degree: [polyfit] finds one. *)
Theorem C43_polyfit : forall x y N, length y = length x -> best_fit x y N (polyfit x y N).
Proof. intros x y N H. apply best_orthogonal; [exact H|apply project_length|]. apply project_orthogonal. Qed.
(** There is only one if more than N points are distinct. *)
Theorem C43_unique : forall x y N c c', NoDup x -> (N < length x)%nat -> length y = length x -> best_fit x y N c -> best_fit x y N c' -> c = c'.
Proof.
  intros x y N c c' ND HN H B B'. pose proof B as [L _]. pose proof B' as [L' _]. apply best_orthogonal in B; [|assumption..]. apply best_orthogonal in B'; [|assumption..].
  set (l := seq 0 (length x)) in *. set (d := combination c (- C1)%C c'). assert (Ld : length d = S N) by (unfold d; rewrite combination_length; lia).
  assert (Z : inner l (fun i => poly d (nth i x 0)) (fun i => poly d (nth i x 0)) = C0).
  { rewrite (ip_ext l _ (fun i => (nth i y C0 - poly c' (nth i x 0)) + (- C1) * (nth i y C0 - poly c (nth i x 0)))%C _ (fun i => poly d (nth i x 0))).
    - rewrite (ip_lin l (fun i => nth i y C0 - poly c' (nth i x 0))%C), (B d Ld), (B' d Ld). ring.
    - intros i _. unfold d. rewrite combination_poly by lia. ring.
    - reflexivity. }
  rewrite ip_self in Z. apply (f_equal re) in Z. cbn [re RtoC] in Z.
  apply poly_unique with x; [lia|exact ND|lia|]. intros u Hu. apply In_nth with (d := 0) in Hu. destruct Hu as (i & Hi & <-).
  assert (I : In i l) by (apply in_seq; lia). pose proof (rsum_zero _ _ (fun j _ => norm2_nonneg (poly d (nth j x 0))) Z i I) as E. cbv beta in E. apply norm2_zero in E.
  unfold d in E. rewrite combination_poly in E by lia. replace (poly c (nth i x 0)) with ((poly c (nth i x 0) + - C1 * poly c' (nth i x 0)) + poly c' (nth i x 0))%C by ring. rewrite E. ring.
Qed.

(** ** Weights *)
Definition fits (pf : list R -> list C -> nat -> list C) : Prop := forall x y N, length y = length x -> best_fit x y N (pf x y N).
Definition delta (k i : nat) : C := if Nat.eqb k i then C1 else C0.
Lemma csum_delta : forall (y : nat -> C) i n s, (s <= i < s + n)%nat -> csum (fun k => (y k * delta k i)%C) (seq s n) = y i.
Proof.
  intros y i. induction n as [|n IH]; intros s H; [lia|]. cbn [seq csum]. unfold delta at 1. destruct (Nat.eqb_spec s i) as [->|Ne].
  - rewrite csum_const0; [ring|]. intros k I. apply in_seq in I. unfold delta. destruct (Nat.eqb_spec k i); [lia|]. ring.
  - rewrite IH by lia. ring.
Qed.
Section Weights.
Variable x : list R.
Variable N : nat.
Hypothesis distinct : NoDup x.
Hypothesis enough : (N < length x)%nat.
Let n := length x.
Let at_ (f : nat -> C) : list C := map f (seq 0 n).
Lemma at_length : forall f, length (at_ f) = length x.
Proof. intros f. unfold at_. rewrite map_length, seq_length. reflexivity. Qed.
Lemma at_nth : forall f i, In i (seq 0 n) -> nth i (at_ f) C0 = f i.
Proof. intros f i I. apply in_seq in I. unfold at_. rewrite (nth_indep _ C0 (f 0%nat)) by (rewrite map_length, seq_length; lia). rewrite map_nth, seq_nth by lia. reflexivity. Qed.
Definition Fit (f : nat -> C) (c : list C) : Prop := best_fit x (at_ f) N c.
Lemma Fit_iff : forall f c, length c = S N -> (Fit f c <-> orthogonal (seq 0 n) (fun i => nth i x 0) (S N) (fun i => f i - poly c (nth i x 0))%C).
Proof.
  intros f c L. unfold Fit. rewrite (best_orthogonal x (at_ f) N c (at_length f) L). unfold orthogonal.
  assert (E : forall d, inner (seq 0 n) (fun i => nth i (at_ f) C0 - poly c (nth i x 0))%C (fun i => poly d (nth i x 0)) = inner (seq 0 n) (fun i => f i - poly c (nth i x 0))%C (fun i => poly d (nth i x 0))).
  { intros d. apply ip_ext; [|reflexivity]. intros i I. rewrite (at_nth f i I). reflexivity. }
  split; intros O d Ld; [rewrite <- E|fold n; rewrite E]; apply O, Ld.
Qed.
Lemma Fit_length : forall f c, Fit f c -> length c = S N.
Proof. intros f c [L _]. exact L. Qed.
Lemma Fit_unique : forall f c c', Fit f c -> Fit f c' -> c = c'.
Proof. intros f c c'. apply C43_unique; [exact distinct|exact enough|apply at_length]. Qed.
Lemma Fit_lin : forall f c k g d, Fit f c -> Fit g d -> Fit (fun i => f i + k * g i)%C (combination c k d).
Proof.
  intros f c k g d F G. pose proof (Fit_length _ _ F) as Lc. pose proof (Fit_length _ _ G) as Ld. apply Fit_iff; [rewrite combination_length; lia|].
  apply Fit_iff in F; [|exact Lc]. apply Fit_iff in G; [|exact Ld]. intros e Le.
  rewrite (ip_ext _ _ (fun i => (f i - poly c (nth i x 0)) + k * (g i - poly d (nth i x 0)))%C _ (fun i => poly e (nth i x 0))).
  - rewrite (ip_lin _ (fun i => f i - poly c (nth i x 0))%C), (F e Le), (G e Le). ring.
  - intros i _. rewrite combination_poly by lia. ring.
  - reflexivity.
Qed.
Lemma poly_conj : forall c u, poly (map Conj c) u = Conj (poly c u).
Proof. induction c as [|a c IH]; intros u; cbn [map poly]; [apply C_eq; cbn; ring|]. rewrite IH. apply C_eq; cbn; ring. Qed.
Lemma Fit_conj : forall f c, Fit f c -> Fit (fun i => Conj (f i)) (map Conj c).
Proof.
  intros f c F. pose proof (Fit_length _ _ F) as Lc. apply Fit_iff; [rewrite map_length; exact Lc|]. apply Fit_iff in F; [|exact Lc]. intros e Le.
  specialize (F (map Conj e) ltac:(rewrite map_length; exact Le)). apply (f_equal Conj) in F. replace (Conj C0) with C0 in F by (apply C_eq; cbn; ring). rewrite <- F.
  unfold inner. rewrite csum_conj. apply csum_ext. intros i _. rewrite !poly_conj. apply C_eq; cbn; ring.
Qed.
Lemma Fit_poly : forall c, length c = S N -> Fit (fun i => poly c (nth i x 0)) c.
Proof.
  intros c L. apply Fit_iff; [exact L|]. intros e Le. apply csum_const0. intros i _. apply C_eq; cbn; ring.
Qed.
Definition unit_fit (k : nat) : list C := polyfit x (at_ (delta k)) N.
Lemma unit_fit_ok : forall k, Fit (delta k) (unit_fit k).
Proof. intros k. apply C43_polyfit, at_length. Qed.
Lemma combination_head : forall c k d, length c = length d -> nth 0 (combination c k d) C0 = (nth 0 c C0 + k * nth 0 d C0)%C.
Proof. intros [|a c] k [|b d] H; cbn in *; try lia; [ring|reflexivity]. Qed.
Definition weight (k : nat) : R := re (nth 0 (unit_fit k) C0).
Lemma weight_real : forall k, nth 0 (unit_fit k) C0 = RtoC (weight k).
Proof.
  intros k. assert (E : unit_fit k = map Conj (unit_fit k)).
  { apply Fit_unique with (delta k); [apply unit_fit_ok|]. pose proof (Fit_conj _ _ (unit_fit_ok k)) as F. unfold Fit in *.
    replace (at_ (delta k)) with (at_ (fun i => Conj (delta k i))); [exact F|]. unfold at_. apply map_ext. intros i. unfold delta. destruct (Nat.eqb k i); apply C_eq; cbn; ring. }
  assert (K : Conj (nth 0 (unit_fit k) C0) = nth 0 (unit_fit k) C0).
  { rewrite E at 2. replace C0 with (Conj C0) at 2 by (apply C_eq; cbn; ring). rewrite map_nth. reflexivity. }
  apply C_eq; [reflexivity|]. apply (f_equal im) in K. cbn in *. lra.
Qed.
Lemma Fit_sum : forall (y : nat -> C) ks, exists c, Fit (fun i => csum (fun k => y k * delta k i)%C ks) c /\ nth 0 c C0 = csum (fun k => (RtoC (weight k) * y k)%C) ks.
Proof.
  intros y. induction ks as [|k ks (c & F & H)].
  - exists (repeat C0 (S N)). split; [|reflexivity]. pose proof (Fit_poly (repeat C0 (S N)) (repeat_length _ _)) as F. unfold Fit in *.
    replace (at_ (fun i => csum (fun k => y k * delta k i)%C [])) with (at_ (fun i => poly (repeat C0 (S N)) (nth i x 0))); [exact F|]. apply map_ext. intros i. rewrite poly_zeros. reflexivity.
  - exists (combination c (y k) (unit_fit k)). split.
    + pose proof (Fit_lin _ _ (y k) _ _ F (unit_fit_ok k)) as G. unfold Fit in *. cbn [csum].
      replace (at_ (fun i => y k * delta k i + csum (fun k => y k * delta k i) ks)%C) with (at_ (fun i => csum (fun k => y k * delta k i) ks + y k * delta k i)%C); [exact G|].
      apply map_ext. intros i. ring.
    + rewrite combination_head by (rewrite (Fit_length _ _ F), (Fit_length _ _ (unit_fit_ok k)); reflexivity). rewrite H, weight_real. cbn [csum]. ring.
Qed.
Lemma weights_ok : forall pf y, fits pf -> length y = length x -> nth 0 (pf x y N) C0 = csum (fun k => (RtoC (weight k) * nth k y C0)%C) (seq 0 n).
Proof.
  intros pf y HP L. destruct (Fit_sum (fun k => nth k y C0) (seq 0 n)) as (c & F & <-). f_equal. apply Fit_unique with (fun i => csum (fun k => (nth k y C0 * delta k i)%C) (seq 0 n)); [|exact F].
  unfold Fit. replace (at_ _) with y; [apply HP, L|].
  apply nth_ext with C0 C0; [rewrite at_length; exact L|]. intros i Hi. rewrite at_nth by (apply in_seq; unfold n; lia).
  symmetry. apply (csum_delta (fun k => nth k y C0)). unfold n. lia.
Qed.
Lemma weights_exact : forall c, length c = S N -> csum (fun k => (RtoC (weight k) * poly c (nth k x 0))%C) (seq 0 n) = nth 0 c C0.
Proof.
  intros c L. pose proof (weights_ok polyfit (at_ (fun i => poly c (nth i x 0))) C43_polyfit (at_length _)) as W.
  rewrite (Fit_unique _ _ _ (C43_polyfit x (at_ (fun i => poly c (nth i x 0))) N (at_length _)) (Fit_poly c L)) in W. rewrite W.
  apply csum_ext. intros k I. rewrite (at_nth (fun i => poly c (nth i x 0)) k I). reflexivity.
Qed.
End Weights.

(** Extrapolation of order N is a sum over the radii with real weights that depend on nothing but the radii at that time and N; the same
    weights serve all modes and all waveforms, and they give the constant term of every polynomial in 1/r of degree at most N. *)
Theorem C43_weights : forall N rs, NoDup rs -> (forall r, In r rs -> r <> 0) -> (N < length rs)%nat ->
  exists w : list R, length w = length rs /\
    (forall c, length c = S N -> csum (fun k => (RtoC (nth k w 0%R) * poly c (/ nth k rs 0%R))%C) (seq 0 (length rs)) = nth 0 c C0) /\
    forall pf W Radii Orders out i t m, fits pf -> Extrapolate pf W Radii Orders None false = Ok out -> nth_error Orders i = Some (Z.of_nat N) ->
      (t < match W with [] => 0 | w :: _ => n_times w end)%nat -> (m < match W with [] => 0 | w :: _ => f_modes w end)%nat ->
      map (fun r => nth t r 0%R) Radii = rs ->
      nth m (nth t (nth i out []) []) C0 = csum (fun k => (RtoC (nth k w 0%R) * nth m (nth t (f_data (nth k W (mkfrw 0 []))) []) C0)%C) (seq 0 (length rs)).
Proof.
  intros N rs ND NZ HN. set (x := map Rinv rs).
  assert (NX : NoDup x).
  { unfold x. clear HN. induction rs as [|r rs IH]; [constructor|]. inversion ND; subst. cbn [map]. constructor; [|apply IH; [assumption|intros; apply NZ; right; assumption]].
    intros I. apply in_map_iff in I. destruct I as (r' & E & I). apply H1. rewrite <- (Rinv_inv r), <- E, Rinv_inv. exact I. }
  assert (LX : length x = length rs) by apply map_length. assert (HX : (N < length x)%nat) by lia.
  exists (map (weight x N) (seq 0 (length rs))). split; [rewrite map_length, seq_length; reflexivity|].
  assert (WN : forall k, In k (seq 0 (length rs)) -> nth k (map (weight x N) (seq 0 (length rs))) 0 = weight x N k).
  { intros k I. apply in_seq in I. rewrite (nth_indep _ 0 (weight x N 0%nat)) by (rewrite map_length, seq_length; lia). rewrite map_nth, seq_nth by lia. reflexivity. }
  split.
  - intros c L. rewrite <- (weights_exact x N NX HX c L). rewrite LX. apply csum_ext. intros k I. rewrite (WN k I). do 2 f_equal. apply in_seq in I.
    unfold x. rewrite (nth_indep (map Rinv rs) 0 (/ 0)) by (rewrite map_length; lia). rewrite map_nth. reflexivity.
  - intros pf W Radii Orders out i t m HP H Hi Ht Hm ER.
    unfold Extrapolate in H. destruct (checks W Radii Orders None) as [[MaxN MinN]|] eqn:Ec; [|discriminate].
    cbn [rbind] in H. destruct (checks_ok _ _ _ _ _ _ Ec) as (E1 & E2 & HW & A1 & A2 & A3).
    assert (InN : In (Z.of_nat N) Orders) by (apply nth_error_In with i; exact Hi).
    assert (Nmax : (Z.of_nat N <= MaxN)%Z).
    { destruct Orders as [|o Orders]; [discriminate|]. simpl in E1. injection E1 as <-. apply fold_max_ge, InN. }
    destruct (MaxN <? 0)%Z eqn:E0; [apply Z.ltb_lt in E0; lia|].
    match type of H with (if ?b then _ else _) = _ => destruct b; [discriminate|] end.
    cbn [andb] in H. injection H as <-.
    rewrite (nth_map_at _ _ _ _ _ _ _ Hi).
    replace (Z.of_nat N <? 0)%Z with false by (symmetry; apply Z.ltb_ge; lia).
    rewrite (nth_map_at _ _ _ _ _ t _ (nth_error_seq_0 _ _ Ht)).
    unfold extrapolate_row. rewrite Nat2Z.id.
    replace (map (fun r => 1 / nth t r 0) Radii) with x by (unfold x; rewrite <- ER, map_map; apply map_ext; intros; unfold Rdiv; ring).
    rewrite (nth_map_at _ _ _ _ _ m _ (nth_error_seq_0 _ _ Hm)).
    assert (LS : length (samples W t m) = length x) by (pose proof (f_equal (@length R) ER) as EL; rewrite map_length in EL; unfold samples; rewrite map_length; lia).
    rewrite (weights_ok x N NX HX pf _ HP LS). rewrite LX. apply csum_ext. intros k I. rewrite (WN k I). f_equal. apply in_seq in I.
    unfold samples. rewrite (nth_indep _ C0 (nth m (nth t (f_data (mkfrw 0 [])) []) C0)) by (fold (samples W t m); rewrite LS, LX; lia).
    rewrite (map_nth (fun w => nth m (nth t (f_data w) []) C0)). reflexivity.
Qed.

(** ** Order of the radii, unit of length *)
Lemma extrapolated : forall pf W Radii Orders out i t m N, Extrapolate pf W Radii Orders None false = Ok out -> nth_error Orders i = Some (Z.of_nat N) ->
  (t < match W with [] => 0 | w :: _ => n_times w end)%nat -> (m < match W with [] => 0 | w :: _ => f_modes w end)%nat ->
  length Radii = length W /\ (N < length W)%nat /\
  nth m (nth t (nth i out []) []) C0 = nth 0 (pf (map (fun r => / nth t r 0) Radii) (map (fun w => nth m (nth t (f_data w) []) C0) W) N) C0.
Proof.
  intros pf W Radii Orders out i t m N H Hi Ht Hm.
  unfold Extrapolate in H. destruct (checks W Radii Orders None) as [[MaxN MinN]|] eqn:Ec; [|discriminate].
  cbn [rbind] in H. destruct (checks_ok _ _ _ _ _ _ Ec) as (E1 & E2 & HW & A1 & A2 & A3).
  assert (InN : In (Z.of_nat N) Orders) by (apply nth_error_In with i; exact Hi).
  assert (Nmax : (Z.of_nat N <= MaxN)%Z).
  { destruct Orders as [|o Orders]; [discriminate|]. simpl in E1. injection E1 as <-. apply fold_max_ge, InN. }
  destruct (MaxN <? 0)%Z eqn:E0; [apply Z.ltb_lt in E0; lia|].
  match type of H with (if ?b then _ else _) = _ => destruct b; [discriminate|] end.
  cbn [andb] in H. injection H as <-. split; [exact A3|]. split. { destruct (Nat.eq_dec N 0) as [->|]; [destruct W; [congruence|cbn; lia]|lia]. }
  rewrite (nth_map_at _ _ _ _ _ _ _ Hi).
  replace (Z.of_nat N <? 0)%Z with false by (symmetry; apply Z.ltb_ge; lia).
  rewrite (nth_map_at _ _ _ _ _ t _ (nth_error_seq_0 _ _ Ht)). unfold extrapolate_row. rewrite Nat2Z.id.
  rewrite (nth_map_at _ _ _ _ _ m _ (nth_error_seq_0 _ _ Hm)). unfold samples. do 2 f_equal. apply map_ext. intros r. unfold Rdiv. ring.
Qed.
Lemma NoDup_inv : forall l, NoDup l -> NoDup (map Rinv l).
Proof.
  induction l as [|r l IH]; intros ND; [constructor|]. inversion ND; subst. cbn [map]. constructor; [|apply IH; assumption].
  intros I. apply in_map_iff in I. destruct I as (r' & E & I). apply H1. rewrite <- (Rinv_inv r), <- E, Rinv_inv. exact I.
Qed.
Lemma combine_fst : forall A B (x : list A) (y : list B), length x = length y -> map fst (combine x y) = x.
Proof. intros A B. induction x as [|a x IH]; intros [|b y] H; cbn in *; try lia; [reflexivity|]. f_equal. apply IH. lia. Qed.
Lemma combine_maps : forall A B A' B' (f : A -> A') (g : B -> B') x y, combine (map f x) (map g y) = map (fun p => (f (fst p), g (snd p))) (combine x y).
Proof. intros A B A' B' f g. induction x as [|a x IH]; intros [|b y]; try reflexivity. cbn [map combine fst snd]. rewrite IH. reflexivity. Qed.
Lemma best_fit_order : forall x y x' y' N c, Permutation (combine x y) (combine x' y') -> best_fit x y N c -> best_fit x' y' N c.
Proof. intros x y x' y' N c H [L B]. split; [exact L|]. intros c' L'. unfold misfit in *. rewrite <- !(rsum_perm _ _ _ _ H). apply B, L'. Qed.

(** The order in which the waveforms are given, together with their radii, does not matter. *)
Theorem C43_order : forall pf W Radii W' Radii' Orders out out' i t m N, fits pf -> Permutation (combine Radii W) (combine Radii' W') ->
  Extrapolate pf W Radii Orders None false = Ok out -> Extrapolate pf W' Radii' Orders None false = Ok out' -> nth_error Orders i = Some (Z.of_nat N) ->
  (t < match W with [] => 0 | w :: _ => n_times w end)%nat -> (m < match W with [] => 0 | w :: _ => f_modes w end)%nat ->
  (t < match W' with [] => 0 | w :: _ => n_times w end)%nat -> (m < match W' with [] => 0 | w :: _ => f_modes w end)%nat ->
  NoDup (map (fun r => nth t r 0) Radii) ->
  nth m (nth t (nth i out []) []) C0 = nth m (nth t (nth i out' []) []) C0.
Proof.
  intros pf W Radii W' Radii' Orders out out' i t m N HP P H H' Hi Ht Hm Ht' Hm' ND.
  destruct (extrapolated _ _ _ _ _ _ _ _ _ H Hi Ht Hm) as (L & LN & ->). destruct (extrapolated _ _ _ _ _ _ _ _ _ H' Hi Ht' Hm') as (L' & LN' & ->).
  set (x := map (fun r => / nth t r 0) Radii). set (y := map (fun w => nth m (nth t (f_data w) []) C0) W).
  set (x' := map (fun r => / nth t r 0) Radii'). set (y' := map (fun w => nth m (nth t (f_data w) []) C0) W').
  assert (Ly : length y = length x) by (unfold x, y; rewrite !map_length; lia). assert (Ly' : length y' = length x') by (unfold x', y'; rewrite !map_length; lia).
  assert (PP : Permutation (combine x' y') (combine x y)) by (unfold x, y, x', y'; rewrite !combine_maps; apply Permutation_map, Permutation_sym, P).
  f_equal. apply C43_unique with x y N.
  - unfold x. replace (map (fun r => / nth t r 0) Radii) with (map Rinv (map (fun r => nth t r 0) Radii)) by (rewrite map_map; reflexivity). apply NoDup_inv, ND.
  - unfold x. rewrite map_length. lia.
  - exact Ly.
  - apply HP, Ly.
  - apply best_fit_order with x' y'; [exact PP|]. apply HP, Ly'.
Qed.

Fixpoint rescale (k s : R) (c : list C) : list C := match c with [] => [] | a :: r => (RtoC s * a)%C :: rescale k (s * k) r end.
Lemma rescale_length : forall k c s, length (rescale k s c) = length c.
Proof. intros k. induction c as [|a c IH]; intros s; [reflexivity|]. cbn [rescale length]. rewrite IH. reflexivity. Qed.
Lemma rescale_poly : forall k c s x, poly (rescale k s c) x = (RtoC s * poly c (k * x))%C.
Proof.
  intros k. induction c as [|a c IH]; intros s x; cbn [rescale poly]; [ring|]. rewrite IH.
  replace (RtoC (s * k)) with (RtoC s * RtoC k)%C by cx. replace (RtoC (k * x)) with (RtoC k * RtoC x)%C by cx. ring.
Qed.
Lemma misfit_scaled : forall k x y c, misfit (map (Rmult k) x) y c = misfit x y (rescale k 1 c).
Proof.
  intros k x y c. unfold misfit. replace (combine (map (Rmult k) x) y) with (map (fun p => (k * fst p, snd p)) (combine x y)).
  - rewrite rsum_map. apply rsum_ext. intros p _. cbn [fst snd]. rewrite rescale_poly. f_equal. f_equal. replace (RtoC 1) with C1 by cx. ring.
  - revert y. induction x as [|a x IH]; intros [|b y]; try reflexivity. cbn [map combine fst snd]. rewrite IH. reflexivity.
Qed.
Lemma best_fit_scaled : forall k x y N c, k <> 0 -> best_fit (map (Rmult k) x) y N c -> best_fit x y N (rescale k 1 c).
Proof.
  intros k x y N c K [L B]. split; [rewrite rescale_length; exact L|]. intros c' L'. rewrite <- misfit_scaled.
  specialize (B (rescale (/ k) 1 c') ltac:(rewrite rescale_length; exact L')). rewrite <- misfit_scaled, map_map in B.
  replace (map (fun u => / k * (k * u)) x) with x in B; [exact B|]. rewrite <- (map_id x) at 1. apply map_ext. intros u. field. exact K.
Qed.
(** The unit in which the radii are given does not matter. *)
Theorem C43_units : forall pf W Radii k Orders out out' i t m N, fits pf -> k <> 0 ->
  Extrapolate pf W Radii Orders None false = Ok out -> Extrapolate pf W (map (map (Rmult k)) Radii) Orders None false = Ok out' -> nth_error Orders i = Some (Z.of_nat N) ->
  (t < match W with [] => 0 | w :: _ => n_times w end)%nat -> (m < match W with [] => 0 | w :: _ => f_modes w end)%nat ->
  NoDup (map (fun r => nth t r 0) Radii) ->
  nth m (nth t (nth i out []) []) C0 = nth m (nth t (nth i out' []) []) C0.
Proof.
  intros pf W Radii k Orders out out' i t m N HP K H H' Hi Ht Hm ND.
  destruct (extrapolated _ _ _ _ _ _ _ _ _ H Hi Ht Hm) as (L & LN & ->). destruct (extrapolated _ _ _ _ _ _ _ _ _ H' Hi Ht Hm) as (_ & _ & ->).
  set (x := map (fun r => / nth t r 0) Radii). set (y := map (fun w => nth m (nth t (f_data w) []) C0) W).
  replace (map (fun r => / nth t r 0) (map (map (Rmult k)) Radii)) with (map (Rmult (/ k)) x).
  2:{ unfold x. rewrite !map_map. apply map_ext. intros r. replace (nth t (map (Rmult k) r) 0) with (k * nth t r 0).
      - rewrite Rinv_mult. reflexivity.
      - replace 0 with (k * 0) at 2 by ring. rewrite map_nth. reflexivity. }
  assert (Ly : length y = length x) by (unfold x, y; rewrite !map_length; lia).
  assert (E : pf x y N = rescale (/ k) 1 (pf (map (Rmult (/ k)) x) y N)).
  { apply C43_unique with x y N.
    - unfold x. replace (map (fun r => / nth t r 0) Radii) with (map Rinv (map (fun r => nth t r 0) Radii)) by (rewrite map_map; reflexivity). apply NoDup_inv, ND.
    - unfold x. rewrite map_length. lia.
    - exact Ly.
    - apply HP, Ly.
    - apply best_fit_scaled; [apply Rinv_neq_0_compat, K|]. apply HP. rewrite map_length. exact Ly. }
  rewrite E. destruct (pf (map (Rmult (/ k)) x) y N) as [|a r]; [reflexivity|]. cbn. cx.
Qed.

(** ** Straight lines *)
Lemma total_squares : forall a b t, total (map (fun u => (a * u + b) ^ 2) t) = a ^ 2 * total (map (fun u => u * u) t) + 2 * a * b * total t + b ^ 2 * INR (length t).
Proof.
  intros a b. unfold total. induction t as [|u t IH]; [cbn; ring|]. cbn [map fold_right length]. rewrite IH, S_INR. ring.
Qed.
Lemma misfit_sums : forall t y s c, length y = length t -> Rest_Proofs.misfit t y s c =
  s ^ 2 * total (map (fun u => u * u) t) + 2 * s * c * total t + c ^ 2 * INR (length t)
  - 2 * s * total (map (fun p => fst p * snd p) (combine t y)) - 2 * c * total y + total (map (fun u => u * u) y).
Proof.
  intros t y s c. revert y. unfold Rest_Proofs.misfit, total. induction t as [|u t IH]; intros [|v y] L; cbn [length] in L; try lia; [cbn; ring|].
  cbn [combine map fold_right length fst snd]. rewrite IH by lia. rewrite S_INR. ring.
Qed.
(** The straight line of the normal equations minimises the sum of squares. *)
Theorem C70_line : Rest_Proofs.least_squares line.
Proof.
  intros t y L (t1 & t2 & I1 & I2 & Ne) s c. rewrite !misfit_sums by exact L. unfold line. cbv zeta.
  set (n := INR (length t)). set (st := total t). set (stt := total (map (fun a => a * a) t)). set (sy := total y).
  set (sty := total (map (fun p => fst p * snd p) (combine t y))). set (d := n * stt - st * st). cbn [fst snd].
  assert (NP : 0 < n). { unfold n. apply lt_0_INR. destruct t; [destruct I1|cbn; lia]. }
  assert (D : d <> 0).
  { intros Z. pose proof (total_squares n (- st) t) as T. fold st stt n in T.
    assert (T0 : total (map (fun u => (n * u + - st) ^ 2) t) <= 0) by (rewrite T; unfold d in Z; replace (n ^ 2 * stt + 2 * n * - st * st + (- st) ^ 2 * n) with (n * (n * stt - st * st)) by ring; rewrite Z; lra).
    pose proof (Rest_Proofs.squares_zero _ (fun u => n * u + - st) t T0 t1 I1) as Q1. pose proof (Rest_Proofs.squares_zero _ (fun u => n * u + - st) t T0 t2 I2) as Q2. cbv beta in Q1, Q2.
    apply Ne. apply Rmult_eq_reg_l with n; lra. }
  set (s0 := (n * sty - st * sy) / d). set (c0 := (stt * sy - st * sty) / d).
  assert (E1 : s0 * stt + c0 * st = sty) by (unfold s0, c0; fold d; unfold d in *; field; exact D).
  assert (E2 : s0 * st + c0 * n = sy) by (unfold s0, c0; unfold d in *; field; exact D).
  assert (P : 0 <= total (map (fun u => ((s - s0) * u + (c - c0)) ^ 2) t)).
  { unfold total. clearbody s0 c0. clear. induction t as [|u t IH]; cbn [map fold_right]; [lra|]. pose proof (pow2_ge_0 ((s - s0) * u + (c - c0))). lra. }
  rewrite total_squares in P. fold st stt n in P. rewrite <- E1, <- E2. nra.
Qed.
(** A centre-of-mass charge g + v t, sampled at any times that are not all equal, gives boost v and translation g. *)
Theorem C70_com_fit_line : forall t g v, (exists t1 t2, In t1 t /\ In t2 t /\ t1 <> t2) ->
  let b := Rest_Model.from_CoM_charge line (map (fun u => ABD_Model.v3add (ABD_Model.v3scale u v) g) t) t in
  Superrest_Model.boost b = v /\ Superrest_Model.rot b = Quat.q1 /\ forall n, Kwargs_Proofs.alpha01 (Superrest_Model.sup b) n = RtoC (- Kwargs_Proofs.dot3 g n).
Proof. intros t g v D. destruct (Rest_Proofs.C70_com_fit line t g v C70_line D) as (F1 & F2 & _ & F4). repeat split; assumption. Qed.

(** ** Case *)
(** Radii 1 and 2, first order, any data: the weights are -1 and 2. *)
Example C43_case_weights : forall y1 y2 : C, NoDup [1; 2] /\ fits polyfit /\
  polyfit [/ 1; / 2] [y1; y2] 1 = [RtoC (-1) * y1 + RtoC 2 * y2; RtoC 2 * y1 - RtoC 2 * y2]%C /\
  (forall c, length c = 2%nat -> csum (fun k => (RtoC (nth k [-1; 2] 0%R) * poly c (/ nth k [1; 2] 0%R))%C) (seq 0 2) = nth 0 c C0) /\
  Extrapolate polyfit [mkfrw 1 [[y1]]; mkfrw 1 [[y2]]] [[1]; [2]] [1%Z] None false = Ok [[[RtoC (-1) * y1 + RtoC 2 * y2]]]%C.
Proof.
  intros y1 y2. assert (ND : NoDup [1; 2]) by (repeat constructor; cbn; intros H; intuition lra). split; [exact ND|]. split; [exact C43_polyfit|].
  assert (E : polyfit [/ 1; / 2] [y1; y2] 1 = [RtoC (-1) * y1 + RtoC 2 * y2; RtoC 2 * y1 - RtoC 2 * y2]%C).
  { set (c := [RtoC (-1) * y1 + RtoC 2 * y2; RtoC 2 * y1 - RtoC 2 * y2]%C).
    assert (Y : [y1; y2] = map (poly c) [/ 1; / 2]) by (cbn; repeat f_equal; apply C_eq; cbn; field).
    apply best_fit_exact with (x := [/ 1; / 2]) (N := 1%nat); [|cbn; lia|reflexivity|rewrite <- Y; apply C43_polyfit; reflexivity].
    repeat constructor; cbn; intros H; intuition lra. }
  split; [exact E|]. split.
  - intros [|a [|b [|e c]]] L; try discriminate L. cbn. apply C_eq; cbn; field.
  - unfold Extrapolate. cbn [checks zmax zmin fold_left length Z.of_nat]. cbn -[polyfit Rdiv Rinv]. unfold samples. cbn -[polyfit Rdiv Rinv].
    replace [1 / 1; 1 / 2] with [/ 1; / 2] by (unfold Rdiv; rewrite !Rmult_1_l; reflexivity).
    change (Pos.to_nat 1) with 1%nat. rewrite E. reflexivity.
Qed.

Example C43_case_order : forall y1 y2 : C,
  Extrapolate polyfit [mkfrw 1 [[y2]]; mkfrw 1 [[y1]]] [[2]; [1]] [1%Z] None false = Ok [[[RtoC (-1) * y1 + RtoC 2 * y2]]]%C /\
  Extrapolate polyfit [mkfrw 1 [[y1]]; mkfrw 1 [[y2]]] [[3 * 1]; [3 * 2]] [1%Z] None false = Ok [[[RtoC (-1) * y1 + RtoC 2 * y2]]]%C.
Proof.
  intros y1 y2. destruct (C43_case_weights y1 y2) as (ND & _ & _ & _ & H).
  assert (S1 : exists v, Extrapolate polyfit [mkfrw 1 [[y2]]; mkfrw 1 [[y1]]] [[2]; [1]] [1%Z] None false = Ok [[[v]]]) by (eexists; reflexivity).
  assert (S2 : exists v, Extrapolate polyfit [mkfrw 1 [[y1]]; mkfrw 1 [[y2]]] [[3 * 1]; [3 * 2]] [1%Z] None false = Ok [[[v]]]) by (eexists; reflexivity).
  destruct S1 as [v1 S1]. destruct S2 as [v2 S2]. rewrite S1, S2. split; repeat f_equal.
  - symmetry. assert (P : Permutation (combine [[1]; [2]] [mkfrw 1 [[y1]]; mkfrw 1 [[y2]]]) (combine [[2]; [1]] [mkfrw 1 [[y2]]; mkfrw 1 [[y1]]])) by apply perm_swap.
    exact (C43_order polyfit _ _ _ _ _ _ _ 0 0 0 1 C43_polyfit P H S1 eq_refl (Nat.lt_0_succ _) (Nat.lt_0_succ _) (Nat.lt_0_succ _) (Nat.lt_0_succ _) ND).
  - symmetry. assert (K : 3 <> 0) by lra. exact (C43_units polyfit _ _ 3 _ _ _ 0 0 0 1 C43_polyfit K H S2 eq_refl (Nat.lt_0_succ _) (Nat.lt_0_succ _) ND).
Qed.
