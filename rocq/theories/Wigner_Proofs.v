(** * The documented D matrices are a unitary representation of the unit quaternions

    This discharges, for the documented formula, what the theorems of C25 assume of the external package. *)
From Coq Require Import Reals ZArith List Bool Lia Lra Permutation.
From Verif Require Import Common Cplx Quat Modes_Model Modal_Model Transform_Model Rotate_Model Modal_Proofs Rotate_Proofs Wigner_Model.
Import ListNotations.
Open Scope R_scope.

(** ** Polynomials as lists of coefficients *)
Fixpoint padd (p q : list C) : list C :=
  match p, q with [], _ => q | _, [] => p | a :: p', b :: q' => (a + b)%C :: padd p' q' end.
Fixpoint pmul (p q : list C) : list C :=
  match p with [] => [] | a :: p' => padd (map (Cmul a) q) (C0 :: pmul p' q) end.
Fixpoint ppow (p : list C) (n : nat) : list C := match n with O => [C1] | S n' => pmul p (ppow p n') end.
(** Homogeneous polynomial of degree n: the coefficient number k belongs to x^k y^(n-k). *)
Fixpoint hev (p : list C) (n : nat) (x y : C) : C :=
  match p with [] => C0 | c :: r => (c * Cpow y n + x * hev r (n - 1) x y)%C end.

Lemma padd_nth : forall p q k, nth k (padd p q) C0 = (nth k p C0 + nth k q C0)%C.
Proof.
  induction p as [|a p IH]; intros [|b q] k; cbn [padd].
  - destruct k; cbn; ring.
  - destruct k; cbn [nth]; ring.
  - destruct k; cbn [nth]; ring.
  - destruct k; cbn [nth]; [reflexivity|apply IH].
Qed.
Lemma pscale_nth : forall c p k, nth k (map (Cmul c) p) C0 = (c * nth k p C0)%C.
Proof. intros c. induction p as [|a p IH]; intros [|k]; cbn [map nth]; [ring|ring|reflexivity|apply IH]. Qed.
Lemma padd_length : forall p q, length (padd p q) = Nat.max (length p) (length q).
Proof. induction p as [|a p IH]; intros [|b q]; cbn; auto. Qed.
Lemma pmul_length : forall p q, (length q > 0)%nat -> (length (pmul p q) <= length p + length q - 1)%nat.
Proof.
  induction p as [|a p IH]; intros q H; cbn [pmul]; [cbn; lia|]. rewrite padd_length, map_length. cbn [length].
  specialize (IH q H). lia.
Qed.
Lemma pmul_pos : forall p q, (length p > 0)%nat -> (length q > 0)%nat -> (length (pmul p q) > 0)%nat.
Proof. intros [|a p] q H H'; cbn in H; [lia|]. cbn [pmul]. rewrite padd_length, map_length. lia. Qed.
Lemma ppow_length : forall c d n, (0 < length (ppow [c; d] n) <= S n)%nat.
Proof.
  intros c d. induction n as [|n IH]; cbn [ppow]; [cbn; lia|].
  pose proof (pmul_length [c; d] (ppow [c; d] n) ltac:(lia)) as H. pose proof (pmul_pos [c; d] (ppow [c; d] n) ltac:(cbn; lia) ltac:(lia)).
  cbn [length] in H. lia.
Qed.

Lemma Cpow_add : forall z a b, Cpow z (a + b) = (Cpow z a * Cpow z b)%C.
Proof. intros z. induction a as [|a IH]; intros b; cbn [plus Cpow]; [ring|rewrite IH; ring]. Qed.
Lemma Cpow_mul : forall z w n, Cpow (z * w)%C n = (Cpow z n * Cpow w n)%C.
Proof. intros z w. induction n as [|n IH]; cbn [Cpow]; [ring|rewrite IH; ring]. Qed.
Lemma Cpow_1 : forall n, Cpow C1 n = C1.
Proof. induction n as [|n IH]; cbn [Cpow]; [reflexivity|rewrite IH; ring]. Qed.
Lemma Cpow_0 : forall n, (0 < n)%nat -> Cpow C0 n = C0.
Proof. intros [|n] H; [lia|]. cbn [Cpow]. ring. Qed.
Lemma Cpow_conj : forall z n, Conj (Cpow z n) = Cpow (Conj z) n.
Proof. intros z. induction n as [|n IH]; cbn [Cpow]; [cx|rewrite Conj_mul, IH; reflexivity]. Qed.
Lemma Cpow_neg1 : forall n, Cpow (- C1)%C n = RtoC ((-1) ^ n).
Proof. induction n as [|n IH]; cbn [Cpow pow]; [reflexivity|rewrite IH, RtoC_mul; cx]. Qed.

Lemma hev_add : forall p q n x y, hev (padd p q) n x y = (hev p n x y + hev q n x y)%C.
Proof.
  induction p as [|a p IH]; intros [|b q] n x y; cbn [padd hev]; try ring. rewrite IH. ring.
Qed.
Lemma hev_scale : forall c p n x y, hev (map (Cmul c) p) n x y = (c * hev p n x y)%C.
Proof. intros c. induction p as [|a p IH]; intros n x y; cbn [map hev]; [ring|rewrite IH; ring]. Qed.
Lemma hev_raise : forall p n k x y, (length p <= S n)%nat -> hev p (n + k) x y = (Cpow y k * hev p n x y)%C.
Proof.
  induction p as [|a p IH]; intros n k x y H; cbn [hev]; [ring|]. cbn in H. rewrite Cpow_add.
  destruct n as [|n].
  - destruct p; [|cbn in H; lia]. cbn [hev]. ring.
  - replace (S n + k - 1)%nat with (n + k)%nat by lia. rewrite IH by lia. replace (S n - 1)%nat with n by lia. ring.
Qed.
Lemma hev_mul : forall p q n k x y, (length p <= S n)%nat -> (0 < length q <= S k)%nat ->
  hev (pmul p q) (n + k) x y = (hev p n x y * hev q k x y)%C.
Proof.
  induction p as [|a p IH]; intros q n k x y Hp Hq; cbn [pmul hev]; [ring|]. cbn in Hp.
  rewrite hev_add, hev_scale. cbn [hev]. rewrite (Nat.add_comm n k), hev_raise by lia.
  destruct n as [|n].
  - destruct p; [|cbn in Hp; lia]. cbn [pmul hev]. ring.
  - replace (k + S n - 1)%nat with (n + k)%nat by lia. rewrite IH by lia. replace (S n - 1)%nat with n by lia. ring.
Qed.
Lemma hev_pow : forall c d n x y, hev (ppow [c; d] n) n x y = Cpow (d * x + c * y)%C n.
Proof.
  intros c d. induction n as [|n IH]; intros x y; [cbn; cx|]. cbn [ppow Cpow]. pose proof (ppow_length c d n).
  change (S n) with (1 + n)%nat. rewrite hev_mul by (cbn [length]; lia). rewrite IH. f_equal. cbn [hev Nat.sub Cpow]. ring.
Qed.
Lemma csum_head : forall (f : nat -> C) n, csum f (seq 0 (S n)) = (f 0%nat + csum (fun k => f (S k)) (seq 0 n))%C.
Proof. intros f n. rewrite <- cons_seq. cbn [csum]. rewrite <- (seq_shift n 0), csum_map. reflexivity. Qed.
(** Expansion in monomials. *)
Lemma hev_sum : forall p n x y, (length p <= S n)%nat ->
  hev p n x y = csum (fun k => (nth k p C0 * (Cpow x k * Cpow y (n - k)))%C) (seq 0 (S n)).
Proof.
  induction p as [|a p IH]; intros n x y H.
  - cbn [hev]. symmetry. apply csum_const0. intros k _. destruct k; cbn [nth]; ring.
  - cbn in H. cbn [hev]. destruct n as [|n].
    + destruct p; [|cbn in H; lia]. cbn. cx.
    + replace (S n - 1)%nat with n by lia. rewrite IH by lia. rewrite (csum_head _ (S n)). cbn [nth Cpow]. rewrite Nat.sub_0_r.
      rewrite <- csum_scale.
      match goal with |- (_ + ?v = _ + ?z)%C => assert (EV : v = z); [|rewrite EV; cbn [Cpow]; ring] end.
      apply csum_ext. intros k _. cbn [nth Cpow]. rewrite Nat.sub_succ. ring.
Qed.

(** ** A polynomial that vanishes everywhere has no coefficients *)
Fixpoint rev_ (p : list R) (x : R) : R := match p with [] => 0 | c :: r => c + x * rev_ r x end.
Lemma rev_bound : forall p, exists M, 0 <= M /\ forall x, Rabs x <= 1 -> Rabs (rev_ p x) <= M.
Proof.
  induction p as [|c p (M & HM & H)]; [exists 0; split; [lra|]; intros; cbn; rewrite Rabs_R0; lra|].
  exists (Rabs c + M). split; [pose proof (Rabs_pos c); lra|]. intros x Hx. cbn [rev_].
  eapply Rle_trans; [apply Rabs_triang|]. rewrite Rabs_mult. specialize (H x Hx). pose proof (Rabs_pos x). pose proof (Rabs_pos (rev_ p x)). nra.
Qed.
Lemma rev_zero : forall p, (forall x, x <> 0 -> rev_ p x = 0) -> forall k, nth k p 0 = 0.
Proof.
  induction p as [|c p IH]; intros H k; [destruct k; reflexivity|].
  assert (C0' : c = 0).
  { destruct (Req_dec c 0) as [|N]; [assumption|exfalso]. destruct (rev_bound p) as (M & HM & HB).
    assert (Pc : 0 < Rabs c) by (apply Rabs_pos_lt; exact N).
    set (x := Rmin 1 (Rabs c / (2 * (M + 1)))).
    assert (D : 0 < Rabs c / (2 * (M + 1))) by (apply Rdiv_lt_0_compat; lra).
    assert (Px : 0 < x) by (apply Rmin_glb_lt; lra). assert (X1 : x <= 1) by apply Rmin_l.
    assert (X2 : x <= Rabs c / (2 * (M + 1))) by apply Rmin_r.
    specialize (H x ltac:(lra)). cbn [rev_] in H. specialize (HB x ltac:(rewrite Rabs_right; lra)).
    assert (E : c = - (x * rev_ p x)) by lra. assert (E2 : Rabs c = x * Rabs (rev_ p x)).
    { rewrite E at 1. rewrite Rabs_Ropp, Rabs_mult, (Rabs_right x) by lra. reflexivity. }
    assert (x * M <= Rabs c / (2 * (M + 1)) * M) by (apply Rmult_le_compat_r; lra).
    assert (x * Rabs (rev_ p x) <= x * M) by (apply Rmult_le_compat_l; lra).
    assert (F : Rabs c / (2 * (M + 1)) * M = Rabs c * (M / (2 * (M + 1)))) by (field; lra).
    assert (G : M / (2 * (M + 1)) < 1) by (apply Rmult_lt_reg_r with (2 * (M + 1)); [lra|]; unfold Rdiv; rewrite Rmult_assoc, Rinv_l by lra; lra).
    assert (Rabs c * (M / (2 * (M + 1))) < Rabs c * 1) by (apply Rmult_lt_compat_l; lra). lra. }
  destruct k; [exact C0'|]. cbn [nth]. apply IH. intros x Hx. specialize (H x Hx). cbn [rev_] in H. subst c.
  assert (x * rev_ p x = 0) by lra. destruct (Rmult_integral _ _ H0); [contradiction|assumption].
Qed.
Lemma hev_re : forall p n x, re (hev p n (RtoC x) C1) = rev_ (map re p) x /\ im (hev p n (RtoC x) C1) = rev_ (map im p) x.
Proof.
  induction p as [|c p IH]; intros n x; cbn [hev map rev_]; [split; reflexivity|]. rewrite Cpow_1.
  destruct (IH (n - 1)%nat x) as [A B]. cbn [re im Cadd Cmul RtoC C1]. rewrite A, B. split; ring.
Qed.
Lemma coefficients_unique : forall (f g : nat -> C) n,
  (forall x : R, csum (fun k => (f k * Cpow (RtoC x) k)%C) (seq 0 (S n)) = csum (fun k => (g k * Cpow (RtoC x) k)%C) (seq 0 (S n))) ->
  forall k, (k <= n)%nat -> f k = g k.
Proof.
  intros f g n H k Hk. set (p := map (fun k => (f k - g k)%C) (seq 0 (S n))).
  assert (LP : length p = S n) by (unfold p; rewrite map_length, seq_length; reflexivity).
  assert (NP : forall k, (k <= n)%nat -> nth k p C0 = (f k - g k)%C).
  { intros j Hj. unfold p. rewrite (nth_indep _ C0 (f 0%nat - g 0%nat)%C) by (rewrite map_length, seq_length; lia).
    rewrite (map_nth (fun k => (f k - g k)%C)). rewrite seq_nth by lia. reflexivity. }
  assert (Z : forall x, hev p n (RtoC x) C1 = C0).
  { intros x. rewrite hev_sum by lia.
    transitivity (csum (fun k => (f k * Cpow (RtoC x) k)%C) (seq 0 (S n)) - csum (fun k => (g k * Cpow (RtoC x) k)%C) (seq 0 (S n)))%C.
    - assert (SB : forall (u v : nat -> C) l, csum (fun k => (u k - v k)%C) l = (csum u l - csum v l)%C).
      { induction l as [|j l IHl]; cbn [csum]; [ring|rewrite IHl; ring]. }
      rewrite <- SB. apply csum_ext. intros j Hj. apply in_seq in Hj. rewrite NP by lia. rewrite Cpow_1. ring.
    - rewrite H. ring. }
  assert (ZR : forall k, nth k (map re p) 0 = 0).
  { apply rev_zero. intros x _. rewrite <- (proj1 (hev_re p n x)), Z. reflexivity. }
  assert (ZI : forall k, nth k (map im p) 0 = 0).
  { apply rev_zero. intros x _. rewrite <- (proj2 (hev_re p n x)), Z. reflexivity. }
  assert (E : nth k p C0 = C0).
  { apply C_eq.
    - specialize (ZR k). change 0 with (re C0) in ZR. rewrite map_nth in ZR. exact ZR.
    - specialize (ZI k). change 0 with (im C0) in ZI. rewrite map_nth in ZI. exact ZI. }
  rewrite NP in E by lia. transitivity (f k - g k + g k)%C; [ring|rewrite E; ring].
Qed.

(** ** Coefficients of products and powers *)
Lemma pmul_nth : forall p q k, nth k (pmul p q) C0 = csum (fun i => (nth i p C0 * nth (k - i) q C0)%C) (seq 0 (S k)).
Proof.
  induction p as [|a p IH]; intros q k.
  - cbn [pmul]. rewrite csum_const0; [destruct k; reflexivity|]. intros i _. destruct i; cbn [nth]; ring.
  - cbn [pmul]. rewrite padd_nth, pscale_nth. rewrite csum_head. cbn [nth]. rewrite Nat.sub_0_r. f_equal.
    destruct k as [|k]; [reflexivity|]. cbn [nth]. rewrite IH.
    apply csum_ext. intros i _. cbn [nth]. reflexivity.
Qed.
Lemma bin_zero : forall n k, (n < k)%nat -> bin n k = 0%nat.
Proof. induction n as [|n IH]; intros [|k] H; try lia; [reflexivity|]. cbn. rewrite !IH by lia. reflexivity. Qed.
Lemma bin_n_0 : forall n, bin n 0 = 1%nat.
Proof. destruct n; reflexivity. Qed.
Lemma ppow_nth : forall c d n k, nth k (ppow [c; d] n) C0 = (RtoC (INR (bin n k)) * (Cpow d k * Cpow c (n - k)))%C.
Proof.
  intros c d. induction n as [|n IH]; intros k.
  - cbn [ppow]. destruct k as [|[|k]]; cbn [nth bin]; cx.
  - cbn [ppow pmul]. rewrite !padd_nth, !pscale_nth. rewrite IH. destruct k as [|k].
    + cbn [nth bin Nat.sub Cpow]. rewrite Nat.sub_0_r, bin_n_0. ring.
    + cbn [nth]. rewrite padd_nth, pscale_nth. rewrite IH.
      assert (Z : nth k [C0] C0 = C0) by (destruct k as [|[|k]]; reflexivity).
      rewrite Z. cbn [bin]. rewrite plus_INR, RtoC_add. cbn [Nat.sub Cpow].
      destruct (Nat.le_gt_cases n k) as [G|G].
      * rewrite (bin_zero n (S k)) by lia. cbn [INR]. replace (n - S k)%nat with 0%nat by lia. replace (n - k)%nat with 0%nat by lia. cbn [Cpow].
        change (RtoC 0) with C0. ring.
      * replace (n - k)%nat with (S (n - S k)) by lia. cbn [Cpow]. ring.
Qed.
Lemma bin_fact : forall n k, (k <= n)%nat -> (bin n k * (fact k * fact (n - k)) = fact n)%nat.
Proof.
  induction n as [|n IH]; intros k H.
  - assert (k = 0%nat) by lia. subst. reflexivity.
  - destruct k as [|k]; [cbn [bin]; rewrite Nat.sub_0_r; cbn [fact]; lia|]. cbn [bin].
    destruct (Nat.eq_dec k n) as [->|N].
    + rewrite (bin_zero n (S n)) by lia. specialize (IH n ltac:(lia)). rewrite Nat.sub_diag in *. cbn [fact] in *. nia.
    + pose proof (IH k ltac:(lia)) as A. pose proof (IH (S k) ltac:(lia)) as B.
      rewrite Nat.sub_succ. replace (n - k)%nat with (S (n - S k)) in * by lia.
      change (fact (S (n - S k))) with (S (n - S k) * fact (n - S k))%nat in *.
      change (fact (S k)) with (S k * fact k)%nat in *. change (fact (S n)) with (S n * fact n)%nat.
      set (F := fact (n - S k)) in *. set (G := fact k) in *.
      assert (Q : (S n = S k + S (n - S k))%nat) by lia. set (u := S (n - S k)) in *.
      rewrite Q. rewrite Nat.mul_add_distr_r. rewrite Nat.mul_add_distr_r. rewrite <- A at 1. rewrite <- B. ring.
Qed.
Lemma bin_sym : forall n k, (k <= n)%nat -> bin n (n - k) = bin n k.
Proof.
  intros n k H. pose proof (bin_fact n (n - k) ltac:(lia)) as A. pose proof (bin_fact n k H) as B.
  replace (n - (n - k))%nat with k in A by lia. rewrite (Nat.mul_comm (fact (n - k))) in A. rewrite <- B in A.
  pose proof (lt_O_fact k). pose proof (lt_O_fact (n - k)). apply Nat.mul_cancel_r in A; [exact A|nia].
Qed.
Lemma binomial_C : forall u v n, Cpow (u + v)%C n = csum (fun j => (RtoC (INR (bin n j)) * (Cpow u j * Cpow v (n - j)))%C) (seq 0 (S n)).
Proof.
  intros u v n. transitivity (hev (ppow [v; u] n) n C1 C1); [rewrite hev_pow; f_equal; ring|].
  pose proof (ppow_length v u n). rewrite hev_sum by lia. apply csum_ext. intros j _. rewrite ppow_nth, !Cpow_1. ring.
Qed.

(** ** The matrices without normalisation *)
(** Row j' holds the coefficients of (a x - b* y)^j' (b x + a* y)^(n-j'). *)
Definition wrow (a b : C) (n j' : nat) : list C := pmul (ppow [(- Conj b)%C; a] j') (ppow [Conj a; b] (n - j')).
Definition wc (a b : C) (n j' j : nat) : C := nth j (wrow a b n j') C0.
Lemma wrow_length : forall a b n j', (j' <= n)%nat -> (length (wrow a b n j') <= S n)%nat.
Proof.
  intros a b n j' H. unfold wrow. pose proof (ppow_length (- Conj b)%C a j'). pose proof (ppow_length (Conj a) b (n - j')).
  pose proof (pmul_length (ppow [(- Conj b)%C; a] j') (ppow [Conj a; b] (n - j')) ltac:(lia)). lia.
Qed.
Lemma wrow_value : forall a b n j' x y, (j' <= n)%nat ->
  hev (wrow a b n j') n x y = (Cpow (a * x - Conj b * y) j' * Cpow (b * x + Conj a * y) (n - j'))%C.
Proof.
  intros a b n j' x y H. unfold wrow. replace n with (j' + (n - j'))%nat at 2 by lia.
  pose proof (ppow_length (- Conj b)%C a j'). pose proof (ppow_length (Conj a) b (n - j')).
  rewrite hev_mul by lia. rewrite !hev_pow. f_equal. f_equal. ring.
Qed.
Lemma wrow_expand : forall a b n j' x y, (j' <= n)%nat ->
  (Cpow (a * x - Conj b * y) j' * Cpow (b * x + Conj a * y) (n - j'))%C =
  csum (fun k => (wc a b n j' k * (Cpow x k * Cpow y (n - k)))%C) (seq 0 (S n)).
Proof. intros a b n j' x y H. rewrite <- wrow_value by exact H. apply hev_sum. apply wrow_length. exact H. Qed.

Lemma wc_mul : forall a b c d n j' j, (j' <= n)%nat -> (j <= n)%nat ->
  csum (fun k => (wc a b n j' k * wc c d n k j)%C) (seq 0 (S n)) = wc (a * c - Conj b * d)%C (b * c + Conj a * d)%C n j' j.
Proof.
  intros a b c d n j' j Hj' Hj.
  apply (coefficients_unique (fun j => csum (fun k => (wc a b n j' k * wc c d n k j)%C) (seq 0 (S n)))
           (fun j => wc (a * c - Conj b * d)%C (b * c + Conj a * d)%C n j' j) n); [|exact Hj].
  intros x. set (X := RtoC x).
  transitivity (Cpow ((a * c - Conj b * d) * X - Conj (b * c + Conj a * d) * C1) j' *
                Cpow ((b * c + Conj a * d) * X + Conj (a * c - Conj b * d) * C1) (n - j'))%C.
  2: { rewrite wrow_expand by exact Hj'. apply csum_ext. intros k _. rewrite Cpow_1. ring. }
  transitivity (csum (fun k => (wc a b n j' k * csum (fun i => (wc c d n k i * Cpow X i)%C) (seq 0 (S n)))%C) (seq 0 (S n))).
  { transitivity (csum (fun i => csum (fun k => (wc a b n j' k * wc c d n k i * Cpow X i)%C) (seq 0 (S n))) (seq 0 (S n))).
    - apply csum_ext. intros i _. symmetry. apply csum_scale_r.
    - rewrite csum_swap. apply csum_ext. intros k _. rewrite <- csum_scale. apply csum_ext. intros i _. ring. }
  transitivity (csum (fun k => (wc a b n j' k * (Cpow (c * X - Conj d * C1) k * Cpow (d * X + Conj c * C1) (n - k)))%C) (seq 0 (S n))).
  { apply csum_ext. intros k Hk. apply in_seq in Hk. f_equal. rewrite wrow_expand by lia. apply csum_ext. intros i _. rewrite Cpow_1. ring. }
  rewrite <- wrow_expand by exact Hj'.
  assert (E1 : (a * (c * X - Conj d * C1) - Conj b * (d * X + Conj c * C1) = (a * c - Conj b * d) * X - Conj (b * c + Conj a * d) * C1)%C).
  { rewrite Conj_add, !Conj_mul, Conj_involutive. ring. }
  assert (E2 : (b * (c * X - Conj d * C1) + Conj a * (d * X + Conj c * C1) = (b * c + Conj a * d) * X + Conj (a * c - Conj b * d) * C1)%C).
  { rewrite Conj_sub, !Conj_mul, Conj_involutive. ring. }
  rewrite E1, E2. reflexivity.
Qed.
Lemma wc_diagonal : forall a n j' j, (j' <= n)%nat -> (j <= n)%nat ->
  wc a C0 n j' j = if (j' =? j)%nat then (Cpow a j' * Cpow (Conj a) (n - j'))%C else C0.
Proof.
  intros a n j' j Hj' Hj.
  apply (coefficients_unique (fun j => wc a C0 n j' j) (fun j => if (j' =? j)%nat then (Cpow a j' * Cpow (Conj a) (n - j'))%C else C0) n); [|exact Hj].
  intros x. transitivity (Cpow (a * RtoC x - Conj C0 * C1) j' * Cpow (C0 * RtoC x + Conj a * C1) (n - j'))%C.
  { rewrite wrow_expand by exact Hj'. apply csum_ext. intros k _. rewrite Cpow_1. ring. }
  assert (SQ : seq 0 (S n) = (seq 0 j' ++ j' :: seq (S j') (n - j'))%list).
  { replace (S n) with (j' + S (n - j'))%nat by lia. rewrite seq_app. reflexivity. }
  rewrite SQ, csum_app. cbn [csum]. rewrite Nat.eqb_refl.
  rewrite (csum_const0 _ (seq 0 j')). 2: { intros k Hk. apply in_seq in Hk. destruct (Nat.eqb_spec j' k); [lia|]. ring. }
  rewrite (csum_const0 _ (seq (S j') (n - j'))). 2: { intros k Hk. apply in_seq in Hk. destruct (Nat.eqb_spec j' k); [lia|]. ring. }
  rewrite Conj_C0. replace (a * RtoC x - C0 * C1)%C with (a * RtoC x)%C by ring. replace (C0 * RtoC x + Conj a * C1)%C with (Conj a) by ring.
  rewrite Cpow_mul. ring.
Qed.
Lemma wc_adjoint : forall a b n j' j, (j' <= n)%nat -> (j <= n)%nat ->
  (RtoC (INR (bin n j')) * wc a b n j' j)%C = (RtoC (INR (bin n j)) * Conj (wc (Conj a) (- b) n j j'))%C.
Proof.
  intros a b n j' j Hj' Hj.
  apply (coefficients_unique (fun j' => (RtoC (INR (bin n j')) * wc a b n j' j)%C)
           (fun j' => (RtoC (INR (bin n j)) * Conj (wc (Conj a) (- b) n j j'))%C) n); [|exact Hj'].
  intros s. set (T := RtoC s).
  (* the right-hand side is binomial times (a s + b)^j (a* - b* s)^(n-j) *)
  transitivity (RtoC (INR (bin n j)) * (Cpow (a * T + b) j * Cpow (Conj a - Conj b * T) (n - j)))%C.
  2: { rewrite <- (Conj_involutive (Cpow (a * T + b) j * Cpow (Conj a - Conj b * T) (n - j))%C).
       rewrite Conj_mul, !Cpow_conj. rewrite Conj_add, Conj_sub, !Conj_mul, !Conj_involutive. unfold T. rewrite !Conj_RtoC.
       replace (Conj a * RtoC s + Conj b)%C with (Conj a * RtoC s - Conj (- b) * C1)%C by (rewrite Conj_opp; ring).
       replace (a - b * RtoC s)%C with (- b * RtoC s + Conj (Conj a) * C1)%C by (rewrite Conj_involutive; ring).
       rewrite <- Conj_mul. rewrite wrow_expand by exact Hj.
       assert (CS : forall (f : nat -> C) l, Conj (csum f l) = csum (fun k => Conj (f k)) l).
       { intros f. induction l as [|k l IH]; cbn [csum]; [apply Conj_C0|]. rewrite Conj_add, IH. reflexivity. }
       rewrite CS, <- csum_scale. apply csum_ext. intros k _. rewrite !Conj_mul, !Cpow_conj, Conj_RtoC.
       replace (Conj C1) with C1 by cx. rewrite Cpow_1. ring. }
  (* compare the coefficients of x^j in (x (a s + b) + (a* - b* s))^n *)
  set (U := (a * T + b)%C). set (V := (Conj a - Conj b * T)%C).
  apply (coefficients_unique (fun j => csum (fun k => (RtoC (INR (bin n k)) * wc a b n k j * Cpow T k)%C) (seq 0 (S n)))
           (fun j => (RtoC (INR (bin n j)) * (Cpow U j * Cpow V (n - j)))%C) n); [|exact Hj].
  intros x. set (X := RtoC x).
  transitivity (Cpow (U * X + V) n).
  2: { rewrite binomial_C. apply csum_ext. intros k _. rewrite Cpow_mul. ring. }
  replace (U * X + V)%C with ((a * X - Conj b * C1) * T + (b * X + Conj a * C1))%C by (unfold U, V; ring).
  rewrite binomial_C.
  transitivity (csum (fun k => csum (fun i => (RtoC (INR (bin n k)) * wc a b n k i * Cpow T k * Cpow X i)%C) (seq 0 (S n))) (seq 0 (S n))).
  { rewrite csum_swap. apply csum_ext. intros i _. symmetry. apply csum_scale_r. }
  apply csum_ext. intros k Hk. apply in_seq in Hk. rewrite Cpow_mul.
  transitivity (RtoC (INR (bin n k)) * Cpow T k * (Cpow (a * X - Conj b * C1) k * Cpow (b * X + Conj a * C1) (n - k)))%C; [|ring].
  rewrite wrow_expand by lia. rewrite <- csum_scale. apply csum_ext. intros i _. rewrite Cpow_1. ring.
Qed.

(** ** The documented formula *)
Lemma formula : forall a b n j' j, (j' <= n)%nat -> (j <= n)%nat ->
  csum (wterm a b n j' j) (seq 0 (S j')) = wc a b n j' j.
Proof.
  intros a b n j' j Hj' Hj. unfold wc, wrow. rewrite pmul_nth.
  set (g := fun i => (nth i (ppow [(- Conj b)%C; a] j') C0 * nth (j - i) (ppow [Conj a; b] (n - j')) C0)%C).
  (* terms with i > j' or j - i > n - j' vanish *)
  transitivity (csum (fun i => if (i <=? j)%nat then g i else C0) (seq 0 (S j'))).
  - (* reverse the order of summation: r = j' - i *)
    assert (RV : forall (f : nat -> C) m, csum f (seq 0 (S m)) = csum (fun r => f (m - r)%nat) (seq 0 (S m))).
    { intros f m. rewrite <- (csum_map _ _ (fun r => (m - r)%nat) f). apply csum_perm.
      apply NoDup_Permutation.
      - apply seq_NoDup.
      - apply (NoDup_map_inv (fun r => (m - r)%nat)). rewrite map_map.
        rewrite (map_ext_in _ (fun x => x)); [rewrite map_id; apply seq_NoDup|]. intros r Hr. apply in_seq in Hr. lia.
      - intros r. rewrite in_map_iff. split.
        + intros Hr. apply in_seq in Hr. exists (m - r)%nat. split; [lia|]. apply in_seq. lia.
        + intros (q & <- & Hq). apply in_seq in Hq. apply in_seq. lia. }
    rewrite (RV (fun i => if (i <=? j)%nat then g i else C0)). apply csum_ext. intros r Hr. apply in_seq in Hr.
    unfold wterm, g. rewrite !ppow_nth.
    destruct (Nat.leb_spec (r + j) n) as [H1|H1]; destruct (Nat.leb_spec j' (r + j)) as [H2|H2]; destruct (Nat.leb_spec (j' - r) j) as [H3|H3];
      cbn [andb]; try lia; try reflexivity.
    + replace (j' - (j' - r))%nat with r by lia. replace (j - (j' - r))%nat with (r + j - j')%nat by lia.
      replace (n - j' - (r + j - j'))%nat with (n - j - r)%nat by lia.
      assert (B1 : bin j' (j' - r) = bin j' r).
      { rewrite <- (bin_sym j' r) by lia. reflexivity. }
      assert (B2 : bin (n - j') (n - j - r) = bin (n - j') (r + j - j')).
      { rewrite <- (bin_sym (n - j') (r + j - j')) by lia. f_equal. lia. }
      rewrite B1, B2. replace (- Conj b)%C with (- C1 * Conj b)%C by ring. rewrite Cpow_mul, Cpow_neg1.
      rewrite Cscale_mul, !RtoC_mul. ring.
    + replace (j - (j' - r))%nat with (r + j - j')%nat by lia. rewrite (bin_zero (n - j') (r + j - j')) by lia. cbn [INR]. change (RtoC 0) with C0. ring.
  - assert (EXT : forall m d (f : nat -> C), (forall i, (m <= i)%nat -> f i = C0) -> csum f (seq 0 (m + d)) = csum f (seq 0 m)).
    { intros m d f Hf. rewrite seq_app, csum_app. rewrite (csum_const0 f (seq (0 + m) d)); [ring|]. intros i Hi. apply in_seq in Hi. apply Hf. lia. }
    set (M := Nat.max (S j') (S j)).
    transitivity (csum (fun i => if (i <=? j)%nat then g i else C0) (seq 0 M)).
    + replace M with (S j' + (M - S j'))%nat by lia. symmetry. apply EXT. intros i Hi. destruct (i <=? j)%nat; [|reflexivity].
      unfold g. rewrite ppow_nth. rewrite (bin_zero j' i) by lia. cbn [INR]. change (RtoC 0) with C0. ring.
    + replace M with (S j + (M - S j))%nat by lia. rewrite EXT by (intros i Hi; destruct (Nat.leb_spec i j); [lia|reflexivity]).
      apply csum_ext. intros i Hi. apply in_seq in Hi. destruct (Nat.leb_spec i j); [reflexivity|lia].
Qed.
Lemma wnorm_pos : forall n j, 0 < wnorm n j.
Proof. intros n j. apply sqrt_lt_R0. apply Rmult_lt_0_compat; apply INR_fact_lt_0. Qed.

Lemma csum_ms : forall (f : Z -> C) l, (0 <= l)%Z -> csum f (ms_of l) = csum (fun k => f (Z.of_nat k - l)%Z) (seq 0 (S (Z.to_nat (2 * l)))).
Proof.
  intros f l Hl. replace (ms_of l) with (map (fun k => (Z.of_nat k - l)%Z) (seq 0 (S (Z.to_nat (2 * l))))).
  - apply csum_map.
  - unfold ms_of, zrange. replace (Z.to_nat (l + 1 - - l)) with (S (Z.to_nat (2 * l))) by lia.
    apply map_ext. intros k. lia.
Qed.
Lemma D_entry : forall q l m' m, (0 <= l)%Z -> (- l <= m' <= l)%Z -> (- l <= m <= l)%Z ->
  wigner_D q l m' m = (RtoC (wnorm (Z.to_nat (2 * l)) (Z.to_nat (l + m)) / wnorm (Z.to_nat (2 * l)) (Z.to_nat (l + m'))) *
    wc (part_a q) (part_b q) (Z.to_nat (2 * l)) (Z.to_nat (l + m')) (Z.to_nat (l + m)))%C.
Proof. intros q l m' m Hl H H'. unfold wigner_D. rewrite formula by lia. apply Cscale_mul. Qed.

Theorem C25_wigner_product : forall p q l m' m, (0 <= l)%Z -> (- l <= m' <= l)%Z -> (- l <= m <= l)%Z ->
  csum (fun k => (wigner_D p l m' k * wigner_D q l k m)%C) (ms_of l) = wigner_D (qmul p q) l m' m.
Proof.
  intros p q l m' m Hl H H'. rewrite csum_ms by exact Hl. set (n := Z.to_nat (2 * l)).
  rewrite D_entry by assumption. fold n. set (j' := Z.to_nat (l + m')). set (j := Z.to_nat (l + m)).
  transitivity (csum (fun k => (RtoC (wnorm n j / wnorm n j') * (wc (part_a p) (part_b p) n j' k * wc (part_a q) (part_b q) n k j))%C) (seq 0 (S n))).
  { apply csum_ext. intros k Hk. apply in_seq in Hk. rewrite !D_entry by lia. fold n j j'.
    replace (Z.to_nat (l + (Z.of_nat k - l))) with k by lia.
    pose proof (wnorm_pos n k). pose proof (wnorm_pos n j').
    replace (wnorm n j / wnorm n j') with (wnorm n k / wnorm n j' * (wnorm n j / wnorm n k)) by (field; lra). rewrite RtoC_mul. ring. }
  rewrite csum_scale, wc_mul by lia. f_equal.
  assert (Ea : (part_a p * part_a q - Conj (part_b p) * part_b q)%C = part_a (qmul p q)) by (apply C_eq; cbn; ring).
  assert (Eb : (part_b p * part_a q + Conj (part_a p) * part_b q)%C = part_b (qmul p q)) by (apply C_eq; cbn; ring).
  rewrite Ea, Eb. reflexivity.
Qed.
(** A rotation about the z axis by the angle 2 phi multiplies the modes by exp(2 i m phi). *)
Theorem C25_wigner_z : forall phi l m' m, (0 <= l)%Z -> (- l <= m' <= l)%Z -> (- l <= m <= l)%Z ->
  wigner_D (mkq (cos phi) 0 0 (sin phi)) l m' m =
  if (m' =? m)%Z then mkC (cos (IZR m * (2 * phi))) (sin (IZR m * (2 * phi))) else C0.
Proof.
  intros phi l m' m Hl H H'. rewrite D_entry by assumption. set (n := Z.to_nat (2 * l)).
  change (part_b (mkq (cos phi) 0 0 (sin phi))) with C0. rewrite wc_diagonal by lia.
  change (part_a (mkq (cos phi) 0 0 (sin phi))) with (mkC (cos phi) (sin phi)).
  assert (P : forall k x, Cpow (mkC (cos x) (sin x)) k = mkC (cos (INR k * x)) (sin (INR k * x))).
  { induction k as [|k IH]; intros x; cbn [Cpow].
    - cbn [INR]. rewrite Rmult_0_l, cos_0, sin_0. reflexivity.
    - rewrite IH, S_INR. replace ((INR k + 1) * x) with (x + INR k * x) by ring. rewrite cos_plus, sin_plus. apply C_eq; cbn; ring. }
  destruct (Z.eqb_spec m' m) as [->|N].
  - rewrite Nat.eqb_refl. set (j := Z.to_nat (l + m)). pose proof (wnorm_pos n j).
    replace (wnorm n j / wnorm n j) with 1 by (field; lra).
    assert (E : Conj (mkC (cos phi) (sin phi)) = mkC (cos (- phi)) (sin (- phi))) by (rewrite cos_neg, sin_neg; reflexivity).
    rewrite E, !P.
    replace (INR (n - j) * - phi) with (- (INR (n - j) * phi)) by ring. rewrite cos_neg, sin_neg.
    assert (EJ : INR j - INR (n - j) = 2 * IZR m).
    { rewrite !INR_IZR_INZ. unfold j, n. rewrite Nat2Z.inj_sub, !Z2Nat.id by lia. rewrite minus_IZR, mult_IZR, plus_IZR. ring. }
    replace (IZR m * (2 * phi)) with (INR j * phi - INR (n - j) * phi) by (rewrite <- Rmult_minus_distr_r, EJ; ring).
    rewrite cos_minus, sin_minus. apply C_eq; cbn; ring.
  - destruct (Nat.eqb_spec (Z.to_nat (l + m')) (Z.to_nat (l + m))); [lia|]. ring.
Qed.
Theorem C25_wigner_one : forall l m' m, (0 <= l)%Z -> (- l <= m' <= l)%Z -> (- l <= m <= l)%Z ->
  wigner_D q1 l m' m = if (m' =? m)%Z then C1 else C0.
Proof.
  intros l m' m Hl H H'. pose proof (C25_wigner_z 0 l m' m Hl H H') as E. rewrite cos_0, sin_0 in E. change (mkq 1 0 0 0) with q1 in E.
  rewrite E. destruct (m' =? m)%Z; [|reflexivity]. rewrite Rmult_0_r, Rmult_0_r, cos_0, sin_0. reflexivity.
Qed.
Theorem C25_wigner_adjoint : forall q l m' m, (0 <= l)%Z -> (- l <= m' <= l)%Z -> (- l <= m <= l)%Z ->
  wigner_D (qconj q) l m' m = Conj (wigner_D q l m m').
Proof.
  intros q l m' m Hl H H'. rewrite !D_entry by assumption. set (n := Z.to_nat (2 * l)). set (j' := Z.to_nat (l + m')). set (j := Z.to_nat (l + m)).
  assert (Lj : (j <= n)%nat) by (unfold j, n; lia). assert (Lj' : (j' <= n)%nat) by (unfold j', n; lia).
  assert (Ea : part_a (qconj q) = Conj (part_a q)) by reflexivity.
  assert (Eb : part_b (qconj q) = (- part_b q)%C) by reflexivity.
  rewrite Ea, Eb. set (a := part_a q). set (b := part_b q).
  pose proof (wc_adjoint a b n j j' Lj Lj') as A.
  rewrite Conj_mul, Conj_RtoC.
  pose proof (wnorm_pos n j) as P. pose proof (wnorm_pos n j') as P'.
  assert (W : forall k, (k <= n)%nat -> INR (bin n k) = INR (fact n) / (wnorm n k * wnorm n k)).
  { intros k Hk. unfold wnorm. rewrite sqrt_sqrt by (apply Rlt_le, Rmult_lt_0_compat; apply INR_fact_lt_0).
    pose proof (bin_fact n k Hk) as B. apply (f_equal INR) in B. rewrite !mult_INR in B. rewrite <- B.
    pose proof (INR_fact_lt_0 k). pose proof (INR_fact_lt_0 (n - k)). field. lra. }
  rewrite !W in A by assumption. pose proof (INR_fact_lt_0 n) as F.
  apply (f_equal Conj) in A. rewrite !Conj_mul, !Conj_RtoC, Conj_involutive in A.
  apply C_eq.
  - apply (f_equal re) in A. cbn in A |- *.
    set (u := re (wc a b n j j')) in *. set (v := re (wc (Conj a) (- b)%C n j' j)) in *.
    assert (Q : u = v * (wnorm n j * wnorm n j) / (wnorm n j' * wnorm n j')).
    { apply (Rmult_eq_reg_l (INR (fact n) / (wnorm n j * wnorm n j))).
      - transitivity (INR (fact n) / (wnorm n j' * wnorm n j') * v); [|field; lra]. lra.
      - apply Rgt_not_eq. apply Rdiv_lt_0_compat; [lra|nra]. }
    rewrite Q. field. lra.
  - apply (f_equal im) in A. cbn in A |- *.
    set (u := im (wc a b n j j')) in *. set (v := im (wc (Conj a) (- b)%C n j' j)) in *.
    assert (Q : - u = v * (wnorm n j * wnorm n j) / (wnorm n j' * wnorm n j')).
    { apply (Rmult_eq_reg_l (INR (fact n) / (wnorm n j * wnorm n j))).
      - transitivity (INR (fact n) / (wnorm n j' * wnorm n j') * v); [|field; lra]. lra.
      - apply Rgt_not_eq. apply Rdiv_lt_0_compat; [lra|nra]. }
    rewrite Q. field. lra.
Qed.

(** ** The rotations of waveforms with the documented matrices: nothing is assumed of the package any more *)
Section Documented.
Variable garbage : Z -> list C.
Hypothesis garbage_len : forall n, (0 <= n)%Z -> zlen (garbage n) = n.
Definition wigner_doc (q : quat) (lo hi : Z) : list C := fill (fun l i j => wigner_D q l (i - l) (j - l)) lo hi.
Lemma doc_fills : forall q lo hi, (0 <= lo <= hi)%Z -> holds lo hi (wigner_doc q lo hi) (fun l i j => wigner_D q l (i - l) (j - l)).
Proof. intros q lo hi H. apply fill_holds. exact H. Qed.
Lemma doc_mul : forall p q l m' m, unitq p -> unitq q -> (0 <= l)%Z -> (- l <= m' <= l)%Z -> (- l <= m <= l)%Z ->
  csum (fun k => (wigner_D p l m' k * wigner_D q l k m)%C) (ms_of l) = wigner_D (qmul p q) l m' m.
Proof. intros p q l m' m _ _. apply C25_wigner_product. Qed.
Lemma doc_adjoint : forall q l m' m, unitq q -> (0 <= l)%Z -> (- l <= m' <= l)%Z -> (- l <= m <= l)%Z ->
  wigner_D (qconj q) l m' m = Conj (wigner_D q l m m').
Proof. intros q l m' m _. apply C25_wigner_adjoint. Qed.

Theorem C25_documented_compose : forall W p q, wf W -> unitq p -> unitq q ->
  rbind (rotate_basis wigner_doc garbage W (RQuat p)) (fun W1 => rotate_basis wigner_doc garbage W1 (RQuat q)) =
  rotate_basis wigner_doc garbage W (RQuat (qmul p q)).
Proof. exact (C25_constant_compose wigner_D wigner_doc garbage doc_fills garbage_len doc_mul). Qed.
Theorem C25_documented_undone : forall W q f, wf W -> unitq q -> rw_frame W = F1 f -> f <> [] ->
  rbind (rotate_basis wigner_doc garbage W (RQuat q)) (fun W1 => rotate_physical wigner_doc garbage W1 (RQuat q)) = Ok W /\
  rbind (rotate_physical wigner_doc garbage W (RQuat q)) (fun W1 => rotate_basis wigner_doc garbage W1 (RQuat q)) = Ok W.
Proof. exact (C25_physical_undoes_basis wigner_D wigner_doc garbage doc_fills garbage_len doc_mul C25_wigner_one). Qed.
Theorem C25_documented_round_trip : forall W Rs ft, wf W -> length Rs = length (rw_data W) -> length Rs <> 1%nat -> Forall unitq Rs ->
  rw_frame W = F1 [] \/ rw_frame W = F1 (repeat q1 (length Rs)) ->
  rbind (to_frame wigner_doc garbage W Rs ft) (to_inertial wigner_doc garbage) =
  Ok (mkrw (rw_lo W) (rw_hi W) (rw_data W) (F1 (repeat q1 (length Rs))) InertialFrame).
Proof. exact (C25_inertial_round_trip wigner_D wigner_doc garbage doc_fills doc_mul C25_wigner_one). Qed.
Theorem C25_documented_norm : forall W q, wf W -> unitq q ->
  exists W', rotate_basis wigner_doc garbage W (RQuat q) = Ok W' /\ length (rw_data W') = length (rw_data W) /\
    forall t l, (t < length (rw_data W))%nat -> (rw_lo W <= l <= rw_hi W)%Z ->
      rsum (fun m => norm2 (md W' t l m)) (ms_of l) = rsum (fun m => norm2 (md W t l m)) (ms_of l).
Proof.
  intros W q HW Hq. destruct (C25_constant wigner_D wigner_doc garbage doc_fills garbage_len W q _ HW (or_introl eq_refl)) as (W' & E & HW' & T & _).
  exists W'. split; [exact E|]. split; [apply T|]. intros t l Ht Hl.
  apply (C25_norm wigner_D doc_mul C25_wigner_one doc_adjoint W W' (fun _ => q)); auto.
Qed.
(** Rotating the basis about the z axis by the angle 2 phi only changes the phases of the modes. *)
Theorem C25_documented_z : forall W phi, wf W ->
  exists W', rotate_basis wigner_doc garbage W (RQuat (mkq (cos phi) 0 0 (sin phi))) = Ok W' /\ wf W' /\
    length (rw_data W') = length (rw_data W) /\
    forall t l m, (t < length (rw_data W))%nat -> valid (rw_lo W) (rw_hi W) l m ->
      md W' t l m = (md W t l m * mkC (cos (IZR m * (2 * phi))) (sin (IZR m * (2 * phi))))%C.
Proof.
  intros W phi HW.
  destruct (C25_constant wigner_D wigner_doc garbage doc_fills garbage_len W (mkq (cos phi) 0 0 (sin phi)) _ HW (or_introl eq_refl)) as (W' & E & HW' & T & _).
  exists W'. split; [exact E|]. split; [exact HW'|]. split; [apply T|]. intros t l m Ht Hv. rewrite (turned_md _ _ _ _ _ _ _ T Ht Hv).
  destruct HW as [HW _]. destruct Hv as [Hl Hm].
  unfold turn. transitivity (csum (fun m' => if (m' =? m)%Z then (md W t l m * mkC (cos (IZR m * (2 * phi))) (sin (IZR m * (2 * phi))))%C else C0) (ms_of l)).
  - apply csum_ext. intros k Hk. unfold ms_of in Hk. apply zrange_In in Hk. rewrite C25_wigner_z by lia. destruct (Z.eqb_spec k m) as [->|N]; [reflexivity|ring].
  - rewrite csum_ms by lia. set (n := Z.to_nat (2 * l)).
    assert (SQ : seq 0 (S n) = (seq 0 (Z.to_nat (l + m)) ++ Z.to_nat (l + m) :: seq (S (Z.to_nat (l + m))) (n - Z.to_nat (l + m)))%list).
    { replace (S n) with (Z.to_nat (l + m) + S (n - Z.to_nat (l + m)))%nat by lia. rewrite seq_app. reflexivity. }
    rewrite SQ, csum_app. cbn [csum].
    rewrite (csum_const0 _ (seq 0 _)). 2: { intros k Hk. apply in_seq in Hk. destruct (Z.eqb_spec (Z.of_nat k - l) m); [lia|]. reflexivity. }
    rewrite (csum_const0 _ (seq (S _) _)). 2: { intros k Hk. apply in_seq in Hk. destruct (Z.eqb_spec (Z.of_nat k - l) m); [lia|]. reflexivity. }
    destruct (Z.eqb_spec (Z.of_nat (Z.to_nat (l + m)) - l) m); [ring|lia].
Qed.
End Documented.
(** The matrix of degree 1 of half a turn about the x axis, for example, is not diagonal. *)
Example C25_documented_case : unitq qk /\ unitq qi /\ wigner_D qi 1 1 (-1) = mkC (-1) 0 /\ wigner_D qi 1 1 1 = C0.
Proof.
  split; [unfold unitq, qnorm2; cbn; ring|]. split; [unfold unitq, qnorm2; cbn; ring|]. split.
  - rewrite D_entry by lia. change (Z.to_nat (2 * 1)) with 2%nat. change (Z.to_nat (1 + -1)) with 0%nat. change (Z.to_nat (1 + 1)) with 2%nat.
    assert (E : wnorm 2 0 = wnorm 2 2) by (unfold wnorm; f_equal; cbn; ring). rewrite E. pose proof (wnorm_pos 2 2).
    replace (wnorm 2 2 / wnorm 2 2) with 1 by (field; lra). apply C_eq; cbn; ring.
  - rewrite D_entry by lia. change (Z.to_nat (2 * 1)) with 2%nat. change (Z.to_nat (1 + 1)) with 2%nat.
    replace (wc (part_a qi) (part_b qi) 2 2 2) with C0 by (apply C_eq; cbn; ring). ring.
Qed.
