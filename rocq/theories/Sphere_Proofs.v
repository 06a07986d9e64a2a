(** * A field with finitely many modes is determined by its values on the grid *)
From Coq Require Import Reals ZArith List Bool Lia Lra Permutation.
From Verif Require Import Common Cplx Quat Modes_Model Modal_Model Kwargs_Model Transform_Model Rotate_Model Modes_Proofs Modal_Proofs Rotate_Proofs
  Wigner_Model Wigner_Proofs Sphere_Model.
Import ListNotations.
Open Scope R_scope.

(** ** Polynomials *)
Lemma hev_zero_coeffs : forall p n z, (forall k, nth k p C0 = C0) -> hev p n z C1 = C0.
Proof.
  induction p as [|a p IH]; intros n z H; cbn [hev]; [reflexivity|]. rewrite (H 0%nat : a = C0). rewrite IH; [ring|].
  intros k. exact (H (S k)).
Qed.
Lemma hev_real_zero : forall p n, (forall x : R, hev p n (RtoC x) C1 = C0) -> forall k, nth k p C0 = C0.
Proof.
  intros p n Z k. apply C_eq.
  - change (re C0) with 0. rewrite <- (rev_zero (map re p) (fun x _ => eq_trans (eq_sym (proj1 (hev_re p n x))) (f_equal re (Z x))) k).
    change 0 with (re C0). rewrite map_nth. reflexivity.
  - change (im C0) with 0. rewrite <- (rev_zero (map im p) (fun x _ => eq_trans (eq_sym (proj2 (hev_re p n x))) (f_equal im (Z x))) k).
    change 0 with (im C0). rewrite map_nth. reflexivity.
Qed.
(** Division by x - r. *)
Fixpoint pdiv (p : list C) (r : C) : list C * C :=
  match p with
  | [] => ([], C0)
  | a :: p' => let '(q, c) := pdiv p' r in (c :: q, (a + r * c)%C)
  end.
Lemma hev_1 : forall p n m z, hev p n z C1 = hev p m z C1.
Proof. induction p as [|a p IH]; intros n m z; cbn [hev]; [reflexivity|]. rewrite !Cpow_1, (IH (n - 1)%nat (m - 1)%nat). reflexivity. Qed.
Lemma pdiv_spec : forall p r z, (hev p 0 z C1 = (z - r) * hev (fst (pdiv p r)) 0 z C1 + snd (pdiv p r))%C.
Proof.
  induction p as [|a p IH]; intros r z; cbn [pdiv hev]; [cbn; ring|].
  specialize (IH r z). destruct (pdiv p r) as [q c]. cbn [fst snd] in *. cbn [hev]. rewrite !Cpow_1.
  cbn [Nat.sub]. rewrite IH. ring.
Qed.
Lemma pdiv_length : forall p r, length (fst (pdiv p r)) = length p.
Proof. induction p as [|a p IH]; intros r; cbn [pdiv]; [reflexivity|]. specialize (IH r). destruct (pdiv p r). cbn [fst length] in *. lia. Qed.
(** the last coefficient of the quotient is zero *)
Lemma pdiv_last : forall p r, p <> [] -> exists q, fst (pdiv p r) = (q ++ [C0])%list.
Proof.
  induction p as [|a p IH]; intros r H; [congruence|]. cbn [pdiv]. destruct p as [|b p].
  - exists []. reflexivity.
  - destruct (IH r ltac:(discriminate)) as [q E]. destruct (pdiv (b :: p) r) as [q' c]. cbn [fst] in *. exists (c :: q). rewrite E. reflexivity.
Qed.
Lemma hev_snoc0 : forall q z, hev (q ++ [C0])%list 0 z C1 = hev q 0 z C1.
Proof.
  induction q as [|a q IH]; intros z; cbn [app hev]; [ring|]. cbn [Nat.sub]. rewrite IH. reflexivity.
Qed.
(** More distinct roots than the degree. *)
Lemma many_roots : forall roots p, NoDup roots -> (length p <= length roots)%nat ->
  (forall r, In r roots -> hev p 0 (RtoC r) C1 = C0) -> forall z, hev p 0 z C1 = C0.
Proof.
  induction roots as [|r roots IH]; intros p ND HL HR z.
  - destruct p; [reflexivity|cbn in HL; lia].
  - destruct p as [|a p]; [reflexivity|]. set (P := a :: p) in *.
    assert (S0 : snd (pdiv P (RtoC r)) = C0).
    { pose proof (pdiv_spec P (RtoC r) (RtoC r)) as E. rewrite (HR r (or_introl eq_refl)) in E.
      transitivity ((RtoC r - RtoC r) * hev (fst (pdiv P (RtoC r))) 0 (RtoC r) C1 + snd (pdiv P (RtoC r)))%C; [ring|symmetry; exact E]. }
    destruct (pdiv_last P (RtoC r) ltac:(discriminate)) as [q Eq].
    assert (F : forall z, hev P 0 z C1 = ((z - RtoC r) * hev q 0 z C1)%C).
    { intros w. rewrite (pdiv_spec P (RtoC r) w), S0, Eq, hev_snoc0. ring. }
    inversion_clear ND as [|? ? NI ND'].
    assert (LQ : (length q <= length roots)%nat).
    { pose proof (pdiv_length P (RtoC r)) as L. rewrite Eq, app_length in L. cbn [length] in *. lia. }
    rewrite F. rewrite (IH q ND' LQ); [ring|].
    intros x Hx. assert (E := HR x (or_intror Hx)). rewrite F in E. destruct (Cmul_zero _ _ E) as [E'|E']; [|exact E'].
    exfalso. apply NI. assert (x - r = 0) by (apply (f_equal re) in E'; cbn in E'; exact E'). replace r with x by lra. exact Hx.
Qed.

(** Functions that are polynomials of degree at most d. *)
Definition is_poly (d : nat) (f : C -> C) : Prop := exists p, (length p <= S d)%nat /\ forall z, f z = hev p 0 z C1.
Lemma poly_zero : forall d, is_poly d (fun _ => C0).
Proof. intros d. exists []. split; [cbn; lia|]. reflexivity. Qed.
Lemma poly_add : forall d f g, is_poly d f -> is_poly d g -> is_poly d (fun z => f z + g z)%C.
Proof.
  intros d f g (p & Lp & Ep) (q & Lq & Eq). exists (padd p q). split; [rewrite padd_length; lia|]. intros z. rewrite hev_add, Ep, Eq. reflexivity.
Qed.
Lemma poly_scale : forall d c f, is_poly d f -> is_poly d (fun z => c * f z)%C.
Proof.
  intros d c f (p & Lp & Ep). exists (map (Cmul c) p). split; [rewrite map_length; lia|]. intros z. rewrite hev_scale, Ep. reflexivity.
Qed.
Lemma poly_ext : forall d f g, (forall z, f z = g z) -> is_poly d f -> is_poly d g.
Proof. intros d f g E (p & Lp & Ep). exists p. split; [exact Lp|]. intros z. rewrite <- E. apply Ep. Qed.
Lemma poly_mul_z : forall d f, is_poly d f -> is_poly (S d) (fun z => z * f z)%C.
Proof.
  intros d f (p & Lp & Ep). exists (C0 :: p). split; [cbn; lia|]. intros z. cbn [hev]. rewrite (hev_1 p (0 - 1) 0), <- Ep. ring.
Qed.
Lemma poly_raise : forall d e f, (d <= e)%nat -> is_poly d f -> is_poly e f.
Proof. intros d e f H (p & Lp & Ep). exists p. split; [lia|exact Ep]. Qed.
Lemma poly_pow : forall k, is_poly k (fun z => Cpow z k).
Proof.
  induction k as [|k IH]; [exists [C1]; split; [cbn; lia|]; intros z; cbn; cx|]. cbn [Cpow]. apply poly_mul_z. exact IH.
Qed.
Lemma poly_csum : forall A d (f : A -> C -> C) l, (forall a, In a l -> is_poly d (f a)) -> is_poly d (fun z => csum (fun a => f a z) l).
Proof.
  intros A d f. induction l as [|a l IH]; intros H; cbn [csum]; [apply poly_zero|].
  apply poly_add; [apply H; left; reflexivity|apply IH; intros; apply H; right; assumption].
Qed.
Lemma poly_mul_1zz : forall d f, is_poly d f -> is_poly (S (S d)) (fun z => (C1 + z * z) * f z)%C.
Proof.
  intros d f H. apply (poly_ext _ (fun z => (f z + z * (z * f z)))%C); [intros; ring|].
  apply poly_add; [apply (poly_raise d); [lia|exact H]|]. apply poly_mul_z. apply poly_mul_z. exact H.
Qed.
Lemma poly_pow_1zz : forall k d f, is_poly d f -> is_poly (2 * k + d) (fun z => Cpow (C1 + z * z) k * f z)%C.
Proof.
  induction k as [|k IH]; intros d f H; [apply (poly_ext _ f); [intros; cbn; ring|exact H]|].
  replace (2 * S k + d)%nat with (S (S (2 * k + d))) by lia.
  apply (poly_ext _ (fun z => (C1 + z * z) * (Cpow (C1 + z * z) k * f z))%C); [intros; cbn [Cpow]; ring|]. apply poly_mul_1zz. apply IH. exact H.
Qed.
Lemma poly_roots : forall d f roots, is_poly d f -> NoDup roots -> (d < length roots)%nat ->
  (forall r, In r roots -> f (RtoC r) = C0) -> forall z, f z = C0.
Proof.
  intros d f roots (p & Lp & Ep) ND HL HR z. rewrite Ep. apply (many_roots roots); [exact ND|lia|]. intros r Hr. rewrite <- Ep. apply HR. exact Hr.
Qed.
Lemma poly_real : forall d f, is_poly d f -> (forall x : R, f (RtoC x) = C0) -> forall z, f z = C0.
Proof.
  intros d f (p & Lp & Ep) H z. rewrite Ep. apply hev_zero_coeffs. apply (hev_real_zero p 0). intros x. rewrite <- Ep. apply H.
Qed.

(** ** The matrix elements of rotations about the y axis *)
(** [rpol n j' j x] is the coefficient belonging to the tangent x of half the angle. *)
Definition rcoef (n j' j r : nat) : R := INR (bin j' r) * INR (bin (n - j') (n - j - r)).
Definition rpol (n j' j : nat) (z : C) : C :=
  csum (fun r => if ((r + j <=? n) && (j' <=? r + j))%nat then (RtoC (rcoef n j' j r * (-1) ^ r) * Cpow z (r + j - j' + r))%C else C0) (seq 0 (S j')).
Lemma rpol_poly : forall n j' j, (j' <= n)%nat -> is_poly n (rpol n j' j).
Proof.
  intros n j' j Hj. unfold rpol. apply (poly_csum _ n). intros r Hr. apply in_seq in Hr.
  destruct (Nat.leb_spec (r + j) n) as [A|A]; destruct (Nat.leb_spec j' (r + j)) as [B|B]; cbn [andb]; try apply poly_zero.
  apply poly_scale. apply (poly_raise (r + j - j' + r)); [lia|]. apply poly_pow.
Qed.
Lemma rpol_parity : forall n j' j z, rpol n j' j (- z)%C = (RtoC ((-1) ^ (j + j')) * rpol n j' j z)%C.
Proof.
  intros n j' j z. unfold rpol. rewrite <- csum_scale. apply csum_ext. intros r Hr. apply in_seq in Hr.
  destruct (Nat.leb_spec (r + j) n) as [A|A]; destruct (Nat.leb_spec j' (r + j)) as [B|B]; cbn [andb]; try ring.
  replace (- z)%C with (- C1 * z)%C by ring. rewrite Cpow_mul, Cpow_neg1.
  replace ((-1) ^ (r + j - j' + r)) with ((-1) ^ (j + j')); [ring|].
  assert (E : forall a, (-1) ^ (2 * a) = 1) by (intros a; rewrite pow_mult; replace ((-1) ^ 2) with 1 by ring; apply pow1).
  transitivity ((-1) ^ (r + j - j' + r) * (-1) ^ (2 * j')); [|rewrite E; ring].
  rewrite <- pow_add. replace (r + j - j' + r + 2 * j')%nat with (2 * r + (j + j'))%nat by lia. rewrite (pow_add _ (2 * r)), E. ring.
Qed.
Lemma bin_pos : forall n k, (k <= n)%nat -> (0 < bin n k)%nat.
Proof.
  intros n k H. pose proof (bin_fact n k H) as E. pose proof (lt_O_fact n). destruct (bin n k); lia.
Qed.
(** At x = i all terms have the same sign. *)
Lemma Cpow_Ci_2 : forall r, Cpow Ci (2 * r) = RtoC ((-1) ^ r).
Proof.
  intros r. replace (2 * r)%nat with (r + r)%nat by lia. rewrite Cpow_add, <- Cpow_mul. replace (Ci * Ci)%C with (- C1)%C by cx. apply Cpow_neg1.
Qed.
Lemma sign_sq : forall r, (-1) ^ r * (-1) ^ r = 1.
Proof. intros r. rewrite <- Rpow_mult_distr. replace (-1 * -1) with 1 by ring. apply pow1. Qed.
Lemma rpol_i : forall n j' j, (j' <= n)%nat -> (j <= n)%nat -> rpol n j' j Ci <> C0.
Proof.
  intros n j' j Hj' Hj E.
  assert (F : (Cpow Ci j' * rpol n j' j Ci = Cpow Ci j * RtoC (rsum (fun r => if ((r + j <=? n) && (j' <=? r + j))%nat then rcoef n j' j r else 0) (seq 0 (S j'))))%C).
  { unfold rpol. rewrite <- csum_RtoC, <- !csum_scale. apply csum_ext. intros r Hr. apply in_seq in Hr.
    destruct (Nat.leb_spec (r + j) n) as [A|A]; destruct (Nat.leb_spec j' (r + j)) as [B|B]; cbn [andb]; try (change (RtoC 0) with C0; ring).
    transitivity (RtoC (rcoef n j' j r * (-1) ^ r) * (Cpow Ci j' * Cpow Ci (r + j - j' + r)))%C; [ring|].
    rewrite <- Cpow_add. replace (j' + (r + j - j' + r))%nat with (2 * r + j)%nat by lia. rewrite Cpow_add, Cpow_Ci_2.
    transitivity (RtoC (rcoef n j' j r) * RtoC ((-1) ^ r * (-1) ^ r) * Cpow Ci j)%C; [rewrite !RtoC_mul; ring|]. rewrite sign_sq. change (RtoC 1) with C1. ring. }
  rewrite E in F. set (S0 := rsum _ _) in F.
  assert (P : 0 < S0).
  { set (g := fun r => if ((r + j <=? n) && (j' <=? r + j))%nat then rcoef n j' j r else 0) in S0.
    assert (NN : forall r, In r (seq 0 (S j')) -> 0 <= g r).
    { intros r _. unfold g. destruct (_ && _); [|lra]. unfold rcoef. apply Rmult_le_pos; apply pos_INR. }
    assert (exists r, In r (seq 0 (S j')) /\ 0 < g r) as (r & Ir & Pr).
    { exists (Nat.min j' (n - j)). split; [apply in_seq; lia|]. unfold g.
      destruct (Nat.leb_spec (Nat.min j' (n - j) + j) n) as [A|A]; [|lia]. destruct (Nat.leb_spec j' (Nat.min j' (n - j) + j)) as [B|B]; [|lia]. cbn [andb].
      unfold rcoef. apply Rmult_lt_0_compat; apply lt_0_INR; apply bin_pos; lia. }
    pose proof (rsum_nonneg g _ NN) as NNs. destruct (Rle_lt_or_eq_dec _ _ NNs) as [L|EQ]; [exact L|exfalso].
    pose proof (rsum_zero g _ NN (eq_sym EQ) r Ir). lra. }
  assert (Z : (Cpow Ci j * RtoC S0)%C = C0) by (rewrite <- F; ring).
  destruct (Cmul_zero _ _ Z) as [Z'|Z'].
  - assert (N : norm2 (Cpow Ci j) = 1).
    { clear. induction j as [|j IH]; cbn [Cpow]; [unfold norm2; cbn; ring|]. rewrite norm2_mul, IH. unfold norm2; cbn; ring. }
    rewrite Z' in N. unfold norm2 in N; cbn in N. lra.
  - clearbody S0. apply (f_equal re) in Z'. cbn in Z'. lra.
Qed.
Lemma Cpow_RtoC : forall x n, Cpow (RtoC x) n = RtoC (x ^ n).
Proof. intros x. induction n as [|n IH]; cbn [Cpow pow]; [reflexivity|rewrite IH, RtoC_mul; reflexivity]. Qed.
Lemma D_y : forall c t l m' m, (0 <= l)%Z -> (- l <= m' <= l)%Z -> (- l <= m <= l)%Z -> c <> 0 ->
  let n := Z.to_nat (2 * l) in let j' := Z.to_nat (l + m') in let j := Z.to_nat (l + m) in
  wigner_D (mkq c 0 t 0) l m' m = (RtoC (wnorm n j / wnorm n j' * c ^ n) * rpol n j' j (RtoC (t / c)))%C.
Proof.
  intros c t l m' m Hl H' H Hc n j' j. unfold wigner_D. fold n j' j. rewrite Cscale_mul, RtoC_mul.
  match goal with |- (?a * ?x = ?a * ?b * ?y)%C => transitivity (a * (b * y))%C; [|ring]; f_equal end.
  unfold rpol. rewrite <- csum_scale. apply csum_ext. intros r Hr. apply in_seq in Hr. unfold wterm.
  destruct (Nat.leb_spec (r + j) n) as [A|A]; destruct (Nat.leb_spec j' (r + j)) as [B|B]; cbn [andb]; try ring.
  change (part_a (mkq c 0 t 0)) with (RtoC c). change (part_b (mkq c 0 t 0)) with (RtoC t). rewrite !Conj_RtoC, !Cpow_RtoC, Cscale_mul, <- !RtoC_mul.
  unfold rcoef. f_equal. unfold Rdiv. rewrite Rpow_mult_distr.
  assert (E : c ^ n = c ^ (j' - r) * c ^ (n - j - r) * c ^ (r + j - j' + r)).
  { rewrite <- !pow_add. f_equal. clearbody n j j'. clear - A B Hr. lia. }
  assert (ET : t ^ (r + j - j' + r) = t ^ (r + j - j') * t ^ r) by apply pow_add.
  rewrite E, pow_inv, ET. pose proof (pow_nonzero c (r + j - j' + r) Hc) as NZ. set (X := c ^ (r + j - j' + r)) in *. field. exact NZ.
Qed.

(** ** Independence in the polar direction: one value of m *)
Section Polar.
Variables (s m : Z).
Definition nn (l : nat) : nat := (2 * l)%nat.
Definition jm (l : nat) : nat := Z.to_nat (Z.of_nat l + m).
Definition js (l : nat) : nat := Z.to_nat (Z.of_nat l + - s).
(** Sum over the degrees M, ..., M + k - 1 of coefficients times (1 + x^2)^(top - l) times the polynomial. *)
Variable M : nat.
Hypothesis HM : (Z.abs s <= Z.of_nat M /\ Z.abs m <= Z.of_nat M)%Z.
Definition polar (A : nat -> C) (k : nat) (z : C) : C :=
  csum (fun i => (A (M + i)%nat * (Cpow (C1 + z * z) (k - i) * rpol (nn (M + i)) (jm (M + i)) (js (M + i)) z))%C) (seq 0 (S k)).
Lemma polar_poly : forall A k, is_poly (nn (M + k)) (polar A k).
Proof.
  intros A k. unfold polar. apply (poly_csum _ (nn (M + k))). intros i Hi. apply in_seq in Hi. apply poly_scale.
  apply (poly_raise (2 * (k - i) + nn (M + i))); [unfold nn; lia|]. apply poly_pow_1zz. apply rpol_poly. unfold nn, jm. lia.
Qed.
Lemma polar_step : forall A k z, polar A (S k) z = ((C1 + z * z) * polar A k z + A (M + S k)%nat * rpol (nn (M + S k)) (jm (M + S k)) (js (M + S k)) z)%C.
Proof.
  intros A k z. unfold polar. replace (S (S k)) with (S k + 1)%nat by lia. rewrite (seq_app (S k) 1 0), csum_app. change (seq (0 + S k) 1) with [S k].
  set (L := seq 0 (S k)) in *. cbn [csum]. rewrite Nat.sub_diag. cbn [Cpow]. unfold L.
  rewrite <- csum_scale. match goal with |- (?a + (?b + C0) = ?c + ?d)%C => assert (EA : a = c); [|rewrite EA; ring] end.
  apply csum_ext. intros i Hi. apply in_seq in Hi. replace (S k - i)%nat with (S (k - i)) by lia. cbn [Cpow]. ring.
Qed.
Lemma polar_independent : forall A k, (forall x : R, polar A k (RtoC x) = C0) -> forall i, (i <= k)%nat -> A (M + i)%nat = C0.
Proof.
  assert (TOP : forall A k, (forall z, polar A k z = C0) -> A (M + k)%nat = C0).
  { intros A k H. specialize (H Ci).
    assert (E : polar A k Ci = (A (M + k)%nat * rpol (nn (M + k)) (jm (M + k)) (js (M + k)) Ci)%C).
    { destruct k as [|k].
      - unfold polar. cbn [seq csum]. rewrite Nat.sub_0_r. cbn [Cpow]. ring.
      - rewrite polar_step. replace (C1 + Ci * Ci)%C with C0 by cx. ring. }
    rewrite E in H. destruct (Cmul_zero _ _ H) as [|N]; [assumption|]. exfalso. revert N. apply rpol_i; unfold nn, jm, js; lia. }
  intros A. induction k as [|k IH]; intros H i Hi.
  - replace i with 0%nat by lia. apply TOP. apply (poly_real _ _ (polar_poly A 0)). exact H.
  - assert (T : A (M + S k)%nat = C0) by (apply TOP; apply (poly_real _ _ (polar_poly A (S k))); exact H).
    destruct (Nat.eq_dec i (S k)) as [->|N]; [exact T|]. apply IH; [|lia]. intros x. specialize (H x). rewrite polar_step, T in H.
    assert (H' : ((C1 + RtoC x * RtoC x) * polar A k (RtoC x))%C = C0) by (rewrite <- H; ring).
    destruct (Cmul_zero _ _ H') as [E|E]; [|exact E]. exfalso. apply (f_equal re) in E. cbn in E. nra.
Qed.
Lemma polar_parity : forall A k z, polar A k (- z)%C = (RtoC ((-1) ^ (js M + jm M)) * polar A k z)%C.
Proof.
  intros A k z. unfold polar. rewrite <- csum_scale. apply csum_ext. intros i _. rewrite rpol_parity.
  replace (- z * - z)%C with (z * z)%C by ring.
  replace ((-1) ^ (js (M + i) + jm (M + i))) with ((-1) ^ (js M + jm M)); [ring|].
  replace (js (M + i) + jm (M + i))%nat with (2 * i + (js M + jm M))%nat by (unfold js, jm; lia).
  rewrite (pow_add _ (2 * i)), pow_mult. replace ((-1) ^ 2) with 1 by ring. rewrite pow1. ring.
Qed.
End Polar.

(** ** Fourier series in the azimuthal direction *)
Definition expi (x : R) : C := mkC (cos x) (sin x).
Lemma expi_add : forall x y, expi (x + y) = (expi x * expi y)%C.
Proof. intros. unfold expi. rewrite cos_plus, sin_plus. apply C_eq; cbn; ring. Qed.
Lemma expi_0 : expi 0 = C1.
Proof. unfold expi. rewrite cos_0, sin_0. reflexivity. Qed.
Lemma Cpow_expi : forall k x, Cpow (expi x) k = expi (INR k * x).
Proof.
  induction k as [|k IH]; intros x; cbn [Cpow]; [rewrite Rmult_0_l, expi_0; reflexivity|].
  rewrite IH, S_INR, <- expi_add. f_equal. ring.
Qed.
Lemma expi_turns : forall d : Z, expi (IZR d * (2 * PI)) = C1.
Proof.
  assert (P : forall k : nat, expi (INR k * (2 * PI)) = C1).
  { intros k. rewrite <- Cpow_expi. unfold expi. rewrite cos_2PI, sin_2PI. change (mkC 1 0) with C1. apply Cpow_1. }
  intros d. destruct (Z.le_gt_cases 0 d) as [H|H].
  - rewrite <- (Z2Nat.id d H), <- INR_IZR_INZ. apply P.
  - assert (E : (expi (IZR d * (2 * PI)) * expi (INR (Z.to_nat (- d)) * (2 * PI)))%C = C1).
    { rewrite <- expi_add, INR_IZR_INZ, Z2Nat.id, opp_IZR by lia. replace (IZR d * (2 * PI) + - IZR d * (2 * PI)) with 0 by ring. apply expi_0. }
    rewrite P in E. rewrite <- E. ring.
Qed.
Lemma cos_lt_1 : forall x, 0 < Rabs x < 2 * PI -> cos x <> 1.
Proof.
  intros x H E. assert (F : cos (Rabs x) = 1) by (unfold Rabs; destruct (Rcase_abs x); [rewrite cos_neg|]; exact E).
  set (y := Rabs x) in *. replace y with (2 * (y / 2)) in F by field. rewrite cos_2a_sin in F.
  assert (0 < sin (y / 2)) by (apply sin_gt_0; lra). nra.
Qed.
Lemma geometric : forall z n, ((z - C1) * csum (fun k => Cpow z k) (seq 0 n))%C = (Cpow z n - C1)%C.
Proof.
  intros z. induction n as [|n IH]; [cbn; ring|]. rewrite seq_S, csum_app. cbn [csum plus Cpow].
  transitivity ((z - C1) * csum (fun k => Cpow z k) (seq 0 n) + (z - C1) * Cpow z n)%C; [ring|]. rewrite IH. ring.
Qed.
Lemma roots_of_unity : forall n d, (0 < n)%Z -> (Z.abs d < n)%Z ->
  csum (fun k => expi (IZR d * phi_at n k)) (zrange 0 n) = if (d =? 0)%Z then RtoC (IZR n) else C0.
Proof.
  intros n d Hn Hd. assert (Np : 0 < IZR n) by (apply IZR_lt; lia). pose proof PI_RGT_0 as PP.
  assert (E : csum (fun k => expi (IZR d * phi_at n k)) (zrange 0 n) = csum (fun k => Cpow (expi (IZR d * (2 * PI / IZR n))) k) (seq 0 (Z.to_nat n))).
  { unfold zrange. rewrite Z.sub_0_r, csum_map. apply csum_ext. intros k _. rewrite Cpow_expi. f_equal. unfold phi_at. rewrite Z.add_0_l, INR_IZR_INZ. ring. }
  rewrite E. destruct (Z.eqb_spec d 0) as [->|N].
  - rewrite Rmult_0_l, expi_0. replace (RtoC (IZR n)) with (RtoC (INR (Z.to_nat n))) by (rewrite INR_IZR_INZ, Z2Nat.id by lia; reflexivity).
    generalize (Z.to_nat n). clear. induction n as [|n IH]; [reflexivity|]. rewrite seq_S, csum_app, IH, S_INR, RtoC_add. cbn [csum]. rewrite Cpow_1. cx.
  - set (z := expi (IZR d * (2 * PI / IZR n))). set (S := csum _ _).
    assert (G : ((z - C1) * S)%C = C0).
    { unfold S. rewrite geometric. unfold z. rewrite Cpow_expi.
      replace (INR (Z.to_nat n) * (IZR d * (2 * PI / IZR n))) with (IZR d * (2 * PI)) by (rewrite INR_IZR_INZ, Z2Nat.id by lia; field; lra).
      rewrite expi_turns. ring. }
    destruct (Cmul_zero _ _ G) as [Z|Z]; [exfalso|exact Z].
    apply (f_equal re) in Z. cbn in Z. apply (cos_lt_1 (IZR d * (2 * PI / IZR n))); [|lra].
    rewrite Rabs_mult, <- abs_IZR. rewrite (Rabs_right (2 * PI / IZR n)) by (apply Rle_ge; apply Rlt_le; apply Rdiv_lt_0_compat; lra).
    assert (P1 : 0 < 2 * PI / IZR n) by (apply Rdiv_lt_0_compat; lra).
    assert (P2 : 1 <= IZR (Z.abs d)) by (apply IZR_le; lia). assert (P3 : IZR (Z.abs d) <= IZR n - 1) by (rewrite <- minus_IZR; apply IZR_le; lia).
    assert (P4 : IZR n * (2 * PI / IZR n) = 2 * PI) by (field; lra). nra.
Qed.
(** Fourier coefficients are determined by the values at n > 2 L equidistant angles. *)
Lemma fourier_zero : forall L n (G : Z -> C), (0 <= L)%Z -> (2 * L + 1 <= n)%Z ->
  (forall k, (0 <= k < n)%Z -> csum (fun m => (expi (IZR m * phi_at n k) * G m)%C) (ms_of L) = C0) ->
  forall m, (- L <= m <= L)%Z -> G m = C0.
Proof.
  intros L n G HL Hn H m0 Hm0.
  assert (E : csum (fun k => (expi (- IZR m0 * phi_at n k) * csum (fun m => (expi (IZR m * phi_at n k) * G m)%C) (ms_of L))%C) (zrange 0 n) = C0).
  { apply csum_const0. intros k Hk. apply zrange_In in Hk. rewrite H by lia. ring. }
  assert (F : csum (fun k => (expi (- IZR m0 * phi_at n k) * csum (fun m => (expi (IZR m * phi_at n k) * G m)%C) (ms_of L))%C) (zrange 0 n)
    = csum (fun m => (G m * csum (fun k => expi (IZR (m - m0) * phi_at n k)) (zrange 0 n))%C) (ms_of L)).
  { transitivity (csum (fun k => csum (fun m => (G m * expi (IZR (m - m0) * phi_at n k))%C) (ms_of L)) (zrange 0 n)).
    - apply csum_ext. intros k _. rewrite <- csum_scale. apply csum_ext. intros m _.
      rewrite minus_IZR. replace ((IZR m - IZR m0) * phi_at n k) with (- IZR m0 * phi_at n k + IZR m * phi_at n k) by ring. rewrite expi_add. ring.
    - rewrite csum_swap. apply csum_ext. intros m _. rewrite <- csum_scale. reflexivity. }
  rewrite F in E. clear F.
  assert (F : csum (fun m => (G m * csum (fun k => expi (IZR (m - m0) * phi_at n k)) (zrange 0 n))%C) (ms_of L) = (RtoC (IZR n) * G m0)%C).
  { transitivity (csum (fun m => (RtoC (IZR n) * G m * (if (m =? m0)%Z then C1 else C0))%C) (ms_of L)); [|rewrite csum_delta by assumption; reflexivity].
    apply csum_ext. intros m Hm. unfold ms_of in Hm. apply zrange_In in Hm. rewrite roots_of_unity by lia.
    destruct (Z.eqb_spec m m0) as [->|N]; [rewrite Z.sub_diag; cbn [Z.eqb]; ring|]. destruct (Z.eqb_spec (m - m0) 0); [lia|]. ring. }
  rewrite F in E. destruct (Cmul_zero _ _ E) as [Z|Z]; [exfalso|exact Z].
  apply (f_equal re) in Z. cbn in Z. assert (0 < IZR n) by (apply IZR_lt; lia). lra.
Qed.

(** ** Values on the grid *)
(** The field with modes [a], of degrees up to L, on a rotor. *)
Definition field (s L : Z) (a : Z -> Z -> C) (q : quat) : C :=
  csum (fun lm => (a (fst lm) (snd lm) * swsh s (fst lm) (snd lm) q)%C) (LM_range 0 L).
Definition rot_z (phi : R) : quat := mkq (cos (phi / 2)) 0 0 (sin (phi / 2)).
Definition rot_y (theta : R) : quat := mkq (cos (theta / 2)) 0 (sin (theta / 2)) 0.
Lemma spherical_split : forall theta phi, from_spherical theta phi = qmul (rot_z phi) (rot_y theta).
Proof. intros. unfold from_spherical, rot_z, rot_y. apply quat_eq; cbn; ring. Qed.
Lemma swsh_spherical : forall s l m theta phi, swsh s l m (from_spherical theta phi) = (expi (IZR m * phi) * swsh s l m (rot_y theta))%C.
Proof.
  intros s l m theta phi. unfold swsh. destruct (Z.leb_spec (Z.abs s) l) as [A|A]; destruct (Z.leb_spec (Z.abs m) l) as [B|B]; cbn [andb]; try ring.
  rewrite spherical_split, <- C25_wigner_product by lia. rewrite !Cscale_mul.
  assert (E : csum (fun k => (wigner_D (rot_z phi) l m k * wigner_D (rot_y theta) l k (- s))%C) (ms_of l) = (expi (IZR m * phi) * wigner_D (rot_y theta) l m (- s))%C).
  { transitivity (csum (fun k => (expi (IZR k * phi) * wigner_D (rot_y theta) l k (- s) * (if (k =? m)%Z then C1 else C0))%C) (ms_of l)); [|rewrite csum_delta by lia; reflexivity].
    apply csum_ext. intros k Hk. unfold ms_of in Hk. apply zrange_In in Hk. unfold rot_z. rewrite C25_wigner_z by lia.
    destruct (Z.eqb_spec m k) as [->|N]; destruct (Z.eqb_spec k k); try lia.
    - replace (2 * (phi / 2)) with phi by field. unfold expi. ring.
    - destruct (Z.eqb_spec k m); [lia|]. ring. }
  rewrite E. ring.
Qed.
Lemma swsh_out : forall s l m q, (l < Z.abs m)%Z -> swsh s l m q = C0.
Proof. intros s l m q H. unfold swsh. destruct (Z.leb_spec (Z.abs m) l); [lia|]. rewrite andb_false_r. reflexivity. Qed.
Lemma swsh_low : forall s l m q, (l < Z.abs s)%Z -> swsh s l m q = C0.
Proof. intros s l m q H. unfold swsh. destruct (Z.leb_spec (Z.abs s) l); [lia|]. reflexivity. Qed.
Lemma csum_split_zero : forall (f : Z -> C) a b c d, (a <= b)%Z -> (b <= c)%Z -> (c <= d)%Z -> (forall k, (a <= k < b)%Z \/ (c <= k < d)%Z -> f k = C0) ->
  csum f (zrange a d) = csum f (zrange b c).
Proof.
  intros f a b c d H1 H2 H3 Z. rewrite (zrange_split a b d), (zrange_split b c d) by lia. rewrite !csum_app.
  rewrite (csum_const0 f (zrange a b)), (csum_const0 f (zrange c d)); [ring| |]; intros k Hk; apply zrange_In in Hk; apply Z; lia.
Qed.
Lemma field_by_m : forall s L a q, (0 <= L)%Z ->
  field s L a q = csum (fun m => csum (fun l => (a l m * swsh s l m q)%C) (zrange 0 (L + 1))) (ms_of L).
Proof.
  intros s L a q HL. unfold field, LM_range.
  assert (FM : forall (f : Z * Z -> C) g l, csum f (flat_map g l) = csum (fun x : Z => csum f (g x)) l).
  { intros f g. induction l as [|x l IH]; cbn [flat_map csum]; [reflexivity|]. rewrite csum_app, IH. reflexivity. }
  rewrite FM, csum_swap. apply csum_ext. intros l Hl. apply zrange_In in Hl. rewrite csum_map. cbn [fst snd]. unfold ms_of.
  symmetry. apply csum_split_zero; try lia. intros k Hk. rewrite swsh_out by lia. ring.
Qed.

Definition kap (s l m : Z) : R :=
  sgn s * sqrt (IZR (2 * l + 1) / (4 * PI)) * (wnorm (Z.to_nat (2 * l)) (Z.to_nat (l + - s)) / wnorm (Z.to_nat (2 * l)) (Z.to_nat (l + m))).
Lemma kap_nonzero : forall s l m, (0 <= l)%Z -> kap s l m <> 0.
Proof.
  intros s l m Hl. unfold kap. pose proof PI_RGT_0. assert (0 < IZR (2 * l + 1)) by (apply IZR_lt; lia).
  assert (Q : 0 < sqrt (IZR (2 * l + 1) / (4 * PI))) by (apply sqrt_lt_R0; apply Rdiv_lt_0_compat; lra).
  assert (W3 : 0 < wnorm (Z.to_nat (2 * l)) (Z.to_nat (l + - s)) / wnorm (Z.to_nat (2 * l)) (Z.to_nat (l + m))) by (apply Rdiv_lt_0_compat; apply wnorm_pos).
  destruct (sgn_cases s) as [-> | ->]; nra.
Qed.
Lemma swsh_y : forall s l m theta, (Z.abs s <= l)%Z -> (Z.abs m <= l)%Z -> cos (theta / 2) <> 0 ->
  swsh s l m (rot_y theta) =
    (RtoC (kap s l m * cos (theta / 2) ^ (2 * Z.to_nat l)) * rpol (2 * Z.to_nat l) (Z.to_nat (l + m)) (Z.to_nat (l + - s)) (RtoC (tan (theta / 2))))%C.
Proof.
  intros s l m theta Hs Hm Hc. unfold swsh. destruct (Z.leb_spec (Z.abs s) l) as [A|A]; [|lia]. destruct (Z.leb_spec (Z.abs m) l) as [B|B]; [|lia]. cbn [andb].
  unfold rot_y. rewrite D_y by (auto; lia). rewrite Cscale_mul. replace (2 * Z.to_nat l)%nat with (Z.to_nat (2 * l)) by lia. unfold tan, kap.
  rewrite !RtoC_mul. ring.
Qed.
(** The part with one m as a polynomial of the tangent of half the polar angle. *)
Lemma polar_value : forall s L a m theta, (Z.abs s <= L)%Z -> (Z.abs m <= L)%Z -> cos (theta / 2) <> 0 ->
  let M := Z.to_nat (Z.max (Z.abs s) (Z.abs m)) in
  csum (fun l => (a l m * swsh s l m (rot_y theta))%C) (zrange 0 (L + 1)) =
  (RtoC (cos (theta / 2) ^ (2 * Z.to_nat L)) *
   polar s m M (fun l => a (Z.of_nat l) m * RtoC (kap s (Z.of_nat l) m))%C (Z.to_nat L - M) (RtoC (tan (theta / 2))))%C.
Proof.
  intros s L a m theta Hs Hm Hc M. set (Mz := Z.max (Z.abs s) (Z.abs m)) in *.
  assert (CZ := csum_split_zero (fun l => (a l m * swsh s l m (rot_y theta))%C) 0 Mz (L + 1) (L + 1) ltac:(lia) ltac:(lia) ltac:(lia)).
  rewrite CZ. 2: { intros k Hk. destruct (Z.le_gt_cases (Z.abs s) k); [rewrite swsh_out by lia|rewrite swsh_low by lia]; ring. } clear CZ.
  unfold zrange. rewrite csum_map. replace (Z.to_nat (L + 1 - Mz)) with (S (Z.to_nat L - M)) by (unfold M; lia).
  unfold polar. rewrite <- csum_scale. apply csum_ext. intros i Hi. apply in_seq in Hi.
  replace (Mz + Z.of_nat i)%Z with (Z.of_nat (M + i)) by (unfold M; lia). rewrite swsh_y by (try exact Hc; unfold M; lia).
  rewrite Nat2Z.id. unfold nn, jm, js. set (c := cos (theta / 2)) in *. set (t := tan (theta / 2)).
  assert (E : (RtoC (c ^ (2 * Z.to_nat L)) * Cpow (C1 + RtoC t * RtoC t) (Z.to_nat L - M - i))%C = RtoC (c ^ (2 * (M + i)))).
  { assert (T : c ^ 2 * (1 + t * t) = 1).
    { unfold t, tan. fold c. pose proof (sin2_cos2 (theta / 2)) as P. unfold Rsqr in P. fold c in P.
      replace (c ^ 2 * (1 + sin (theta / 2) / c * (sin (theta / 2) / c))) with (c * c + sin (theta / 2) * sin (theta / 2)) by (field; exact Hc). lra. }
    replace (C1 + RtoC t * RtoC t)%C with (RtoC (1 + t * t)) by cx. rewrite Cpow_RtoC, <- RtoC_mul. f_equal.
    replace (2 * Z.to_nat L)%nat with (2 * (M + i) + 2 * (Z.to_nat L - M - i))%nat by lia. rewrite pow_add, Rmult_assoc, (pow_mult c 2 (Z.to_nat L - M - i)).
    rewrite <- Rpow_mult_distr, T, pow1. ring. }
  transitivity (a (Z.of_nat (M + i)) m * RtoC (kap s (Z.of_nat (M + i)) m) * (RtoC (c ^ (2 * Z.to_nat L)) * Cpow (C1 + RtoC t * RtoC t) (Z.to_nat L - M - i)) *
    rpol (2 * (M + i)) (Z.to_nat (Z.of_nat (M + i) + m)) (Z.to_nat (Z.of_nat (M + i) + - s)) (RtoC t))%C; [|ring].
  rewrite E, RtoC_mul. ring.
Qed.
(** The tangents of half the angles of the grid, with both signs. *)
Definition half_angle (n j : Z) : R := IZR j * (PI / IZR (n - 1)) / 2.
Lemma half_angle_range : forall n j, (2 <= n)%Z -> (- (n - 2) <= j <= n - 2)%Z -> - (PI / 2) < half_angle n j < PI / 2.
Proof.
  intros n j Hn Hj. unfold half_angle. pose proof PI_RGT_0. assert (N : 1 <= IZR (n - 1)) by (apply IZR_le; lia).
  assert (A : - (IZR (n - 1) - 1) <= IZR j) by (rewrite <- minus_IZR, <- opp_IZR; apply IZR_le; lia).
  assert (B : IZR j <= IZR (n - 1) - 1) by (rewrite <- minus_IZR; apply IZR_le; lia).
  assert (P : 0 < PI / IZR (n - 1)) by (apply Rdiv_lt_0_compat; lra). assert (Q : IZR (n - 1) * (PI / IZR (n - 1)) = PI) by (field; lra).
  set (d := PI / IZR (n - 1)) in *. set (N1 := IZR (n - 1)) in *. split; nra.
Qed.
Lemma tangents_nodup : forall n, (2 <= n)%Z -> NoDup (map (fun j => tan (half_angle n j)) (zrange (- (n - 2)) (n - 1))).
Proof.
  intros n Hn. pose proof PI_RGT_0. assert (N : 1 <= IZR (n - 1)) by (apply IZR_le; lia).
  assert (P : 0 < PI / IZR (n - 1)) by (apply Rdiv_lt_0_compat; lra).
  assert (INJ : forall i j, (- (n - 2) <= i <= n - 2)%Z -> (- (n - 2) <= j <= n - 2)%Z -> (i < j)%Z -> tan (half_angle n i) < tan (half_angle n j)).
  { intros i j Hi Hj L. pose proof (half_angle_range n i Hn ltac:(lia)). pose proof (half_angle_range n j Hn ltac:(lia)). apply tan_increasing; [lra| |lra].
    unfold half_angle. apply IZR_lt in L. nra. }
  assert (G : forall l, NoDup l -> (forall x, In x l -> (- (n - 2) <= x <= n - 2)%Z) -> NoDup (map (fun j => tan (half_angle n j)) l)).
  { induction 1 as [|x l NI ND IH]; intros B; cbn [map]; constructor; [|apply IH; intros; apply B; right; assumption].
    rewrite in_map_iff. intros (y & E & Iy). pose proof (B x (or_introl eq_refl)). pose proof (B y (or_intror Iy)).
    destruct (Z.lt_trichotomy x y) as [L|[->|L]]; [pose proof (INJ x y ltac:(lia) ltac:(lia) L); lra|contradiction|pose proof (INJ y x ltac:(lia) ltac:(lia) L); lra]. }
  apply G; [apply zrange_NoDup|]. intros x Hx. apply zrange_In in Hx. lia.
Qed.
Lemma tan_neg' : forall x, tan (- x) = - tan x.
Proof. intros x. unfold tan. rewrite sin_neg, cos_neg. unfold Rdiv. ring. Qed.

Theorem C68_sampling : forall s L n_theta n_phi a, (0 <= L)%Z -> (2 * L + 1 <= n_theta)%Z -> (2 * L + 1 <= n_phi)%Z ->
  (forall q, In q (grid_points n_theta n_phi) -> field s L a q = C0) ->
  forall l m, (Z.abs s <= l <= L)%Z -> (- l <= m <= l)%Z -> a l m = C0.
Proof.
  intros s L nt np a HL Ht Hp H l m Hl Hm. pose proof PI_RGT_0 as PP.
  set (G := fun m theta => csum (fun l => (a l m * swsh s l m (rot_y theta))%C) (zrange 0 (L + 1))).
  assert (GZ : forall j m, (0 <= j < nt)%Z -> (- L <= m <= L)%Z -> G m (theta_at nt j) = C0).
  { intros j m' Hj Hm'. apply (fourier_zero L np (fun m => G m (theta_at nt j)) HL Hp); [|exact Hm'].
    intros k Hk. rewrite <- (H (from_spherical (theta_at nt j) (phi_at np k))).
    - rewrite field_by_m by exact HL. apply csum_ext. intros i _. unfold G. rewrite <- csum_scale. apply csum_ext. intros l' _.
      rewrite swsh_spherical. ring.
    - unfold grid_points. apply in_flat_map. exists j. split; [apply zrange_In; lia|]. apply (in_map (fun k => from_spherical (theta_at nt j) (phi_at np k))). apply zrange_In; lia. }
  set (M := Z.to_nat (Z.max (Z.abs s) (Z.abs m))). set (A := fun l => (a (Z.of_nat l) m * RtoC (kap s (Z.of_nat l) m))%C).
  assert (PZ : forall theta, cos (theta / 2) <> 0 -> G m theta = C0 -> polar s m M A (Z.to_nat L - M) (RtoC (tan (theta / 2))) = C0).
  { intros theta Hc E. unfold G in E. rewrite polar_value in E by (try exact Hc; lia). fold M A in E.
    destruct (Cmul_zero _ _ E) as [Z|Z]; [exfalso|exact Z]. apply (f_equal re) in Z. revert Z. apply pow_nonzero. exact Hc. }
  assert (EV : forall z, polar s m M A (Z.to_nat L - M) z = C0).
  { assert (DP := polar_poly s m M ltac:(unfold M; lia) A (Z.to_nat L - M)).
    replace (nn (M + (Z.to_nat L - M))) with (2 * Z.to_nat L)%nat in DP by (unfold nn, M; lia).
    destruct (Z.eq_dec nt 1) as [N1|N1].
    - apply (poly_roots _ _ [0] DP); [repeat constructor; intros []|cbn [length]; lia|]. intros r [<-|[]].
      replace 0 with (tan (0 / 2)) at 1 by (replace (0 / 2) with 0 by field; apply tan_0).
      apply PZ; [replace (0 / 2) with 0 by field; rewrite cos_0; lra|].
      pose proof (GZ 0%Z m ltac:(lia) ltac:(lia)) as E. unfold theta_at in E. rewrite N1 in E. exact E.
    - apply (poly_roots _ _ (map (fun j => tan (half_angle nt j)) (zrange (- (nt - 2)) (nt - 1))) DP).
      + apply tangents_nodup. lia.
      + rewrite map_length, zrange_length. lia.
      + intros r Hr. apply in_map_iff in Hr. destruct Hr as (j & <- & Hj). apply zrange_In in Hj.
        assert (POS : forall j, (0 <= j <= nt - 2)%Z -> polar s m M A (Z.to_nat L - M) (RtoC (tan (half_angle nt j))) = C0).
        { intros i Hi. assert (TH : theta_at nt i / 2 = half_angle nt i) by (unfold theta_at, half_angle; destruct (Z.leb_spec nt 1); [lia|reflexivity]).
          rewrite <- TH. apply PZ; [|apply GZ; lia]. rewrite TH. pose proof (half_angle_range nt i ltac:(lia) ltac:(lia)) as Rg.
          pose proof (cos_gt_0 (half_angle nt i) ltac:(lra) ltac:(lra)). lra. }
        destruct (Z.le_gt_cases 0 j) as [P|P]; [apply POS; lia|].
        replace (half_angle nt j) with (- half_angle nt (- j)) by (unfold half_angle; rewrite opp_IZR; field; apply not_0_IZR; lia).
        rewrite tan_neg', RtoC_opp, polar_parity by (unfold M; lia). rewrite POS by lia. ring. }
  assert (AZ := polar_independent s m M ltac:(unfold M; lia) A (Z.to_nat L - M) (fun x => EV (RtoC x)) (Z.to_nat l - M) ltac:(unfold M; lia)).
  unfold A in AZ. replace (Z.of_nat (M + (Z.to_nat l - M))) with l in AZ by (unfold M; lia).
  destruct (Cmul_zero _ _ AZ) as [Z|Z]; [exact Z|exfalso]. apply (f_equal re) in Z. revert Z. apply kap_nonzero. lia.
Qed.

(** ** The inverse exists *)
(** What the transforms assume of spinsfast.map2salm(values, s, lmax) on an n_theta x n_phi grid: it returns the modes of
    a field whose degrees the grid resolves, and zeros for the degrees below |s|. *)
Definition exact (map2salm : Z -> Z -> list C -> Z -> Z -> list C) (s n_theta n_phi : Z) : Prop :=
  forall L a lmax, (0 <= L)%Z -> (2 * L + 1 <= n_theta)%Z -> (2 * L + 1 <= n_phi)%Z ->
    (0 <= lmax)%Z -> (2 * lmax + 1 <= n_theta)%Z -> (2 * lmax + 1 <= n_phi)%Z ->
    map2salm n_theta n_phi (map (field s L a) (grid_points n_theta n_phi)) s lmax =
    map (fun lm => if ((Z.abs s <=? fst lm) && (fst lm <=? L))%Z then a (fst lm) (snd lm) else C0) (LM_range 0 lmax).

Definition keyeq (a b : Z * Z) : bool := ((fst a =? fst b) && (snd a =? snd b))%Z.
Lemma keyeq_spec : forall a b, reflect (a = b) (keyeq a b).
Proof.
  intros [a b] [c d]. unfold keyeq. cbn [fst snd]. destruct (Z.eqb_spec a c) as [->|N]; destruct (Z.eqb_spec b d) as [->|N']; cbn [andb]; constructor; congruence.
Qed.
Lemma csum_key : forall ks k0 (f : Z * Z -> C), NoDup ks -> In k0 ks -> csum (fun k => (f k * (if keyeq k k0 then C1 else C0))%C) ks = f k0.
Proof.
  induction ks as [|k ks IH]; intros k0 f ND I; [destruct I|]. inversion_clear ND as [|? ? NI ND']. cbn [csum]. destruct I as [->|I].
  - destruct (keyeq_spec k0 k0) as [_|N]; [|congruence]. rewrite csum_const0; [ring|]. intros k Hk. destruct (keyeq_spec k k0) as [->|_]; [contradiction|ring].
  - destruct (keyeq_spec k k0) as [->|_]; [contradiction|]. rewrite IH by assumption. ring.
Qed.
Lemma all_or_some : forall (f : nat -> C) l, (forall i, In i l -> f i = C0) \/ exists i, In i l /\ f i <> C0.
Proof.
  intros f. induction l as [|i l [IH|(j & Ij & Hj)]]; [left; intros ? []| |right; exists j; split; [right; exact Ij|exact Hj]].
  assert (D : f i = C0 \/ f i <> C0).
  { destruct (Req_EM_T (re (f i)) 0) as [E|E]; [|right; intros F; apply E; rewrite F; reflexivity].
    destruct (Req_EM_T (im (f i)) 0) as [E'|E']; [left; apply C_eq; assumption|right; intros F; apply E'; rewrite F; reflexivity]. }
  destruct D as [D|D]; [left|right; exists i; split; [left; reflexivity|exact D]]. intros k [<-|Hk]; [exact D|apply IH; exact Hk].
Qed.
Section Dual.
Variable (v : Z * Z -> nat -> C) (idx : list nat).
Hypothesis nodup_idx : NoDup idx.
Definition independent (ks : list (Z * Z)) : Prop :=
  forall a, (forall i, In i idx -> csum (fun k => (a k * v k i)%C) ks = C0) -> forall k, In k ks -> a k = C0.
Lemma dual_exists : forall ks, NoDup ks -> independent ks ->
  exists W : Z * Z -> nat -> C, forall k k', In k ks -> In k' ks -> csum (fun i => (W k i * v k' i)%C) idx = if keyeq k k' then C1 else C0.
Proof.
  induction ks as [|k0 ks IH]; intros ND I; [exists (fun _ _ => C0); intros k k' []|].
  inversion_clear ND as [|? ? NI ND'].
  destruct (IH ND') as [W' HW].
  { intros a Ha k Hk. assert (NE : keyeq k k0 = false) by (destruct (keyeq_spec k k0) as [->|]; [contradiction|reflexivity]).
    specialize (I (fun k => if keyeq k k0 then C0 else a k)). cbv beta in I.
    rewrite <- (I (fun i Hi => ltac:(
      cbn [csum]; destruct (keyeq_spec k0 k0) as [_|N]; [|congruence];
      rewrite (csum_ext _ (fun k => (a k * v k i)%C)); [rewrite (Ha i Hi); ring|];
      intros x Hx; destruct (keyeq_spec x k0) as [->|_]; [contradiction|reflexivity])) k (or_intror Hk)).
    rewrite NE. reflexivity. }
  set (c := fun k => csum (fun j => (W' k j * v k0 j)%C) idx).
  set (u := fun i => (v k0 i - csum (fun k => (c k * v k i)%C) ks)%C).
  destruct (all_or_some u idx) as [Z|(i0 & I0 & U0)].
  { exfalso. assert (E : C1 = C0); [|apply (f_equal re) in E; cbn in E; lra].
    specialize (I (fun k => if keyeq k k0 then C1 else (- c k)%C)). cbv beta in I.
    rewrite <- (I (fun i Hi => ltac:(
      cbn [csum]; destruct (keyeq_spec k0 k0) as [_|N]; [|congruence];
      rewrite (csum_ext _ (fun k => (- (c k * v k i))%C));
        [rewrite csum_opp; rewrite <- (Z i Hi); unfold u; ring|];
      intros x Hx; destruct (keyeq_spec x k0) as [->|_]; [contradiction|ring])) k0 (or_introl eq_refl)).
    destruct (keyeq_spec k0 k0) as [_|N]; [reflexivity|congruence]. }
  (* a functional that vanishes on ks but not on k0 *)
  set (phi := fun j => ((if (j =? i0)%nat then C1 else C0) - csum (fun k => (v k i0 * W' k j)%C) ks)%C).
  assert (DI : forall f : nat -> C, csum (fun j => ((if (j =? i0)%nat then C1 else C0) * f j)%C) idx = f i0).
  { intros f. clear - nodup_idx I0. induction idx as [|j l IHl]; [destruct I0|]. inversion_clear nodup_idx as [|? ? NJ NL]. cbn [csum]. destruct I0 as [->|I0].
    - rewrite Nat.eqb_refl. rewrite csum_const0; [ring|]. intros k Hk. destruct (Nat.eqb_spec k i0) as [->|_]; [contradiction|ring].
    - destruct (Nat.eqb_spec j i0) as [->|_]; [contradiction|]. rewrite IHl by assumption. ring. }
  assert (PV : forall f : nat -> C, csum (fun j => (phi j * f j)%C) idx = (f i0 - csum (fun k => (v k i0 * csum (fun j => (W' k j * f j)%C) idx)%C) ks)%C).
  { intros f. unfold phi.
    transitivity (csum (fun j => ((if (j =? i0)%nat then C1 else C0) * f j)%C) idx - csum (fun j => csum (fun k => (v k i0 * (W' k j * f j))%C) ks) idx)%C.
    - assert (SB : forall (p q : nat -> C) l, csum (fun k => (p k - q k)%C) l = (csum p l - csum q l)%C).
      { intros p q. induction l as [|j l IHl]; cbn [csum]; [ring|rewrite IHl; ring]. }
      rewrite <- SB. apply csum_ext. intros j _.
      assert (E : csum (fun k => (v k i0 * (W' k j * f j))%C) ks = (csum (fun k => (v k i0 * W' k j)%C) ks * f j)%C).
      { rewrite <- csum_scale_r. apply csum_ext. intros; ring. }
      rewrite E. ring.
    - rewrite DI. f_equal. rewrite csum_swap. apply csum_ext. intros k _. apply csum_scale. }
  assert (PK : forall k, In k ks -> csum (fun j => (phi j * v k j)%C) idx = C0).
  { intros k Hk. rewrite PV. rewrite (csum_ext _ (fun k' => (v k' i0 * (if keyeq k' k then C1 else C0))%C)); [rewrite csum_key by assumption; ring|].
    intros k' Hk'. rewrite HW by assumption. reflexivity. }
  assert (P0 : csum (fun j => (phi j * v k0 j)%C) idx = u i0).
  { rewrite PV. unfold u. f_equal. apply csum_ext. intros k _. unfold c. ring. }
  set (W0 := fun j => (phi j * Cinv (u i0))%C).
  assert (I0' : (u i0 * Cinv (u i0))%C = C1) by (field; exact U0).
  exists (fun k j => if keyeq k k0 then W0 j else (W' k j - c k * W0 j)%C). intros k k' Hk Hk'.
  assert (W00 : csum (fun i => (W0 i * v k0 i)%C) idx = C1).
  { rewrite (csum_ext _ (fun i => ((phi i * v k0 i) * Cinv (u i0))%C)) by (intros; unfold W0; ring). rewrite csum_scale_r, P0. exact I0'. }
  assert (W0k : forall k, In k ks -> csum (fun i => (W0 i * v k i)%C) idx = C0).
  { intros x Hx. rewrite (csum_ext _ (fun i => ((phi i * v x i) * Cinv (u i0))%C)) by (intros; unfold W0; ring). rewrite csum_scale_r, PK by exact Hx. ring. }
  destruct (keyeq_spec k k0) as [->|N].
  - destruct Hk' as [<-|Hk']; [destruct (keyeq_spec k0 k0); [exact W00|congruence]|].
    destruct (keyeq_spec k0 k') as [<-|_]; [contradiction|apply W0k; exact Hk'].
  - destruct Hk as [->|Hk]; [congruence|].
    assert (SP : csum (fun i => ((W' k i - c k * W0 i) * v k' i)%C) idx = (csum (fun i => (W' k i * v k' i)%C) idx - c k * csum (fun i => (W0 i * v k' i)%C) idx)%C).
    { rewrite <- (csum_scale (c k)). transitivity (csum (fun i => (W' k i * v k' i + - (c k * (W0 i * v k' i)))%C) idx).
      - apply csum_ext. intros; ring.
      - rewrite csum_add, csum_opp. ring. }
    rewrite SP. destruct Hk' as [<-|Hk'].
    + destruct (keyeq_spec k k0) as [|_]; [congruence|]. rewrite W00. fold (c k). ring.
    + rewrite W0k by exact Hk'. rewrite HW by assumption. ring.
Qed.
End Dual.

Lemma csum_index : forall A (f : A -> C) (d : A) l, csum f l = csum (fun i => f (nth i l d)) (seq 0 (length l)).
Proof.
  intros A f d l. rewrite <- (csum_map _ _ (fun i => nth i l d) f). f_equal. clear. induction l as [|a l IH]; [reflexivity|].
  cbn [length seq map nth]. f_equal. rewrite <- seq_shift, map_map. exact IH.
Qed.
Lemma keys_nodup : forall a b, NoDup (LM_range a b).
Proof.
  intros a b. unfold LM_range.
    assert (ND : forall l, NoDup l -> NoDup (flat_map (fun ell => map (fun m => (ell, m)) (zrange (- ell) (ell + 1))) l)).
    { induction 1 as [|x l NI ND IH]; cbn [flat_map]; [constructor|].
      assert (AP : forall (A B : list (Z * Z)), NoDup A -> NoDup B -> (forall z, In z A -> ~ In z B) -> NoDup (A ++ B)).
      { induction A as [|z A IHA]; intros B NA NB D; [exact NB|]. inversion_clear NA. cbn. constructor.
        - rewrite in_app_iff. intros [F|F]; [contradiction|]. apply (D z (or_introl eq_refl)). exact F.
        - apply IHA; [assumption|assumption|]. intros w Hw. apply D. right. exact Hw. }
      apply AP; [|exact IH|].
      - apply FinFun.Injective_map_NoDup; [intros x1 x2 E; congruence|apply zrange_NoDup].
      - intros [x1 x2] H1 H2. apply in_map_iff in H1. destruct H1 as (m & E & _). injection E as <- <-.
        apply in_flat_map in H2. destruct H2 as (y & Iy & Hy). apply in_map_iff in Hy. destruct Hy as (m' & E & _). injection E as -> _. contradiction. }
    apply ND. apply zrange_NoDup.
Qed.
Definition truncated (s L : Z) (a : Z -> Z -> C) (l m : Z) : C := if ((Z.abs s <=? l) && (l <=? L))%Z then a l m else C0.
Lemma field_truncated : forall s L L' a q, (0 <= L <= L')%Z -> field s L a q = csum (fun lm => (truncated s L a (fst lm) (snd lm) * swsh s (fst lm) (snd lm) q)%C) (filter (fun lm => Z.abs s <=? fst lm)%Z (LM_range 0 L')).
Proof.
  intros s L L' a q H. unfold field. rewrite (LM_range_split 0 (L + 1) L') by lia. replace (L + 1 - 1)%Z with L by lia.
  rewrite filter_app, csum_app.
  assert (FC : forall (f : Z * Z -> C) p l, (forall x, In x l -> p x = false -> f x = C0) -> csum f (filter p l) = csum f l).
  { intros f p. induction l as [|x l IH]; intros Z; [reflexivity|]. cbn [filter csum]. destruct (p x) eqn:E; cbn [csum].
    - rewrite IH by (intros; apply Z; [right; assumption|assumption]). reflexivity.
    - rewrite IH by (intros; apply Z; [right; assumption|assumption]). rewrite (Z x (or_introl eq_refl) E). ring. }
  rewrite !FC.
  - rewrite (csum_const0 _ (LM_range (L + 1) L')).
    + rewrite (csum_ext (fun lm : Z * Z => (truncated s L a (fst lm) (snd lm) * swsh s (fst lm) (snd lm) q)%C) (fun lm => (a (fst lm) (snd lm) * swsh s (fst lm) (snd lm) q)%C)); [ring|].
      intros [l m] I. apply LM_range_In in I. cbn [fst snd]. unfold truncated. destruct (Z.leb_spec l L); [|lia].
      destruct (Z.leb_spec (Z.abs s) l); cbn [andb]; [reflexivity|]. rewrite swsh_low by lia. ring.
    + intros [l m] I. apply LM_range_In in I. cbn [fst snd]. unfold truncated. destruct (Z.leb_spec l L); [lia|]. rewrite andb_false_r. ring.
  - intros [l m] _ E. cbn [fst] in *. apply Z.leb_gt in E. unfold truncated. destruct (Z.leb_spec (Z.abs s) l); [lia|]. cbn [andb fst snd]. ring.
  - intros [l m] _ E. cbn [fst] in *. apply Z.leb_gt in E. unfold truncated. destruct (Z.leb_spec (Z.abs s) l); [lia|]. cbn [andb fst snd]. ring.
Qed.
Theorem C68_inverse_exists : forall s n_theta n_phi, exists map2salm, exact map2salm s n_theta n_phi.
Proof.
  intros s nt np. set (Lm := ((Z.min nt np - 1) / 2)%Z).
  destruct (Z.lt_ge_cases (Z.min nt np) 1) as [SM|BG].
  { exists (fun _ _ _ _ _ => []). intros L a lmax H1 H2 H3. lia. }
  assert (LM : (0 <= Lm /\ 2 * Lm + 1 <= nt /\ 2 * Lm + 1 <= np)%Z).
  { unfold Lm. pose proof (Z.div_mod (Z.min nt np - 1) 2 ltac:(lia)). pose proof (Z.mod_pos_bound (Z.min nt np - 1) 2 ltac:(lia)). lia. }
  set (ks := filter (fun lm => Z.abs s <=? fst lm)%Z (LM_range 0 Lm)).
  set (v := fun (k : Z * Z) i => swsh s (fst k) (snd k) (nth i (grid_points nt np) q1)).
  destruct (dual_exists v (seq 0 (length (grid_points nt np))) (seq_NoDup _ _) ks) as [W HW].
  { unfold ks. apply NoDup_filter, keys_nodup. }
  { intros a Ha k Hk. unfold ks in Hk. apply filter_In in Hk. destruct k as [l m]. destruct Hk as [Hk Hs]. cbn [fst] in Hs. apply Z.leb_le in Hs. apply LM_range_In in Hk.
    apply (C68_sampling s Lm nt np (fun l m => a (l, m))); try lia.
    intros q Hq. apply (In_nth _ _ q1) in Hq. destruct Hq as (i & Li & Ei). rewrite (field_truncated s Lm Lm) by lia.
    rewrite <- (Ha i) by (apply in_seq; lia). apply csum_ext. intros [l' m'] Hk'. apply filter_In in Hk'. destruct Hk' as [Hk' Hs']. cbn [fst] in Hs'. apply LM_range_In in Hk'.
    unfold truncated, v. cbn [fst snd]. rewrite Hs', Ei. destruct (Z.leb_spec l' Lm); [|lia]. reflexivity. }
  exists (fun _ _ vals _ lmax => map (fun lm => if (Z.abs s <=? fst lm)%Z then csum (fun i => (W lm i * nth i vals C0)%C) (seq 0 (length (grid_points nt np))) else C0) (LM_range 0 lmax)).
  intros L a lmax HL H1 H2 HM H3 H4. apply map_ext_in. intros [l m] I. apply LM_range_In in I. cbn [fst snd].
  destruct (Z.leb_spec (Z.abs s) l) as [S|S]; cbn [andb]; [|reflexivity].
  assert (LL : (L <= Lm)%Z) by (unfold Lm; apply Z.div_le_lower_bound; lia). assert (lmL : (lmax <= Lm)%Z) by (unfold Lm; apply Z.div_le_lower_bound; lia).
  transitivity (csum (fun k => (truncated s L a (fst k) (snd k) * csum (fun i => (W (l, m) i * v k i)%C) (seq 0 (length (grid_points nt np))))%C) ks).
  { transitivity (csum (fun i => csum (fun k => (truncated s L a (fst k) (snd k) * (W (l, m) i * v k i))%C) ks) (seq 0 (length (grid_points nt np)))).
    - apply csum_ext. intros i Hi. apply in_seq in Hi.
      rewrite (nth_indep _ C0 (field s L a q1)) by (rewrite map_length; lia). rewrite map_nth, (field_truncated s L Lm) by lia.
      rewrite <- csum_scale. apply csum_ext. intros k _. unfold v. ring.
    - rewrite csum_swap. apply csum_ext. intros k _. apply csum_scale. }
  assert (IK : In (l, m) ks) by (unfold ks; apply filter_In; split; [apply LM_range_In; lia|cbn [fst]; apply Z.leb_le; lia]).
  assert (NDK : NoDup ks).
  { unfold ks. apply NoDup_filter, keys_nodup. }
  rewrite (csum_ext _ (fun k => (truncated s L a (fst k) (snd k) * (if keyeq k (l, m) then C1 else C0))%C)).
  - rewrite csum_key by assumption. unfold truncated. cbn [fst snd]. destruct (Z.leb_spec (Z.abs s) l); [|lia]. reflexivity.
  - intros k Hk. rewrite HW by assumption. f_equal. destruct (keyeq_spec (l, m) k) as [E|N]; destruct (keyeq_spec k (l, m)) as [E'|N']; congruence.
Qed.
