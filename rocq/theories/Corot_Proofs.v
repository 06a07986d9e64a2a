(** * Corotating and coprecessing frames (C67) *)
From Coq Require Import Reals ZArith List Bool Lia Lra Permutation.
From Verif Require Import Common Cplx Quat Ops_Model Times_Model Numeric_Model Motion_Model Kwargs_Model Transform_Model Rotate_Model
  Times_Proofs Numeric_Proofs Double_Proofs Motion_Proofs Dominant_Proofs Modal_Proofs Rotate_Proofs Wigner_Model Wigner_Proofs Align_Model Align_Proofs Corot_Model.
Import ListNotations.
Open Scope R_scope.

(** ** Exponential and logarithm of rotors *)
Lemma norm3_sq : forall v, norm3 v * norm3 v = dotv v v.
Proof. intros [[x y] z]. unfold norm3, dotv. apply sqrt_sqrt. nra. Qed.
Lemma norm3_nonneg : forall v, 0 <= norm3 v.
Proof. intros [[x y] z]. apply sqrt_pos. Qed.
Lemma qexp_vec_form : forall v, exists s, s * norm3 v = sin (norm3 v) /\
  qexp_vec v = mkq (cos (norm3 v)) (s * fst (fst v)) (s * snd (fst v)) (s * snd v).
Proof.
  intros [[x y] z]. unfold qexp_vec. destruct (Req_EM_T (norm3 (x, y, z)) 0) as [Z|Z].
  - exists 1. rewrite Z, sin_0, cos_0. split; [ring|]. pose proof (norm3_sq (x, y, z)) as S. rewrite Z in S. unfold dotv in S.
    assert (x = 0) by nra. assert (y = 0) by nra. assert (z = 0) by nra. subst. apply quat_eq; cbn; ring.
  - exists (sin (norm3 (x, y, z)) / norm3 (x, y, z)). split; [field; exact Z|reflexivity].
Qed.
Lemma qexp_vec_unit : forall v, unitq (qexp_vec v).
Proof.
  intros v. destruct (qexp_vec_form v) as (s & S & ->). pose proof (norm3_sq v) as N. destruct v as [[x y] z]. set (n := norm3 (x, y, z)) in *. unfold dotv in N. unfold unitq, qnorm2. cbn [qw qx qy qz fst snd]. clearbody n.
  transitivity (cos n * cos n + (s * n) * (s * n)).
  - replace (s * n * (s * n)) with (s * s * (n * n)) by ring. rewrite N. ring.
  - rewrite S. pose proof (sin2_cos2 n). unfold Rsqr in *. lra.
Qed.
Lemma sin_sq_le : forall x, sin x * sin x <= x * x.
Proof.
  assert (P : forall x, 0 <= x -> sin x * sin x <= x * x).
  { intros x Hx. destruct (Req_dec x 0) as [->|N]; [rewrite sin_0; lra|]. pose proof (sin_lt_x x ltac:(lra)) as U.
    destruct (Rle_dec x 1) as [L|L].
    - pose proof PI2_1. assert (0 < sin x) by (apply sin_gt_0; lra). nra.
    - pose proof (SIN_bound x). nra. }
  intros x. destruct (Rle_dec 0 x) as [L|L]; [auto|]. pose proof (P (- x) ltac:(lra)) as Q. rewrite sin_neg in Q. lra.
Qed.
Lemma one_minus_cos : forall x, 2 - 2 * cos x <= x * x.
Proof.
  intros x. replace x with (2 * (x / 2)) at 1 by field. rewrite cos_2a_sin. pose proof (sin_sq_le (x / 2)). nra.
Qed.
Lemma cauchy : forall a b, dotv a b * dotv a b <= dotv a a * dotv b b.
Proof.
  intros [[x y] z] [[u v] w]. unfold dotv.
  pose proof (Rle_0_sqr (x * v - y * u)). pose proof (Rle_0_sqr (x * w - z * u)). pose proof (Rle_0_sqr (y * w - z * v)). unfold Rsqr in *. nra.
Qed.
(** The exponential does not increase distances. *)
Lemma qexp_vec_lipschitz : forall a b, qnorm2 (qsub (qexp_vec a) (qexp_vec b)) <=
  (fst (fst a) - fst (fst b)) ^ 2 + (snd (fst a) - snd (fst b)) ^ 2 + (snd a - snd b) ^ 2.
Proof.
  intros a b. destruct (qexp_vec_form a) as (s & S & EA), (qexp_vec_form b) as (r & T & EB).
  pose proof (qexp_vec_unit a) as UA. pose proof (qexp_vec_unit b) as UB. rewrite EA in UA |- *. rewrite EB in UB |- *.
  pose proof (norm3_sq a) as NA. pose proof (norm3_sq b) as NB. pose proof (norm3_nonneg a) as PA. pose proof (norm3_nonneg b) as PB.
  pose proof (cauchy a b) as CS. rewrite <- NA, <- NB in CS.
  destruct a as [[x y] z], b as [[u v] w]. set (al := norm3 (x, y, z)) in *. set (be := norm3 (u, v, w)) in *.
  unfold unitq, qnorm2 in *. cbn [fst snd qsub qw qx qy qz] in *. unfold dotv in *. set (d := x * u + y * v + z * w) in *.
  assert (L : (cos al - cos be) * (cos al - cos be) + (s * x - r * u) * (s * x - r * u) + (s * y - r * v) * (s * y - r * v) + (s * z - r * w) * (s * z - r * w)
    = 2 - 2 * cos al * cos be - 2 * (s * r) * d).
  { unfold d. transitivity ((cos al * cos al + s * x * (s * x) + s * y * (s * y) + s * z * (s * z)) + (cos be * cos be + r * u * (r * u) + r * v * (r * v) + r * w * (r * w)) - 2 * cos al * cos be - 2 * (s * r) * (x * u + y * v + z * w)); [ring|]. rewrite UA, UB. ring. }
  assert (M : (x - u) ^ 2 + (y - v) ^ 2 + (z - w) ^ 2 = al * al + be * be - 2 * d) by (unfold d; rewrite NA, NB; ring).
  rewrite L, M. destruct (Req_dec (al * be) 0) as [Z|Z].
  - assert (d = 0) by nra. rewrite H. pose proof (one_minus_cos al). pose proof (one_minus_cos be).
    apply Rmult_integral in Z as [Z|Z]; rewrite Z in *; rewrite cos_0 in *; lra.
  - assert (PP : 0 < al * be) by (pose proof (Rmult_le_pos _ _ PA PB); lra).
    assert (D1 : - (al * be) <= d) by (apply Rnot_lt_le; intros D; nra).
    assert (D2 : d <= al * be) by (apply Rnot_lt_le; intros D; nra).
    set (c := d / (al * be)). assert (Ed : d = c * (al * be)) by (unfold c; field; split; nra).
    assert (C1 : -1 <= c) by (apply Rmult_le_reg_r with (al * be); [exact PP|]; rewrite <- Ed; lra).
    assert (C2 : c <= 1) by (apply Rmult_le_reg_r with (al * be); [exact PP|]; rewrite <- Ed; lra).
    assert (Q1 := one_minus_cos (al - be)). assert (Q2 := one_minus_cos (al + be)). rewrite cos_minus in Q1. rewrite cos_plus in Q2.
    replace (2 * (s * r) * d) with (2 * c * ((s * al) * (r * be))) by (rewrite Ed; ring). rewrite S, T, Ed.
    set (X := cos al * cos be) in *. set (Y := sin al * sin be) in *. replace (2 * cos al * cos be) with (2 * X) by (unfold X; ring).
    pose proof (Rmult_le_compat_l (1 + c) _ _ ltac:(lra) Q1) as R1. pose proof (Rmult_le_compat_l (1 - c) _ _ ltac:(lra) Q2) as R2. nra.
Qed.
(** The exponential of the logarithm of a rotor is the rotor; the logarithm is a vector. *)
Lemma qlog_unit : forall q, unitq q -> qw (qlog q) = 0 /\ qexp_vec (qvec (qlog q)) = q.
Proof.
  intros [w x y z] U. unfold unitq, qnorm2 in U. cbn in U. unfold qlog. cbv zeta. change (norm3 (qvec (mkq w x y z))) with (norm3 (x, y, z)). cbn [qw qx qy qz].
  pose proof (norm3_sq (x, y, z)) as N. pose proof (norm3_nonneg (x, y, z)) as P. unfold dotv in N. set (b := norm3 (x, y, z)) in *.
  destruct (Req_EM_T b 0) as [Z|Z].
  - rewrite Z in N. assert (x = 0) by nra. assert (y = 0) by nra. assert (z = 0) by nra. subst x y z.
    destruct (Rltb_spec w 0) as [L|L]; cbn [qw qx qy qz].
    + assert (w = -1) by nra. subst w. replace (- -1) with 1 by ring. rewrite ln_1. split; [reflexivity|].
      change (qvec (mkq 0 PI 0 0)) with (PI, 0, 0). destruct (qexp_vec_form (PI, 0, 0)) as (s & S & ->). assert (E : norm3 (PI, 0, 0) = PI).
      { unfold norm3. replace (PI * PI + 0 * 0 + 0 * 0) with (PI * PI) by ring. apply sqrt_square. pose proof PI_RGT_0. lra. }
      rewrite E in *. rewrite sin_PI in S. rewrite cos_PI. pose proof PI_RGT_0. assert (s = 0) by nra. subst s. apply quat_eq; cbn; ring.
    + assert (w = 1) by nra. subst w. rewrite ln_1. split; [reflexivity|]. change (qvec (mkq 0 0 0 0)) with (0, 0, 0). unfold qexp_vec. destruct (Req_EM_T (norm3 (0, 0, 0)) 0) as [_|N0]; [reflexivity|].
      exfalso. apply N0. unfold norm3. replace (0 * 0 + 0 * 0 + 0 * 0) with 0 by ring. apply sqrt_0.
  - assert (BP : 0 < b) by lra. cbn [qw qx qy qz]. split.
    + unfold qnorm2. cbn. rewrite U, ln_1. field.
    + set (v := atan2 b w). assert (V0 : 0 < v).
      { unfold v, atan2. pose proof PI_RGT_0 as PP. destruct (Rltb_spec 0 w) as [Q|Q].
        - rewrite <- atan_0. apply atan_increasing. apply Rdiv_lt_0_compat; lra.
        - destruct (Rltb_spec w 0) as [Q'|Q'].
          + destruct (Rltb_spec b 0); [lra|]. pose proof (atan_bound (b / w)). lra.
          + destruct (Rltb_spec 0 b); lra. }
      set (f := v / b). assert (F0 : 0 < f) by (apply Rdiv_lt_0_compat; lra).
      unfold qvec. cbn [qx qy qz]. destruct (qexp_vec_form (f * x, f * y, f * z)) as (s & S & ->). cbn [fst snd].
      assert (E : norm3 (f * x, f * y, f * z) = v).
      { unfold norm3. replace (f * x * (f * x) + f * y * (f * y) + f * z * (f * z)) with ((f * b) * (f * b)) by (replace (f * b * (f * b)) with (f * f * (b * b)) by ring; rewrite N; ring).
        rewrite sqrt_square by nra. unfold f. field. exact Z. }
      rewrite E in *. destruct (atan2_polar w b (or_intror Z)) as [A B]. fold v in A, B.
      replace (w * w + b * b) with 1 in * by nra. rewrite sqrt_1 in *.
      assert (SF : s * f = 1).
      { apply Rmult_eq_reg_r with b; [|exact Z]. replace (s * f * b) with (s * v) by (unfold f; field; exact Z). rewrite S. lra. }
      apply quat_eq; cbn [qw qx qy qz]; try (rewrite <- Rmult_assoc, SF; ring). lra.
Qed.

(** ** Nearest samples *)
Definition is_nearest (t : list R) (x : R) (i : nat) : Prop :=
  (i < length t)%nat /\ (forall j, (j < length t)%nat -> Rabs (nth i t 0 - x) <= Rabs (nth j t 0 - x)) /\
  (forall j, (j < i)%nat -> Rabs (nth i t 0 - x) < Rabs (nth j t 0 - x)).
Lemma nearest_spec : forall t x, t <> [] -> exists i, nearest t x = Ok i /\ is_nearest t x i.
Proof.
  intros t x Ht. unfold nearest. set (f := fun u => Rabs (u - x)). assert (E : exists i, argmin (map f t) = Ok i) by (destruct t; [congruence|eexists; reflexivity]).
  destruct E as [i E]. exists i. split; [exact E|]. apply Motion_Proofs.argmin_spec in E as (A & B & D). rewrite map_length in *.
  assert (M : forall j, (j < length t)%nat -> nth j (map f t) 0 = f (nth j t 0)) by (intros j Hj; rewrite (nth_indep _ 0 (f 0)) by (rewrite map_length; lia); apply map_nth).
  split; [exact A|]. split; intros j Hj.
  - specialize (B j Hj). rewrite !M in B by lia. exact B.
  - specialize (D j Hj). rewrite !M in D by lia. exact D.
Qed.
Lemma is_nearest_unique : forall t x i j, is_nearest t x i -> is_nearest t x j -> i = j.
Proof.
  intros t x i j (A & B & D) (A' & B' & D'). destruct (lt_eq_lt_dec i j) as [[L|L]|L]; [|exact L|].
  - specialize (D' i L). specialize (B j A'). lra.
  - specialize (D j L). specialize (B' i A). lra.
Qed.
Lemma nearest_is : forall t x i, is_nearest t x i -> nearest t x = Ok i.
Proof.
  intros t x i H. destruct (nearest_spec t x) as (j & E & J). { destruct H as [H _]. intros ->. cbn in H. lia. }
  rewrite E. f_equal. exact (is_nearest_unique _ _ _ _ J H).
Qed.

(** ** Rotation by one rotor per time *)
Section Proofs.
Variable garbage : Z -> list C.
Hypothesis garbage_len : forall n, (0 <= n)%Z -> zlen (garbage n) = n.

Definition retyped (ft : ftype) (W : rwave) : rwave := mkrw (rw_lo W) (rw_hi W) (rw_data W) (rw_frame W) ft.
(** [W'] is [W] seen from the frame that is turned by [qs] with respect to the frame of [W]. *)
Definition moved_to (ft : ftype) (W W' : rwave) (qs : list quat) : Prop :=
  wf W' /\ turned_by wigner_D (retyped ft W) W' (fun t => nth t qs q1) /\
  exists f f', rw_frame W = F1 f /\ rw_frame W' = F1 f' /\ length f' = length qs /\
    forall t, (t < length qs)%nat -> nth t f' q1 = qmul (nth t f q1) (nth t qs q1).
Definition good (n : nat) (W : rwave) : Prop :=
  wf W /\ length (rw_data W) = n /\ exists f, rw_frame W = F1 f /\ (f = [] \/ length f = n).

Lemma moved : forall n W qs ft, good n W -> length qs = n ->
  exists W', rotate_basis wigner_doc garbage W (RArr1 qs) = Ok W' /\ moved_to ft W (retyped ft W') qs.
Proof.
  intros n W qs ft (HW & HL & f & Hf & Lf) HQ. destruct (Nat.eq_dec n 1) as [E1|N1].
  - subst n. destruct qs as [|q [|q' qs]]; cbn in HQ; try lia.
    destruct (C25_constant wigner_D wigner_doc garbage doc_fills garbage_len W q (RArr1 [q]) HW (or_intror (or_intror eq_refl))) as (W' & E & HW' & (T1 & T2 & T3 & T4 & T5) & F).
    exists W'. split; [exact E|]. split; [exact HW'|]. split.
    + split; [exact T1|]. split; [exact T2|]. split; [exact T3|]. split; [reflexivity|]. intros t l m Ht Hv. cbn in Ht. rewrite E1 in Ht. assert (t = 0%nat) by lia. subst t.
      exact (T5 0%nat l m ltac:(lia) Hv).
    + rewrite Hf in F. destruct f as [|f0 [|f1 f]].
      * exists [], [q]. split; [exact Hf|]. split; [exact F|]. split; [reflexivity|]. intros t Ht. cbn in Ht. assert (t = 0%nat) by lia. subst t. cbn [nth]. rewrite qmul_1_l. reflexivity.
      * exists [f0], [qmul f0 q]. split; [exact Hf|]. split; [exact F|]. split; [reflexivity|]. intros t Ht. cbn in Ht. assert (t = 0%nat) by lia. subst t. reflexivity.
      * exfalso. destruct Lf as [Lf|Lf]; [discriminate|]. cbn in Lf. lia.
  - destruct (C25_series wigner_D wigner_doc garbage doc_fills W qs (RArr1 qs) HW ltac:(lia) ltac:(lia) (or_intror eq_refl) f Hf ltac:(rewrite HQ; exact Lf))
      as (W' & E & HW' & (T1 & T2 & T3 & T4 & T5) & f' & Ff & Lf' & N).
    exists W'. split; [exact E|]. split; [exact HW'|]. split.
    + split; [exact T1|]. split; [exact T2|]. split; [exact T3|]. split; [reflexivity|]. exact T5.
    + exists f, f'. auto.
Qed.

Variable angular_velocity : list R -> rwave -> list vec3.
Variable integrate : list R -> list vec3 -> quat -> R -> list quat.
Variable max_norm_time : list R -> rwave -> res R.
Variable eigenvector : Z -> Z -> list C -> vec3.
Variable minimal : list quat -> list R -> list quat.
Variable slowed : list quat -> list R -> R -> R -> list quat.
Hypothesis av_len : forall t W, length (angular_velocity t W) = length t.
Hypothesis integrate_len : forall t o R0 tol, length (integrate t o R0 tol) = length t.
Hypothesis integrate_unit : forall t o R0 tol, Forall unitq (integrate t o R0 tol).
Hypothesis eigenvector_some : forall lo hi row, eigenvector lo hi row <> (0, 0, 0).

(** The vector [v], given in the frame of the modes, as seen from a frame turned by [f]. *)
Definition seen (f : quat) (v : vec3) : vec3 := qvec (qmul (qmul (qconj f) (pureq v)) f).
Definition axis (W : rwave) (k : nat) : vec3 := eigenvector (rw_lo W) (rw_hi W) (nth k (rw_data W) []).
Definition px (v : vec3) : R := fst (fst v).
Definition py (v : vec3) : R := snd (fst v).
Definition pz (v : vec3) : R := snd v.
(** Components of the sum over the samples [i1, i2) *)
Definition total (p : vec3 -> R) (f : list quat) (V : nat -> vec3) (i1 i2 : nat) : R :=
  rsum (fun k => p (seen (nth k f q1) (V k))) (seq i1 (i2 - i1)).

Lemma vdot_dotv : forall a b, vdot a b = dotv a b.
Proof. intros [[x y] z] [[u v] w]. reflexivity. Qed.
Lemma vscale_scalev : forall c a, vscale c a = scalev c a.
Proof. intros c [[x y] z]. reflexivity. Qed.
Lemma seen_form : forall c v, seen c v =
  (let m11 := qw c * qw c + qx c * qx c - qy c * qy c - qz c * qz c in let m12 := 2 * (qx c * qy c + qw c * qz c) in let m13 := 2 * (qx c * qz c - qw c * qy c) in
   let m21 := 2 * (qx c * qy c - qw c * qz c) in let m22 := qw c * qw c - qx c * qx c + qy c * qy c - qz c * qz c in let m23 := 2 * (qy c * qz c + qw c * qx c) in
   let m31 := 2 * (qx c * qz c + qw c * qy c) in let m32 := 2 * (qy c * qz c - qw c * qx c) in let m33 := qw c * qw c - qx c * qx c - qy c * qy c + qz c * qz c in
   (m11 * px v + m12 * py v + m13 * pz v, m21 * px v + m22 * py v + m23 * pz v, m31 * px v + m32 * py v + m33 * pz v)).
Proof.
  intros [w x y z] [[a b] d]. unfold seen, px, py, pz, pureq, qvec, qmul, qconj. cbn [qw qx qy qz fst snd]. cbv zeta. apply (f_equal2 pair); [apply (f_equal2 pair)|]; ring.
Qed.
Lemma seen_pure : forall f v, pureq (seen f v) = qmul (qmul (qconj f) (pureq v)) f.
Proof. intros [w x y z] [[a b] d]. unfold seen, qvec, pureq. apply quat_eq; cbn; ring. Qed.
Lemma seen_mul : forall f c v, seen (qmul f c) v = seen c (seen f v).
Proof.
  intros f c v. unfold seen at 1 2. rewrite seen_pure. rewrite qconj_mul, !qmul_assoc. reflexivity.
Qed.
Lemma rsum_seq : forall A (f : A -> R) (l : list A) d, rsum f l = rsum (fun k => f (nth k l d)) (seq 0 (length l)).
Proof.
  intros A f l d. induction l as [|x l IH]; [reflexivity|]. cbn [rsum length seq nth]. f_equal. rewrite IH. rewrite <- seq_shift.
  clear. generalize (seq 0 (length l)). induction l0 as [|a l0 IH]; [reflexivity|]. cbn [rsum map nth]. rewrite IH. reflexivity.
Qed.
Lemma rsum_shift : forall (g : nat -> R) n i, rsum (fun k => g (i + k)%nat) (seq 0 n) = rsum g (seq i n).
Proof.
  intros g n. induction n as [|n IH]; intros i; [reflexivity|]. cbn [seq rsum]. rewrite Nat.add_0_r. f_equal.
  rewrite <- (IH (S i)). rewrite <- seq_shift. generalize (seq 0 n). induction l as [|a l IHl]; [reflexivity|]. cbn [map rsum]. rewrite IHl. do 2 f_equal. lia.
Qed.
Lemma sum3_rsum : forall l, sum3 l = (rsum px l, rsum py l, rsum pz l).
Proof.
  induction l as [|[[x y] z] l IH]; [reflexivity|]. unfold sum3. cbn [fold_right]. change (fold_right _ (0, 0, 0) l) with (sum3 l). rewrite IH. reflexivity.
Qed.
Lemma total_lin : forall f f' V i1 i2 c, (forall k, (i1 <= k < i2)%nat -> nth k f' q1 = qmul (nth k f q1) c) ->
  (total px f' V i1 i2, total py f' V i1 i2, total pz f' V i1 i2) = seen c (total px f V i1 i2, total py f V i1 i2, total pz f V i1 i2).
Proof.
  intros f f' V i1 i2 c H. assert (G : forall p, total p f' V i1 i2 = rsum (fun k => p (seen c (seen (nth k f q1) (V k)))) (seq i1 (i2 - i1))).
  { intros p. unfold total. apply rsum_ext. intros k Hk. apply in_seq in Hk. rewrite H by lia. rewrite seen_mul. reflexivity. }
  rewrite seen_form. rewrite !G. unfold total. generalize (seq i1 (i2 - i1)) as l.
  assert (L3 : forall u v w a b d (l : list nat), rsum (fun k => a * u k + b * v k + d * w k) l = a * rsum u l + b * rsum v l + d * rsum w l).
  { intros u v w a b d l. rewrite rsum_add, rsum_add, !rsum_scale. reflexivity. }
  intros l. cbv zeta. repeat match goal with |- context [px (?a, ?b, ?d)] => change (px (a, b, d)) with a; change (py (a, b, d)) with b; change (pz (a, b, d)) with d end. rewrite <- !L3.
  apply (f_equal2 pair); [apply (f_equal2 pair)|]; apply rsum_ext; intros k Hk; rewrite seen_form; reflexivity.
Qed.
(** The rotor that takes z to the mean axis *)
Lemma correction_rotor_ok : forall m, qw m = 0 -> unitq m -> let c := qinv (qsqrt (qmul (qopp qk) m)) in unitq c /\ seen c (qvec m) = (0, 0, 1).
Proof.
  intros [w a b d] Hw HV. cbn in Hw. subst w. unfold unitq, qnorm2 in HV. cbn in HV. cbv zeta.
  assert (EP : qmul (qopp qk) (mkq 0 a b d) = mkq d b (- a) 0) by (apply quat_eq; cbn; ring). rewrite EP.
  unfold qsqrt. assert (EA : qabs (mkq d b (- a) 0) = 1).
  { unfold qabs, qnorm2. cbn [qw qx qy qz]. replace (d * d + b * b + - a * - a + 0 * 0) with 1 by lra. apply sqrt_1. }
  rewrite EA. destruct (Req_EM_T 1 0); [lra|]. cbn [qw qx qy qz].
  destruct (Req_EM_T (1 + d) 0) as [Z|Z].
  - assert (d = -1) by lra. subst d. assert (a * a + b * b = 0) by lra. assert (a = 0) by nra. assert (b = 0) by nra. subst. rewrite sqrt_1.
    assert (U : unitq (mkq 0 1 0 0)) by (unfold unitq, qnorm2; cbn; ring). rewrite qinv_unit by exact U. split; [unfold unitq, qnorm2; cbn; ring|].
    rewrite seen_form. unfold px, py, pz, qvec, qconj. cbn [qw qx qy qz fst snd]. cbv zeta. apply (f_equal2 pair); [apply (f_equal2 pair)|]; ring.
  - assert (P : 0 < 1 + d) by nra. set (k := sqrt (/ 2 / (1 + d))).
    assert (K : k * k = / 2 / (1 + d)) by (apply sqrt_sqrt; apply Rlt_le, Rdiv_lt_0_compat; lra).
    assert (K2 : k * k * (2 * (1 + d)) = 1) by (rewrite K; field; lra).
    assert (U : unitq (mkq ((1 + d) * k) (b * k) (- a * k) (0 * k))).
    { unfold unitq, qnorm2. cbn [qw qx qy qz]. transitivity (k * k * ((1 + d) * (1 + d) + (1 - d * d))); [|transitivity (k * k * (2 * (1 + d))); [ring|exact K2]].
      replace (1 - d * d) with (a * a + b * b) by lra. ring. }
    rewrite qinv_unit by exact U. split; [unfold unitq in *; rewrite qnorm2_conj; exact U|].
    rewrite seen_form. unfold px, py, pz, qvec, qconj. cbn [qw qx qy qz fst snd]. cbv zeta.
    assert (Q : a * a + b * b = (1 + d) * (1 - d)) by lra.
    apply (f_equal2 pair); [apply (f_equal2 pair)|].
    + transitivity (k * k * a * ((1 + d) * (1 + d) + (b * b + a * a) - 2 * (a * a + b * b) - 2 * (1 + d) * d)); [ring|].
      replace (b * b + a * a) with ((1 + d) * (1 - d)) by lra. rewrite Q. ring.
    + transitivity (k * k * b * ((1 + d) * (1 + d) + (b * b + a * a) - 2 * (a * a + b * b) - 2 * (1 + d) * d)); [ring|].
      replace (b * b + a * a) with ((1 + d) * (1 - d)) by lra. rewrite Q. ring.
    + transitivity (k * k * (2 * (1 + d) * (a * a + b * b) + ((1 + d) * (1 + d) - (a * a + b * b)) * d)); [ring|]. rewrite Q.
      transitivity (k * k * (2 * (1 + d)) * 1); [ring|rewrite K2; ring].
Qed.
Lemma seen_scale : forall c s v, seen c (scalev s v) = scalev s (seen c v).
Proof.
  intros c s [[x y] z]. rewrite !seen_form. unfold px, py, pz, scalev. cbn [fst snd]. cbv zeta. apply (f_equal2 pair); [apply (f_equal2 pair)|]; ring.
Qed.
Lemma mean_direction_spec : forall l, l <> [] ->
  (sum3 l = (0, 0, 0) /\ mean_direction l = None) \/
  (sum3 l <> (0, 0, 0) /\ exists m s, mean_direction l = Some m /\ qw m = 0 /\ unitq m /\ 0 < s /\ sum3 l = scalev s (qvec m)).
Proof.
  intros l Hl. unfold mean_direction. set (n := INR (length l)).
  assert (N : 0 < n) by (apply lt_0_INR; destruct l; [congruence|cbn; lia]).
  destruct l as [|v0 l']; [congruence|]. set (l := v0 :: l') in *. destruct (sum3 l) as [[x y] z] eqn:ES.
  set (q := pureq (scalev (/ n) (x, y, z))). assert (Eq : q = mkq 0 (/ n * x) (/ n * y) (/ n * z)) by reflexivity.
  assert (NI : 0 < / n) by (apply Rinv_0_lt_compat; exact N).
  destruct (Req_EM_T (qabs q) 0) as [Z|Z].
  - left. split; [|reflexivity]. assert (q = q0) as E0. { apply qnorm2_zero. unfold qabs in Z. apply sqrt_eq_0; [apply qnorm2_nonneg|exact Z]. }
    rewrite Eq in E0. unfold q0 in E0. injection E0 as A B D. apply Rmult_integral in A as [A|A]; [lra|]. apply Rmult_integral in B as [B|B]; [lra|]. apply Rmult_integral in D as [D|D]; [lra|]. subst. reflexivity.
  - right. assert (NZ : q <> q0). { intros E0. apply Z. rewrite E0. unfold qabs, qnorm2. cbn [q0 qw qx qy qz]. replace (0 * 0 + 0 * 0 + 0 * 0 + 0 * 0) with 0 by ring. apply sqrt_0. }
    split. { intros E0. apply NZ. rewrite Eq. injection E0 as -> -> ->. apply quat_eq; cbn; ring. }
    assert (AP : 0 < qabs q) by (apply sqrt_lt_R0, qnorm2_pos; exact NZ).
    exists (qnormalized q), (n * qabs q). split; [reflexivity|]. split; [rewrite Eq; cbn [qnormalized qscale qw]; ring|]. split; [apply qnormalized_unit; exact NZ|].
    split; [apply Rmult_lt_0_compat; assumption|]. unfold qnormalized. set (A := qabs q) in *. clearbody A. rewrite Eq. unfold qvec, scalev. cbn [qscale qx qy qz].
    apply (f_equal2 pair); [apply (f_equal2 pair)|]; field; lra.
Qed.

(** Without a region, the frame is the integrated one. *)
Theorem C67_integrated : forall t W R0 tol, t <> [] ->
  corotating_frame angular_velocity integrate max_norm_time eigenvector t W R0 tol None =
  Ok (Some (integrate t (angular_velocity t W) R0 tol), angular_velocity t W).
Proof.
  intros t W R0 tol Ht. unfold corotating_frame. destruct t as [|t0 t]; [congruence|]. cbn [rbind option_map]. do 3 f_equal.
  pose proof (integrate_unit (t0 :: t) (angular_velocity (t0 :: t) W) R0 tol) as U. induction U as [|q l Hq U IH]; [reflexivity|].
  cbn [map]. rewrite IH, qmul_1_r, qnormalized_id by exact Hq. reflexivity.
Qed.

Lemma cut_eigenvectors : forall W i1 i2 k, (i2 <= length (rw_data W))%nat -> (k < i2 - i1)%nat ->
  nth k (firstn (i2 - i1) (skipn i1 (eigenvectors eigenvector W))) (0, 0, 0) = axis W (i1 + k).
Proof.
  intros W i1 i2 k H Hk. rewrite nth_firstn_lt by exact Hk. rewrite nth_skipn. unfold eigenvectors, axis.
  rewrite (nth_indep _ (0, 0, 0) (eigenvector (rw_lo W) (rw_hi W) [])) by (rewrite map_length; lia). apply map_nth.
Qed.
Lemma cut_length : forall A (l : list A) i1 i2, (i1 <= i2 <= length l)%nat -> length (firstn (i2 - i1) (skipn i1 l)) = (i2 - i1)%nat.
Proof. intros A l i1 i2 H. rewrite firstn_length, skipn_length. lia. Qed.

Definition start (t : list R) : R := nth 0 t 0.
Definition zero_mean (f : list quat) (V : nat -> vec3) (i1 i2 : nat) : Prop :=
  total px f V i1 i2 = 0 /\ total py f V i1 i2 = 0 /\ total pz f V i1 i2 = 0.
Theorem C67_z_region : forall t W R0 tol a b tm i1 i2, length (rw_data W) = length t -> max_norm_time t W = Ok tm ->
  is_nearest t (start t + a * (tm - start t)) i1 -> is_nearest t (start t + b * (tm - start t)) i2 -> (i1 < i2)%nat -> (10 < length t)%nat ->
  let omega := angular_velocity t W in
  let frame := integrate t omega R0 tol in
  let result := corotating_frame angular_velocity integrate max_norm_time eigenvector t W R0 tol (Some (a, b)) in
  exists V : nat -> vec3,
    (forall k, (i1 <= k < i2)%nat -> (exists c, c <> 0 /\ V k = scalev c (axis W k)) /\ dotv (V k) (V k) = 1) /\
    0 <= dotv (nth (Nat.max 10 i1) omega (0, 0, 0)) (V i1) /\
    (zero_mean frame V i1 i2 -> result = Ok (None, omega)) /\
    (~ zero_mean frame V i1 i2 -> exists f c, result = Ok (Some f, omega) /\ length f = length t /\ Forall unitq f /\ unitq c /\
       (forall k, (k < length t)%nat -> nth k f q1 = qmul (nth k frame q1) c) /\
       total px f V i1 i2 = 0 /\ total py f V i1 i2 = 0 /\ 0 < total pz f V i1 i2).
Proof.
  intros t W R0 tol a b tm i1 i2 HL HM H1 H2 Hi Hn omega frame result.
  assert (L2 : (i2 < length t)%nat) by apply H2. set (cut := firstn (i2 - i1) (skipn i1 (eigenvectors eigenvector W))).
  assert (LE : length (eigenvectors eigenvector W) = length t) by (unfold eigenvectors; rewrite map_length; exact HL).
  assert (LC : length cut = (i2 - i1)%nat) by (apply cut_length; lia).
  assert (EC : forall k, (k < i2 - i1)%nat -> nth k cut (0, 0, 0) = axis W (i1 + k)) by (intros k Hk; apply cut_eigenvectors; lia).
  set (rough := nth (Nat.max 10 i1) omega (0, 0, 0)).
  assert (LC' : @length vec cut = (i2 - i1)%nat) by exact LC.
  destruct (C24_unit_vectors_along_axes cut rough 0 ltac:(rewrite LC'; lia)) as (Vh & ED & LV & HV & HR).
  { intros k Hk. unfold vat. change vzero with ((0, 0, 0) : vec). rewrite EC by (rewrite LC' in Hk; lia). apply eigenvector_some. }
  exists (fun k => nth (k - i1) Vh (0, 0, 0)). assert (LV' : @length vec3 Vh = (i2 - i1)%nat) by (rewrite <- LC'; exact LV).
  assert (LF : length frame = length t) by apply integrate_len. assert (UF : Forall unitq frame) by apply integrate_unit.
  split; [|split].
  - intros k Hk. specialize (HV (Z.of_nat (k - i1)) ltac:(rewrite LC'; lia)). unfold vat in HV. change vzero with ((0, 0, 0) : vec) in HV. rewrite Nat2Z.id in HV.
    rewrite EC in HV by lia. replace (i1 + (k - i1))%nat with k in HV by lia. rewrite vdot_dotv in HV. destruct HV as [(c & Hc & E) U]. split; [|exact U]. exists c. split; [exact Hc|].
    rewrite <- vscale_scalev. exact E.
  - rewrite Nat.sub_diag. unfold vat in HR. rewrite vdot_dotv in HR. exact HR.
  - set (V := fun k => nth (k - i1) Vh (0, 0, 0)).
    set (Vc := map (fun p : quat * vec3 => qvec (qmul (qmul (qconj (fst p)) (pureq (snd p))) (fst p))) (combine (firstn (i2 - i1) (skipn i1 frame)) Vh)).
    assert (LFC : length (firstn (i2 - i1) (skipn i1 frame)) = (i2 - i1)%nat) by (apply cut_length; lia).
    assert (LVc : length Vc = (i2 - i1)%nat) by (unfold Vc; rewrite map_length, combine_length, LFC; transitivity (Nat.min (i2 - i1) (i2 - i1)); [f_equal; exact LV'|lia]).
    assert (SV : sum3 Vc = (total px frame V i1 i2, total py frame V i1 i2, total pz frame V i1 i2)).
    { assert (G : forall p, rsum p Vc = total p frame V i1 i2).
      { intros p. unfold total. rewrite (rsum_seq _ p Vc (seen q1 (0, 0, 0))), LVc. rewrite <- (rsum_shift (fun k => p (seen (nth k frame q1) (V k)))). apply rsum_ext. intros k Hk. apply in_seq in Hk. f_equal.
        unfold Vc. change (seen q1 (0, 0, 0)) with ((fun p : quat * vec3 => qvec (qmul (qmul (qconj (fst p)) (pureq (snd p))) (fst p))) (q1, (0, 0, 0))).
        rewrite map_nth, combine_nth by (rewrite LFC; symmetry; exact LV'). cbn [fst snd]. rewrite nth_firstn_lt by lia. rewrite nth_skipn.
        unfold V. replace (i1 + k - i1)%nat with k by lia. reflexivity. }
      rewrite sum3_rsum, !G. reflexivity. }
    assert (ER : result = Ok (option_map (fun c => map (fun f => qnormalized (qmul f c)) frame) (option_map (fun m => qinv (qsqrt (qmul (qopp qk) m))) (mean_direction Vc)), omega)).
    { unfold result, corotating_frame. assert (Ht : exists t0 t', t = t0 :: t') by (destruct t; [cbn in Hn; lia|eauto]). destruct Ht as (t0 & t' & Et). rewrite Et at 1.
      unfold correction. fold omega. fold frame. rewrite HM. cbn [rbind]. change (nth 0 t 0) with (start t). rewrite (nearest_is _ _ _ H1), (nearest_is _ _ _ H2). cbn [rbind].
      unfold elt. replace (i1 - 10 + 10)%nat with (Nat.max 10 i1) by lia.
      rewrite (nth_error_nth' omega (0, 0, 0)) by (unfold omega; rewrite av_len; lia). cbn [rbind]. fold rough. fold cut. rewrite ED. reflexivity. }
    assert (NV : Vc <> []) by (intros E0; rewrite E0 in LVc; cbn in LVc; lia).
    unfold zero_mean. destruct (mean_direction_spec Vc NV) as [[S0 M0]|(S0 & m & s & M & Wm & Um & Hs & Sm)].
    + split; [|intros NZ; exfalso; apply NZ; rewrite SV in S0; injection S0 as -> -> ->; auto].
      intros _. rewrite ER, M0. reflexivity.
    + split; [intros (X & Y & Z); exfalso; apply S0; rewrite SV, X, Y, Z; reflexivity|]. intros _.
      destruct (correction_rotor_ok m Wm Um) as [Uc Sc]. set (c := qinv (qsqrt (qmul (qopp qk) m))) in *.
      set (f := map (fun f => qnormalized (qmul f c)) frame).
      assert (NF : forall k, (k < length t)%nat -> nth k f q1 = qmul (nth k frame q1) c).
      { intros k Hk. unfold f. rewrite (nth_indep _ q1 (qnormalized (qmul q1 c))) by (rewrite map_length; lia).
        change (qnormalized (qmul q1 c)) with ((fun f => qnormalized (qmul f c)) q1). rewrite map_nth. apply qnormalized_id. apply unit_mul; [|exact Uc].
        rewrite Forall_forall in UF. apply UF, nth_In. lia. }
      exists f, c. split; [rewrite ER, M; reflexivity|]. split; [unfold f; rewrite map_length; exact LF|]. split.
      { apply Forall_forall. intros x Hx. apply (In_nth _ _ q1) in Hx as (k & Hk & <-). unfold f in Hk. rewrite map_length, LF in Hk. rewrite NF by exact Hk.
        apply unit_mul; [|exact Uc]. rewrite Forall_forall in UF. apply UF, nth_In. lia. }
      split; [exact Uc|]. split; [exact NF|].
      assert (T := total_lin frame f V i1 i2 c (fun k Hk => NF k ltac:(lia))). rewrite <- SV, Sm, seen_scale, Sc in T. unfold scalev in T. injection T as -> -> ->. lra.
Qed.
(** A waveform of at most ten times always fails with a region, and an empty region reads outside of the array
    of axes (the jitted code does not check). *)
Theorem C67_short_refuted : forall t W R0 tol a b tm, t <> [] -> max_norm_time t W = Ok tm -> (length t <= 10)%nat ->
  corotating_frame angular_velocity integrate max_norm_time eigenvector t W R0 tol (Some (a, b)) = Err IndexError.
Proof.
  intros t W R0 tol a b tm Ht HM Hn. unfold corotating_frame. destruct t as [|t0 t'] eqn:Et; [congruence|]. rewrite <- Et in *.
  unfold correction. rewrite HM. cbn [rbind]. destruct (nearest_spec t (nth 0 t 0 + a * (tm - nth 0 t 0)) Ht) as (i1 & E1 & _).
  destruct (nearest_spec t (nth 0 t 0 + b * (tm - nth 0 t 0)) Ht) as (i2 & E2 & _). rewrite E1, E2. cbn [rbind].
  unfold elt. assert (EN : nth_error (angular_velocity t W) (i1 - 10 + 10) = None) by (apply nth_error_None; rewrite av_len; lia).
  rewrite EN. reflexivity.
Qed.
Theorem C67_empty_region_refuted : forall t W R0 tol a b tm i1 i2, max_norm_time t W = Ok tm ->
  is_nearest t (start t + a * (tm - start t)) i1 -> is_nearest t (start t + b * (tm - start t)) i2 -> (i2 <= i1)%nat -> (10 < length t)%nat ->
  corotating_frame angular_velocity integrate max_norm_time eigenvector t W R0 tol (Some (a, b)) = Err IndexError.
Proof.
  intros t W R0 tol a b tm i1 i2 HM H1 H2 Hi Hn. unfold corotating_frame. destruct t as [|t0 t'] eqn:Et; [cbn in Hn; lia|]. rewrite <- Et in *.
  unfold correction. rewrite HM. cbn [rbind]. change (nth 0 t 0) with (start t). rewrite (nearest_is _ _ _ H1), (nearest_is _ _ _ H2). cbn [rbind].
  assert (L1 : (i1 < length t)%nat) by apply H1.
  unfold elt. rewrite (nth_error_nth' (angular_velocity t W) (0, 0, 0)) by (rewrite av_len; lia). cbn [rbind].
  replace (i2 - i1)%nat with 0%nat by lia. cbn [firstn]. reflexivity.
Qed.

Notation cf := (corotating_frame angular_velocity integrate max_norm_time eigenvector).
Notation to_corot := (to_corotating wigner_doc garbage angular_velocity integrate max_norm_time eigenvector).
(** The waveform is moved to the frame; what is returned with it depends only on the flags. *)
Theorem C67_corotating : forall t W R0 tol z f omega ro, good (length t) W -> cf t W R0 tol z = Ok (Some f, omega) -> length f = length t ->
  exists W', to_corot t W R0 tol z ro false = Ok (Some (W', if ro then Some omega else None, None)) /\ moved_to CorotatingFrame W W' f.
Proof.
  intros t W R0 tol z f omega ro HW E HL. destruct (moved _ _ f CorotatingFrame HW HL) as (W' & ER & M).
  exists (retyped CorotatingFrame W'). split; [|exact M]. unfold to_corotating. rewrite E. cbn [rbind]. rewrite ER. reflexivity.
Qed.

Lemma truncation_power_spec : forall tol, powerRZ 2 (-64) <= tol -> exists k, truncation_power tol = Ok (powerRZ 2 k) /\ tol < powerRZ 2 (- k) <= 2 * tol.
Proof.
  intros tol H. assert (P : 0 < tol) by (pose proof (powerRZ_lt 2 (-64) ltac:(lra)); lra). unfold truncation_power.
  destruct (Rltb_spec tol 0) as [L|_]; [lra|]. destruct (Req_EM_T tol 0) as [L|_]; [lra|].
  destruct (floor_log2 (2 * tol) ltac:(lra)) as [A B]. set (k := floorR (ln (2 * tol) / ln 2)) in *.
  rewrite powerRZ_add in B by lra. change (powerRZ 2 1) with (2 * 1) in B.
  destruct (Z.leb_spec 64 (- k)) as [L|L].
  - exfalso. assert (powerRZ 2 (k + 1) <= powerRZ 2 (-63)).
    { replace (-63)%Z with ((k + 1) + (-63 - (k + 1)))%Z by ring. rewrite (powerRZ_add 2 (k + 1)) by lra. rewrite <- (Rmult_1_r (powerRZ 2 (k + 1))) at 1.
      apply Rmult_le_compat_l; [apply Rlt_le, powerRZ_lt; lra|].
      assert (E : exists n, (-63 - (k + 1) = Z.of_nat n)%Z) by (exists (Z.to_nat (-63 - (k + 1))); lia). destruct E as [n ->]. rewrite <- pow_powerRZ. apply pow_R1_Rle. lra. }
    rewrite powerRZ_add in H0 by lra. change (powerRZ 2 1) with (2 * 1) in H0.
    assert (E64 : powerRZ 2 (-63) = 2 * powerRZ 2 (-64)) by (change (-63)%Z with (1 + -64)%Z; rewrite powerRZ_add by lra; change (powerRZ 2 1) with (2 * 1); ring). lra.
  - exists (- k)%Z. rewrite Z.opp_involutive. split; [reflexivity|]. lra.
Qed.
Lemma round_quat_comp : forall k x, let u := powerRZ 2 (- k) in let r := IZR (rint (x * powerRZ 2 k)) / powerRZ 2 k in
  (exists n, r = IZR n * u) /\ Rabs (r - x) <= u / 2.
Proof.
  intros k x u r. pose proof (powerRZ_lt 2 k ltac:(lra)) as P. assert (U : u = / powerRZ 2 k) by (unfold u; apply powerRZ_neg'). split.
  - exists (rint (x * powerRZ 2 k)). unfold r. rewrite U. reflexivity.
  - pose proof (rint_near (x * powerRZ 2 k)) as N. unfold r. replace (IZR (rint (x * powerRZ 2 k)) / powerRZ 2 k - x) with ((IZR (rint (x * powerRZ 2 k)) - x * powerRZ 2 k) * u) by (rewrite U; field; lra).
    rewrite Rabs_mult. rewrite (Rabs_right u) by (rewrite U; apply Rle_ge, Rlt_le, Rinv_0_lt_compat; exact P). assert (0 < u) by (rewrite U; apply Rinv_0_lt_compat; exact P). nra.
Qed.
(** Components of a logarithm that are multiples of the unit [u] and within [tol] of the given ones. *)
Definition truncated (u tol : R) (l q : quat) : Prop :=
  qw l = 0 /\ (exists a, qx l = IZR a * u) /\ (exists a, qy l = IZR a * u) /\ (exists a, qz l = IZR a * u) /\
  Rabs (qx l - qx q) <= tol /\ Rabs (qy l - qy q) <= tol /\ Rabs (qz l - qz q) <= tol.
Theorem C67_truncated : forall t W R0 tol z f omega ro, good (length t) W -> cf t W R0 tol z = Ok (Some f, omega) -> length f = length t -> Forall unitq f ->
  powerRZ 2 (-64) <= tol ->
  exists W' l k, to_corot t W R0 tol z ro true = Ok (Some (W', if ro then Some omega else None, Some l)) /\ length l = length t /\
    tol < powerRZ 2 k <= 2 * tol /\
    moved_to CorotatingFrame W W' (map qexp l) /\
    forall i, (i < length t)%nat -> let li := nth i l q0 in let fi := nth i f q1 in
      truncated (powerRZ 2 k) tol li (qlog fi) /\ qexp (qlog fi) = fi /\ unitq (qexp li) /\ qnorm2 (qsub (qexp li) fi) <= 3 * tol ^ 2.
Proof.
  intros t W R0 tol z f omega ro HW E HL HU Ht. destruct (truncation_power_spec tol Ht) as (k & EP & HK).
  set (l := map (fun f => round_quat (powerRZ 2 k) (qlog f)) f).
  assert (LL : length l = length t) by (unfold l; rewrite map_length; exact HL).
  destruct (moved _ _ (map qexp l) CorotatingFrame HW) as (W' & ER & M). { rewrite map_length. exact LL. }
  exists (retyped CorotatingFrame W'), l, (- k)%Z. split. { unfold to_corotating. rewrite E. cbn [rbind]. rewrite EP. cbn [rbind]. fold l. rewrite ER. reflexivity. }
  split; [exact LL|]. split; [exact HK|]. split; [exact M|]. intros i Hi li fi.
  assert (Uf : unitq fi) by (rewrite Forall_forall in HU; apply HU, nth_In; lia).
  assert (El : li = round_quat (powerRZ 2 k) (qlog fi)).
  { unfold li, l. rewrite (nth_indep _ q0 (round_quat (powerRZ 2 k) (qlog q1))) by (rewrite map_length; lia).
    change (round_quat (powerRZ 2 k) (qlog q1)) with ((fun f => round_quat (powerRZ 2 k) (qlog f)) q1). rewrite map_nth. reflexivity. }
  destruct (qlog_unit fi Uf) as [Lw Le]. set (q := qlog fi) in *.
  pose proof (round_quat_comp k (qx q)) as [X1 X2]. pose proof (round_quat_comp k (qy q)) as [Y1 Y2]. pose proof (round_quat_comp k (qz q)) as [Z1 Z2].
  assert (W0 : qw li = 0). { rewrite El. cbn [round_quat qw]. rewrite Lw. replace (0 * powerRZ 2 k) with (IZR 0) by (cbn; ring). rewrite rint_IZR. unfold Rdiv. ring. }
  assert (EX : qexp li = qexp_vec (qvec li)). { unfold qexp. rewrite W0, exp_0, qscale_1. reflexivity. }
  assert (BX : Rabs (qx li - qx q) <= tol) by (rewrite El; cbn [round_quat qx]; lra).
  assert (BY : Rabs (qy li - qy q) <= tol) by (rewrite El; cbn [round_quat qy]; lra).
  assert (BZ : Rabs (qz li - qz q) <= tol) by (rewrite El; cbn [round_quat qz]; lra).
  split; [|split; [|split]].
  - split; [exact W0|]. rewrite El. cbn [round_quat qx qy qz]. rewrite El in BX, BY, BZ. cbn [round_quat qx qy qz] in BX, BY, BZ. auto 8.
  - unfold qexp. rewrite Lw, exp_0, qscale_1. exact Le.
  - rewrite EX. apply qexp_vec_unit.
  - rewrite EX. rewrite <- Le at 1. eapply Rle_trans; [apply qexp_vec_lipschitz|]. unfold qvec. cbn [fst snd].
    assert (SQ : forall x, Rabs x <= tol -> x ^ 2 <= tol ^ 2).
    { intros x Hx. rewrite <- (pow2_abs x). apply pow_incr. split; [apply Rabs_pos|exact Hx]. }
    pose proof (SQ _ BX). pose proof (SQ _ BY). pose proof (SQ _ BZ). lra.
Qed.
(** Truncation needs a positive tolerance. *)
Theorem C67_no_tolerance : forall t W R0 tol z f omega ro, cf t W R0 tol z = Ok (Some f, omega) -> tol <= 0 ->
  to_corot t W R0 tol z ro true = Err (if Req_EM_T tol 0 then OverflowError else ValueError).
Proof.
  intros t W R0 tol z f omega ro E Ht. unfold to_corotating. rewrite E. cbn [rbind]. unfold truncation_power.
  destruct (Rltb_spec tol 0); destruct (Req_EM_T tol 0); try lra; reflexivity.
Qed.

(** ** Coprecessing frames *)
(** minimal_rotation rotates each rotor about its own z axis; the rotors that slow down are unit rotors, one per time. *)
Hypothesis minimal_ok : forall qs t, Forall unitq qs -> exists gamma : nat -> R, length (minimal qs t) = length qs /\
  forall k, (k < length qs)%nat -> nth k (minimal qs t) q1 = qmul (nth k qs q1) (exp_z (gamma k)).
Hypothesis slowed_ok : forall qs t a b, Forall unitq qs -> length (slowed qs t a b) = length qs /\ Forall unitq (slowed qs t a b).
Notation to_copr := (to_coprecessing wigner_doc garbage eigenvector minimal slowed).
Theorem C67_coprecessing : forall t W rough index transition, good (length t) W -> t <> [] ->
  let idx := match index with Some i => i | None => (length t / 8)%nat end in
  (idx < length t)%nat ->
  exists (V : nat -> vec3) W' qs, to_copr t W rough index transition = Ok W' /\ moved_to CoprecessingFrame W W' qs /\ length qs = length t /\ Forall unitq qs /\
    (forall k, (k < length t)%nat -> (exists c, c <> 0 /\ V k = scalev c (axis W k)) /\ dotv (V k) (V k) = 1) /\
    0 <= dotv rough (V idx) /\
    (* the new z axis is V, until the first of the transition times *)
    forall k, (k < length t)%nat ->
      match transition with None => True | Some (a, _) => exists i, is_nearest t a i /\ (k < i)%nat end ->
      seen (nth k qs q1) (V k) = (0, 0, 1).
Proof.
  intros t W rough index transition HW Ht idx Hi. assert (HL : length (rw_data W) = length t) by apply HW.
  assert (LE : @length vec (eigenvectors eigenvector W) = length t) by (unfold eigenvectors; rewrite map_length; exact HL).
  assert (EC : forall k, (k < length t)%nat -> nth k (eigenvectors eigenvector W) (0, 0, 0) = axis W k).
  { intros k Hk. unfold eigenvectors, axis. rewrite (nth_indep _ (0, 0, 0) (eigenvector (rw_lo W) (rw_hi W) [])) by (rewrite map_length; lia). apply map_nth. }
  destruct (C24_unit_vectors_along_axes (eigenvectors eigenvector W) rough (Z.of_nat idx) ltac:(rewrite LE; lia)) as (Vh & ED & LV & HV & HR).
  { intros k Hk. unfold vat. change vzero with ((0, 0, 0) : vec). rewrite EC by (rewrite LE in Hk; lia). apply eigenvector_some. }
  rewrite LE in LV. assert (LV' : @length vec3 Vh = length t) by exact LV. exists (fun k => nth k Vh (0, 0, 0)).
  assert (SV : forall k, (k < length t)%nat -> (exists c, c <> 0 /\ nth k Vh (0, 0, 0) = scalev c (axis W k)) /\ dotv (nth k Vh (0, 0, 0)) (nth k Vh (0, 0, 0)) = 1).
  { intros k Hk. specialize (HV (Z.of_nat k) ltac:(rewrite LE; lia)). unfold vat in HV. change vzero with ((0, 0, 0) : vec) in HV. rewrite Nat2Z.id in HV.
    rewrite EC in HV by lia. rewrite vdot_dotv in HV. destruct HV as [(c & Hc & E) U]. split; [|exact U]. exists c. split; [exact Hc|]. rewrite <- vscale_scalev. exact E. }
  set (rot := fun v : vec3 => qsqrt (qmul (qopp (qnormalized (pureq v))) qk)). set (qs0 := map rot Vh).
  assert (R0 : forall v, dotv v v = 1 -> unitq (rot v) /\ turned (rot v) qk = pureq v).
  { intros v Uv. assert (UP : unitq (pureq v)) by (destruct v as [[x y] z]; unfold unitq, qnorm2, dotv in *; cbn [pureq qw qx qy qz]; lra).
    unfold rot. rewrite qnormalized_id by exact UP. apply axis_rotor_ok; [destruct v as [[x y] z]; reflexivity|exact UP]. }
  assert (L0 : length qs0 = length t) by (unfold qs0; rewrite map_length; exact LV).
  assert (N0 : forall k, (k < length t)%nat -> nth k qs0 q1 = rot (nth k Vh (0, 0, 0))).
  { intros k Hk. unfold qs0. rewrite (nth_indep _ q1 (rot (0, 0, 0))) by (rewrite map_length; lia). apply (map_nth rot). }
  assert (U0 : Forall unitq qs0).
  { apply Forall_forall. intros x Hx. apply (In_nth _ _ q1) in Hx as (k & Hk & <-). rewrite N0 by lia. apply R0. apply SV. lia. }
  destruct (minimal_ok qs0 t U0) as (gamma & LM & NM). set (M := minimal qs0 t) in *.
  assert (UM : Forall unitq M).
  { apply Forall_forall. intros x Hx. apply (In_nth _ _ q1) in Hx as (k & Hk & <-). rewrite NM by lia. apply unit_mul; [|apply exp_z_unit].
    rewrite Forall_forall in U0. apply U0, nth_In. lia. }
  assert (SM : forall k, (k < length t)%nat -> seen (nth k M q1) (nth k Vh (0, 0, 0)) = (0, 0, 1)).
  { intros k Hk. rewrite NM, N0 by lia. set (v := nth k Vh (0, 0, 0)). destruct (R0 v ltac:(apply SV; exact Hk)) as [Ur Tr]. rewrite seen_mul.
    assert (S1 : seen (rot v) v = (0, 0, 1)).
    { unfold seen. rewrite <- Tr. unfold turned. rewrite qinv_unit by exact Ur. rewrite !qmul_assoc. rewrite <- (qmul_assoc (qmul (qmul (qconj (rot v)) (rot v)) qk)).
      rewrite !qmul_conj_l, Ur, qscale_1, qmul_1_l, qmul_1_r. reflexivity. }
    rewrite S1. rewrite seen_form. rewrite exp_z_value. unfold px, py, pz. cbn [qw qx qy qz fst snd]. cbv zeta. pose proof (sin2_cos2 (gamma k)) as SC. unfold Rsqr in SC.
    apply (f_equal2 pair); [apply (f_equal2 pair)|]; [ring|ring|]. transitivity (sin (gamma k) * sin (gamma k) + cos (gamma k) * cos (gamma k)); [ring|exact SC]. }
  unfold to_coprecessing. fold idx. rewrite ED. cbn [rbind]. fold rot. fold qs0. fold M.
  destruct transition as [[a b]|].
  - destruct (nearest_spec t a Ht) as (i0 & E0 & I0). destruct (nearest_spec t b Ht) as (i1 & E1 & I1). rewrite E0, E1. cbn [rbind].
    set (tail := slowed (skipn i0 M) (skipn i0 t) (nth i0 t 0) (nth i1 t 0)).
    assert (US : Forall unitq (skipn i0 M)). { rewrite <- (firstn_skipn i0 M) in UM. apply Forall_app in UM. apply UM. }
    destruct (slowed_ok (skipn i0 M) (skipn i0 t) (nth i0 t 0) (nth i1 t 0) US) as [LT UT]. fold tail in LT, UT.
    assert (LI : (i0 < length t)%nat) by apply I0.
    assert (LQ : length (firstn i0 M ++ tail) = length t) by (rewrite app_length, LT, firstn_length, skipn_length; lia).
    destruct (moved _ _ (firstn i0 M ++ tail) CoprecessingFrame HW LQ) as (W' & ER & MV). rewrite ER. cbn [rbind].
    exists (retyped CoprecessingFrame W'), (firstn i0 M ++ tail). split; [reflexivity|]. split; [exact MV|]. split; [exact LQ|].
    split. { apply Forall_app. split; [|exact UT]. rewrite <- (firstn_skipn i0 M) in UM. apply Forall_app in UM. apply UM. }
    split; [exact SV|]. split. { unfold vat in HR. rewrite vdot_dotv, Nat2Z.id in HR. exact HR. }
    intros k Hk (i & Ii & Hki). assert (i = i0) by exact (is_nearest_unique _ _ _ _ Ii I0). subst i. rewrite app_nth1 by (rewrite firstn_length; lia).
    rewrite nth_firstn_lt by exact Hki. apply SM. exact Hk.
  - cbn [rbind]. destruct (moved _ _ M CoprecessingFrame HW ltac:(lia)) as (W' & ER & MV). rewrite ER. cbn [rbind].
    exists (retyped CoprecessingFrame W'), M. split; [reflexivity|]. split; [exact MV|]. split; [lia|]. split; [exact UM|].
    split; [exact SV|]. split. { unfold vat in HR. rewrite vdot_dotv, Nat2Z.id in HR. exact HR. }
    intros k Hk _. apply SM. exact Hk.
Qed.
End Proofs.

(** A case: twelve times, one mode, aligned over the third sample *)
Definition ex_t : list R := map INR (seq 0 12).
Definition ex_W : rwave := mkrw 0 0 (repeat [C1] 12) (F1 []) InertialFrame.
Definition ex_av (t : list R) (_ : rwave) : list vec3 := map (fun _ => (0, 0, 1)) t.
Definition ex_int (t : list R) (_ : list vec3) (_ : quat) (_ : R) : list quat := map (fun x => exp_z (x / 2)) t.
Definition ex_max (t : list R) (_ : rwave) : res R := Ok (last t 0).
Definition ex_eig (_ _ : Z) (_ : list C) : vec3 := (0, 3, 4).
Lemma ex_nearest : forall i, (i < 12)%nat -> is_nearest ex_t (INR i) i.
Proof.
  intros i Hi. assert (N : forall j, (j < 12)%nat -> nth j ex_t 0 = INR j).
  { intros j Hj. unfold ex_t. change 0 with (INR 0). rewrite map_nth. f_equal. rewrite seq_nth by lia. lia. }
  split; [unfold ex_t; rewrite map_length, seq_length; exact Hi|]. rewrite N by exact Hi. replace (INR i - INR i) with 0 by ring. rewrite Rabs_R0. split.
  - intros. apply Rabs_pos.
  - intros j Hj. rewrite N by lia. apply Rabs_pos_lt. pose proof (lt_INR _ _ Hj). lra.
Qed.
Example C67_case :
  (forall t o R0 tol, length (ex_int t o R0 tol) = length t) /\ (forall t o R0 tol, Forall unitq (ex_int t o R0 tol)) /\
  (forall t W, length (ex_av t W) = length t) /\ (forall lo hi row, ex_eig lo hi row <> (0, 0, 0)) /\
  (forall (qs : list quat) (t : list R), Forall unitq qs -> exists gamma : nat -> R, length qs = length qs /\
     forall k, (k < length qs)%nat -> nth k qs q1 = qmul (nth k qs q1) (exp_z (gamma k))) /\
  good (length ex_t) ex_W /\ ex_max ex_t ex_W = Ok 11 /\ powerRZ 2 (-64) <= 1 /\
  exists f, corotating_frame ex_av ex_int ex_max ex_eig ex_t ex_W q1 1 (Some (2 / 11, 3 / 11)) = Ok (Some f, ex_av ex_t ex_W).
Proof.
  assert (A1 : forall t o R0 tol, length (ex_int t o R0 tol) = length t) by (intros; apply map_length).
  assert (A2 : forall t o R0 tol, Forall unitq (ex_int t o R0 tol)).
  { intros. apply Forall_forall. intros x Hx. apply in_map_iff in Hx as (y & <- & _). apply exp_z_unit. }
  assert (A3 : forall t W, length (ex_av t W) = length t) by (intros; apply map_length).
  assert (A4 : forall lo hi row, ex_eig lo hi row <> (0, 0, 0)) by (intros lo hi row E; injection E as E; lra).
  assert (A5 : good (length ex_t) ex_W).
  { split; [split; [cbn; lia|]|split; [reflexivity|exists []; auto]]. cbn [ex_W rw_data rw_lo rw_hi]. apply Forall_forall. intros x Hx. apply repeat_spec in Hx. subst x. reflexivity. }
  assert (A6 : ex_max ex_t ex_W = Ok 11) by (unfold ex_max, ex_t; cbn; f_equal; ring).
  repeat (split; [assumption|]). split.
  { intros qs t _. exists (fun _ => 0). split; [reflexivity|]. intros k _. rewrite exp_z_value, cos_0, sin_0. symmetry. apply qmul_1_r. }
  split; [exact A5|]. split; [exact A6|]. split.
  { unfold powerRZ. rewrite <- Rinv_1. apply Rinv_le_contravar; [lra|]. apply pow_R1_Rle. lra. }
  assert (S0 : start ex_t = 0) by reflexivity.
  destruct (C67_z_region ex_av ex_int ex_max ex_eig A3 A1 A2 A4 ex_t ex_W q1 1 (2 / 11) (3 / 11) 11 2 3) as (V & HV & _ & _ & H).
  { reflexivity. } { exact A6. }
  { rewrite S0. replace (0 + 2 / 11 * (11 - 0)) with (INR 2) by (cbn; field). apply ex_nearest. lia. }
  { rewrite S0. replace (0 + 3 / 11 * (11 - 0)) with (INR 3) by (cbn; field). apply ex_nearest. lia. }
  { lia. } { cbn. lia. }
  destruct H as (f & c & E & _).
  - intros (X & Y & Z). destruct (HV 2%nat ltac:(lia)) as [_ U]. unfold total in *. cbn [Nat.sub seq rsum] in *. set (g := nth 2 _ q1) in *.
    assert (G : unitq g) by (pose proof (A2 ex_t (ex_av ex_t ex_W) q1 1) as F; rewrite Forall_forall in F; apply F, nth_In; cbn; lia).
    assert (N : qnorm2 (pureq (seen g (V 2%nat))) = dotv (V 2%nat) (V 2%nat)).
    { rewrite seen_pure, !qnorm2_mul, qnorm2_conj, G. destruct (V 2%nat) as [[x y] z]. unfold qnorm2, dotv, pureq. cbn [qw qx qy qz]. ring. }
    rewrite U in N. destruct (seen g (V 2%nat)) as [[x y] z]. unfold px, py, pz, qnorm2, pureq in *. cbn [qw qx qy qz fst snd] in *. nra.
  - exists f. exact E.
Qed.
