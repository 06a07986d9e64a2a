(** * C86: rotation generators, expectation values and angular velocities under rotations *)
From Coq Require Import Reals ZArith List Bool Lia Lra.
From Verif Require Import Common Cplx Quat Modes_Model Create_Model Ops_Model Ops_Proofs Times_Model Tables_Model Modal_Model Kwargs_Model Transform_Model Rotate_Model
  Modes_Proofs Modal_Proofs Rotate_Proofs Times_Proofs Kwargs_Proofs Transform_Proofs Wigner_Model Wigner_Proofs Sphere_Model Sphere_Proofs Harmonics_Proofs
  Pipeline_Model Pipeline_Proofs ABD_Model ABD_Proofs ABDBalance_Proofs ABDPointwise_Proofs Zturn_Model Zturn_Proofs Product_Proofs Gridmul_Model Gridmul_Proofs Eth_Proofs Charges_Model Charges_Proofs Abdpipe_Model Abdpipe_Proofs Rest_Model Rest_Proofs Passes_Model Passes_Proofs Velocity_Model.
Import ListNotations.
Open Scope R_scope.

(** ** Infinitesimal rotations *)
(** The components of a vector along an axis *)
Definition along (v : vec3) (a : axis) : R := let '(x, y, z) := v in match a with X => x | Y => y | Z3 => z end.
(** The curve of quaternions 1 + t v; multiples of rotors act as multiples of rotations, so it need not have unit length. *)
Definition shift (v : vec3) (t : R) : quat := let '(x, y, z) := v in mkq 1 (t * x) (t * y) (t * z).
Lemma hd_linear : forall k, derivable_pt_lim (fun t => t * k) 0 k.
Proof.
  intros k. assert (E : 1 * k + 0 * 0 = k) by ring.
  assert (H : derivable_pt_lim (fun t => t * k) 0 (1 * k + 0 * 0)) by (apply (derivable_pt_lim_mult (fun t => t) (fun _ => k)); [apply derivable_pt_lim_id|apply derivable_pt_lim_const]).
  rewrite E in H. exact H.
Qed.
Lemma starts_shift : forall x y z, starts (shift (x, y, z)) (mkC 0 z) (mkC y x).
Proof.
  intros x y z. unfold starts, shift, part_a, part_b. cbn [qw qx qy qz]. split; [rewrite !Rmult_0_l; reflexivity|].
  split; split; cbn [re im]; try apply hd_linear. apply derivable_pt_lim_const.
Qed.
Lemma hd_turn : forall r al be x l m, starts r al be -> (0 <= l)%Z -> (- l <= m <= l)%Z ->
  has_derivative (fun t => turn wigner_D (r t) x l m) 0 (RtoC (IZR (l + m)) * al * x l m + RtoC (IZR (l - m)) * Conj al * x l m + be * raising l (x l) m - Conj be * lowering l (x l) m)%C.
Proof.
  intros r al be x l m Hr Hl Hm. unfold turn. eapply hd_eq.
  - apply hd_sum. intros k Ik. apply zrange_In in Ik. apply hd_ctimes. apply (hd_D r al be l k m Hr); lia.
  - rewrite (csum_ms3 l m _ (x l m * (RtoC (IZR (l + m)) * al + RtoC (IZR (l - m)) * Conj al))%C (be * raising l (x l) m)%C (- (Conj be * lowering l (x l) m))%C Hl Hm); [ring| | | |].
    + rewrite Z.eqb_refl. reflexivity.
    + destruct (Z.ltb_spec (m - 1) (- l)) as [B|B]; [left|right]; (split; [exact B|]).
      * unfold raising. replace (m - 1)%Z with (- l - 1)%Z by lia. rewrite cof_bot. cx.
      * replace (m - 1 =? m)%Z with false by lia. replace (m - 1 + 1 =? m)%Z with true by lia. unfold raising, cof. replace ((l - (m - 1)) * (l + (m - 1) + 1))%Z with ((l + m) * (l - m + 1))%Z by ring.
        rewrite Cscale_mul. ring.
    + destruct (Z.ltb_spec l (m + 1)) as [B|B]; [left|right]; (split; [lia|]).
      * unfold lowering. replace m with l at 1 by lia. rewrite cof_top. cx.
      * replace (m + 1 =? m)%Z with false by lia. replace (m + 1 + 1 =? m)%Z with false by lia. rewrite Z.eqb_refl. unfold lowering, cof. rewrite Cscale_mul. ring.
    + intros k Hk N1 N2 N3. replace (k =? m)%Z with false by lia. replace (k + 1 =? m)%Z with false by lia. replace (k =? m + 1)%Z with false by lia. ring.
Qed.
(** To first order a rotation by twice [v] changes the modes by 2i times the combination of generators along [v]. *)
Lemma hd_generator : forall v x l m, (0 <= l)%Z -> (- l <= m <= l)%Z ->
  has_derivative (fun t => turn wigner_D (shift v t) x l m) 0 (RtoC 2 * Ci * vcomb (along v) l (x l) m)%C.
Proof.
  intros [[vx vy] vz] x l m Hl Hm. eapply hd_eq; [apply (hd_turn _ _ _ x l m (starts_shift vx vy vz) Hl Hm)|].
  unfold vcomb, along. cbn [gen]. rewrite plus_IZR, minus_IZR. generalize (raising l (x l) m) (lowering l (x l) m) (x l m) (IZR l) (IZR m). intros [a a'] [b b'] [c c'] L M. apply C_eq; cbn; field.
Qed.
Lemma wigner_turns : forall p q x l m, (0 <= l)%Z -> (- l <= m <= l)%Z -> turn wigner_D q (turn wigner_D p x) l m = turn wigner_D (qmul p q) x l m.
Proof.
  intros p q x l m Hl Hm. unfold turn.
  transitivity (csum (fun k => csum (fun j => (x l j * wigner_D p l j k * wigner_D q l k m)%C) (ms_of l)) (ms_of l)).
  { apply csum_ext. intros k _. symmetry. apply csum_scale_r. }
  rewrite csum_swap. apply csum_ext. intros j Hj. unfold ms_of in Hj. apply zrange_In in Hj.
  rewrite <- (C25_wigner_product p q l j m) by lia. rewrite <- csum_scale. apply csum_ext. intros; ring.
Qed.
Lemma shift_conj : forall q v t, qnorm2 q = 1 -> qmul (shift v t) q = qmul q (shift (rotv (qconj q) v) t).
Proof.
  intros q v t H. transitivity (qadd q (qscale (qnorm2 q) (qmul (qsub (shift v t) q1) q))).
  - rewrite H. destruct q, v as [[a b] c]. apply quat_eq; cbn; ring.
  - destruct q as [w x y z], v as [[a b] c]. unfold rotv, qvec, shift, qnorm2. cbn. assert (N : w * w + x * x + y * y + z * z = 1) by exact H. apply quat_eq; cbn; ring_simplify; nra.
Qed.
Lemma hd_turned : forall q (f : R -> modes) d u l m, (forall k, (- l <= k <= l)%Z -> has_derivative (fun t => f t l k) u (d l k)) -> has_derivative (fun t => turn wigner_D q (f t) l m) u (turn wigner_D q d l m).
Proof.
  intros q f d u l m H. unfold turn. apply (hd_sum Z (fun k t => f t l k * wigner_D q l k m)%C). intros k Ik. apply zrange_In in Ik.
  apply (hd_ext (fun t => wigner_D q l k m * f t l k)%C); [intros; ring|]. eapply hd_eq; [apply hd_ctimes, H; lia|ring].
Qed.
(** The combination of generators along a vector, of modes seen from a rotated frame, is the combination along the vector as seen before, rotated. *)
Theorem C86_generators : forall q v x l m, qnorm2 q = 1 -> (0 <= l)%Z -> (- l <= m <= l)%Z ->
  vcomb (along (rotv (qconj q) v)) l (turn wigner_D q x l) m = turn wigner_D q (fun l => vcomb (along v) l (x l)) l m.
Proof.
  intros q v x l m Hq Hl Hm.
  assert (A := hd_generator (rotv (qconj q) v) (turn wigner_D q x) l m Hl Hm).
  assert (B : has_derivative (fun t => turn wigner_D (shift (rotv (qconj q) v) t) (turn wigner_D q x) l m) 0 (turn wigner_D q (fun l m => RtoC 2 * Ci * vcomb (along v) l (x l) m)%C l m)).
  { apply (hd_ext (fun t => turn wigner_D q (turn wigner_D (shift v t) x) l m)).
    - intros t. rewrite !wigner_turns by assumption. rewrite shift_conj by exact Hq. reflexivity.
    - apply hd_turned. intros k Hk. apply hd_generator; assumption. }
  assert (E := hd_unique _ _ _ _ A B). clear A B.
  assert (L : turn wigner_D q (fun l m => RtoC 2 * Ci * vcomb (along v) l (x l) m)%C l m = (RtoC 2 * Ci * turn wigner_D q (fun l => vcomb (along v) l (x l)) l m)%C).
  { unfold turn. rewrite <- csum_scale. apply csum_ext. intros; ring. }
  rewrite L in E. clear L. revert E. generalize (vcomb (along (rotv (qconj q) v)) l (turn wigner_D q x l) m) (turn wigner_D q (fun l => vcomb (along v) l (x l)) l m).
  intros [a b] [c d] E. apply (f_equal (fun z => (re z, im z))) in E. cbn in E. injection E as E1 E2. apply C_eq; cbn; lra.
Qed.

(** ** Three equations *)
Definition to_vec (v : axis -> R) : vec3 := (v X, v Y, v Z3).
Lemma solve3_solves : forall m v w, solve3 m v = Ok w -> forall i, Ops_Proofs.dot3 (m i) (along w) = v i.
Proof.
  intros m v w H i. unfold solve3 in H. destruct (Req_EM_T (det3 m) 0) as [|N]; [discriminate|]. injection H as <-.
  unfold Ops_Proofs.dot3, along. unfold det3, with_column in *. cbn [axis_eqb] in *. destruct i; field; exact N.
Qed.
Lemma solve3_exists : forall m v, (forall x, (forall i, Ops_Proofs.dot3 (m i) x = 0) -> x X = 0 /\ x Y = 0 /\ x Z3 = 0) -> exists w, solve3 m v = Ok w.
Proof.
  intros m v H. unfold solve3. destruct (Req_EM_T (det3 m) 0) as [D|]; [exfalso|eexists; reflexivity].
  assert (H' : forall x y z, (forall i, m i X * x + m i Y * y + m i Z3 * z = 0) -> x = 0 /\ y = 0 /\ z = 0).
  { intros x y z E. apply (H (fun a => match a with X => x | Y => y | Z3 => z end)). intros i. apply E. }
  clear H. unfold det3 in D.
  set (a := m X X) in *. set (b := m X Y) in *. set (c := m X Z3) in *. set (d := m Y X) in *. set (e := m Y Y) in *. set (f := m Y Z3) in *.
  set (g := m Z3 X) in *. set (h := m Z3 Y) in *. set (k := m Z3 Z3) in *.
  assert (R3 : forall x y z, a * x + b * y + c * z = 0 -> d * x + e * y + f * z = 0 -> g * x + h * y + k * z = 0 -> x = 0 /\ y = 0 /\ z = 0).
  { intros x y z E1 E2 E3. apply H'. intros []; assumption. }
  destruct (R3 (e * k - f * h) (f * g - d * k) (d * h - e * g)) as (P1 & P2 & P3); [lra|ring|ring|].
  destruct (R3 (h * c - k * b) (k * a - g * c) (g * b - h * a)) as (Q1 & Q2 & Q3); [ring|lra|ring|].
  destruct (R3 (b * f - c * e) (c * d - a * f) (a * e - b * d)) as (S1 & S2 & S3); [ring|ring|lra|].
  destruct (R3 b (- a) 0) as (Za & Zb & _); [ring|lra|lra|]. destruct (R3 c 0 (- a)) as (Zc & _ & _); [ring|lra|lra|].
  destruct (R3 e (- d) 0) as (Zd & Ze & _); [lra|ring|lra|]. destruct (R3 f 0 (- d)) as (Zf & _ & _); [lra|ring|lra|].
  destruct (R3 h (- g) 0) as (Zg & Zh & _); [lra|lra|ring|].
  destruct (R3 1 0 0) as (Z1 & _); lra.
Qed.
Lemma solve3_singular : forall m v x, (forall i j, m i j = m j i) -> (forall i, Ops_Proofs.dot3 (m i) x = 0) -> ~ (x X = 0 /\ x Y = 0 /\ x Z3 = 0) -> solve3 m v = Err ValueError.
Proof.
  intros m v x _ H N. unfold solve3. destruct (Req_EM_T (det3 m) 0) as [|D]; [reflexivity|exfalso]. apply N.
  assert (HX := H X). assert (HY := H Y). assert (HZ := H Z3). unfold Ops_Proofs.dot3 in HX, HY, HZ.
  assert (E1 : det3 m * x X = 0).
  { unfold det3. transitivity ((m Y Y * m Z3 Z3 - m Y Z3 * m Z3 Y) * (m X X * x X + m X Y * x Y + m X Z3 * x Z3) - (m X Y * m Z3 Z3 - m X Z3 * m Z3 Y) * (m Y X * x X + m Y Y * x Y + m Y Z3 * x Z3)
      + (m X Y * m Y Z3 - m X Z3 * m Y Y) * (m Z3 X * x X + m Z3 Y * x Y + m Z3 Z3 * x Z3)); [ring|]. rewrite HX, HY, HZ. ring. }
  assert (E2 : det3 m * x Y = 0).
  { unfold det3. transitivity (- (m Y X * m Z3 Z3 - m Y Z3 * m Z3 X) * (m X X * x X + m X Y * x Y + m X Z3 * x Z3) + (m X X * m Z3 Z3 - m X Z3 * m Z3 X) * (m Y X * x X + m Y Y * x Y + m Y Z3 * x Z3)
      - (m X X * m Y Z3 - m X Z3 * m Y X) * (m Z3 X * x X + m Z3 Y * x Y + m Z3 Z3 * x Z3)); [ring|]. rewrite HX, HY, HZ. ring. }
  assert (E3 : det3 m * x Z3 = 0).
  { unfold det3. transitivity ((m Y X * m Z3 Y - m Y Y * m Z3 X) * (m X X * x X + m X Y * x Y + m X Z3 * x Z3) - (m X X * m Z3 Y - m X Y * m Z3 X) * (m Y X * x X + m Y Y * x Y + m Y Z3 * x Z3)
      + (m X X * m Y Y - m X Y * m Y X) * (m Z3 X * x X + m Z3 Y * x Y + m Z3 Z3 * x Z3)); [ring|]. rewrite HX, HY, HZ. ring. }
  apply Rmult_integral in E1, E2, E3. tauto.
Qed.

(** ** Expectation values *)
Lemma turn_inner : forall q x y l, qnorm2 q = 1 -> (0 <= l)%Z -> inner l (turn wigner_D q x l) (turn wigner_D q y l) = inner l (x l) (y l).
Proof.
  intros q x y l Hq Hl. unfold inner.
  transitivity (csum (fun k => (Conj (x l k) * turn wigner_D (qconj q) (turn wigner_D q y) l k)%C) (ms_of l)).
  - transitivity (csum (fun m => csum (fun k => (Conj (x l k) * (Conj (wigner_D q l k m) * turn wigner_D q y l m))%C) (ms_of l)) (ms_of l)).
    + apply csum_ext. intros m Im. unfold turn at 1. rewrite csum_conj. rewrite <- csum_scale_r. apply csum_ext. intros k Ik. rewrite Conj_mul. ring.
    + rewrite csum_swap. apply csum_ext. intros k Ik. apply zrange_In in Ik. rewrite csum_scale. f_equal. unfold turn at 2. apply csum_ext. intros m Im. apply zrange_In in Im.
      rewrite doc_adjoint by (unfold unitq; try assumption; lia). ring.
  - apply csum_ext. intros k Ik. apply zrange_In in Ik. rewrite wigner_turns by lia. rewrite qmul_conj_r, Hq, qscale_1. rewrite (Rotate_Proofs.turn_one wigner_D C25_wigner_one) by lia. reflexivity.
Qed.
Lemma inner_ext : forall l f f' g g', (forall m, (- l <= m <= l)%Z -> f m = f' m) -> (forall m, (- l <= m <= l)%Z -> g m = g' m) -> inner l f g = inner l f' g'.
Proof. intros l f f' g g' H H'. unfold inner. apply csum_ext. intros m Im. apply zrange_In in Im. rewrite H, H' by lia. reflexivity. Qed.
(** Pairing a vector with a vector of expectation values, two vectors with a matrix of them *)
Definition pairing (u : vec3) (v : axis -> C) : C := (Cscale (along u X) (v X) + Cscale (along u Y) (v Y) + Cscale (along u Z3) (v Z3))%C.
Definition pairing2 (u w : vec3) (m : axis -> axis -> R) : R := Ops_Proofs.dot3 (along u) (fun a => Ops_Proofs.dot3 (m a) (along w)).
Lemma inner_vcomb : forall l f g v, inner l f (vcomb v l g) = (Cscale (v X) (inner l f (gen l X g)) + Cscale (v Y) (inner l f (gen l Y g)) + Cscale (v Z3) (inner l f (gen l Z3 g)))%C.
Proof.
  intros l f g v. unfold vcomb. rewrite (inner_add l f (fun m => Cscale (v X) (gen l X g m) + Cscale (v Y) (gen l Y g m))%C (fun m => Cscale (v Z3) (gen l Z3 g m))).
  rewrite (inner_add l f (fun m => Cscale (v X) (gen l X g m)) (fun m => Cscale (v Y) (gen l Y g m))), !inner_scale. reflexivity.
Qed.
Lemma vcomb_inner : forall l f g v, inner l (vcomb v l f) g = (Cscale (v X) (inner l (gen l X f) g) + Cscale (v Y) (inner l (gen l Y f) g) + Cscale (v Z3) (inner l (gen l Z3 f) g))%C.
Proof. intros l f g v. rewrite <- inner_conj, inner_vcomb, !Conj_add, !Conj_scale, !inner_conj. reflexivity. Qed.
Lemma total_vcomb : forall lo hi (F : Z -> axis -> C) v, total lo hi (fun l => Cscale (v X) (F l X) + Cscale (v Y) (F l Y) + Cscale (v Z3) (F l Z3))%C
  = (Cscale (v X) (total lo hi (fun l => F l X)) + Cscale (v Y) (total lo hi (fun l => F l Y)) + Cscale (v Z3) (total lo hi (fun l => F l Z3)))%C.
Proof.
  intros lo hi F v. unfold total. induction (zrange lo (hi + 1)) as [|l ls IH]; cbn [csum]; [cx|]. rewrite IH.
  generalize (F l X) (F l Y) (F l Z3) (csum (fun l => F l X) ls) (csum (fun l => F l Y) ls) (csum (fun l => F l Z3) ls). intros. cx.
Qed.
Lemma total_pairing : forall lo hi f g u, pairing u (T1 lo hi f g) = total lo hi (fun l => inner l (f l) (vcomb (along u) l (g l))).
Proof.
  intros lo hi f g u. unfold pairing, T1. rewrite <- (total_vcomb lo hi (fun l a => inner l (f l) (gen l a (g l))) (along u)). apply total_ext. intros l. symmetry. apply inner_vcomb.
Qed.
Lemma total_pairing2 : forall lo hi f u w, re (total lo hi (fun l => inner l (vcomb (along u) l (f l)) (vcomb (along w) l (f l)))) = pairing2 u w (fun a b => re (T2 lo hi f f a b)).
Proof.
  intros lo hi f u w.
  rewrite (total_ext lo hi _ (fun l => Cscale (along u X) (inner l (gen l X (f l)) (vcomb (along w) l (f l))) + Cscale (along u Y) (inner l (gen l Y (f l)) (vcomb (along w) l (f l)))
    + Cscale (along u Z3) (inner l (gen l Z3 (f l)) (vcomb (along w) l (f l))))%C) by (intros; apply vcomb_inner).
  rewrite (total_vcomb lo hi (fun l a => inner l (gen l a (f l)) (vcomb (along w) l (f l))) (along u)).
  assert (E : forall a, re (total lo hi (fun l => inner l (gen l a (f l)) (vcomb (along w) l (f l)))) = Ops_Proofs.dot3 (fun b => re (T2 lo hi f f a b)) (along w)).
  { intros a. rewrite (total_ext lo hi _ _ (fun l => inner_vcomb l (gen l a (f l)) (f l) (along w))). rewrite (total_vcomb lo hi (fun l b => inner l (gen l a (f l)) (gen l b (f l))) (along w)).
    unfold Ops_Proofs.dot3. rewrite !T2_gram. cbn. ring. }
  unfold pairing2. unfold Ops_Proofs.dot3 at 1. rewrite <- !E. reflexivity.
Qed.
Lemma total_In : forall lo hi F G, (forall l, (lo <= l <= hi)%Z -> F l = G l) -> total lo hi F = total lo hi G.
Proof. intros lo hi F G H. apply csum_ext. intros l Il. apply zrange_In in Il. apply H. lia. Qed.
Lemma dot_eq : forall u v : vec3, (forall x, v3dot x u = v3dot x v) -> u = v.
Proof.
  intros [[a b] c] [[a' b'] c'] H. assert (A := H (1, 0, 0)). assert (B := H (0, 1, 0)). assert (D := H (0, 0, 1)). unfold v3dot in A, B, D. f_equal; [f_equal|]; lra.
Qed.

Lemma forth_again : forall q v, qnorm2 q = 1 -> rotv (qconj q) (rotv q v) = v.
Proof. intros q v H. assert (E := rotv_back (qconj q) v). rewrite qconj_involutive in E. apply E. rewrite qnorm2_conj. exact H. Qed.
Section Turned.
Variables (q : quat) (lo hi : Z).
Hypothesis Hq : qnorm2 q = 1.
Hypothesis Hlo : (0 <= lo)%Z.
Notation back := (rotv (qconj q)).
Notation has := (Modal_Proofs.has_modes lo hi).
(** The data [e] are the data [d] as seen from the frame rotated by [q]. *)
Definition same_seen (d e : list C) (f : modes) : Prop := has d f /\ has e (turn wigner_D q f).
Lemma T1_turned : forall f g u, pairing (back u) (T1 lo hi (turn wigner_D q f) (turn wigner_D q g)) = pairing u (T1 lo hi f g).
Proof.
  intros f g u. rewrite !total_pairing. apply total_In. intros l Hl. rewrite <- (turn_inner q f (fun l => vcomb (along u) l (g l)) l Hq) by lia.
  apply Ops_Proofs.inner_ext; intros m Hm; [reflexivity|]. apply C86_generators; [exact Hq|lia|exact Hm].
Qed.
(** Expectation values of the generators turn as vectors, *)
Theorem C86_vector : forall d1 d2 e1 e2 f g, same_seen d1 e1 f -> same_seen d2 e2 g ->
  exists v v', LVector lo hi d1 d2 = Ok v /\ LVector lo hi e1 e2 = Ok v' /\ forall u, pairing (back u) v' = pairing u v.
Proof.
  intros d1 d2 e1 e2 f g [H1 E1] [H2 E2]. destruct (C23_LVector lo hi Hlo _ _ _ _ H1 H2) as (v & Ev & Hv). destruct (C23_LVector lo hi Hlo _ _ _ _ E1 E2) as (v' & Ev' & Hv').
  exists v, v'. split; [exact Ev|]. split; [exact Ev'|]. intros u. transitivity (pairing (back u) (T1 lo hi (turn wigner_D q f) (turn wigner_D q g))).
  - unfold pairing. rewrite !Hv'. reflexivity.
  - rewrite T1_turned. unfold pairing. rewrite !Hv. reflexivity.
Qed.
(** so do those with the time derivative, *)
Theorem C86_rate : forall d d' e e' f f', same_seen d e f -> same_seen d' e' f' ->
  exists v v', LdtVector lo hi d d' = Ok v /\ LdtVector lo hi e e' = Ok v' /\ to_vec v' = back (to_vec v).
Proof.
  intros d d' e e' f f' [H1 E1] [H2 E2]. destruct (C23_LdtVector lo hi Hlo _ _ _ _ H1 H2) as (v & Ev & Hv). destruct (C23_LdtVector lo hi Hlo _ _ _ _ E1 E2) as (v' & Ev' & Hv').
  exists v, v'. split; [exact Ev|]. split; [exact Ev'|]. apply dot_eq. intros x. rewrite rotv_adjoint, qconj_involutive.
  assert (P : forall u f g v, (forall a, v a = im (T1 lo hi f g a)) -> v3dot u (to_vec v) = im (pairing u (T1 lo hi f g))).
  { intros [[a b] c] F G w Hw. unfold to_vec, v3dot, pairing, along. rewrite !Hw. cbn. ring. }
  rewrite (P _ (turn wigner_D q f) (turn wigner_D q f')), (P _ f f') by assumption. rewrite <- (T1_turned f f'). rewrite forth_again by exact Hq. reflexivity.
Qed.
Lemma T2_turned : forall f u w, pairing2 (back u) (back w) (fun a b => re (T2 lo hi (turn wigner_D q f) (turn wigner_D q f) a b)) = pairing2 u w (fun a b => re (T2 lo hi f f a b)).
Proof.
  intros f u w. rewrite <- !total_pairing2. f_equal. apply total_In. intros l Hl.
  rewrite <- (turn_inner q (fun l => vcomb (along u) l (f l)) (fun l => vcomb (along w) l (f l)) l Hq) by lia.
  apply Ops_Proofs.inner_ext; intros m Hm; (apply C86_generators; [exact Hq|lia|exact Hm]).
Qed.
(** and those of products of two generators as tensors: an axis of the matrix turns as a vector, with the same value. *)
Theorem C86_tensor : forall d e f, same_seen d e f ->
  exists LL LL', LLMatrix lo hi d = Ok LL /\ LLMatrix lo hi e = Ok LL' /\ (forall u w, pairing2 (back u) (back w) LL' = pairing2 u w LL) /\
  forall u x, (forall a, Ops_Proofs.dot3 (LL a) (along u) = x * along u a) <-> (forall a, Ops_Proofs.dot3 (LL' a) (along (back u)) = x * along (back u) a).
Proof.
  intros d e f [H E]. destruct (C21_entries lo hi Hlo _ _ H) as (LL & EL & HL & _). destruct (C21_entries lo hi Hlo _ _ E) as (LL' & EL' & HL' & _).
  exists LL, LL'. split; [exact EL|]. split; [exact EL'|].
  assert (P : forall u w, pairing2 (back u) (back w) LL' = pairing2 u w LL).
  { intros u w. transitivity (pairing2 (back u) (back w) (fun a b => re (T2 lo hi (turn wigner_D q f) (turn wigner_D q f) a b))).
    - unfold pairing2, Ops_Proofs.dot3. rewrite !HL'. reflexivity.
    - rewrite T2_turned. unfold pairing2, Ops_Proofs.dot3. rewrite !HL. reflexivity. }
  split; [exact P|]. intros u x.
  assert (V : forall M w, (forall a, Ops_Proofs.dot3 (M a) (along w) = x * along w a) <-> (forall y, pairing2 y w M = x * v3dot y w)).
  { intros M w. split.
    - intros A [[y1 y2] y3]. unfold pairing2. unfold Ops_Proofs.dot3 at 1. rewrite !A. destruct w as [[w1 w2] w3]. unfold along, v3dot. ring.
    - intros A a. assert (A1 := A (1, 0, 0)). assert (A2 := A (0, 1, 0)). assert (A3 := A (0, 0, 1)). unfold pairing2 in A1, A2, A3.
      set (D := fun a => Ops_Proofs.dot3 (M a) (along w)) in *. change (D a = x * along w a). clearbody D. unfold Ops_Proofs.dot3, v3dot in A1, A2, A3. destruct w as [[w1 w2] w3].
      cbn [along] in *. destruct a; lra. }
  rewrite !V. split; intros A y.
  - rewrite <- (forth_again q y Hq). rewrite P, A. f_equal. rewrite rotv_dot, qnorm2_conj, Hq. ring.
  - rewrite <- P, A. f_equal. rewrite rotv_dot, qnorm2_conj, Hq. ring.
Qed.
End Turned.
(** ** Angular velocities *)
Lemma quad_kernel : forall LL x, (forall a, Ops_Proofs.dot3 (LL a) x = 0) -> quad LL x = 0.
Proof.
  intros LL x H. assert (HX := H X). assert (HY := H Y). assert (HZ := H Z3). unfold Ops_Proofs.dot3 in *. unfold quad.
  transitivity (x X * (LL X X * x X + LL X Y * x Y + LL X Z3 * x Z3) + x Y * (LL Y X * x X + LL Y Y * x Y + LL Y Z3 * x Z3) + x Z3 * (LL Z3 X * x X + LL Z3 Y * x Y + LL Z3 Z3 * x Z3)); [ring|].
  rewrite HX, HY, HZ. ring.
Qed.
(** For a form that is never negative, a vector of length zero is in the kernel. *)
Lemma kernel_quad : forall LL x, (forall a b, LL a b = LL b a) -> (forall y, 0 <= quad LL y) -> quad LL x = 0 -> forall a, Ops_Proofs.dot3 (LL a) x = 0.
Proof.
  intros LL x S P Z a. set (k := Ops_Proofs.dot3 (LL a) x).
  assert (E : forall t, quad LL (fun b => x b + t * (if axis_eqb b a then 1 else 0)) = quad LL x + 2 * t * k + t * t * LL a a).
  { intros t. unfold k, quad, Ops_Proofs.dot3. destruct a; cbn [axis_eqb]; rewrite ?(S Y X), ?(S Z3 X), ?(S Z3 Y); ring. }
  assert (Haa : 0 <= LL a a). { specialize (P (fun b => if axis_eqb b a then 1 else 0)). unfold quad in P. destruct a; cbn [axis_eqb] in P; lra. }
  destruct (Req_dec k 0) as [|N]; [assumption|exfalso]. destruct (Req_dec (LL a a) 0) as [Z0|N0].
  - assert (U := P (fun b => x b + (- k) * (if axis_eqb b a then 1 else 0))). rewrite E, Z, Z0 in U. nra.
  - assert (U := P (fun b => x b + (- k / LL a a) * (if axis_eqb b a then 1 else 0))). rewrite E, Z in U.
    replace (0 + 2 * (- k / LL a a) * k + - k / LL a a * (- k / LL a a) * LL a a) with (- (k * k / LL a a)) in U by (field; exact N0).
    assert (0 < k * k / LL a a). { apply Rmult_lt_0_compat; [nra|apply Rinv_0_lt_compat; lra]. } lra.
Qed.
Lemma along_inj : forall u v, (forall a, along u a = along v a) -> u = v.
Proof. intros [[x y] z] [[x' y'] z'] H. assert (A := H X). assert (B := H Y). assert (D := H Z3). cbn in A, B, D. subst. reflexivity. Qed.
Lemma vec3_dec : forall u v : vec3, u = v \/ u <> v.
Proof.
  intros [[a b] c] [[a' b'] c']. destruct (Req_EM_T a a') as [->|N]; [destruct (Req_EM_T b b') as [->|N]; [destruct (Req_EM_T c c') as [->|N]; [left; reflexivity|]|]|]; right; congruence.
Qed.
(** No rotation leaves the function with the modes [f] from degree [lo] to [hi] unchanged: it is not symmetric about any axis. *)
Definition no_axis (lo hi : Z) (f : modes) : Prop := forall v : vec3, (forall l m, (lo <= l <= hi)%Z -> (- l <= m <= l)%Z -> vcomb (along v) l (f l) m = C0) -> v = (0, 0, 0).
(** How much the modes change per unit of time, seen from a frame turning with the velocity [w] *)
Notation change lo hi f f' w := (Ops_Proofs.residual lo hi f f' (along w)).
Section Velocity.
Variables (lo hi : Z).
Hypothesis Hlo : (0 <= lo)%Z.
Notation has := (Modal_Proofs.has_modes lo hi).
Lemma velocity_parts : forall d d' f f', has d f -> has d' f' -> exists LL v, LLMatrix lo hi d = Ok LL /\ LdtVector lo hi d d' = Ok v /\ (forall a b, LL a b = LL b a) /\ (forall y, 0 <= quad LL y) /\
  (forall x, quad LL x = 0 <-> forall l m, (lo <= l <= hi)%Z -> (- l <= m <= l)%Z -> vcomb x l (f l) m = C0) /\
  forall w, (forall a, Ops_Proofs.dot3 (LL a) w = - v a) -> forall w', Ops_Proofs.residual lo hi f f' w <= Ops_Proofs.residual lo hi f f' w' /\
     (Ops_Proofs.residual lo hi f f' w' = Ops_Proofs.residual lo hi f f' w <-> quad LL (fun a => w' a - w a) = 0).
Proof.
  intros d d' f f' H H'. destruct (C21_entries lo hi Hlo _ _ H) as (LL & E & _ & S). destruct (C21_positive_semidefinite lo hi Hlo _ _ H) as (LL' & E' & Q).
  rewrite E in E'. injection E' as <-. destruct (C52_angular_velocity_minimises lo hi Hlo _ _ _ _ H H') as (LL' & v & E' & Ev & M). rewrite E in E'. injection E' as <-.
  exists LL, v. split; [exact E|]. split; [exact Ev|]. split; [exact S|]. split; [apply Q|]. split; [|exact M].
  intros x. rewrite (proj2 (proj2 (Q x))). split; intros A l m; [intros Hl Hm; apply A; split; assumption|intros [Hl Hm]; apply A; assumption].
Qed.
(** Without an axis of symmetry the angular velocity is the one frame velocity for which the modes change least. *)
Theorem C86_velocity : forall d d' f f', has d f -> has d' f' -> no_axis lo hi f ->
  exists w, velocity lo hi d d' = Ok w /\ forall w', w' <> w -> change lo hi f f' w < change lo hi f f' w'.
Proof.
  intros d d' f f' H H' NA. destruct (velocity_parts d d' f f' H H') as (LL & v & E & Ev & S & P & Q & M).
  assert (N : forall x, quad LL x = 0 -> x X = 0 /\ x Y = 0 /\ x Z3 = 0).
  { intros x Z. assert (Z' := proj1 (Q x) Z). assert (U : to_vec x = (0, 0, 0)). { apply NA. intros l m Hl Hm. rewrite <- (Z' l m Hl Hm). reflexivity. }
    unfold to_vec in U. injection U as U1 U2 U3. tauto. }
  destruct (solve3_exists LL v) as [u Eu]. { intros x Hx. apply N. apply quad_kernel. exact Hx. }
  exists (v3scale (-1) u). split; [unfold velocity; rewrite Ev, E; cbn [rbind]; rewrite Eu; reflexivity|].
  assert (W : forall a, Ops_Proofs.dot3 (LL a) (along (v3scale (-1) u)) = - v a).
  { intros a. rewrite <- (solve3_solves _ _ _ Eu a). unfold Ops_Proofs.dot3. destruct u as [[x y] z]. cbn. ring. }
  intros w' D. destruct (M _ W (along w')) as [M1 M2]. destruct M1 as [L|L]; [exact L|exfalso]. apply D.
  assert (Z := N _ (proj1 M2 (eq_sym L))). cbv beta in Z. apply along_inj. intros []; lra.
Qed.
(** With one, for example without any waves, it cannot be computed. *)
Theorem C86_velocity_symmetric : forall d d' f f' v, has d f -> has d' f' -> (forall l m, (lo <= l <= hi)%Z -> (- l <= m <= l)%Z -> vcomb (along v) l (f l) m = C0) -> v <> (0, 0, 0) ->
  velocity lo hi d d' = Err ValueError.
Proof.
  intros d d' f f' v H H' Hv Nv. destruct (velocity_parts d d' f f' H H') as (LL & u & E & Ev & S & P & Q & _). unfold velocity. rewrite Ev, E. cbn [rbind].
  rewrite (solve3_singular LL u (along v) S); [reflexivity| |].
  - apply kernel_quad; [exact S|exact P|apply Q; exact Hv].
  - intros (A1 & A2 & A3). apply Nv. apply along_inj. intros []; cbn in *; assumption.
Qed.
Lemma velocity_axis : forall d d' f f' w, has d f -> has d' f' -> velocity lo hi d d' = Ok w -> no_axis lo hi f.
Proof.
  intros d d' f f' w H H' E v Hv. destruct (vec3_dec v (0, 0, 0)) as [|N]; [assumption|exfalso]. rewrite (C86_velocity_symmetric d d' f f' v H H' Hv N) in E. discriminate.
Qed.
Lemma velocity_error : forall d d' f f' e, has d f -> has d' f' -> velocity lo hi d d' = Err e -> e = ValueError.
Proof.
  intros d d' f f' e H H' E. destruct (velocity_parts d d' f f' H H') as (LL & u & EL & Ev & _). unfold velocity in E. rewrite Ev, EL in E. cbn [rbind] in E. unfold solve3 in E.
  destruct (Req_EM_T (det3 LL) 0); cbn in E; congruence.
Qed.
Lemma velocity_least : forall d d' f f' w, has d f -> has d' f' -> no_axis lo hi f -> (forall w', change lo hi f f' w <= change lo hi f f' w') -> velocity lo hi d d' = Ok w.
Proof.
  intros d d' f f' w H H' NA L. destruct (C86_velocity d d' f f' H H' NA) as (u & E & M). rewrite E. f_equal. 
  destruct (vec3_dec u w) as [|N]; [assumption|exfalso]. assert (A := M w (fun Z => N (eq_sym Z))). assert (B := L u). lra.
Qed.
End Velocity.
(** ** Seen from another frame *)
Lemma turn_add_times : forall q x y k l m, turn wigner_D q (fun l m => x l m + k * y l m)%C l m = (turn wigner_D q x l m + k * turn wigner_D q y l m)%C.
Proof. intros q x y k l m. unfold turn. rewrite <- csum_scale, <- csum_add. apply csum_ext. intros. ring. Qed.
Lemma wigner_norm : forall q x l, qnorm2 q = 1 -> (0 <= l)%Z -> rsum (fun m => norm2 (turn wigner_D q x l m)) (Modal_Model.ms_of l) = rsum (fun m => norm2 (x l m)) (Modal_Model.ms_of l).
Proof. intros q x l Hq Hl. apply (turn_norm wigner_D doc_mul C25_wigner_one doc_adjoint); assumption. Qed.
Lemma has_modes_ext : forall lo hi d f g, Modal_Proofs.has_modes lo hi d f -> (forall l m, (lo <= l <= hi)%Z -> (- l <= m <= l)%Z -> f l m = g l m) -> Modal_Proofs.has_modes lo hi d g.
Proof. intros lo hi d f g [L H] E. split; [exact L|]. intros l m [H1 H2]. rewrite H by (split; assumption). rewrite E by assumption. reflexivity. Qed.
Lemma rsum_In : forall (F G : Z -> R) ls, (forall l, In l ls -> F l = G l) -> rsum F ls = rsum G ls.
Proof. intros F G ls H. apply rsum_ext. exact H. Qed.
Lemma turn_zero : forall q l m, turn wigner_D q (fun _ _ => C0) l m = C0.
Proof.
  intros q l m. unfold turn. induction (ms_of l) as [|k ks IH]; cbn [csum]; [reflexivity|]. rewrite IH. ring.
Qed.
Section Frames.
Variables (lo hi : Z).
Hypothesis Hlo : (0 <= lo)%Z.
Notation has := (Modal_Proofs.has_modes lo hi).
Lemma change_turned : forall q f g w, qnorm2 q = 1 -> change lo hi (turn wigner_D q f) (turn wigner_D q g) (rotv (qconj q) w) = change lo hi f g w.
Proof.
  intros q f g w Hq. unfold Ops_Proofs.residual, rtotal. apply rsum_ext. intros l Il. apply zrange_In in Il.
  rewrite <- (wigner_norm q (fun l m => g l m + Ci * vcomb (along w) l (f l) m)%C l Hq) by lia.
  apply rsum_ext. intros m Im. apply zrange_In in Im. rewrite C86_generators by (try exact Hq; lia). rewrite turn_add_times. reflexivity.
Qed.
Lemma change_axis : forall f v, (forall l m, (lo <= l <= hi)%Z -> (- l <= m <= l)%Z -> vcomb (along v) l (f l) m = C0) <-> change lo hi f (fun _ _ => C0) v = 0.
Proof.
  intros f v. unfold Ops_Proofs.residual, rtotal.
  assert (Z0 : forall ls F, (forall l, 0 <= F l) -> (rsum F ls = 0 <-> forall l : Z, In l ls -> F l = 0)).
  { intros ls F P. assert (N : forall ks, 0 <= rsum F ks). { induction ks as [|k ks IH]; cbn; [lra|]. specialize (P k). lra. }
    induction ls as [|l ls IH]; cbn; [split; [intros _ ? []|reflexivity]|]. specialize (N ls). specialize (P l). split.
    - intros H. assert (F l = 0) by lra. assert (rsum F ls = 0) by lra. intros k [<-|Hk]; [assumption|apply IH; assumption].
    - intros H. rewrite (H l) by (left; reflexivity). rewrite (proj2 IH); [ring|]. intros k Hk. apply H. right. exact Hk. }
  assert (N2 : forall z, 0 <= norm2 z) by (intros [a b]; unfold norm2; cbn; nra).
  rewrite Z0. 2:{ intros l. induction (Modal_Model.ms_of l) as [|m ms IH]; cbn; [lra|]. specialize (N2 (C0 + Ci * vcomb (along v) l (f l) m)%C). lra. }
  split.
  - intros H l Il. apply zrange_In in Il. apply (proj2 (Z0 _ _ (fun m => N2 _))). intros m Im. apply zrange_In in Im. rewrite H by lia. unfold norm2. cbn. ring.
  - intros H l m Hl Hm. assert (Q : In m (Modal_Model.ms_of l)) by (apply zrange_In; lia).
    assert (P := proj1 (Z0 _ _ (fun m => N2 _)) (H l ltac:(apply zrange_In; lia)) m Q). cbv beta in P. destruct (vcomb (along v) l (f l) m) as [a b]. unfold norm2 in P. cbn in P.
    destruct (Rplus_sqr_eq_0 a b) as [-> ->]; [unfold Rsqr; lra|reflexivity].
Qed.
Lemma no_axis_turned : forall q f, qnorm2 q = 1 -> no_axis lo hi f -> no_axis lo hi (turn wigner_D q f).
Proof.
  intros q f Hq NA v Hv. apply change_axis in Hv. rewrite <- (forth_again q v Hq) in Hv |- *.
  assert (E : rotv q v = (0, 0, 0)).
  { apply NA. apply change_axis. rewrite <- (change_turned q f (fun _ _ => C0) _ Hq). rewrite <- Hv. unfold Ops_Proofs.residual, rtotal. apply rsum_ext. intros l Il. apply rsum_ext. intros m Im.
    rewrite turn_zero. reflexivity. }
  rewrite E. destruct q. unfold rotv, qvec. cbn. f_equal; [f_equal|]; ring.
Qed.
(** The angular velocity of a waveform as seen from a rotated frame is its angular velocity, seen from there; it fails to be computed together. *)
Theorem C86_turned : forall q d d' e e' f f', qnorm2 q = 1 -> same_seen q lo hi d e f -> same_seen q lo hi d' e' f' ->
  velocity lo hi e e' = match velocity lo hi d d' with Ok w => Ok (rotv (qconj q) w) | Err x => Err x end.
Proof.
  assert (Half : forall q d d' e e' f f' w, qnorm2 q = 1 -> same_seen q lo hi d e f -> same_seen q lo hi d' e' f' -> velocity lo hi d d' = Ok w -> velocity lo hi e e' = Ok (rotv (qconj q) w)).
  { intros q d d' e e' f f' w Hq [Hd He] [Hd' He'] E. assert (NA := velocity_axis lo hi Hlo d d' f f' w Hd Hd' E). destruct (C86_velocity lo hi Hlo d d' f f' Hd Hd' NA) as (w' & E' & M).
    rewrite E in E'. injection E' as <-. apply (velocity_least lo hi Hlo e e' _ _ _ He He'); [apply no_axis_turned; assumption|].
    intros u. rewrite <- (forth_again q u Hq), !change_turned by exact Hq. destruct (vec3_dec (rotv q u) w) as [->|N]; [lra|]. apply Rlt_le, M, N. }
  intros q d d' e e' f f' Hq S S'. destruct (velocity lo hi d d') as [w|x] eqn:E; [apply (Half q d d' e e' f f'); assumption|].
  assert (Ex := velocity_error lo hi Hlo d d' f f' x (proj1 S) (proj1 S') E). subst x.
  destruct (velocity lo hi e e') as [w|x] eqn:E'; [exfalso|f_equal; apply (velocity_error lo hi Hlo e e' _ _ x (proj2 S) (proj2 S') E')].
  assert (B : forall g c b, same_seen q lo hi c b g -> same_seen (qconj q) lo hi b c (turn wigner_D q g)).
  { intros g c b [Hc Hb]. split; [exact Hb|]. apply (has_modes_ext lo hi c g); [exact Hc|]. intros l m Hl Hm. rewrite wigner_turns by lia. rewrite qmul_conj_r, Hq, qscale_1.
    symmetry. apply (Rotate_Proofs.turn_one wigner_D C25_wigner_one); lia. }
  assert (Q : qnorm2 (qconj q) = 1) by (rewrite qnorm2_conj; exact Hq).
  assert (Z := Half (qconj q) e e' d d' _ _ w Q (B f d e S) (B f' d' e' S') E'). congruence.
Qed.
End Frames.
(** ** Rotating frames *)
(** The curve of quaternions [r] has the derivative [d] at [u]. *)
Definition qderiv (r : R -> quat) (u : R) (d : quat) : Prop :=
  derivable_pt_lim (fun t => qw (r t)) u (qw d) /\ derivable_pt_lim (fun t => qx (r t)) u (qx d) /\ derivable_pt_lim (fun t => qy (r t)) u (qy d) /\ derivable_pt_lim (fun t => qz (r t)) u (qz d).
Lemma dl_eq : forall f u d e, derivable_pt_lim f u d -> d = e -> derivable_pt_lim f u e.
Proof. intros f u d e H <-. exact H. Qed.
Lemma dl_ext : forall f g u d, (forall x, f x = g x) -> derivable_pt_lim f u d -> derivable_pt_lim g u d.
Proof. intros f g u d E H e He. destruct (H e He) as [a Ha]. exists a. intros h N L. rewrite <- !E. apply Ha; assumption. Qed.
Lemma dl_later : forall f u d, derivable_pt_lim f u d -> derivable_pt_lim (fun t => f (u + t)) 0 d.
Proof. intros f u d H e He. destruct (H e He) as [a Ha]. exists a. intros h N L. replace (u + (0 + h)) with (u + h) by ring. replace (u + 0) with u by ring. apply Ha; assumption. Qed.
Lemma dl_comb4 : forall a b c e f g h k u a' b' c' e', derivable_pt_lim a u a' -> derivable_pt_lim b u b' -> derivable_pt_lim c u c' -> derivable_pt_lim e u e' ->
  derivable_pt_lim (fun t => a t * f + b t * g + c t * h + e t * k) u (a' * f + b' * g + c' * h + e' * k).
Proof.
  assert (M : forall a f u a', derivable_pt_lim a u a' -> derivable_pt_lim (fun t => a t * f) u (a' * f)).
  { intros a f u a' H. eapply dl_eq; [apply (derivable_pt_lim_mult a (fun _ => f) u a' 0 H), derivable_pt_lim_const|]. cbv beta. ring. }
  intros. apply (derivable_pt_lim_plus (fun t => a t * f + b t * g + c t * h) (fun t => e t * k)); [|apply M; assumption].
  apply (derivable_pt_lim_plus (fun t => a t * f + b t * g) (fun t => c t * h)); [|apply M; assumption]. apply (derivable_pt_lim_plus (fun t => a t * f) (fun t => b t * g)); apply M; assumption.
Qed.
Lemma unit_tangent : forall r u d, (forall t, qnorm2 (r t) = 1) -> qderiv r u d -> qw d * qw (r u) + qx d * qx (r u) + qy d * qy (r u) + qz d * qz (r u) = 0.
Proof.
  intros r u d U (Hw & Hx & Hy & Hz).
  assert (S : forall f d, derivable_pt_lim f u d -> derivable_pt_lim (fun t => f t * f t) u (d * f u + f u * d)) by (intros; apply derivable_pt_lim_mult; assumption).
  assert (N : derivable_pt_lim (fun t => qnorm2 (r t)) u ((qw d * qw (r u) + qw (r u) * qw d) + (qx d * qx (r u) + qx (r u) * qx d) + (qy d * qy (r u) + qy (r u) * qy d) + (qz d * qz (r u) + qz (r u) * qz d))).
  { unfold qnorm2. apply (derivable_pt_lim_plus (fun t => qw (r t) * qw (r t) + qx (r t) * qx (r t) + qy (r t) * qy (r t)) (fun t => qz (r t) * qz (r t))); [|apply S, Hz].
    apply (derivable_pt_lim_plus (fun t => qw (r t) * qw (r t) + qx (r t) * qx (r t)) (fun t => qy (r t) * qy (r t))); [|apply S, Hy].
    apply (derivable_pt_lim_plus (fun t => qw (r t) * qw (r t)) (fun t => qx (r t) * qx (r t))); apply S; assumption. }
  assert (Z := derivable_pt_lim_const 1 u). assert (E := uniqueness_limite _ _ _ _ N (dl_ext (fun _ => 1) _ u 0 (fun t => eq_sym (U t)) Z)). lra.
Qed.
Lemma starts_frame : forall r u d, (forall t, qnorm2 (r t) = 1) -> qderiv r u d ->
  starts (fun t => qmul (r (u + t)) (qconj (r u))) (part_a (qmul d (qconj (r u)))) (part_b (qmul d (qconj (r u)))).
Proof.
  intros r u d U (Hw & Hx & Hy & Hz). split; [rewrite Rplus_0_r, qmul_conj_r, U; apply quat_eq; cbn; ring|].
  apply dl_later in Hw, Hx, Hy, Hz. assert (L : forall f g h k v, v = qw d * f + qx d * g + qy d * h + qz d * k -> forall F, (forall t, F t = qw (r (u + t)) * f + qx (r (u + t)) * g + qy (r (u + t)) * h + qz (r (u + t)) * k) -> derivable_pt_lim F 0 v).
  { intros f g h k v -> F E. eapply dl_ext; [intros t; symmetry; apply E|]. apply dl_comb4; assumption. }
  destruct d as [dw dx dy dz]. destruct (r u) as [W X Y Z].
  split; split; cbn.
  - apply (L W X Y Z); [cbn; ring|intros; ring].
  - apply (L (- Z) (- Y) X W); [cbn; ring|intros; ring].
  - apply (L (- Y) Z W (- X)); [cbn; ring|intros; ring].
  - apply (L (- X) W (- Z) Y); [cbn; ring|intros; ring].
Qed.
(** The modes seen from a rotating frame change as the modes do, and as a rotation with the velocity of the frame changes them. *)
Theorem C86_rotating : forall r d (f : R -> modes) df u l m, (forall t, qnorm2 (r t) = 1) -> qderiv r u d -> (0 <= l)%Z -> (- l <= m <= l)%Z ->
  (forall k, (- l <= k <= l)%Z -> has_derivative (fun t => f t l k) u (df l k)) ->
  has_derivative (fun t => turn wigner_D (r t) (f t) l m) u (turn wigner_D (r u) (fun l m => df l m + Ci * vcomb (along (frame_velocity (r u) d)) l (f u l) m)%C l m).
Proof.
  intros r d f df u l m U Hr Hl Hm Hf. apply hd_shift. set (p := fun t => qmul (r (u + t)) (qconj (r u))).
  apply (hd_ext (fun t => turn wigner_D (r u) (turn wigner_D (p t) (f (u + t))) l m)).
  { intros t. rewrite wigner_turns by assumption. unfold p. rewrite <- qmul_assoc, qmul_conj_l, U, qscale_1, qmul_1_r. reflexivity. }
  apply (hd_turned (r u) (fun t => turn wigner_D (p t) (f (u + t)))). intros k Hk.
  assert (S := starts_frame r u d U Hr). fold p in S. set (al := part_a (qmul d (qconj (r u)))) in *. set (be := part_b (qmul d (qconj (r u)))) in *.
  assert (Hs : forall j, (- l <= j <= l)%Z -> has_derivative (fun t => f (u + t) l j) 0 (df l j)).
  { intros j Hj. destruct (Hf j Hj) as [A B]. split; [apply (dl_later (fun t => re (f t l j))), A|apply (dl_later (fun t => im (f t l j))), B]. }
  set (dD := fun j => if (j =? k)%Z then (RtoC (IZR (l + k)) * al + RtoC (IZR (l - k)) * Conj al)%C
     else if (j + 1 =? k)%Z then (RtoC (sqrt (IZR ((l + k) * (l - k + 1)))) * be)%C else if (j =? k + 1)%Z then (- (RtoC (sqrt (IZR ((l - k) * (l + k + 1)))) * Conj be))%C else C0).
  assert (HD : forall j, (- l <= j <= l)%Z -> has_derivative (fun t => wigner_D (p t) l j k) 0 (dD j)).
  { intros j Hj. eapply hd_eq; [apply (hd_D p al be l j k S Hl Hj Hk)|]. unfold dD. reflexivity. }
  assert (V := hd_turn p al be (f u) l k S Hl Hk).
  assert (V' : has_derivative (fun t => turn wigner_D (p t) (f u) l k) 0 (csum (fun j => (f u l j * dD j)%C) (ms_of l))).
  { unfold turn. apply (hd_sum Z (fun j t => f u l j * wigner_D (p t) l j k)%C). intros j Ij. apply zrange_In in Ij. apply hd_ctimes, HD. lia. }
  assert (EV := hd_unique _ _ _ _ V' V). clear V V'.
  eapply hd_eq.
  - unfold turn. apply (hd_sum Z (fun j t => f (u + t)%R l j * wigner_D (p t) l j k)%C (fun j => df l j * wigner_D (p 0) l j k + f (u + 0)%R l j * dD j)%C).
    intros j Ij. apply zrange_In in Ij. apply (hd_mult (fun t => f (u + t) l j) (fun t => wigner_D (p t) l j k)); [apply Hs; lia|apply HD; lia].
  - rewrite csum_add. rewrite Rplus_0_r, EV. destruct S as [P0 _]. rewrite P0. change (csum (fun j => (df l j * wigner_D q1 l j k)%C) (ms_of l)) with (turn wigner_D q1 df l k).
    rewrite (Rotate_Proofs.turn_one wigner_D C25_wigner_one) by assumption. f_equal.
    assert (T := unit_tangent r u d U Hr). 
    assert (W0 : re al = 0). { unfold al, part_a. cbn. lra. }
    assert (FV : frame_velocity (r u) d = (2 * im be, 2 * re be, 2 * im al)). { unfold frame_velocity, qvec, be, al, part_a, part_b, qmul, qscale. cbn. f_equal; [f_equal|]; ring. }
    rewrite FV. clear FV. destruct al as [a a'], be as [b b']. cbn in W0. subst a.
    unfold vcomb, along. cbn [gen]. rewrite plus_IZR, minus_IZR. generalize (raising l (f u l) k) (lowering l (f u l) k) (f u l k) (IZR l) (IZR k). intros [x x'] [y y'] [z z'] L M. apply C_eq; cbn; field.
Qed.
(** ** Angular velocities in rotating frames *)
Notation minus u v := (v3add u (v3scale (-1) v)).
Lemma row_exists : forall lo hi f, (0 <= lo)%Z -> exists d, Modal_Proofs.has_modes lo hi d f.
Proof.
  intros lo hi f Hlo. exists (map (fun lm => f (fst lm) (snd lm)) (LM_range lo hi)). split; [apply map_length|]. intros l m [H1 H2].
  destruct (C01_index_is_position lo hi l m ltac:(lia) H1 H2) as [_ E]. rewrite nth_error_map, E. reflexivity.
Qed.
Lemma vcomb_plus : forall u v l f m, vcomb (along (v3add u v)) l f m = (vcomb (along u) l f m + vcomb (along v) l f m)%C.
Proof. intros [[a b] c] [[a' b'] c'] l f m. unfold vcomb. cbn [along v3add]. generalize (gen l X f m) (gen l Y f m) (gen l Z3 f m). intros. cx. Qed.
Lemma minus_plus : forall u v : vec3, v3add (minus u v) v = u.
Proof. intros [[a b] c] [[a' b'] c']. unfold v3add, v3scale. f_equal; [f_equal|]; ring. Qed.
Lemma plus_minus : forall u v : vec3, minus (v3add u v) v = u.
Proof. intros [[a b] c] [[a' b'] c']. unfold v3add, v3scale. f_equal; [f_equal|]; ring. Qed.
Section Rotating.
Variables (lo hi : Z).
Hypothesis Hlo : (0 <= lo)%Z.
Notation has := (Modal_Proofs.has_modes lo hi).
Definition turning (f f' : modes) (v : vec3) : modes := fun l m => (f' l m + Ci * vcomb (along v) l (f l) m)%C.
Lemma change_turning : forall f f' v w, change lo hi f (turning f f' v) w = change lo hi f f' (v3add w v).
Proof.
  intros f f' v w. unfold Ops_Proofs.residual, rtotal. apply rsum_ext. intros l _. apply rsum_ext. intros m _. unfold turning. rewrite vcomb_plus. f_equal. ring.
Qed.
Lemma velocity_turning : forall d d' e f f' v, has d f -> has d' f' -> has e (turning f f' v) ->
  velocity lo hi d e = match velocity lo hi d d' with Ok w => Ok (minus w v) | Err x => Err x end.
Proof.
  intros d d' e f f' v H H' He. destruct (velocity lo hi d d') as [w|x] eqn:E.
  - assert (NA := velocity_axis lo hi Hlo d d' f f' w H H' E). destruct (C86_velocity lo hi Hlo d d' f f' H H' NA) as (w' & E' & M). rewrite E in E'. injection E' as <-.
    apply (velocity_least lo hi Hlo d e _ _ _ H He NA). intros u. rewrite !change_turning, minus_plus. destruct (vec3_dec (v3add u v) w) as [->|N]; [lra|]. apply Rlt_le, M, N.
  - assert (Ex := velocity_error lo hi Hlo d d' f f' x H H' E). subst x. destruct (velocity lo hi d e) as [w|x] eqn:E'; [exfalso|f_equal; apply (velocity_error lo hi Hlo d e _ _ x H He E')].
    assert (NA := velocity_axis lo hi Hlo d e _ _ w H He E'). destruct (C86_velocity lo hi Hlo d d' f f' H H' NA) as (w' & E'' & _). congruence.
Qed.
(** A waveform with the modes [f t] in the inertial frame, seen from the frame [r t] *)
Variables (r : R -> quat) (r' : quat) (f : R -> modes) (f' g' : modes) (u : R).
Hypothesis unit_frame : forall t, qnorm2 (r t) = 1.
Hypothesis frame_rate : qderiv r u r'.
Hypothesis rate : forall l m, (lo <= l <= hi)%Z -> (- l <= m <= l)%Z -> has_derivative (fun t => f t l m) u (f' l m).
Hypothesis seen_rate : forall l m, (lo <= l <= hi)%Z -> (- l <= m <= l)%Z -> has_derivative (fun t => turn wigner_D (r t) (f t) l m) u (g' l m).
Variables (d d' e e' : list C).
Hypothesis Hd : has d (f u).
Hypothesis Hd' : has d' f'.
Hypothesis He : has e (turn wigner_D (r u) (f u)).
Hypothesis He' : has e' g'.
Notation Omega := (frame_velocity (r u) r').
Lemma seen_turning : forall l m, (lo <= l <= hi)%Z -> (- l <= m <= l)%Z -> g' l m = turn wigner_D (r u) (turning (f u) f' Omega) l m.
Proof.
  intros l m Hl Hm. apply (hd_unique _ _ _ _ (seen_rate l m Hl Hm)). apply (C86_rotating r r' f f' u l m unit_frame frame_rate); [lia|exact Hm|]. intros k Hk. apply rate; assumption.
Qed.
(** Its angular velocity is the difference of its angular velocity in the inertial frame and that of the frame, seen from the frame. *)
Theorem C86_rotating_velocity : velocity lo hi e e' = match velocity lo hi d d' with Ok w => Ok (rotv (qconj (r u)) (minus w Omega)) | Err x => Err x end.
Proof.
  destruct (row_exists lo hi (turning (f u) f' Omega) Hlo) as [b Hb].
  rewrite (C86_turned lo hi Hlo (r u) d b e e' (f u) (turning (f u) f' Omega) (unit_frame u)).
  - rewrite (velocity_turning d d' b (f u) f' Omega Hd Hd' Hb). destruct (velocity lo hi d d'); reflexivity.
  - split; assumption.
  - split; [exact Hb|]. apply (has_modes_ext lo hi e' g'); [exact He'|exact seen_turning].
Qed.
(** It vanishes exactly in frames which rotate with it, and there the modes change least. *)
Theorem C86_corotating : forall w, velocity lo hi d d' = Ok w ->
  (velocity lo hi e e' = Ok (0, 0, 0) <-> Omega = w) /\
  rtotal lo hi (fun l => rsum (fun m => norm2 (g' l m)) (ms_of l)) >= change lo hi (f u) f' w /\
  (rtotal lo hi (fun l => rsum (fun m => norm2 (g' l m)) (ms_of l)) = change lo hi (f u) f' w <-> Omega = w).
Proof.
  intros w E. split.
  - rewrite C86_rotating_velocity, E. assert (Z0 : forall q, rotv q (0, 0, 0) = (0, 0, 0)). { intros []. unfold rotv, qvec. cbn. f_equal; [f_equal|]; ring. } split.
    + intros Z. assert (I : forall a b : vec3, Ok a = Ok b -> a = b) by congruence. apply I in Z. assert (M : minus w Omega = (0, 0, 0)). { rewrite <- (rotv_back (r u) (minus w Omega) (unit_frame u)), Z. apply Z0. }
      symmetry. rewrite <- (minus_plus w Omega), M. destruct Omega as [[a b] c]. unfold v3add. f_equal; [f_equal|]; ring.
    + intros ->. f_equal. rewrite <- (Z0 (qconj (r u))). f_equal. destruct w as [[a b] c]. unfold v3add, v3scale. f_equal; [f_equal|]; ring.
  - assert (N : rtotal lo hi (fun l => rsum (fun m => norm2 (g' l m)) (ms_of l)) = change lo hi (f u) f' Omega).
    { unfold Ops_Proofs.residual, rtotal. apply rsum_ext. intros l Il. apply zrange_In in Il.
      transitivity (rsum (fun m => norm2 (turn wigner_D (r u) (turning (f u) f' Omega) l m)) (ms_of l)).
      - apply rsum_ext. intros m Im. apply zrange_In in Im. rewrite seen_turning by lia. reflexivity.
      - apply wigner_norm; [apply unit_frame|lia]. }
    rewrite N. assert (NA := velocity_axis lo hi Hlo d d' _ _ w Hd Hd' E). destruct (C86_velocity lo hi Hlo d d' _ _ Hd Hd' NA) as (w' & E' & M). rewrite E in E'. injection E' as <-.
    split; [|split]; intros.
    + destruct (vec3_dec Omega w) as [->|D]; [lra|]. apply Rgt_ge, M, D.
    + destruct (vec3_dec Omega w) as [|D]; [assumption|]. specialize (M _ D). lra.
    + congruence.
Qed.
End Rotating.
(** ** The angular velocity with that of the frame *)
(** [w] is the one velocity of a frame for which the modes [f] with the derivatives [f'] change least. *)
Definition moves_with (lo hi : Z) (f f' : modes) (w : vec3) : Prop := no_axis lo hi f /\ forall w', w' <> w -> change lo hi f f' w < change lo hi f f' w'.
Lemma moves_velocity : forall lo hi d d' f f' w, (0 <= lo)%Z -> Modal_Proofs.has_modes lo hi d f -> Modal_Proofs.has_modes lo hi d' f' -> (velocity lo hi d d' = Ok w <-> moves_with lo hi f f' w).
Proof.
  intros lo hi d d' f f' w Hlo H H'. split.
  - intros E. assert (NA := velocity_axis lo hi Hlo d d' f f' w H H' E). split; [exact NA|]. destruct (C86_velocity lo hi Hlo d d' f f' H H' NA) as (w' & E' & M). rewrite E in E'. injection E' as <-. exact M.
  - intros [NA M]. apply (velocity_least lo hi Hlo d d' f f' w H H' NA). intros w'. destruct (vec3_dec w' w) as [->|N]; [lra|]. apply Rlt_le, M, N.
Qed.
Section Series.
Variable data_dot : list R -> list (list C) -> list (list C).
Variable derivative : list quat -> list R -> list quat.
Variables (lo hi : Z).
Hypothesis Hlo : (0 <= lo)%Z.
(** The waveform with the modes [f] and the angular velocity [w] in the inertial frame, as seen from the frame [r]; derivatives are exact. *)
Variables (r r' : R -> quat) (f f' g' : R -> modes) (w : R -> vec3) (t : list R) (data : list (list C)).
Record seen_series : Prop := {
  ss_unit : forall x, qnorm2 (r x) = 1;
  ss_frame : forall i, (i < length t)%nat -> qderiv r (nth i t 0) (r' (nth i t 0));
  ss_rate : forall i l m, (i < length t)%nat -> (lo <= l <= hi)%Z -> (- l <= m <= l)%Z -> has_derivative (fun x => f x l m) (nth i t 0) (f' (nth i t 0) l m);
  ss_seen : forall i l m, (i < length t)%nat -> (lo <= l <= hi)%Z -> (- l <= m <= l)%Z -> has_derivative (fun x => turn wigner_D (r x) (f x) l m) (nth i t 0) (g' (nth i t 0) l m);
  ss_len : length data = length t;
  ss_data : forall i, (i < length t)%nat -> Modal_Proofs.has_modes lo hi (nth i data []) (turn wigner_D (r (nth i t 0)) (f (nth i t 0)));
  ss_dot : forall i, (i < length t)%nat -> Modal_Proofs.has_modes lo hi (nth i (data_dot t data) []) (g' (nth i t 0));
  ss_moves : forall i, (i < length t)%nat -> moves_with lo hi (f (nth i t 0)) (f' (nth i t 0)) (w (nth i t 0)) }.
(** Without the velocity of the frame, or with a frame that is not given at every time, one finds the difference, seen from the frame; *)
Theorem C86_series : forall frame include, seen_series -> include = false \/ length frame <> length t ->
  waveform_velocity data_dot derivative lo hi t data frame include = Ok (map (fun x => rotv (qconj (r x)) (minus (w x) (frame_velocity (r x) (r' x)))) t).
Proof.
  intros frame include S O. unfold waveform_velocity. rewrite (ss_len S).
  rewrite (each_ok _ _ _ (fun i => rotv (qconj (r (nth i t 0))) (minus (w (nth i t 0)) (frame_velocity (r (nth i t 0)) (r' (nth i t 0)))))).
  - assert (B : include && (length frame =? length t)%nat = false) by (destruct O as [->|N]; [reflexivity|apply andb_false_iff; right; apply Nat.eqb_neq; exact N]).
    cbn [rbind]. rewrite B. f_equal. rewrite <- (map_map (fun i => nth i t 0) (fun x => rotv (qconj (r x)) (minus (w x) (frame_velocity (r x) (r' x))))). rewrite <- list_index. reflexivity.
  - intros i Ii. apply in_seq in Ii. set (u := nth i t 0) in *.
    destruct (row_exists lo hi (f u) Hlo) as [d Hd]. destruct (row_exists lo hi (f' u) Hlo) as [d' Hd'].
    rewrite (C86_rotating_velocity lo hi Hlo r (r' u) f (f' u) (g' u) u (ss_unit S) (ss_frame S i ltac:(lia)) (fun l m => ss_rate S i l m ltac:(lia)) (fun l m => ss_seen S i l m ltac:(lia)) d d' _ _ Hd Hd' (ss_data S i ltac:(lia)) (ss_dot S i ltac:(lia))).
    rewrite (proj2 (moves_velocity lo hi d d' _ _ (w u) Hlo Hd Hd') (ss_moves S i ltac:(lia))). reflexivity.
Qed.
(** with it, the velocity of the frame is added as it is in the inertial frame. *)
Theorem C86_with_frame : seen_series -> derivative (map r t) t = map r' t ->
  waveform_velocity data_dot derivative lo hi t data (map r t) true = Ok (map (fun x => v3add (rotv (qconj (r x)) (minus (w x) (frame_velocity (r x) (r' x)))) (frame_velocity (r x) (r' x))) t).
Proof.
  intros S D. assert (E := C86_series (map r t) false S (or_introl eq_refl)). unfold waveform_velocity in *. cbn [andb] in E.
  destruct (each _ _) as [ws|x]; [|discriminate]. cbn [rbind] in *. injection E as E. rewrite map_length, (ss_len S), Nat.eqb_refl. cbn [andb]. f_equal. rewrite D. rewrite E. clear.
  induction t as [|x xs IH]; [reflexivity|]. cbn [map combine fst snd]. rewrite IH. reflexivity.
Qed.
End Series.
(** The sum is the total angular velocity seen from the frame only where the frame turns about an axis it shares with the inertial frame, and the total in the inertial
    frame only where their difference lies along such an axis. *)
Theorem C86_with_frame_when : forall q w v, 
  (v3add (rotv (qconj q) (minus w v)) v = rotv (qconj q) w <-> rotv (qconj q) v = v) /\
  (v3add (rotv (qconj q) (minus w v)) v = w <-> rotv (qconj q) (minus w v) = minus w v).
Proof.
  intros q w v. rewrite rotv_add, rotv_scale. generalize (rotv (qconj q) w) (rotv (qconj q) v). intros [[a b] c] [[a' b'] c']. destruct w as [[wx wy] wz], v as [[x y] z]. unfold v3add, v3scale.
  assert (P : forall a b c a' b' c' : R, (a, b, c) = (a', b', c') <-> a = a' /\ b = b' /\ c = c'). { intros. split; [intros H; injection H; auto|intros (-> & -> & ->); reflexivity]. }
  rewrite !P. split; split; intros (A & B & D); repeat split; lra.
Qed.

(** ** A waveform that does not change, seen from a frame turning about the z axis but standing on its side *)
Definition tilted : quat := mkq (/ sqrt 2) (/ sqrt 2) 0 0.
Definition spinning (t : R) : quat := qmul (mkq (cos (t / 2)) 0 0 (sin (t / 2))) tilted.
Definition spinning' (t : R) : quat := qmul (mkq (- sin (t / 2) / 2) 0 0 (cos (t / 2) / 2)) tilted.
Definition one_22 : modes := fun l m => if ((l =? 2) && (m =? 2))%Z then C1 else C0.
Lemma root2 : / sqrt 2 * / sqrt 2 = / 2.
Proof. rewrite <- Rinv_mult. rewrite sqrt_sqrt by lra. reflexivity. Qed.
Lemma one_22_no_axis : no_axis 2 2 one_22.
Proof.
  intros [[x y] z] H. assert (A := H 2%Z 2%Z ltac:(lia) ltac:(lia)). assert (B := H 2%Z 1%Z ltac:(lia) ltac:(lia)).
  unfold vcomb in A, B. cbn [along gen] in A, B. unfold raising, lowering in A, B. cbn [Z.add Z.sub Z.opp Z.pos_sub Pos.add Pos.succ Pos.pred_double] in A, B.
  unfold one_22 in A, B. cbn [Z.eqb andb Pos.eqb] in A, B.
  assert (C21 : 0 < cof 2 1). { unfold cof. apply sqrt_lt_R0. apply IZR_lt. reflexivity. }
  apply (f_equal (fun c => (re c, im c))) in A, B. cbn in A, B. injection A as A1 A2. injection B as B1 B2.
  generalize dependent (cof 2 1). intros k. intros.
  assert (z = 0) by lra. assert (Kx : k * x = 0) by lra. assert (Ky : k * y = 0) by lra.
  apply Rmult_integral in Kx, Ky. destruct Kx as [?|E1]; [lra|]. destruct Ky as [?|E2]; [lra|]. subst. reflexivity.
Qed.
Lemma spinning_unit : forall x, qnorm2 (spinning x) = 1.
Proof.
  intros x. unfold spinning. rewrite qnorm2_mul. unfold tilted, qnorm2. cbn. rewrite !root2. assert (P := sin2_cos2 (x / 2)). unfold Rsqr in P. lra.
Qed.
Lemma spinning_rate : forall x, qderiv spinning x (spinning' x).
Proof.
  intros x.
  assert (H2 : derivable_pt_lim (fun t => t / 2) x (/ 2)).
  { apply (dl_ext (fun t => t * / 2)); [intros; reflexivity|]. eapply dl_eq; [apply (derivable_pt_lim_mult (fun t => t) (fun _ => / 2)); [apply derivable_pt_lim_id|apply derivable_pt_lim_const]|]. cbv beta. ring. }
  assert (Hc : derivable_pt_lim (fun t => cos (t / 2)) x (- sin (x / 2) / 2)).
  { eapply dl_eq; [apply (derivable_pt_lim_comp (fun t => t / 2) cos); [exact H2|apply derivable_pt_lim_cos]|]. field. }
  assert (Hs : derivable_pt_lim (fun t => sin (t / 2)) x (cos (x / 2) / 2)).
  { eapply dl_eq; [apply (derivable_pt_lim_comp (fun t => t / 2) sin); [exact H2|apply derivable_pt_lim_sin]|]. field. }
  assert (L : forall k j F v, (forall t, F t = cos (t / 2) * k + sin (t / 2) * j + 0 * 0 + 0 * 0) -> v = - sin (x / 2) / 2 * k + cos (x / 2) / 2 * j + 0 * 0 + 0 * 0 -> derivable_pt_lim F x v).
  { intros k j F v E ->. eapply dl_ext; [intros t; symmetry; apply E|]. apply (dl_comb4 _ _ (fun _ => 0) (fun _ => 0)); [exact Hc|exact Hs| |]; apply derivable_pt_lim_const. }
  split; [|split; [|split]]; [apply (L (/ sqrt 2) 0)|apply (L (/ sqrt 2) 0)|apply (L 0 (/ sqrt 2))|apply (L 0 (/ sqrt 2))]; try (intros t; unfold spinning); unfold spinning', tilted; cbn; ring.
Qed.
Lemma spinning_velocity : forall x, frame_velocity (spinning x) (spinning' x) = (0, 0, 1) /\ rotv (qconj (spinning x)) (0, 0, 1) = (0, 1, 0).
Proof.
  intros x. assert (P := sin2_cos2 (x / 2)). unfold Rsqr in P. assert (Q := root2). unfold frame_velocity, rotv, qvec, spinning, spinning', tilted. cbn.
  set (h := / sqrt 2) in *. set (a := sin (x / 2)) in *. set (b := cos (x / 2)) in *. clearbody h a b.
  assert (Ph : forall k, k * (h * h) = k / 2) by (intros; rewrite Q; field).
  split; (f_equal; [f_equal|]).
  - ring.
  - ring.
  - transitivity (2 * (a * a + b * b) * (h * h)); [field|]. rewrite P, Q. field.
  - ring.
  - transitivity (2 * (a * a + b * b) * (h * h)); [ring|]. rewrite P, Q. field.
  - ring.
Qed.
(** The waveform has no angular velocity at all, but with the velocity of the frame one finds one, at all times. *)
Definition row_with (f : modes) : list C := map (fun lm => f (fst lm) (snd lm)) (LM_range 2 2).
Lemma row_with_has : forall f, Modal_Proofs.has_modes 2 2 (row_with f) f.
Proof.
  intros f. split; [apply map_length|]. intros l m [H1 H2]. destruct (C01_index_is_position 2 2 l m ltac:(lia) H1 H2) as [_ E]. unfold row_with. rewrite nth_error_map, E. reflexivity.
Qed.
Definition still_seen (x : R) : modes := turn wigner_D (spinning x) (turning one_22 (fun _ _ => C0) (0, 0, 1)).
Lemma spinning_series : forall t, let data_dot := fun t (_ : list (list C)) => map (fun x => row_with (still_seen x)) t in
  seen_series data_dot 2 2 spinning spinning' (fun _ => one_22) (fun _ _ _ => C0) still_seen (fun _ => (0, 0, 0)) t (map (fun x => row_with (turn wigner_D (spinning x) one_22)) t).
Proof.
  intros t data_dot.
  assert (N : forall (F : R -> list C) i, (i < length t)%nat -> nth i (map F t) [] = F (nth i t 0)).
  { intros F i Hi. rewrite (nth_indep _ [] (F 0)) by (rewrite map_length; exact Hi). apply map_nth. }
  constructor.
  - apply spinning_unit.
  - intros. apply spinning_rate.
  - intros. apply hd_const.
  - intros i l m Hi Hl Hm. unfold still_seen. set (u := nth i t 0).
    eapply hd_eq; [apply (C86_rotating spinning (spinning' u) (fun _ => one_22) (fun _ _ => C0) u l m spinning_unit (spinning_rate u)); [lia|exact Hm|intros; apply hd_const]|].
    rewrite (proj1 (spinning_velocity u)). reflexivity.
  - apply map_length.
  - intros i Hi. rewrite N by exact Hi. apply row_with_has.
  - intros i Hi. unfold data_dot. rewrite N by exact Hi. apply row_with_has.
  - intros i Hi. split; [exact one_22_no_axis|]. intros w' Hw.
    assert (ZZ : forall v : vec3, change 2 2 one_22 (fun _ _ => C0) v = 0 <-> v = (0, 0, 0)).
    { intros v. rewrite <- (change_axis 2 2). split; [apply one_22_no_axis|]. intros -> l m _ _. unfold vcomb. cbn [along]. cx. }
    assert (P : 0 <= change 2 2 one_22 (fun _ _ => C0) w').
    { unfold Ops_Proofs.residual, rtotal. assert (NN : forall (F : Z -> R) ls, (forall l, 0 <= F l) -> 0 <= rsum F ls). { intros F ls H. induction ls as [|k ks IH]; cbn; [lra|]. specialize (H k). lra. }
      apply NN. intros l. apply NN. intros m. unfold norm2. nra. }
    rewrite (proj2 (ZZ (0, 0, 0)) eq_refl). destruct P as [P|P]; [exact P|]. symmetry in P. apply ZZ in P. contradiction.
Qed.
Theorem C86_with_frame_refuted : forall t, exists data_dot derivative data,
  seen_series data_dot 2 2 spinning spinning' (fun _ => one_22) (fun _ _ _ => C0) still_seen (fun _ => (0, 0, 0)) t data /\ derivative (map spinning t) t = map spinning' t /\
  waveform_velocity data_dot derivative 2 2 t data (map spinning t) true = Ok (repeat (0, -1, 1) (length t)).
Proof.
  intros t. eexists _, (fun _ t => map spinning' t), _. split; [apply spinning_series|]. split; [reflexivity|].
  rewrite (C86_with_frame _ _ 2 2 ltac:(lia) _ _ _ _ _ _ _ _ (spinning_series t) eq_refl). f_equal. induction t as [|x xs IH]; [reflexivity|]. cbn [map repeat length]. rewrite IH. f_equal.
  rewrite (proj1 (spinning_velocity x)), rotv_add, rotv_scale, (proj2 (spinning_velocity x)). assert (Z0 : forall q, rotv q (0, 0, 0) = (0, 0, 0)). { intros []. unfold rotv, qvec. cbn. f_equal; [f_equal|]; ring. }
  rewrite Z0. unfold v3add, v3scale. f_equal; [f_equal|]; ring.
Qed.
(** ** Rotating a waveform *)
(** Differentiating the data takes, at every time, a linear combination of the values of each mode, with weights depending on the times only; splines do so. *)
Definition linear_dot (data_dot : list R -> list (list C) -> list (list C)) : Prop := forall t, exists c : nat -> nat -> R, forall lo hi rows (F : nat -> modes), (0 <= lo)%Z ->
  (forall i, (i < length rows)%nat -> Modal_Proofs.has_modes lo hi (nth i rows []) (F i)) ->
  forall i, (i < length rows)%nat -> Modal_Proofs.has_modes lo hi (nth i (data_dot t rows) []) (fun l m => csum (fun k => Cscale (c i k) (F k l m)) (seq 0 (length rows))).
Lemma turn_csum : forall q (F : nat -> modes) (c : nat -> R) ks l m, turn wigner_D q (fun l m => csum (fun k => Cscale (c k) (F k l m)) ks) l m = csum (fun k => Cscale (c k) (turn wigner_D q (F k) l m)) ks.
Proof.
  intros q F c ks l m. unfold turn. rewrite (csum_ext (fun m' => _) (fun m' => csum (fun k => Cscale (c k) (F k l m' * wigner_D q l m' m)) ks)%C).
  2:{ intros j _. rewrite <- csum_scale_r. apply csum_ext. intros k _. cx. }
  rewrite csum_swap. apply csum_ext. intros k _. induction (ms_of l) as [|j js IH]; cbn [csum]; [cx|]. rewrite IH. cx.
Qed.
Section Wave.
Variable garbage : Z -> list C.
Hypothesis garbage_len : forall n, (0 <= n)%Z -> zlen (garbage n) = n.
Variable data_dot : list R -> list (list C) -> list (list C).
Variable derivative : list quat -> list R -> list quat.
Hypothesis dot_linear : linear_dot data_dot.
(** The angular velocities of a waveform rotated by a constant are those of the waveform, seen from the new frame. *)
Theorem C86_rotate : forall W q t, wf W -> unitq q ->
  exists W', rotate_basis wigner_doc garbage W (RQuat q) = Ok W' /\ forall frame frame',
  waveform_velocity data_dot derivative (rw_lo W') (rw_hi W') t (rw_data W') frame' false =
  match waveform_velocity data_dot derivative (rw_lo W) (rw_hi W) t (rw_data W) frame false with Ok ws => Ok (map (rotv (qconj q)) ws) | Err x => Err x end.
Proof.
  intros W q t HW Hq. destruct (C25_constant wigner_D wigner_doc garbage doc_fills garbage_len W q _ HW (or_introl eq_refl)) as (W' & E & HW' & T & _). exists W'. split; [exact E|]. intros frame frame'.
  destruct T as (Tlo & Thi & Tlen & _ & T). destruct HW as [Hlo HR]. destruct HW' as [Hlo' HR'].
  assert (Len : forall X i, (0 <= rw_lo X <= rw_hi X)%Z -> Forall (fun row : list C => Z.of_nat (length row) = (rw_hi X + 1) ^ 2 - rw_lo X ^ 2)%Z (rw_data X) -> (i < length (rw_data X))%nat ->
    Modal_Proofs.has_modes (rw_lo X) (rw_hi X) (nth i (rw_data X) []) (md X i)).
  { intros X i HX F Hi. apply has_modes_mode; [lia|]. rewrite Forall_forall in F. assert (L := F _ (nth_In _ [] Hi)). apply Nat2Z.inj. rewrite L. rewrite LM_range_length by lia. ring. }
  assert (HD := fun i => Len W i Hlo HR). assert (HD' : forall i, (i < length (rw_data W))%nat -> Modal_Proofs.has_modes (rw_lo W) (rw_hi W) (nth i (rw_data W') []) (turn wigner_D q (md W i))).
  { intros i Hi. assert (H := Len W' i Hlo' HR' ltac:(lia)). rewrite Tlo, Thi in H. apply (has_modes_ext _ _ _ _ _ H). intros l m Hl Hm. apply T; [exact Hi|split; assumption]. }
  destruct (dot_linear t) as [c Hc].
  unfold waveform_velocity. rewrite Tlo, Thi, Tlen. cbn [andb].
  rewrite (each_ext _ _ _ (fun i => match velocity (rw_lo W) (rw_hi W) (nth i (rw_data W) []) (nth i (data_dot t (rw_data W)) []) with Ok w => Ok (rotv (qconj q) w) | Err x => Err x end)).
  - induction (seq 0 (length (rw_data W))) as [|i is IH]; [reflexivity|]. cbn [each]. destruct (velocity _ _ (nth i (rw_data W) []) _) as [w|x]; [|reflexivity]. cbn [rbind].
    destruct (each (fun i => velocity _ _ (nth i (rw_data W) []) _) is) as [ws|x]; destruct (each _ is) as [ws'|x']; cbn [rbind] in *; try discriminate; try congruence.
    injection IH as ->. reflexivity.
  - intros i Ii. apply in_seq in Ii. apply (C86_turned (rw_lo W) (rw_hi W) ltac:(lia) q _ _ _ _ (md W i) (fun l m => csum (fun k => Cscale (c i k) (md W k l m)) (seq 0 (length (rw_data W)))) Hq).
    + split; [apply HD; lia|apply HD'; lia].
    + split; [apply (Hc (rw_lo W) (rw_hi W) (rw_data W) (fun k => md W k)); [lia|exact HD|lia]|].
      assert (H := Hc (rw_lo W) (rw_hi W) (rw_data W') (fun k => turn wigner_D q (md W k)) ltac:(lia) (fun k Hk => HD' k ltac:(lia)) i ltac:(lia)). rewrite Tlen in H.
      apply (has_modes_ext _ _ _ _ _ H). intros l m Hl Hm. symmetry. apply turn_csum.
Qed.
End Wave.
(** ** Cases *)
(** A single mode (2, 2) with the phase of a source of frequency [om] moves about the z axis with it, and from any other frame about the same axis. *)
Example C86_case_velocity : forall om, velocity 2 2 (row_with one_22) (row_with (fun l m => Ci * Cscale (- om) (Cscale (IZR m) (one_22 l m)))%C) = Ok (0, 0, om).
Proof.
  intros om. assert (S := ss_moves (fun t (_ : list (list C)) => map (fun x => row_with (still_seen x)) t) 2 2 _ _ _ _ _ _ _ _ (spinning_series [0]) 0 ltac:(cbn; lia)).
  apply (moves_velocity 2 2 (row_with one_22) (row_with (fun _ _ => C0))) in S; [|lia|apply row_with_has|apply row_with_has].
  rewrite (velocity_turning 2 2 ltac:(lia) (row_with one_22) (row_with (fun _ _ => C0)) _ one_22 (fun _ _ => C0) (0, 0, - om)); [|apply row_with_has|apply row_with_has|].
  - rewrite S. f_equal. unfold v3add, v3scale. f_equal; [f_equal|]; ring.
  - apply (has_modes_ext 2 2 _ _ _ (row_with_has _)). intros l m _ _. unfold turning, vcomb. cbn [along gen]. cx.
Qed.
Example C86_case_turned : forall q om, qnorm2 q = 1 ->
  velocity 2 2 (row_with (turn wigner_D q one_22)) (row_with (turn wigner_D q (fun l m => Ci * Cscale (- om) (Cscale (IZR m) (one_22 l m)))%C)) = Ok (rotv (qconj q) (0, 0, om)).
Proof.
  intros q om Hq. rewrite (C86_turned 2 2 ltac:(lia) q (row_with one_22) (row_with (fun l m => Ci * Cscale (- om) (Cscale (IZR m) (one_22 l m)))%C) _ _ one_22 (fun l m => Ci * Cscale (- om) (Cscale (IZR m) (one_22 l m)))%C Hq); [|split; apply row_with_has|split; apply row_with_has].
  rewrite C86_case_velocity. reflexivity.
Qed.
(** A mode (2, 0) is symmetric about the z axis. *)
Example C86_case_symmetric : forall d, velocity 2 2 (row_with (fun l m => if (m =? 0)%Z then C1 else C0)) (row_with d) = Err ValueError.
Proof.
  intros d. apply (C86_velocity_symmetric 2 2 ltac:(lia) _ _ (fun l m => if (m =? 0)%Z then C1 else C0) d (0, 0, 1)); [apply row_with_has|apply row_with_has| |].
  - intros l m _ _. unfold vcomb. cbn [along gen]. destruct (Z.eqb_spec m 0) as [->|N]; cx.
  - intros E. injection E. lra.
Qed.
(** Derivatives by weights *)
Example C86_case_linear : linear_dot (fun t rows => rows).
Proof.
  intros t. exists (fun i k => if (i =? k)%nat then 1 else 0). intros lo hi rows F Hlo H i Hi. apply (has_modes_ext _ _ _ _ _ (H i Hi)). intros l m _ _.
  assert (G : forall ks, NoDup ks -> csum (fun k => Cscale (if (i =? k)%nat then 1 else 0) (F k l m)) ks = if in_dec Nat.eq_dec i ks then F i l m else C0).
  { induction ks as [|k ks IH]; intros ND; [reflexivity|]. inversion ND as [|? ? N1 N2]; subst. cbn [csum]. rewrite (IH N2). destruct (in_dec Nat.eq_dec i (k :: ks)) as [I|I]; destruct (in_dec Nat.eq_dec i ks) as [J|J]; destruct (Nat.eqb_spec i k) as [E|E]; subst; try contradiction; try cx;
      exfalso; cbn in I; intuition congruence. }
  rewrite G by apply seq_NoDup. destruct (in_dec Nat.eq_dec i (seq 0 (length rows))) as [|N]; [reflexivity|]. exfalso. apply N. apply in_seq. lia.
Qed.
