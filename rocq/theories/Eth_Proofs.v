(** * The spin raising and lowering operators are differential operators on the sphere *)
From Coq Require Import Reals ZArith List Bool Lia Lra.
From Verif Require Import Common Cplx Quat Modes_Model Create_Model Times_Model Tables_Model Modal_Model Kwargs_Model Transform_Model Rotate_Model
  Modes_Proofs Modal_Proofs Rotate_Proofs Times_Proofs Kwargs_Proofs Transform_Proofs Wigner_Model Wigner_Proofs Sphere_Model Sphere_Proofs Harmonics_Proofs
  Pipeline_Model Pipeline_Proofs ABD_Model ABD_Proofs ABDBalance_Proofs ABDPointwise_Proofs Zturn_Model Zturn_Proofs Product_Proofs Gridmul_Model Gridmul_Proofs.
Import ListNotations.
Open Scope R_scope.

(** ** Specification *)
(** Rotations about x by an angle; those about y and z are in Sphere_Proofs. *)
Definition rot_x (t : R) : quat := mkq (cos (t / 2)) (sin (t / 2)) 0 0.
(** The differential operators: infinitesimal rotations of the argument about its own x and y axes. *)
Definition has_eth (F : quat -> C) (q : quat) (d : C) : Prop := exists dx dy,
  has_derivative (fun t => F (qmul q (rot_x t))) 0 dx /\ has_derivative (fun t => F (qmul q (rot_y t))) 0 dy /\ d = (Ci * dx - dy)%C.
Definition has_ethbar (F : quat -> C) (q : quat) (d : C) : Prop := exists dx dy,
  has_derivative (fun t => F (qmul q (rot_x t))) 0 dx /\ has_derivative (fun t => F (qmul q (rot_y t))) 0 dy /\ d = (- Ci * dx - dy)%C.

(** ** Derivatives of complex functions *)
Lemma hd_ext : forall f g u d, (forall x, f x = g x) -> has_derivative f u d -> has_derivative g u d.
Proof.
  intros f g u d E [A B]. split; intros eps He; [destruct (A eps He) as (dl & H)|destruct (B eps He) as (dl & H)]; exists dl; intros h H1 H2; rewrite <- !E; apply H; assumption.
Qed.
Lemma hd_unique : forall f u d e, has_derivative f u d -> has_derivative f u e -> d = e.
Proof. intros f u d e [A B] [A' B']. apply C_eq; [exact (uniqueness_limite _ _ _ _ A A')|exact (uniqueness_limite _ _ _ _ B B')]. Qed.
Lemma hd_real : forall f u d, derivable_pt_lim f u d -> has_derivative (fun x => RtoC (f x)) u (RtoC d).
Proof. intros f u d H. split; cbn; [exact H|apply derivable_pt_lim_const]. Qed.
Lemma hd_parts : forall f g u d e, derivable_pt_lim f u d -> derivable_pt_lim g u e -> has_derivative (fun x => mkC (f x) (g x)) u (mkC d e).
Proof. intros. split; cbn; assumption. Qed.
Lemma hd_comp : forall f (a : R -> R) u d k, derivable_pt_lim a u k -> has_derivative f (a u) d -> has_derivative (fun x => f (a x)) u (Cscale k d).
Proof.
  intros f a u d k H [A B]. split; cbn.
  - replace (k * re d) with (re d * k) by ring. apply (derivable_pt_lim_comp a (fun x => re (f x))); assumption.
  - replace (k * im d) with (im d * k) by ring. apply (derivable_pt_lim_comp a (fun x => im (f x))); assumption.
Qed.
Lemma hd_pow : forall f u d n, has_derivative f u d -> has_derivative (fun x => Cpow (f x) n) u (RtoC (INR n) * (Cpow (f u) (pred n) * d))%C.
Proof.
  intros f u d n H. induction n as [|n IH].
  - apply (hd_eq _ _ C0); [apply (hd_const C1)|cbn [INR]; change (RtoC 0) with C0; ring].
  - cbn [Cpow pred]. eapply hd_eq; [apply hd_mult; [exact H|exact IH]|]. rewrite S_INR, RtoC_add. change (RtoC 1) with C1. destruct n as [|n]; cbn [pred Cpow]; [cbn [INR]; change (RtoC 0) with C0; ring|ring].
Qed.
Lemma hd_ctimes : forall c f u d, has_derivative f u d -> has_derivative (fun x => c * f x)%C u (c * d)%C.
Proof. intros c f u d H. eapply hd_eq; [apply (hd_mult (fun _ => c) f u C0 d); [apply hd_const|exact H]|ring]. Qed.
Lemma hd_sum : forall A (f : A -> R -> C) (d : A -> C) u l, (forall a, In a l -> has_derivative (f a) u (d a)) ->
  has_derivative (fun x => csum (fun a => f a x) l) u (csum d l).
Proof.
  intros A f d u l. induction l as [|a l IH]; intros H; [apply (hd_const C0)|]. cbn [csum]. apply hd_add; [apply H; left; reflexivity|apply IH; intros; apply H; right; assumption].
Qed.

(** ** Wigner matrices near the identity *)
(** A curve through the identity, by the derivatives of its two complex parts. *)
Definition starts (r : R -> quat) (al be : C) : Prop :=
  r 0 = q1 /\ has_derivative (fun t => part_a (r t)) 0 al /\ has_derivative (fun t => part_b (r t)) 0 be.
Lemma hd_wterm : forall r al be n j' j k, starts r al be -> (k <= j')%nat -> (j' <= n)%nat -> (j <= n)%nat ->
  has_derivative (fun t => wterm (part_a (r t)) (part_b (r t)) n j' j k) 0
    (if Nat.eqb k 0 then (if Nat.eqb j' j then RtoC (INR j) * al + RtoC (INR (n - j)) * Conj al else if Nat.eqb (S j') j then RtoC (INR (n - j')) * be else C0)
     else if Nat.eqb k 1 then (if Nat.eqb j' (S j) then - (RtoC (INR j') * Conj be) else C0) else C0)%C.
Proof.
  intros r al be n j' j k (R0 & Ha & Hb) Hk Hj' Hj. unfold wterm.
  destruct (Nat.leb_spec (k + j) n) as [A|A]; destruct (Nat.leb_spec j' (k + j)) as [B|B]; cbn [andb];
    try (apply (hd_eq _ _ C0); [apply hd_const|];
         destruct (Nat.eqb_spec k 0); destruct (Nat.eqb_spec k 1); destruct (Nat.eqb_spec j' j); destruct (Nat.eqb_spec (S j') j); destruct (Nat.eqb_spec j' (S j)); try lia; reflexivity).
  assert (A0 : part_a (r 0) = C1) by (rewrite R0; reflexivity). assert (B0 : part_b (r 0) = C0) by (rewrite R0; reflexivity).
  eapply hd_eq.
  - apply hd_cscale. apply hd_mult; [apply hd_mult; [apply hd_mult|]|].
    + apply hd_pow. exact Ha.
    + apply (hd_pow (fun t => Conj (part_a (r t)))). apply hd_conj. exact Ha.
    + apply hd_pow. exact Hb.
    + apply (hd_pow (fun t => Conj (part_b (r t)))). apply hd_conj. exact Hb.
  - cbv beta. rewrite A0, B0. replace (Conj C1) with C1 by cx. rewrite Conj_C0, !Cpow_1.
    set (p := (k + j - j')%nat). assert (Ep : (k + j = p + j')%nat) by (unfold p; lia). clearbody p.
    destruct k as [|[|k]].
    all: [> change (Nat.eqb 0 0) with true | change (Nat.eqb 1 0) with false; change (Nat.eqb 1 1) with true | change (Nat.eqb (S (S k)) 0) with false; change (Nat.eqb (S (S k)) 1) with false].
    all: cbv iota.
    + destruct (Nat.eqb_spec j' j) as [E|E].
      * assert (p = 0%nat) by lia. subst p j'. cbn [Cpow pred]. rewrite bin_n_0, !Nat.sub_0_r. cbn [pow Nat.add].
        replace (bin (n - j) (n - j)) with 1%nat by (rewrite <- (Nat.sub_0_r (n - j)) at 2; rewrite bin_sym by lia; rewrite bin_n_0; reflexivity).
        change (INR 1) with 1. change (INR 0) with 0. change (RtoC 0) with C0. rewrite Cscale_mul. replace (RtoC (1 * 1 * 1)) with C1 by cx.
        ring.
      * destruct p as [|[|p]]; [lia| |].
        -- destruct (Nat.eqb_spec (S j') j); [|lia]. cbn [Cpow pred]. rewrite bin_n_0, !Nat.sub_0_r.
           replace (bin (n - j') (n - j)) with (n - j')%nat.
           2: { replace (n - j)%nat with ((n - j') - 1)%nat by lia. rewrite bin_sym by lia. clear. set (x := (n - j')%nat). clearbody x. destruct x as [|x]; [reflexivity|]. cbn [bin]. rewrite bin_n_0.
                induction x as [|x IH]; [reflexivity|]. cbn [bin] in *. rewrite bin_n_0. lia. }
           cbn [pow]. change (INR 1) with 1. change (INR 0) with 0. change (RtoC 0) with C0. change (RtoC 1) with C1. rewrite Cscale_mul. replace (1 * INR (n - j') * 1) with (INR (n - j')) by ring.
           ring.
        -- destruct (Nat.eqb_spec (S j') j); [lia|]. cbn [Cpow pred]. rewrite Cscale_mul. change (INR 0) with 0. change (RtoC 0) with C0. ring.
    + destruct (Nat.eqb_spec j' (S j)) as [E|E].
      * assert (p = 0%nat) by lia. subst p. cbn [Cpow pred]. subst j'. replace (n - j - 1)%nat with (n - S j)%nat by lia.
        replace (bin (n - S j) (n - S j)) with 1%nat by (rewrite <- (Nat.sub_0_r (n - S j)) at 2; rewrite bin_sym by lia; rewrite bin_n_0; reflexivity).
        replace (bin (S j) 1) with (S j). 2: { cbn [bin]. rewrite bin_n_0. clear. induction j as [|j IH]; [reflexivity|]. cbn [bin]. rewrite bin_n_0. lia. }
        cbn [pow]. change (INR 1) with 1. change (INR 0) with 0. change (RtoC 0) with C0. change (RtoC 1) with C1. rewrite Cscale_mul.
        replace (INR (S j) * 1 * (-1 * 1)) with (- INR (S j)) by ring. rewrite RtoC_opp. ring.
      * destruct p as [|p]; [lia|]. cbn [Cpow pred]. rewrite Cscale_mul. ring.
    + cbn [Cpow pred]. rewrite Cscale_mul. ring.
Qed.

Lemma sqrt_ratio : forall x y, 0 <= x -> 0 < y -> y * sqrt (x / y) = sqrt (x * y).
Proof.
  intros x y Hx Hy. rewrite <- (sqrt_square y) at 1 by lra. rewrite <- sqrt_mult_alt by nra. f_equal. field. lra.
Qed.
Lemma fact_INR : forall n, INR (fact (S n)) = INR (S n) * INR (fact n).
Proof. intros n. rewrite fact_simpl, mult_INR. reflexivity. Qed.
(** The ratio of normalisations between neighbours *)
Lemma wnorm_up : forall n j, (j < n)%nat -> wnorm n (S j) / wnorm n j * INR (n - j) = sqrt (INR (S j) * INR (n - j)).
Proof.
  intros n j H. unfold wnorm. rewrite <- sqrt_div_alt by (apply Rmult_lt_0_compat; apply INR_fact_lt_0).
  replace (n - j)%nat with (S (n - S j)) by lia. rewrite !fact_INR. pose proof (INR_fact_lt_0 j). pose proof (INR_fact_lt_0 (n - S j)).
  assert (0 < INR (S (n - S j))) by (apply lt_0_INR; lia). rewrite Rmult_comm. rewrite <- sqrt_ratio; [|apply pos_INR|assumption].
  f_equal. f_equal. field. repeat split; lra.
Qed.
Lemma wnorm_down : forall n j, (j < n)%nat -> wnorm n j / wnorm n (S j) * INR (S j) = sqrt (INR (S j) * INR (n - j)).
Proof.
  intros n j H. unfold wnorm. rewrite <- sqrt_div_alt by (apply Rmult_lt_0_compat; apply INR_fact_lt_0).
  replace (n - j)%nat with (S (n - S j)) by lia. rewrite !fact_INR. pose proof (INR_fact_lt_0 j). pose proof (INR_fact_lt_0 (n - S j)).
  assert (0 < INR (S j)) by (apply lt_0_INR; lia). rewrite Rmult_comm, (Rmult_comm (INR (S j)) (INR (S _))). rewrite <- sqrt_ratio; [|apply pos_INR|assumption].
  f_equal. f_equal. field. repeat split; lra.
Qed.
Lemma csum_two : forall (f : nat -> C) n, csum (fun k => if Nat.eqb k 0 then f 0%nat else if Nat.eqb k 1 then f 1%nat else C0) (seq 0 (S n)) =
  if Nat.eqb n 0 then f 0%nat else (f 0%nat + f 1%nat)%C.
Proof.
  intros f n. rewrite csum_head. cbn [Nat.eqb]. destruct n as [|n]; [cbn; ring|]. rewrite csum_head. cbn [Nat.eqb]. rewrite csum_const0; [ring|]. intros; reflexivity.
Qed.
Lemma hd_D : forall r al be l k m, starts r al be -> (0 <= l)%Z -> (- l <= k <= l)%Z -> (- l <= m <= l)%Z ->
  has_derivative (fun t => wigner_D (r t) l k m) 0
    (if (k =? m)%Z then RtoC (IZR (l + m)) * al + RtoC (IZR (l - m)) * Conj al
     else if (k + 1 =? m)%Z then RtoC (sqrt (IZR ((l + m) * (l - m + 1)))) * be
     else if (k =? m + 1)%Z then - (RtoC (sqrt (IZR ((l - m) * (l + m + 1)))) * Conj be) else C0)%C.
Proof.
  intros r al be l k m Hr Hl Hk Hm. unfold wigner_D. set (n := Z.to_nat (2 * l)). set (j' := Z.to_nat (l + k)). set (j := Z.to_nat (l + m)).
  eapply hd_eq.
  - apply hd_cscale. apply hd_sum. intros x Hx. apply in_seq in Hx. apply (hd_wterm r al be n j' j x Hr); lia.
  - set (f := fun x => match x with O => (if Nat.eqb j' j then RtoC (INR j) * al + RtoC (INR (n - j)) * Conj al else if Nat.eqb (S j') j then RtoC (INR (n - j')) * be else C0)
      | _ => (if Nat.eqb j' (S j) then - (RtoC (INR j') * Conj be) else C0) end%C).
    change (Cscale (wnorm n j / wnorm n j') (csum (fun k => if Nat.eqb k 0 then f 0%nat else if Nat.eqb k 1 then f 1%nat else C0) (seq 0 (S j'))) =
      (if (k =? m)%Z then RtoC (IZR (l + m)) * al + RtoC (IZR (l - m)) * Conj al
     else if (k + 1 =? m)%Z then RtoC (sqrt (IZR ((l + m) * (l - m + 1)))) * be
     else if (k =? m + 1)%Z then - (RtoC (sqrt (IZR ((l - m) * (l + m + 1)))) * Conj be) else C0)%C).
    rewrite csum_two.
    assert (F : (if Nat.eqb j' 0 then f 0%nat else f 0%nat + f 1%nat)%C = (f 0%nat + f 1%nat)%C).
    { destruct (Nat.eqb_spec j' 0) as [E|E]; [|reflexivity]. unfold f at 3. destruct (Nat.eqb_spec j' (S j)); [lia|ring]. }
    rewrite F. clear F. unfold f. rewrite Cscale_mul.
    destruct (Z.eqb_spec k m) as [E|E].
    + replace (Nat.eqb j' j) with true by (symmetry; apply Nat.eqb_eq; lia). replace (Nat.eqb j' (S j)) with false by (symmetry; apply Nat.eqb_neq; lia).
      replace j' with j by lia. replace (wnorm n j / wnorm n j) with 1 by (field; apply Rgt_not_eq, wnorm_pos). change (RtoC 1) with C1.
      rewrite !INR_IZR_INZ. replace (Z.of_nat j) with (l + m)%Z by lia. replace (Z.of_nat (n - j)) with (l - m)%Z by lia. ring.
    + replace (Nat.eqb j' j) with false by (symmetry; apply Nat.eqb_neq; lia). destruct (Z.eqb_spec (k + 1) m) as [E1|E1].
      * replace (Nat.eqb (S j') j) with true by (symmetry; apply Nat.eqb_eq; lia). replace (Nat.eqb j' (S j)) with false by (symmetry; apply Nat.eqb_neq; lia).
        replace j with (S j') by lia. transitivity (RtoC (wnorm n (S j') / wnorm n j' * INR (n - j')) * be)%C; [rewrite RtoC_mul; ring|].
        rewrite wnorm_up by lia. rewrite !INR_IZR_INZ, <- mult_IZR. replace (Z.of_nat (S j')) with (l + m)%Z by lia. replace (Z.of_nat (n - j')) with (l - m + 1)%Z by lia. reflexivity.
      * replace (Nat.eqb (S j') j) with false by (symmetry; apply Nat.eqb_neq; lia). destruct (Z.eqb_spec k (m + 1)) as [E2|E2].
        -- replace (Nat.eqb j' (S j)) with true by (symmetry; apply Nat.eqb_eq; lia). replace j' with (S j) by lia.
           transitivity (- (RtoC (wnorm n j / wnorm n (S j) * INR (S j)) * Conj be))%C; [rewrite RtoC_mul; ring|].
           rewrite wnorm_down by lia. rewrite !INR_IZR_INZ, <- mult_IZR. replace (Z.of_nat (S j)) with (l + m + 1)%Z by lia. replace (Z.of_nat (n - j)) with (l - m)%Z by lia. rewrite (Z.mul_comm (l + m + 1)). reflexivity.
        -- replace (Nat.eqb j' (S j)) with false by (symmetry; apply Nat.eqb_neq; lia). ring.
Qed.

(** ** Harmonics and fields along a curve *)
Lemma csum_ms3 : forall l m (f : Z -> C) a b c, (0 <= l)%Z -> (- l <= m <= l)%Z -> f m = a ->
  ((m - 1 < - l)%Z /\ b = C0 \/ (- l <= m - 1)%Z /\ f (m - 1)%Z = b) -> ((l < m + 1)%Z /\ c = C0 \/ (m + 1 <= l)%Z /\ f (m + 1)%Z = c) ->
  (forall k, (- l <= k <= l)%Z -> k <> m -> k <> (m - 1)%Z -> k <> (m + 1)%Z -> f k = C0) -> csum f (ms_of l) = (a + b + c)%C.
Proof.
  intros l m f a b c Hl Hm Ha Hb Hc Hz.
  assert (D : forall x (z : C), (- l <= x <= l)%Z -> csum (fun k => if (k =? x)%Z then z else C0) (ms_of l) = z).
  { intros x z Hx. transitivity (csum (fun k => ((fun _ => z) k * (if (k =? x)%Z then C1 else C0))%C) (ms_of l)); [|rewrite csum_delta by assumption; reflexivity].
    apply csum_ext. intros k _. destruct (k =? x)%Z; ring. }
  assert (E : forall x (z : C), (- l <= x <= l)%Z \/ z = C0 -> csum (fun k => if (k =? x)%Z then z else C0) (ms_of l) = z).
  { intros x z [Hx|Hx]; [apply D; exact Hx|]. subst z. apply csum_const0. intros k _. destruct (k =? x)%Z; reflexivity. }
  rewrite <- (D m a Hm), <- (E (m - 1)%Z b), <- (E (m + 1)%Z c) by (destruct Hb, Hc; tauto || lia || (left; lia)).
  rewrite <- !csum_add. apply csum_ext. intros k I. apply zrange_In in I.
  destruct (Z.eqb_spec k m) as [->|N1].
  { replace (m =? m - 1)%Z with false by lia. replace (m =? m + 1)%Z with false by lia. rewrite Ha. ring. }
  destruct (Z.eqb_spec k (m - 1)) as [->|N2].
  { replace (m - 1 =? m + 1)%Z with false by lia. destruct Hb as [[Hb _]|[_ Hb]]; [lia|]. rewrite Hb. ring. }
  destruct (Z.eqb_spec k (m + 1)) as [->|N3].
  { destruct Hc as [[Hc _]|[_ Hc]]; [lia|]. rewrite Hc. ring. }
  rewrite Hz by lia. ring.
Qed.
(** Raising and lowering factors, as numbers *)
Definition upf (s l : Z) : R := sqrt (IZR ((l - s) * (l + s + 1))).
Definition dnf (s l : Z) : R := - sqrt (IZR ((l + s) * (l - s + 1))).
(** The derivative of a harmonic along a curve that starts with velocity (i gam, be). *)
Lemma hd_swsh : forall r gam be s l m q, starts r (mkC 0 gam) be ->
  has_derivative (fun t => swsh s l m (qmul q (r t))) 0
    (RtoC (- 2 * IZR s * gam) * Ci * swsh s l m q - be * (RtoC (upf s l) * swsh (s + 1) l m q) - Conj be * (RtoC (dnf s l) * swsh (s - 1) l m q))%C.
Proof.
  intros r gam be s l m q Hr. destruct (ok s l m) eqn:V.
  2: { eapply hd_eq; [apply (hd_ext (fun _ => C0)); [intros t; rewrite swsh_not by exact V; reflexivity|apply hd_const]|].
       rewrite (swsh_not s l m q V). unfold ok in V. destruct (Z.leb_spec (Z.abs m) l) as [A|A].
       - rewrite andb_true_r in V. apply Z.leb_gt in V.
         assert (U : (RtoC (upf s l) * swsh (s + 1) l m q)%C = C0).
         { destruct (ok (s + 1) l m) eqn:V'; [|rewrite swsh_not by exact V'; ring]. apply ok_true in V'. unfold upf. replace ((l - s) * (l + s + 1))%Z with 0%Z by nia. rewrite sqrt_0. change (RtoC 0) with C0. ring. }
         assert (W : (RtoC (dnf s l) * swsh (s - 1) l m q)%C = C0).
         { destruct (ok (s - 1) l m) eqn:V'; [|rewrite swsh_not by exact V'; ring]. apply ok_true in V'. unfold dnf. replace ((l + s) * (l - s + 1))%Z with 0%Z by nia. rewrite sqrt_0, Ropp_0. change (RtoC 0) with C0. ring. }
         rewrite U, W. ring.
       - assert (N : forall s', swsh s' l m q = C0) by (intros s'; apply swsh_not; unfold ok; apply andb_false_intro2; apply Z.leb_gt; exact A). rewrite !N. ring. }
  apply ok_true in V. destruct V as [Vs Vm]. set (c := sqrt (IZR (2 * l + 1) / (4 * PI))).
  assert (Cp : c <> 0). { apply Rgt_not_eq, sqrt_lt_R0. pose proof PI_RGT_0. apply Rdiv_lt_0_compat; [apply IZR_lt; lia|lra]. }
  set (dD := fun k => (if (k =? - s)%Z then RtoC (IZR (l + - s)) * mkC 0 gam + RtoC (IZR (l - - s)) * Conj (mkC 0 gam)
     else if (k + 1 =? - s)%Z then RtoC (sqrt (IZR ((l + - s) * (l - - s + 1)))) * be
     else if (k =? - s + 1)%Z then - (RtoC (sqrt (IZR ((l - - s) * (l + - s + 1)))) * Conj be) else C0)%C).
  apply (hd_eq _ _ (csum (fun k => (wigner_D q l m k * RtoC (sgn s * c) * dD k)%C) (ms_of l))).
  - apply (hd_ext (fun t => csum (fun k => (wigner_D q l m k * RtoC (sgn s * c) * wigner_D (r t) l k (- s))%C) (ms_of l))).
    { intros t. rewrite swsh_turn by lia. apply csum_ext. intros k I. apply zrange_In in I. rewrite (swsh_in s l k) by lia. fold c. ring. }
    apply hd_sum. intros k I. apply zrange_In in I.
    eapply hd_eq; [apply (hd_mult (fun _ => _)); [apply hd_const|apply (hd_D r (mkC 0 gam) be l k (- s) Hr); lia]|]. cbv beta. fold (dD k). ring.
  - transitivity (RtoC (- 2 * IZR s * gam) * Ci * swsh s l m q + - (be * (RtoC (upf s l) * swsh (s + 1) l m q)) + - (Conj be * (RtoC (dnf s l) * swsh (s - 1) l m q)))%C; [|ring].
    apply (csum_ms3 l (- s)); try lia.
    + unfold dD. rewrite Z.eqb_refl, (D_swsh q l m (- s)) by lia. fold c. rewrite Z.opp_involutive, sgn_opp.
      transitivity (RtoC (sgn s * sgn s * (c / c)) * (RtoC (IZR (l + - s) - IZR (l - - s)) * RtoC gam) * Ci * swsh s l m q)%C.
      * unfold Rdiv. rewrite !RtoC_mul, RtoC_sub. apply C_eq; cbn; ring.
      * rewrite sgn_sq. replace (1 * (c / c)) with 1 by (field; exact Cp). rewrite <- RtoC_mul. change (RtoC 1) with C1.
        replace ((IZR (l + - s) - IZR (l - - s)) * gam) with (- 2 * IZR s * gam); [ring|]. rewrite plus_IZR, minus_IZR, opp_IZR. ring.
    + destruct (Z_lt_ge_dec (- s - 1) (- l)) as [B|B]; [left|right]; (split; [lia|]).
      * unfold upf. replace ((l - s) * (l + s + 1))%Z with 0%Z by nia. rewrite sqrt_0. change (RtoC 0) with C0. ring.
      * unfold dD. replace (- s - 1 =? - s)%Z with false by lia. replace (- s - 1 + 1 =? - s)%Z with true by lia. rewrite (D_swsh q l m (- s - 1)) by lia. fold c.
        replace (- (- s - 1))%Z with (s + 1)%Z by lia. replace (sgn (- s - 1)) with (- sgn s).
        2: { replace (- s - 1)%Z with (- (s + 1))%Z by lia. rewrite sgn_opp, sgn_add. unfold sgn at 3. cbn. ring. }
        unfold upf. replace ((l + - s) * (l - - s + 1))%Z with ((l - s) * (l + s + 1))%Z by ring. set (w := sqrt _).
        transitivity (RtoC (- (sgn s * sgn s * (c / c))) * (be * (RtoC w * swsh (s + 1) l m q)))%C.
        -- unfold Rdiv. rewrite RtoC_opp, !RtoC_mul, RtoC_opp. ring.
        -- rewrite sgn_sq. replace (- (1 * (c / c))) with (- 1) by (field; exact Cp). replace (RtoC (- 1)) with (- C1)%C by cx. ring.
    + destruct (Z_lt_ge_dec l (- s + 1)) as [B|B]; [left|right]; (split; [lia|]).
      * unfold dnf. replace ((l + s) * (l - s + 1))%Z with 0%Z by nia. rewrite sqrt_0, Ropp_0. change (RtoC 0) with C0. ring.
      * unfold dD. replace (- s + 1 =? - s)%Z with false by lia. replace (- s + 1 + 1 =? - s)%Z with false by lia. rewrite Z.eqb_refl. rewrite (D_swsh q l m (- s + 1)) by lia. fold c.
        replace (- (- s + 1))%Z with (s - 1)%Z by lia. replace (sgn (- s + 1)) with (- sgn s).
        2: { rewrite sgn_add, sgn_opp. unfold sgn at 3. cbn. ring. }
        unfold dnf. replace ((l - - s) * (l + - s + 1))%Z with ((l + s) * (l - s + 1))%Z by ring. set (w := sqrt _).
        transitivity (RtoC (sgn s * sgn s * (c / c)) * (Conj be * (RtoC w * swsh (s - 1) l m q)))%C.
        -- unfold Rdiv. rewrite !RtoC_mul, RtoC_opp. ring.
        -- rewrite sgn_sq. replace (1 * (c / c)) with 1 by (field; exact Cp). rewrite RtoC_opp. change (RtoC 1) with C1. ring.
    + intros k Hk N1 N2 N3. unfold dD. replace (k =? - s)%Z with false by lia. replace (k + 1 =? - s)%Z with false by lia. replace (k =? - s + 1)%Z with false by lia. ring.
Qed.
Lemma up_modes : forall s L a q, csum (fun lm => (a (fst lm) (snd lm) * (RtoC (upf s (fst lm)) * swsh (s + 1) (fst lm) (snd lm) q))%C) (LM_range 0 L) = field (s + 1) L (eth s a) q.
Proof.
  intros s L a q. unfold field. apply csum_ext. intros [l m] I. apply LM_range_In in I. cbn [fst snd]. unfold eth, ladder.
  destruct (ok (s + 1) l m) eqn:V; [|rewrite (swsh_not (s + 1) l m q V); ring]. apply ok_true in V.
  destruct (Z.ltb_spec l (Z.max (Z.abs s) (Z.abs (s + 1)))) as [A|A].
  - unfold upf. replace ((l - s) * (l + s + 1))%Z with 0%Z by nia. rewrite sqrt_0. change (RtoC 0) with C0. ring.
  - unfold upf. rewrite Cscale_mul. replace ((l - s) * (l + (s + 1)))%Z with ((l - s) * (l + s + 1))%Z by ring. rewrite RtoC_mul. change (RtoC 1) with C1. ring.
Qed.
Lemma down_modes : forall s L a q, csum (fun lm => (a (fst lm) (snd lm) * (RtoC (dnf s (fst lm)) * swsh (s - 1) (fst lm) (snd lm) q))%C) (LM_range 0 L) = field (s - 1) L (ethbar s a) q.
Proof.
  intros s L a q. unfold field. apply csum_ext. intros [l m] I. apply LM_range_In in I. cbn [fst snd]. unfold ethbar.
  destruct (ok (s - 1) l m) eqn:V; [|rewrite (swsh_not (s - 1) l m q V); ring]. apply ok_true in V.
  destruct (Z.ltb_spec l (Z.max (Z.abs s) (Z.abs (s - 1)))) as [A|A].
  - unfold dnf. replace ((l + s) * (l - s + 1))%Z with 0%Z by nia. rewrite sqrt_0, Ropp_0. change (RtoC 0) with C0. ring.
  - unfold dnf. rewrite Cscale_mul. ring.
Qed.
Lemma field_curve : forall r gam be s L a q, starts r (mkC 0 gam) be ->
  has_derivative (fun t => field s L a (qmul q (r t))) 0
    (RtoC (- 2 * IZR s * gam) * Ci * field s L a q - be * field (s + 1) L (eth s a) q - Conj be * field (s - 1) L (ethbar s a) q)%C.
Proof.
  intros r gam be s L a q Hr. eapply hd_eq.
  - unfold field at 1. apply (hd_sum _ _ (fun lm => a (fst lm) (snd lm) * (RtoC (- 2 * IZR s * gam) * Ci * swsh s (fst lm) (snd lm) q - be * (RtoC (upf s (fst lm)) * swsh (s + 1) (fst lm) (snd lm) q)
      - Conj be * (RtoC (dnf s (fst lm)) * swsh (s - 1) (fst lm) (snd lm) q)))%C). intros [l m] _. cbn [fst snd]. apply hd_ctimes. apply (hd_swsh r gam be s l m q Hr).
  - rewrite <- up_modes, <- down_modes. unfold field. rewrite <- !csum_scale.
    transitivity (csum (fun lm => (RtoC (-2 * IZR s * gam) * Ci * (a (fst lm) (snd lm) * swsh s (fst lm) (snd lm) q)
       + (- (be * (a (fst lm) (snd lm) * (RtoC (upf s (fst lm)) * swsh (s + 1) (fst lm) (snd lm) q)))
       + - (Conj be * (a (fst lm) (snd lm) * (RtoC (dnf s (fst lm)) * swsh (s - 1) (fst lm) (snd lm) q)))))%C) (LM_range 0 L)).
    + apply csum_ext. intros [l m] _. cbn [fst snd]. ring.
    + rewrite !csum_add, !csum_opp. ring.
Qed.
Lemma half_angle : derivable_pt_lim (fun t => cos (t / 2)) 0 0 /\ derivable_pt_lim (fun t => sin (t / 2)) 0 (/ 2).
Proof.
  assert (H : derivable_pt_lim (fun t => t / 2) 0 (/ 2)).
  { assert (E : 1 * / 2 + 0 * 0 = / 2) by ring. rewrite <- E. apply (derivable_pt_lim_mult (fun t => t) (fun _ => / 2)); [apply derivable_pt_lim_id|apply derivable_pt_lim_const]. }
  split.
  - assert (E : - sin (0 / 2) * / 2 = 0) by (replace (0 / 2) with 0 by field; rewrite sin_0; ring). rewrite <- E at 2. apply (derivable_pt_lim_comp (fun t => t / 2) cos); [exact H|apply derivable_pt_lim_cos].
  - assert (E : cos (0 / 2) * / 2 = / 2) by (replace (0 / 2) with 0 by field; rewrite cos_0; ring). rewrite <- E. apply (derivable_pt_lim_comp (fun t => t / 2) sin); [exact H|apply derivable_pt_lim_sin].
Qed.
Lemma starts_x : starts rot_x (mkC 0 0) (mkC 0 (/ 2)).
Proof.
  destruct half_angle as [A B]. unfold starts, rot_x, part_a, part_b. cbn [qw qx qy qz]. repeat split; cbn [re im].
  - replace (0 / 2) with 0 by field. rewrite cos_0, sin_0. reflexivity.
  - exact A.
  - apply derivable_pt_lim_const.
  - apply derivable_pt_lim_const.
  - exact B.
Qed.
Lemma starts_y : starts rot_y (mkC 0 0) (mkC (/ 2) 0).
Proof.
  destruct half_angle as [A B]. unfold starts, rot_y, part_a, part_b. cbn [qw qx qy qz]. repeat split; cbn [re im].
  - replace (0 / 2) with 0 by field. rewrite cos_0, sin_0. reflexivity.
  - exact A.
  - apply derivable_pt_lim_const.
  - exact B.
  - apply derivable_pt_lim_const.
Qed.

(** ** C76: eth and ethbar of modes are the differential operators *)
Theorem C76_eth : forall s L a q, has_eth (field s L a) q (field (s + 1) L (eth s a) q) /\ has_ethbar (field s L a) q (field (s - 1) L (ethbar s a) q).
Proof.
  intros s L a q. split; (eexists; eexists; split; [apply (field_curve _ _ _ s L a q starts_x)|split; [apply (field_curve _ _ _ s L a q starts_y)|]]).
  - rewrite Rmult_0_r. apply C_eq; cbn; field.
  - rewrite Rmult_0_r. apply C_eq; cbn; field.
Qed.

(** Calculus of the operators *)
Lemma he_unique : forall F q d e, has_eth F q d -> has_eth F q e -> d = e.
Proof. intros F q d e (x & y & A & B & ->) (x' & y' & A' & B' & ->). rewrite (hd_unique _ _ _ _ A A'), (hd_unique _ _ _ _ B B'). reflexivity. Qed.
Lemma heb_unique : forall F q d e, has_ethbar F q d -> has_ethbar F q e -> d = e.
Proof. intros F q d e (x & y & A & B & ->) (x' & y' & A' & B' & ->). rewrite (hd_unique _ _ _ _ A A'), (hd_unique _ _ _ _ B B'). reflexivity. Qed.
Lemma rot_unit : forall t, qnorm2 (rot_x t) = 1 /\ qnorm2 (rot_y t) = 1.
Proof. intros t. unfold qnorm2; cbn. pose proof (sin2_cos2 (t / 2)) as H. unfold Rsqr in H. split; lra. Qed.
Lemma rot_0 : rot_x 0 = q1 /\ rot_y 0 = q1.
Proof. unfold rot_x, rot_y. replace (0 / 2) with 0 by field. rewrite cos_0, sin_0. split; reflexivity. Qed.
Lemma he_ext : forall F G q d, qnorm2 q = 1 -> (forall r, qnorm2 r = 1 -> F r = G r) -> has_eth F q d -> has_eth G q d.
Proof.
  intros F G q d Hq H (x & y & A & B & E). exists x, y. split; [|split; [|exact E]].
  - apply (hd_ext (fun t => F (qmul q (rot_x t)))); [|exact A]. intros t. apply H. rewrite qnorm2_mul, Hq, (proj1 (rot_unit t)). ring.
  - apply (hd_ext (fun t => F (qmul q (rot_y t)))); [|exact B]. intros t. apply H. rewrite qnorm2_mul, Hq, (proj2 (rot_unit t)). ring.
Qed.
Lemma he_eq : forall F q d e, has_eth F q d -> d = e -> has_eth F q e.
Proof. intros; subst; assumption. Qed.
Lemma he_add : forall F G q d e, has_eth F q d -> has_eth G q e -> has_eth (fun r => F r + G r)%C q (d + e)%C.
Proof.
  intros F G q d e (x & y & A & B & ->) (x' & y' & A' & B' & ->). exists (x + x')%C, (y + y')%C. split; [apply hd_add; assumption|split; [apply hd_add; assumption|ring]].
Qed.
Lemma he_mul : forall F G q d e, has_eth F q d -> has_eth G q e -> has_eth (fun r => F r * G r)%C q (d * G q + F q * e)%C.
Proof.
  intros F G q d e (x & y & A & B & ->) (x' & y' & A' & B' & ->). exists (x * G q + F q * x')%C, (y * G q + F q * y')%C. destruct rot_0 as [X Y].
  split; [|split; [|ring]]; (eapply hd_eq; [apply hd_mult; eassumption|cbv beta; rewrite ?X, ?Y, qmul_1_r; reflexivity]).
Qed.
Lemma he_const : forall c q, has_eth (fun _ => c) q C0.
Proof. intros c q. exists C0, C0. split; [apply hd_const|split; [apply hd_const|ring]]. Qed.
Lemma he_times : forall c F q d, has_eth F q d -> has_eth (fun r => c * F r)%C q (c * d)%C.
Proof. intros c F q d H. eapply he_eq; [apply (he_mul (fun _ => c)); [apply he_const|exact H]|ring]. Qed.
Lemma he_opp : forall F q d, has_eth F q d -> has_eth (fun r => - F r)%C q (- d)%C.
Proof. intros F q d (x & y & A & B & ->). exists (- x)%C, (- y)%C. split; [apply hd_opp; exact A|split; [apply hd_opp; exact B|ring]]. Qed.
Lemma he_left : forall p F q d, has_eth F (qmul p q) d -> has_eth (fun r => F (qmul p r)) q d.
Proof.
  intros p F q d (x & y & A & B & E). exists x, y. split; [|split; [|exact E]].
  - apply (hd_ext (fun t => F (qmul (qmul p q) (rot_x t)))); [|exact A]. intros t. rewrite qmul_assoc. reflexivity.
  - apply (hd_ext (fun t => F (qmul (qmul p q) (rot_y t)))); [|exact B]. intros t. rewrite qmul_assoc. reflexivity.
Qed.
Lemma he_conj : forall F q d, has_eth F q d <-> has_ethbar (fun r => Conj (F r)) q (Conj d).
Proof.
  intros F q d. split.
  - intros (x & y & A & B & ->). exists (Conj x), (Conj y). split; [apply hd_conj; exact A|split; [apply hd_conj; exact B|cx]].
  - intros (x & y & A & B & E). exists (Conj x), (Conj y). split; [|split].
    + apply (hd_ext (fun t => Conj (Conj (F (qmul q (rot_x t)))))); [intros; apply Conj_involutive|apply hd_conj; exact A].
    + apply (hd_ext (fun t => Conj (Conj (F (qmul q (rot_y t)))))); [intros; apply Conj_involutive|apply hd_conj; exact B].
    + rewrite <- (Conj_involutive d), E. cx.
Qed.

(** In the coordinates of the sphere: eth f = - (d/dtheta + (i / sin theta) d/dphi - s cot theta) f and its conjugate. *)
Lemma hd_shift : forall f u d, has_derivative (fun t => f (u + t)) 0 d -> has_derivative f u d.
Proof.
  intros f u d H. apply (hd_ext (fun x => f (u + (x - u)))); [intros x; f_equal; ring|].
  eapply hd_eq; [apply (hd_comp (fun t => f (u + t)) (fun x => x - u) u d 1)|cx].
  - replace 1 with (1 - 0) by ring. apply (derivable_pt_lim_minus (fun x => x) (fun _ => u)); [apply derivable_pt_lim_id|apply derivable_pt_lim_const].
  - replace (u - u) with 0 by ring. exact H.
Qed.
Definition turn_phi (theta t : R) : quat := mkq (cos (t / 2)) (- sin theta * sin (t / 2)) 0 (cos theta * sin (t / 2)).
Lemma spherical_theta : forall theta phi t, from_spherical (theta + t) phi = qmul (from_spherical theta phi) (rot_y t).
Proof.
  intros theta phi t. unfold from_spherical, rot_y. replace ((theta + t) / 2) with (theta / 2 + t / 2) by field. rewrite sin_plus, cos_plus. apply quat_eq; cbn; ring.
Qed.
Lemma spherical_phi : forall theta phi t, from_spherical theta (phi + t) = qmul (from_spherical theta phi) (turn_phi theta t).
Proof.
  intros theta phi t. unfold from_spherical, turn_phi. replace ((phi + t) / 2) with (phi / 2 + t / 2) by field. rewrite !sin_plus, !cos_plus.
  assert (S : sin theta = 2 * sin (theta / 2) * cos (theta / 2)) by (rewrite <- sin_2a; f_equal; field).
  assert (K : cos theta = cos (theta / 2) * cos (theta / 2) - sin (theta / 2) * sin (theta / 2)) by (rewrite <- cos_2a; f_equal; field).
  pose proof (sin2_cos2 (theta / 2)) as N. unfold Rsqr in N. rewrite S, K. set (x := sin (theta / 2)) in *. set (y := cos (theta / 2)) in *. clearbody x y.
  assert (N' : y * y = 1 - x * x) by lra.
  apply quat_eq; cbn.
  - transitivity (cos (phi / 2) * cos (t / 2) * y - sin (phi / 2) * sin (t / 2) * y * (x * x + y * y)); [rewrite N; ring|ring].
  - transitivity (- (sin (phi / 2) * cos (t / 2) * x) - cos (phi / 2) * sin (t / 2) * x * (x * x + y * y)); [rewrite N; ring|ring].
  - transitivity (cos (phi / 2) * cos (t / 2) * x - sin (phi / 2) * sin (t / 2) * x * (x * x + y * y)); [rewrite N; ring|ring].
  - transitivity (sin (phi / 2) * cos (t / 2) * y + cos (phi / 2) * sin (t / 2) * y * (x * x + y * y)); [rewrite N; ring|ring].
Qed.
Lemma starts_phi : forall theta, starts (turn_phi theta) (mkC 0 (cos theta / 2)) (mkC 0 (- sin theta / 2)).
Proof.
  intros theta. destruct half_angle as [A B]. unfold starts, turn_phi, part_a, part_b. cbn [qw qx qy qz].
  assert (S : forall k, derivable_pt_lim (fun t => k * sin (t / 2)) 0 (k / 2)) by (intros k; apply (derivable_pt_lim_scal (fun t => sin (t / 2)) k); exact B).
  repeat split; cbn [re im].
  - replace (0 / 2) with 0 by field. rewrite cos_0, sin_0, !Rmult_0_r. reflexivity.
  - exact A.
  - apply S.
  - apply derivable_pt_lim_const.
  - apply S.
Qed.
Theorem C76_coordinates : forall s L a theta phi, sin theta <> 0 -> let f := fun th ph => field s L a (from_spherical th ph) in
  exists dth dph, has_derivative (fun x => f x phi) theta dth /\ has_derivative (fun x => f theta x) phi dph /\
    field (s + 1) L (eth s a) (from_spherical theta phi) = (- (dth + Ci * RtoC (/ sin theta) * dph - RtoC (IZR s * cos theta / sin theta) * f theta phi))%C /\
    field (s - 1) L (ethbar s a) (from_spherical theta phi) = (- (dth - Ci * RtoC (/ sin theta) * dph + RtoC (IZR s * cos theta / sin theta) * f theta phi))%C.
Proof.
  intros s L a theta phi Hs f. unfold f. set (q := from_spherical theta phi).
  eexists. eexists. split; [|split; [|split]].
  - apply hd_shift. apply (hd_ext (fun t => field s L a (qmul q (rot_y t)))); [intros t; rewrite spherical_theta; reflexivity|]. apply (field_curve _ _ _ s L a q starts_y).
  - apply hd_shift. apply (hd_ext (fun t => field s L a (qmul q (turn_phi theta t)))); [intros t; rewrite spherical_phi; reflexivity|]. apply (field_curve _ _ _ s L a q (starts_phi theta)).
  - set (X := field (s + 1) L _ q). set (Y := field (s - 1) L _ q). set (F := field s L a q). clearbody X Y F. apply C_eq; cbn; field; exact Hs.
  - set (X := field (s + 1) L _ q). set (Y := field (s - 1) L _ q). set (F := field s L a q). clearbody X Y F. apply C_eq; cbn; field; exact Hs.
Qed.

(** The rule for products, on modes: Modes.eth of a product *)
Theorem C76_leibniz : forall s1 L1 s2 L2 f g l m, (0 <= L1)%Z -> (0 <= L2)%Z -> (0 <= l)%Z -> (- l <= m <= l)%Z ->
  eth (s1 + s2) (times s1 L1 s2 L2 f g) l m = (times (s1 + 1) L1 s2 L2 (eth s1 f) g l m + times s1 L1 (s2 + 1) L2 f (eth s2 g) l m)%C.
Proof.
  intros s1 L1 s2 L2 f g l m H1 H2 Hl Hm.
  assert (Z0 : (l < Z.abs (s1 + s2 + 1) \/ L1 + L2 < l)%Z -> eth (s1 + s2) (times s1 L1 s2 L2 f g) l m = (times (s1 + 1) L1 s2 L2 (eth s1 f) g l m + times s1 L1 (s2 + 1) L2 f (eth s2 g) l m)%C).
  { intros O. rewrite (proj2 (C72_fields (s1 + 1) L1 (eth s1 f) s2 L2 g H1 H2)) by lia. rewrite (proj2 (C72_fields s1 L1 f (s2 + 1) L2 (eth s2 g) H1 H2)) by lia.
    unfold eth, ladder. destruct (Z.ltb_spec l (Z.max (Z.abs (s1 + s2)) (Z.abs (s1 + s2 + 1)))) as [A|A]; [ring|].
    rewrite (proj2 (C72_fields s1 L1 f s2 L2 g H1 H2)) by lia. cx. }
  destruct (Z_lt_ge_dec l (Z.abs (s1 + s2 + 1))) as [A|A]; [apply Z0; lia|]. destruct (Z_lt_ge_dec (L1 + L2) l) as [B|B]; [apply Z0; lia|].
  apply (field_unique (s1 + s2 + 1) (L1 + L2) (eth (s1 + s2) (times s1 L1 s2 L2 f g)) (fun l m => times (s1 + 1) L1 s2 L2 (eth s1 f) g l m + times s1 L1 (s2 + 1) L2 f (eth s2 g) l m)%C); try lia.
  intros q Hq. apply (he_unique (field (s1 + s2) (L1 + L2) (times s1 L1 s2 L2 f g)) q); [apply C76_eth|].
  apply (he_ext (fun r => field s1 L1 f r * field s2 L2 g r)%C); [exact Hq|intros r Hr; apply (proj1 (C72_fields s1 L1 f s2 L2 g H1 H2) r Hr)|].
  eapply he_eq; [apply he_mul; apply C76_eth|].
  pose proof (proj1 (C72_fields (s1 + 1) L1 (eth s1 f) s2 L2 g H1 H2) q Hq) as E1. pose proof (proj1 (C72_fields s1 L1 f (s2 + 1) L2 (eth s2 g) H1 H2) q Hq) as E2.
  rewrite E1, E2. replace (s1 + 1 + s2)%Z with (s1 + s2 + 1)%Z by ring. replace (s1 + (s2 + 1))%Z with (s1 + s2 + 1)%Z by ring.
  unfold field. rewrite <- csum_add. apply csum_ext. intros; ring.
Qed.
