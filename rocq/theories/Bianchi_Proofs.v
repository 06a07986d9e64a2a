(** * Supertranslations and rotations take solutions of the Bondi-gauge equations to solutions *)
From Coq Require Import Reals ZArith List Bool Lia Lra.
From Verif Require Import Common Cplx Quat Modes_Model Create_Model Times_Model Tables_Model Modal_Model Kwargs_Model Transform_Model Rotate_Model
  Modes_Proofs Modal_Proofs Rotate_Proofs Times_Proofs Kwargs_Proofs Transform_Proofs Wigner_Model Wigner_Proofs Sphere_Model Sphere_Proofs Harmonics_Proofs
  Pipeline_Model Pipeline_Proofs ABD_Model ABD_Proofs ABDBalance_Proofs ABDPointwise_Proofs Zturn_Model Zturn_Proofs Product_Proofs Gridmul_Model Gridmul_Proofs
  Abdpipe_Model Abdpipe_Proofs Eth_Proofs.
Import ListNotations.
Open Scope R_scope.

(** ** Specification *)
(** The GHP operator, 1 / sqrt 2 times the differential operator *)
Definition ethG (F : quat -> C) (q : quat) (d : C) : Prop := exists e, has_eth F q e /\ d = Cscale (/ sqrt 2) e.
(** Six functions of time and rotor, in the order psi0, psi1, psi2, psi3, psi4, sigma, satisfy the equations in the documentation of
    bondi_constraints (constraints.py 9-24), as partial differential equations. *)
Definition bondi_gauge (S : nat -> R -> quat -> C) : Prop :=
  exists E1 E2 E3 Sd Sdd Es Ess Esd : R -> quat -> C, forall u q, qnorm2 q = 1 ->
    (has_derivative (fun x => S 5%nat x q) u (Sd u q) /\ has_derivative (fun x => Sd x q) u (Sdd u q)) /\
    (ethG (S 1%nat u) q (E1 u q) /\ ethG (S 2%nat u) q (E2 u q) /\ ethG (S 3%nat u) q (E3 u q)) /\
    (ethG (fun r => Conj (S 5%nat u r)) q (Es u q) /\ ethG (Es u) q (Ess u q) /\ ethG (fun r => Conj (Sd u r)) q (Esd u q)) /\
    has_derivative (fun x => S 0%nat x q) u (E1 u q + Cscale 3 (S 5%nat u q * S 2%nat u q))%C /\
    has_derivative (fun x => S 1%nat x q) u (E2 u q + Cscale 2 (S 5%nat u q * S 3%nat u q))%C /\
    has_derivative (fun x => S 2%nat x q) u (E3 u q + S 5%nat u q * S 4%nat u q)%C /\
    S 3%nat u q = (- Esd u q)%C /\
    S 4%nat u q = (- Conj (Sdd u q))%C /\
    im (S 2%nat u q) = - im (Ess u q + S 5%nat u q * Conj (Sd u q))%C.
(** The same for modes, with the products of the external package untruncated (multiplication_truncator=sum); [sd], [sdd], [sddd] are
    the derivatives of the shear. *)
Definition bfield (b : bondi) (f : nat) : modes := nth f [b_psi0 b; b_psi1 b; b_psi2 b; b_psi3 b; b_psi4 b; b_sigma b] (b_sigma b).
Record bondi_solution (L : Z) (b : R -> bondi) (sd sdd sddd : R -> modes) : Prop := {
  bs_upto : forall u f, (f < 6)%nat -> upto L (bfield (b u) f);
  bs_dot : forall u l m, has_derivative (fun x => b_sigma (b x) l m) u (sd u l m);
  bs_ddot : forall u l m, has_derivative (fun x => sd x l m) u (sdd u l m);
  bs_dddot : forall u l m, has_derivative (fun x => sdd x l m) u (sddd u l m);
  bs_0 : forall u l m, has_derivative (fun x => b_psi0 (b x) l m) u
      (eth_GHP 1 (b_psi1 (b u)) l m + Cscale 3 (multiply product_table L (2 * L) 2 0 (b_sigma (b u)) (b_psi2 (b u)) l m))%C;
  bs_1 : forall u l m, has_derivative (fun x => b_psi1 (b x) l m) u
      (eth_GHP 0 (b_psi2 (b u)) l m + Cscale 2 (multiply product_table L (2 * L) 2 (-1) (b_sigma (b u)) (b_psi3 (b u)) l m))%C;
  bs_2 : forall u l m, has_derivative (fun x => b_psi2 (b x) l m) u
      (eth_GHP (-1) (b_psi3 (b u)) l m + multiply product_table L (2 * L) 2 (-2) (b_sigma (b u)) (b_psi4 (b u)) l m)%C;
  bs_3 : forall u l m, b_psi3 (b u) l m = (- eth_GHP (-2) (fbar 2 (sd u)) l m)%C;
  bs_4 : forall u l m, b_psi4 (b u) l m = (- fbar 2 (sdd u) l m)%C;
  bs_im : forall u l m, fimag (b_psi2 (b u)) l m =
      (- fimag (fadd (eth_GHP (-1) (eth_GHP (-2) (fbar 2 (b_sigma (b u))))) (multiply product_table L (2 * L) 2 (-2) (b_sigma (b u)) (fbar 2 (sd u)))) l m)%C }.
(** The functions that AsymptoticBondiData.transform computes for a supertranslation with modes [a] and the frame rotation [p]: at the rotor p q and the time
    u' + alpha there. *)
Definition moved (p : quat) (a : list C) (La : Z) (L : Z) (b : R -> bondi) (f : nat) (u : R) (q : quat) : C :=
  let d := direction_of a La (0, 0, 0) (qmul p q) in
  let w := b (u + d_alpha d) in
  let at_ g := field (spin_of g) L (bfield w g) (qmul p q) in
  part f (abd_point (0, 0, 0) d (u + d_alpha d) (mkfields (at_ 0%nat) (at_ 1%nat) (at_ 2%nat) (at_ 3%nat) (at_ 4%nat) (at_ 5%nat))).

(** ** Moving along the sphere and in time *)
Lemma he_csum : forall A (f : A -> quat -> C) (d : A -> C) q l, (forall a, In a l -> has_eth (f a) q (d a)) -> has_eth (fun r => csum (fun a => f a r) l) q (csum d l).
Proof.
  intros A f d q l. induction l as [|a l IH]; intros H; [apply (he_const C0)|]. cbn [csum]. apply he_add; [apply H; left; reflexivity|apply IH; intros; apply H; right; assumption].
Qed.
Lemma he_swsh : forall s l m q, has_eth (swsh s l m) q (RtoC (upf s l) * swsh (s + 1) l m q)%C.
Proof.
  intros s l m q. eexists. eexists. split; [apply (hd_swsh _ _ _ s l m q starts_x)|split; [apply (hd_swsh _ _ _ s l m q starts_y)|]]. rewrite Rmult_0_r. apply C_eq; cbn; field.
Qed.
(** A function of time taken at a time that depends on the point *)
Lemma he_comp : forall (al : quat -> R) (g : R -> C) u q e d, has_eth (fun r => RtoC (al r)) q e -> has_derivative g (u + al q) d -> has_eth (fun r => g (u + al r)) q (e * d)%C.
Proof.
  intros al g u q e d (x & y & [A A'] & [B B'] & ->) H. cbn in A, A', B, B'. destruct rot_0 as [X Y].
  assert (Ix : im x = 0) by exact (uniqueness_limite _ _ _ _ A' (derivable_pt_lim_const 0 0)). assert (Iy : im y = 0) by exact (uniqueness_limite _ _ _ _ B' (derivable_pt_lim_const 0 0)).
  exists (Cscale (re x) d), (Cscale (re y) d). split; [|split].
  - apply (hd_comp g (fun t => u + al (qmul q (rot_x t)))); [|rewrite X, qmul_1_r; exact H].
    replace (re x) with (0 + re x) by ring. apply (derivable_pt_lim_plus (fun _ => u)); [apply derivable_pt_lim_const|exact A].
  - apply (hd_comp g (fun t => u + al (qmul q (rot_y t)))); [|rewrite Y, qmul_1_r; exact H].
    replace (re y) with (0 + re y) by ring. apply (derivable_pt_lim_plus (fun _ => u)); [apply derivable_pt_lim_const|exact B].
  - apply C_eq; cbn; rewrite Ix, Iy; ring.
Qed.
Lemma he_moving : forall s L (f : R -> modes) d (al : quat -> R) u q e, has_eth (fun r => RtoC (al r)) q e -> (forall l m, has_derivative (fun x => f x l m) (u + al q) (d l m)) ->
  has_eth (fun r => field s L (f (u + al r)) r) q (field (s + 1) L (eth s (f (u + al q)%R)) q + e * field s L d q)%C.
Proof.
  intros s L f d al u q e He Hd. unfold field at 1.
  apply (he_eq _ _ (csum (fun lm => ((e * d (fst lm) (snd lm)) * swsh s (fst lm) (snd lm) q + f (u + al q)%R (fst lm) (snd lm) * (RtoC (upf s (fst lm)) * swsh (s + 1) (fst lm) (snd lm) q))%C) (LM_range 0 L))).
  - apply he_csum. intros [l m] _. cbn [fst snd]. apply he_mul; [apply (he_comp al (fun x => f x l m)); [exact He|apply Hd]|apply he_swsh].
  - rewrite csum_add, up_modes. unfold field. rewrite <- csum_scale. rewrite (csum_ext (fun lm => (e * d (fst lm) (snd lm) * swsh s (fst lm) (snd lm) q)%C) (fun lm => (e * (d (fst lm) (snd lm) * swsh s (fst lm) (snd lm) q))%C)) by (intros; ring). ring.
Qed.
Lemma eg_moving : forall s L (f : R -> modes) d (al : quat -> R) u q e, ethG (fun r => RtoC (al r)) q e -> (forall l m, has_derivative (fun x => f x l m) (u + al q) (d l m)) ->
  ethG (fun r => field s L (f (u + al r)) r) q (field (s + 1) L (eth_GHP s (f (u + al q)%R)) q + e * field s L d q)%C.
Proof.
  intros s L f d al u q e (e' & He & ->) Hd. eexists. split; [apply (he_moving s L f d al u q e' He Hd)|].
  replace (field (s + 1) L (eth_GHP s (f (u + al q))) q) with (Cscale (/ sqrt 2) (field (s + 1) L (eth s (f (u + al q))) q)); [rewrite !Cscale_mul; ring|].
  symmetry. apply field_scale. intros; reflexivity.
Qed.
Lemma eg_ext : forall F G q d, qnorm2 q = 1 -> (forall r, qnorm2 r = 1 -> F r = G r) -> ethG F q d -> ethG G q d.
Proof. intros F G q d Hq H (e & A & E). exists e. split; [exact (he_ext F G q e Hq H A)|exact E]. Qed.
Lemma eg_eq : forall F q d e, ethG F q d -> d = e -> ethG F q e.
Proof. intros; subst; assumption. Qed.
Lemma eg_add : forall F G q d e, ethG F q d -> ethG G q e -> ethG (fun r => F r + G r)%C q (d + e)%C.
Proof. intros F G q d e (x & A & ->) (y & B & ->). eexists. split; [apply he_add; eassumption|rewrite !Cscale_mul; ring]. Qed.
Lemma eg_mul : forall F G q d e, ethG F q d -> ethG G q e -> ethG (fun r => F r * G r)%C q (d * G q + F q * e)%C.
Proof. intros F G q d e (x & A & ->) (y & B & ->). eexists. split; [apply he_mul; eassumption|rewrite !Cscale_mul; ring]. Qed.
Lemma eg_times : forall c F q d, ethG F q d -> ethG (fun r => c * F r)%C q (c * d)%C.
Proof. intros c F q d (x & A & ->). eexists. split; [apply he_times; eassumption|rewrite !Cscale_mul; ring]. Qed.
Lemma eg_scale : forall k F q d, ethG F q d -> ethG (fun r => Cscale k (F r)) q (Cscale k d).
Proof.
  intros k F q d H. eapply eg_eq; [|symmetry; apply Cscale_mul]. destruct (eg_times (RtoC k) F q d H) as (x & (y & z & Y & Z & E) & ->). exists x. split; [|reflexivity]. exists y, z.
  split; [|split; [|exact E]]; eapply hd_ext; [intros t; symmetry; apply Cscale_mul|exact Y|intros t; symmetry; apply Cscale_mul|exact Z].
Qed.
Lemma eg_opp : forall F q d, ethG F q d -> ethG (fun r => - F r)%C q (- d)%C.
Proof. intros F q d (x & A & ->). eexists. split; [apply he_opp; eassumption|rewrite !Cscale_mul; ring]. Qed.
Lemma eg_left : forall p F q d, ethG F (qmul p q) d -> ethG (fun r => F (qmul p r)) q d.
Proof. intros p F q d (x & A & ->). eexists. split; [apply he_left; eassumption|reflexivity]. Qed.
Lemma eg_unique : forall F q d e, ethG F q d -> ethG F q e -> d = e.
Proof. intros F q d e (x & A & ->) (y & B & ->). rewrite (he_unique _ _ _ _ A B). reflexivity. Qed.
Lemma eg_field : forall s L a q, ethG (field s L a) q (field (s + 1) L (eth_GHP s a) q).
Proof. intros s L a q. eexists. split; [apply C76_eth|]. apply field_scale. intros; reflexivity. Qed.
(** Time derivative of a field, also at a moving time *)
Lemma hd_field : forall s L (f : R -> modes) d u q, (forall l m, has_derivative (fun x => f x l m) u (d l m)) -> has_derivative (fun x => field s L (f x) q) u (field s L d q).
Proof.
  intros s L f d u q H. unfold field. apply hd_sum. intros [l m] _. cbn [fst snd]. eapply hd_eq; [apply (hd_mult (fun x => f x l m) (fun _ => swsh s l m q)); [apply H|apply hd_const]|ring].
Qed.
Lemma hd_later : forall f u c d, has_derivative f (u + c) d -> has_derivative (fun x => f (x + c)) u d.
Proof.
  intros f u c d H. eapply hd_eq; [apply (hd_comp f (fun x => x + c) u d 1); [|exact H]|cx].
  replace 1 with (1 + 0) by ring. apply (derivable_pt_lim_plus (fun x => x) (fun _ => c)); [apply derivable_pt_lim_id|apply derivable_pt_lim_const].
Qed.

(** ** The supertranslation and its derivatives *)
Lemma eth_at : forall s f g l m, f l m = g l m -> eth_GHP s f l m = eth_GHP s g l m.
Proof. intros s f g l m E. unfold eth_GHP, eth, ladder, fscale. rewrite E. reflexivity. Qed.
Lemma ethbar_at : forall s f g l m, f l m = g l m -> ethbar_GHP s f l m = ethbar_GHP s g l m.
Proof. intros s f g l m E. unfold ethbar_GHP, ethbar, fscale. rewrite E. reflexivity. Qed.
Section Move.
Variable a : list C.
Variable La : Z.
Hypothesis HLa : (0 <= La)%Z.
Hypothesis Hreal : is_real a La.
Definition alph (q : quat) : R := re (field 0 La (mode_at a) q).
Definition ealph (q : quat) : C := field 1 La (eth_GHP 0 (mode_at a)) q.
Definition walph (q : quat) : C := field 2 La (eth_GHP 1 (eth_GHP 0 (mode_at a))) q.
Definition dalph (q : quat) : C := field 0 La (fun l m => Cscale (D_value l) (mode_at a l m)) q.
Lemma alph_field : forall q, field 0 La (mode_at a) q = RtoC (alph q).
Proof. intros q. apply C_eq; cbn; [reflexivity|]. apply C68_real_function; [exact HLa|]. intros l m Hl Hm. apply (Hreal l m Hl Hm). Qed.
Lemma eg_alph : forall q, ethG (fun r => RtoC (alph r)) q (ealph q).
Proof.
  intros q. destruct (eg_field 0 La (mode_at a) q) as (e & H & E). exists e. split; [|exact E]. destruct H as (x & y & X & Y & EE). exists x, y. split; [|split; [|exact EE]].
  - apply (hd_ext (fun t => field 0 La (mode_at a) (qmul q (rot_x t)))); [intros; apply alph_field|exact X].
  - apply (hd_ext (fun t => field 0 La (mode_at a) (qmul q (rot_y t)))); [intros; apply alph_field|exact Y].
Qed.
Lemma eg_ealph : forall q, ethG ealph q (walph q).
Proof. intros q. apply (eg_field 1 La (eth_GHP 0 (mode_at a)) q). Qed.
Lemma dalph_real : forall q, im (dalph q) = 0.
Proof.
  intros q. apply C68_real_function; [exact HLa|]. intros l m Hl Hm. rewrite (Hreal l m Hl Hm). rewrite Conj_scale. cx.
Qed.
(** The conjugate of eth^2 alpha and its derivatives *)
Lemma walph_conj : forall q, Conj (walph q) = field (-2) La (fbar 2 (eth_GHP 1 (eth_GHP 0 (mode_at a)))) q.
Proof. intros q. symmetry. apply (C68_conjugate_fields 2); [exact HLa|]. intros; reflexivity. Qed.
Lemma walph_eth2 : forall q, field 0 La (eth_GHP (-1) (eth_GHP (-2) (fbar 2 (eth_GHP 1 (eth_GHP 0 (mode_at a)))))) q = dalph q.
Proof.
  intros q. apply field_ext. intros l m Hl Hm. rewrite <- (C37_is_eth2_ethbar2 (mode_at a) l m) by lia.
  apply eth_at, eth_at. rewrite (fbar_eth 1). apply ethbar_at. rewrite (fbar_eth 0). apply ethbar_at. unfold fbar. symmetry. apply (Hreal l m Hl Hm).
Qed.
Lemma direction_alph : forall q, let d := direction_of a La (0, 0, 0) q in
  d_alpha d = alph q /\ Cscale (/ sqrt 2) (d_eth d) = ealph q /\ Cscale (/ 2) (d_eth2 d) = walph q /\ d_vr1 d = C0.
Proof.
  intros q. cbn [direction_of d_alpha d_eth d_eth2 d_vr1]. split; [reflexivity|split; [|split]].
  - symmetry. apply field_scale. intros l m Hv. unfold eth_GHP, eth, ladder, fscale. change (Z.max (Z.abs 0) (Z.abs (0 + 1))) with 1%Z.
    destruct (Z.ltb_spec l 1) as [B|B]; [exfalso; unfold valid in Hv; lia|]. f_equal. f_equal. rewrite Rmult_1_l. f_equal. f_equal. ring.
  - symmetry. apply field_scale. intros l m Hv. unfold eth_GHP, eth, ladder, fscale. change (Z.max (Z.abs 0) (Z.abs (0 + 1))) with 1%Z. change (Z.max (Z.abs 1) (Z.abs (1 + 1))) with 2%Z.
    unfold valid in Hv. destruct (Z.ltb_spec l 2) as [B|B]; [lia|]. destruct (Z.ltb_spec l 1) as [B'|B']; [lia|].
    replace ((l - 1) * (l + (1 + 1)))%Z with ((l - 1) * (l + 2))%Z by ring. replace ((l - 0) * (l + (0 + 1)))%Z with (l * (l + 1))%Z by ring.
    assert (Q : sqrt 2 * sqrt 2 = 2) by (apply sqrt_sqrt; lra). assert (I2 : / sqrt 2 * / sqrt 2 = / 2) by (rewrite <- Rinv_mult, Q; reflexivity). rewrite <- I2. cx.
  - apply zero_field. intros l m Hl Hm. destruct (Z.eqb_spec l 1) as [->|]; [|reflexivity].
    assert (B : (m = -1 \/ m = 0 \/ m = 1)%Z) by lia. unfold vector_as_ell_1_modes.
    set (w := sqrt (2 * PI / 3)). destruct B as [-> | [-> | ->]]; [change (Z.to_nat (-1 + 1)) with 0%nat | change (Z.to_nat (0 + 1)) with 1%nat | change (Z.to_nat (1 + 1)) with 2%nat];
      cbn [nth]; unfold Cscale, C0; cbn [re im]; f_equal; ring.
Qed.
End Move.
(** The mixture of the fields for a pure supertranslation *)
Lemma abd_point_still : forall a La q u x, let d := direction_of a La (0, 0, 0) q in let e := ealph a La q in
  abd_point (0, 0, 0) d u x = mkfields
    (f0 x + Cscale 4 (e * f1 x) + Cscale 6 (e * e * f2 x) + Cscale 4 (e * e * e * f3 x) + e * e * e * e * f4 x)%C
    (f1 x + Cscale 3 (e * f2 x) + Cscale 3 (e * e * f3 x) + e * e * e * f4 x)%C
    (f2 x + Cscale 2 (e * f3 x) + e * e * f4 x)%C (f3 x + e * f4 x)%C (f4 x) (fs x - walph a La q)%C.
Proof.
  intros a La q u x d e. destruct (direction_alph a La q) as (_ & E1 & E2 & E3). fold d in E1, E2, E3. fold e in E1.
  unfold abd_point. rewrite (proj1 (still_k (d_r d))), E2.
  assert (X0 : abd_X (0, 0, 0) d u = (- e)%C). { unfold abd_X, ethk_over_k. rewrite E3, E1. cx. }
  rewrite X0. unfold horner. f_equal; cx.
Qed.

(** ** The equations, point by point *)
Lemma field_fadd : forall s L f g q, field s L (fadd f g) q = (field s L f q + field s L g q)%C.
Proof. intros s L f g q. unfold field, fadd. rewrite <- csum_add. apply csum_ext. intros; ring. Qed.
Lemma field_fscale : forall s L k f q, field s L (fscale k f) q = Cscale k (field s L f q).
Proof. intros s L k f q. apply field_scale. intros; reflexivity. Qed.
Lemma field_fopp : forall s L f q, field s L (fopp f) q = (- field s L f q)%C.
Proof. intros s L f q. unfold field, fopp. rewrite <- csum_opp. apply csum_ext. intros; ring. Qed.
Lemma field_fimag : forall L f q, (0 <= L)%Z -> field 0 L (fimag f) q = RtoC (im (field 0 L f q)).
Proof.
  intros L f q HL. assert (E : field 0 L (fbar 0 f) q = Conj (field 0 L f q)) by (apply (C68_conjugate_fields 0); [exact HL|intros; reflexivity]).
  transitivity (Cscale (/ 2) (- Ci * (field 0 L f q - field 0 L (fbar 0 f) q)))%C; [|rewrite E; cx].
  rewrite Cscale_mul. unfold field, fimag. transitivity (RtoC (/ 2) * (- Ci * csum (fun lm => (f (fst lm) (snd lm) * swsh 0 (fst lm) (snd lm) q + - (fbar 0 f (fst lm) (snd lm) * swsh 0 (fst lm) (snd lm) q))%C) (LM_range 0 L)))%C.
  - rewrite <- !csum_scale. apply csum_ext. intros lm _. rewrite Cscale_mul. ring.
  - rewrite csum_add, csum_opp. ring.
Qed.
Lemma upto_product : forall L f g h k d u, (forall l m, has_derivative (fun x => f x l m) u (d l m + Cscale k (h l m))%C) -> (forall x, upto L (f x)) -> upto L d -> k <> 0 -> upto L g ->
  upto L h.
Proof.
  intros L f g h k d u H Hf Hd Hk Hg l m O. assert (E : (d l m + Cscale k (h l m))%C = C0).
  { apply (hd_unique (fun x => f x l m) u); [apply H|]. apply (hd_ext (fun _ => C0)); [intros x; rewrite (Hf x) by exact O; reflexivity|apply hd_const]. }
  rewrite (Hd l m O) in E. assert (E' : Cscale k (h l m) = C0) by (rewrite <- E; ring). apply (f_equal re) in E' as Er. apply (f_equal im) in E' as Ei. cbn in Er, Ei.
  apply C_eq; cbn; [destruct (Rmult_integral _ _ Er)|destruct (Rmult_integral _ _ Ei)]; (contradiction || assumption).
Qed.
Section Solution.
Variable L : Z.
Variable b : R -> bondi.
Variables sd sdd sddd : R -> modes.
Hypothesis HL : (0 <= L)%Z.
Hypothesis HB : bondi_solution L b sd sdd sddd.
Definition val (f : nat) (t : R) (q : quat) : C := field (spin_of f) L (bfield (b t) f) q.
Lemma point_product : forall s1 s2 f g q, qnorm2 q = 1 -> upto L f -> upto L g -> upto L (multiply product_table L (2 * L) s1 s2 f g) ->
  field (s1 + s2) L (multiply product_table L (2 * L) s1 s2 f g) q = (field s1 L f q * field s2 L g q)%C.
Proof.
  intros s1 s2 f g q Hq Hf Hg Hu. rewrite (field_grow (s1 + s2) L (2 * L)) by (lia || (intros; apply Hu; lia)).
  rewrite (field_grow s1 L (2 * L) f), (field_grow s2 L (2 * L) g) by (lia || (intros; apply Hf; lia) || (intros; apply Hg; lia)).
  exact (ev_mul _ _ _ (C72_evaluation L HL) s1 s2 f g (exist _ q Hq) Hf Hg).
Qed.
Lemma up (f : nat) (t : R) : (f < 6)%nat -> upto L (bfield (b t) f).
Proof. intros; apply (bs_upto _ _ _ _ _ HB). assumption. Qed.
Lemma upto_dot : forall (f : R -> modes) d u, (forall x, upto L (f x)) -> (forall l m, has_derivative (fun x => f x l m) u (d l m)) -> upto L d.
Proof.
  intros f d u Hf H l m O. apply (hd_unique (fun x => f x l m) u); [apply H|]. apply (hd_ext (fun _ => C0)); [intros x; rewrite (Hf x) by exact O; reflexivity|apply hd_const].
Qed.
Lemma up_sd : forall t, upto L (sd t).
Proof. intros t. apply (upto_dot (fun x => b_sigma (b x)) _ t); [intros x; apply (up 5); lia|apply (bs_dot _ _ _ _ _ HB)]. Qed.
(** Time derivatives of the six fields: modes and values *)
Definition dmode (f : nat) (t : R) : modes := match f with
  | 0 => fadd (eth_GHP 1 (b_psi1 (b t))) (fscale 3 (multiply product_table L (2 * L) 2 0 (b_sigma (b t)) (b_psi2 (b t))))
  | 1 => fadd (eth_GHP 0 (b_psi2 (b t))) (fscale 2 (multiply product_table L (2 * L) 2 (-1) (b_sigma (b t)) (b_psi3 (b t))))
  | 2 => fadd (eth_GHP (-1) (b_psi3 (b t))) (fscale 1 (multiply product_table L (2 * L) 2 (-2) (b_sigma (b t)) (b_psi4 (b t))))
  | 3 => eth_GHP (-2) (b_psi4 (b t))
  | 4 => fopp (fbar 2 (sddd t))
  | _ => sd t end%nat.
Lemma dmode_ok : forall f t l m, (f < 6)%nat -> has_derivative (fun x => bfield (b x) f l m) t (dmode f t l m).
Proof.
  intros f t l m Hf. destruct f as [|[|[|[|[|[|f]]]]]]; [..|lia]; cbn [bfield nth dmode].
  - apply (bs_0 _ _ _ _ _ HB).
  - apply (bs_1 _ _ _ _ _ HB).
  - eapply hd_eq; [apply (bs_2 _ _ _ _ _ HB)|]. unfold fadd, fscale. cx.
  - apply (hd_ext (fun x => (- eth_GHP (-2) (fbar 2 (sd x)) l m)%C)); [intros x; symmetry; apply (bs_3 _ _ _ _ _ HB)|].
    eapply hd_eq; [apply hd_opp; unfold eth_GHP, fscale; apply hd_cscale|].
    + unfold eth, ladder. instantiate (1 := eth (-2) (fbar 2 (sdd t)) l m). unfold eth, ladder. destruct (l <? _)%Z; [apply hd_const|]. apply hd_cscale. unfold fbar. apply hd_cscale, hd_conj. apply (bs_ddot _ _ _ _ _ HB).
    + unfold eth_GHP, eth, ladder, fscale. rewrite (bs_4 _ _ _ _ _ HB). destruct (l <? _)%Z; cx.
  - apply (hd_ext (fun x => (- fbar 2 (sdd x) l m)%C)); [intros x; symmetry; apply (bs_4 _ _ _ _ _ HB)|]. unfold fopp. apply hd_opp. unfold fbar. apply hd_cscale, hd_conj. apply (bs_dddot _ _ _ _ _ HB).
  - apply (bs_dot _ _ _ _ _ HB).
Qed.
Lemma up_mult : forall f t, (f < 3)%nat -> upto L (match f with 0 => multiply product_table L (2 * L) 2 0 (b_sigma (b t)) (b_psi2 (b t)) | 1 => multiply product_table L (2 * L) 2 (-1) (b_sigma (b t)) (b_psi3 (b t))
   | _ => multiply product_table L (2 * L) 2 (-2) (b_sigma (b t)) (b_psi4 (b t)) end%nat).
Proof.
  intros f t Hf. destruct f as [|[|[|f]]]; [..|lia].
  - apply (upto_product L (fun x => b_psi0 (b x)) (b_sigma (b t)) _ 3 (eth_GHP 1 (b_psi1 (b t))) t); [intros; apply (dmode_ok 0); lia|intros; apply (up 0); lia|apply upto_eth, (up 1); lia|lra|apply (up 5); lia].
  - apply (upto_product L (fun x => b_psi1 (b x)) (b_sigma (b t)) _ 2 (eth_GHP 0 (b_psi2 (b t))) t); [intros; apply (dmode_ok 1); lia|intros; apply (up 1); lia|apply upto_eth, (up 2); lia|lra|apply (up 5); lia].
  - apply (upto_product L (fun x => b_psi2 (b x)) (b_sigma (b t)) _ 1 (eth_GHP (-1) (b_psi3 (b t))) t); [intros; apply (dmode_ok 2); lia|intros; apply (up 2); lia|apply upto_eth, (up 3); lia|lra|apply (up 5); lia].
Qed.
Definition dval (f : nat) (t : R) (q : quat) : C := field (spin_of f) L (dmode f t) q.
Definition evalu (f : nat) (t : R) (q : quat) : C := field (spin_of f + 1) L (eth_GHP (spin_of f) (bfield (b t) f)) q.
Lemma point_0 : forall t q, qnorm2 q = 1 -> dval 0 t q = (evalu 1 t q + Cscale 3 (val 5 t q * val 2 t q))%C.
Proof.
  intros t q Hq. unfold dval, evalu, val. cbn [dmode bfield nth spin_of]. rewrite field_fadd, field_fscale. f_equal. f_equal.
  apply (point_product 2 0); [exact Hq|apply (up 5); lia|apply (up 2); lia|apply (up_mult 0); lia].
Qed.
Lemma point_1 : forall t q, qnorm2 q = 1 -> dval 1 t q = (evalu 2 t q + Cscale 2 (val 5 t q * val 3 t q))%C.
Proof.
  intros t q Hq. unfold dval, evalu, val. cbn [dmode bfield nth spin_of]. rewrite field_fadd, field_fscale. f_equal. f_equal.
  apply (point_product 2 (-1)); [exact Hq|apply (up 5); lia|apply (up 3); lia|apply (up_mult 1); lia].
Qed.
Lemma point_2 : forall t q, qnorm2 q = 1 -> dval 2 t q = (evalu 3 t q + val 5 t q * val 4 t q)%C.
Proof.
  intros t q Hq. unfold dval, evalu, val. cbn [dmode bfield nth spin_of]. rewrite field_fadd, field_fscale. f_equal.
  pose proof (point_product 2 (-2) _ _ q Hq (up 5 t ltac:(lia)) (up 4 t ltac:(lia)) (up_mult 2 t ltac:(lia))) as E. cbn [bfield nth] in E. rewrite <- E. cbn [Z.add Z.opp Z.pos_sub]. cx.
Qed.
Lemma point_3 : forall t q, dval 3 t q = evalu 4 t q.
Proof. reflexivity. Qed.
Lemma conj_field : forall s f q, field (- s) L (fbar s f) q = Conj (field s L f q).
Proof. intros s f q. apply C68_conjugate_fields; [exact HL|]. intros; reflexivity. Qed.
Definition esd (t : R) (q : quat) : C := field (-1) L (eth_GHP (-2) (fbar 2 (sd t))) q.
Definition sddval (t : R) (q : quat) : C := field 2 L (sdd t) q.
Lemma point_psi3 : forall t q, val 3 t q = (- esd t q)%C.
Proof. intros t q. unfold val, esd. cbn [bfield nth spin_of]. rewrite <- field_fopp. apply field_ext. intros; apply (bs_3 _ _ _ _ _ HB). Qed.
Lemma point_psi4 : forall t q, val 4 t q = (- Conj (sddval t q))%C.
Proof.
  intros t q. unfold val, sddval. cbn [bfield nth spin_of]. rewrite <- (conj_field 2), <- field_fopp. apply field_ext. intros; apply (bs_4 _ _ _ _ _ HB).
Qed.
Definition ess (t : R) (q : quat) : C := field 0 L (eth_GHP (-1) (eth_GHP (-2) (fbar 2 (b_sigma (b t))))) q.
Lemma point_im : forall t q, qnorm2 q = 1 -> im (val 2 t q) = - im (ess t q + val 5 t q * Conj (dval 5 t q))%C.
Proof.
  intros t q Hq. unfold val, ess, dval. cbn [bfield nth spin_of dmode].
  set (M := multiply product_table L (2 * L) 2 (-2) (b_sigma (b t)) (fbar 2 (sd t))).
  assert (G : forall f, upto L f -> field 0 L f q = field 0 (2 * L) f q) by (intros f Hf; apply field_grow; [lia|intros; apply Hf; lia]).
  rewrite (G (b_psi2 (b t))) by (apply (up 2); lia). rewrite (G (eth_GHP _ _)) by (apply upto_eth, upto_eth, upto_bar, (up 5); lia).
  assert (EM : (field 2 L (b_sigma (b t)) q * Conj (field 2 L (sd t) q))%C = field 0 (2 * L) M q).
  { rewrite <- (conj_field 2). rewrite (field_grow 2 L (2 * L)), (field_grow (- (2)) L (2 * L)) by (try lia; intros; first [apply (up 5 t ltac:(lia)); lia|apply (upto_bar L 2 _ (up_sd t)); lia]).
    symmetry. exact (ev_mul _ _ _ (C72_evaluation L HL) 2 (-2) _ _ (exist _ q Hq) (up 5 t ltac:(lia)) (upto_bar L 2 _ (up_sd t))). }
  rewrite EM, <- field_fadd.
  assert (I : forall f, im (field 0 (2 * L) f q) = re (field 0 (2 * L) (fimag f) q)) by (intros f; rewrite field_fimag by lia; reflexivity).
  rewrite !I. change (- re (field 0 (2 * L) (fimag (fadd (eth_GHP (-1) (eth_GHP (-2) (fbar 2 (b_sigma (b t))))) M)) q)) with (re (- field 0 (2 * L) (fimag (fadd (eth_GHP (-1) (eth_GHP (-2) (fbar 2 (b_sigma (b t))))) M)) q)%C).
  f_equal. rewrite <- field_fopp. apply field_ext. intros l m _ _. apply (bs_im _ _ _ _ _ HB).
Qed.
End Solution.

(** ** The transformed fields satisfy the equations *)
Lemma gauge_left : forall S p, qnorm2 p = 1 -> bondi_gauge S -> bondi_gauge (fun f u q => S f u (qmul p q)).
Proof.
  intros S p Hp (E1 & E2 & E3 & Sd & Sdd & Es & Ess & Esd & H).
  exists (fun u q => E1 u (qmul p q)), (fun u q => E2 u (qmul p q)), (fun u q => E3 u (qmul p q)), (fun u q => Sd u (qmul p q)), (fun u q => Sdd u (qmul p q)),
    (fun u q => Es u (qmul p q)), (fun u q => Ess u (qmul p q)), (fun u q => Esd u (qmul p q)).
  intros u q Hq. assert (Hpq : qnorm2 (qmul p q) = 1) by (rewrite qnorm2_mul, Hp, Hq; ring).
  destruct (H u (qmul p q) Hpq) as (A & (B1 & B2 & B3) & (C1' & C2' & C3') & D). split; [exact A|]. split; [|split; [|exact D]].
  - split; [exact (eg_left p _ q _ B1)|split; [exact (eg_left p _ q _ B2)|exact (eg_left p _ q _ B3)]].
  - split; [exact (eg_left p _ q _ C1')|split; [exact (eg_left p _ q _ C2')|exact (eg_left p _ q _ C3')]].
Qed.
Lemma gauge_ext : forall S T, (forall f u q, (f < 6)%nat -> qnorm2 q = 1 -> S f u q = T f u q) -> bondi_gauge S -> bondi_gauge T.
Proof.
  intros S T X (E1 & E2 & E3 & Sd & Sdd & Es & Ess & Esd & H). exists E1, E2, E3, Sd, Sdd, Es, Ess, Esd.
  intros u q Hq. destruct (H u q Hq) as ((A1 & A2) & (B1 & B2 & B3) & (C1' & C2' & C3') & D0 & D1 & D2 & D3 & D4 & D5).
  rewrite <- !(X _ u q) by (lia || exact Hq).
  split; [split; [|exact A2]|split; [|split; [|split; [|split; [|split; [|split; [exact D3|split; [exact D4|exact D5]]]]]]]].
  - apply (hd_ext (fun x => S 5%nat x q)); [intros x; apply X; [lia|exact Hq]|exact A1].
  - split; [|split]; [apply (eg_ext (S 1%nat u))|apply (eg_ext (S 2%nat u))|apply (eg_ext (S 3%nat u))]; try exact Hq; try assumption; intros r Hr; apply X; (lia || exact Hr).
  - split; [|split; [exact C2'|exact C3']]. apply (eg_ext (fun r => Conj (S 5%nat u r))); [exact Hq|intros r Hr; f_equal; apply X; (lia || exact Hr)|exact C1'].
  - apply (hd_ext (fun x => S 0%nat x q)); [intros x; apply X; [lia|exact Hq]|exact D0].
  - apply (hd_ext (fun x => S 1%nat x q)); [intros x; apply X; [lia|exact Hq]|exact D1].
  - apply (hd_ext (fun x => S 2%nat x q)); [intros x; apply X; [lia|exact Hq]|exact D2].
Qed.
(** At the rotor itself *)
Definition flat (a : list C) (La L : Z) (b : R -> bondi) (f : nat) (u : R) (q : quat) : C :=
  let e := ealph a La q in let P g := val L b g (u + alph a La q) q in
  match f with
  | 0%nat => P 0%nat + Cscale 4 (e * P 1%nat) + Cscale 6 (e * e * P 2%nat) + Cscale 4 (e * e * e * P 3%nat) + e * e * e * e * P 4%nat
  | 1%nat => P 1%nat + Cscale 3 (e * P 2%nat) + Cscale 3 (e * e * P 3%nat) + e * e * e * P 4%nat
  | 2%nat => P 2%nat + Cscale 2 (e * P 3%nat) + e * e * P 4%nat
  | 3%nat => P 3%nat + e * P 4%nat
  | 4%nat => P 4%nat
  | _ => P 5%nat - walph a La q end%C.
Lemma moved_flat : forall p a La L b f u q, (f < 6)%nat -> moved p a La L b f u q = flat a La L b f u (qmul p q).
Proof.
  intros p a La L b f u q Hf. unfold moved. rewrite abd_point_still. destruct (direction_alph a La (qmul p q)) as (-> & _).
  destruct f as [|[|[|[|[|[|f]]]]]]; [..|lia]; reflexivity.
Qed.
Section Gauge.
Variable a : list C.
Variables La L : Z.
Variable b : R -> bondi.
Variables sd sdd sddd : R -> modes.
Hypothesis HLa : (0 <= La)%Z.
Hypothesis Hreal : is_real a La.
Hypothesis HL : (0 <= L)%Z.
Hypothesis HB : bondi_solution L b sd sdd sddd.
Let P f u q := val L b f (u + alph a La q) q.
Let D f u q := dval L b sd sddd f (u + alph a La q) q.
Let E f u q := evalu L b f (u + alph a La q) q.
Let e := ealph a La.
Let w := walph a La.
Lemma P_hd : forall f u q, (f < 6)%nat -> has_derivative (fun x => P f x q) u (D f u q).
Proof.
  intros f u q Hf. unfold P, D. apply (hd_later (fun t => val L b f t q)). unfold val, dval. apply hd_field. intros l m. apply (dmode_ok L b sd sdd sddd HB). exact Hf.
Qed.
Lemma P_eg : forall f u q, (f < 6)%nat -> ethG (P f u) q (E f u q + e q * D f u q)%C.
Proof.
  intros f u q Hf. unfold P, E, D, val, evalu, dval, e. apply (eg_moving (spin_of f) L (fun t => bfield (b t) f) _ (alph a La) u q); [apply eg_alph; assumption|].
  intros l m. apply (dmode_ok L b sd sdd sddd HB). exact Hf.
Qed.
Lemma e_eg : forall q, ethG e q (w q).
Proof. intros q. apply eg_ealph. Qed.
(** Conjugate shear *)
Lemma conj_eg : forall (f d : R -> modes) u q, (forall t l m, has_derivative (fun x => f x l m) t (d t l m)) ->
  ethG (fun r => Conj (field 2 L (f (u + alph a La r)) r)) q (field (-1) L (eth_GHP (-2) (fbar 2 (f (u + alph a La q)%R))) q + e q * Conj (field 2 L (d (u + alph a La q)%R) q))%C.
Proof.
  intros f d u q Hd. assert (Z0 : forall g r, Conj (field 2 L g r) = field (-2) L (fbar 2 g) r) by (intros g r; symmetry; apply (conj_field L HL 2)).
  rewrite Z0. destruct (eg_moving (-2) L (fun t => fbar 2 (f t)) (fbar 2 (d (u + alph a La q)%R)) (alph a La) u q (e q)) as (x & X & EX).
  - apply eg_alph; assumption.
  - intros l m. unfold fbar. apply hd_cscale, hd_conj. apply Hd.
  - exists x. split; [|exact EX]. destruct X as (x1 & y1 & X1 & Y1 & XY). exists x1, y1. split; [|split; [|exact XY]].
    + apply (hd_ext (fun t => field (-2) L (fbar 2 (f (u + alph a La (qmul q (rot_x t))))) (qmul q (rot_x t)))); [intros t; symmetry; apply Z0|exact X1].
    + apply (hd_ext (fun t => field (-2) L (fbar 2 (f (u + alph a La (qmul q (rot_y t))))) (qmul q (rot_y t)))); [intros t; symmetry; apply Z0|exact Y1].
Qed.
Let esd' u q := field (-1) L (eth_GHP (-2) (fbar 2 (sd (u + alph a La q)%R))) q.
Let sds u q := Conj (field 2 L (sd (u + alph a La q)%R) q).
Let sdds u q := Conj (field 2 L (sdd (u + alph a La q)%R) q).
Let ws q := field (-1) La (eth_GHP (-2) (fbar 2 (eth_GHP 1 (eth_GHP 0 (mode_at a))))) q.
Let Es u q := (field (-1) L (eth_GHP (-2) (fbar 2 (b_sigma (b (u + alph a La q)%R)))) q + e q * sds u q - ws q)%C.
Let Esd u q := (esd' u q + e q * sdds u q)%C.
Let Ess u q := (ess L b (u + alph a La q) q + Cscale 2 (e q * esd' u q) + w q * sds u q + e q * e q * sdds u q - dalph a La q)%C.
Lemma Esd_ok : forall u q, ethG (fun r => Conj (field 2 L (sd (u + alph a La r)%R) r)) q (Esd u q).
Proof. intros u q. apply (conj_eg sd sdd). intros; apply (bs_ddot _ _ _ _ _ HB). Qed.
Lemma Es_ok : forall u q, qnorm2 q = 1 -> ethG (fun r => Conj (flat a La L b 5 u r)) q (Es u q).
Proof.
  intros u q Hq. apply (eg_ext (fun r => Conj (field 2 L (b_sigma (b (u + alph a La r))) r) + - Conj (w r))%C); [exact Hq|intros r _; unfold flat, val; cbn [spin_of bfield nth]; unfold w; cx|].
  unfold Es. replace (field (-1) L (eth_GHP (-2) (fbar 2 (b_sigma (b (u + alph a La q))))) q + e q * sds u q - ws q)%C with (field (-1) L (eth_GHP (-2) (fbar 2 (b_sigma (b (u + alph a La q))))) q + e q * sds u q + - ws q)%C by ring.
  apply eg_add; [apply (conj_eg (fun t => b_sigma (b t)) sd); intros; apply (bs_dot _ _ _ _ _ HB)|]. apply eg_opp.
  apply (eg_ext (field (-2) La (fbar 2 (eth_GHP 1 (eth_GHP 0 (mode_at a)))))); [exact Hq|intros r _; symmetry; apply (walph_conj a La HLa)|]. apply (eg_field (-2)).
Qed.
Lemma Ess_ok : forall u q, ethG (Es u) q (Ess u q).
Proof.
  intros u q. unfold Es. eapply eg_eq.
  - apply (eg_add (fun r => field (-1) L (eth_GHP (-2) (fbar 2 (b_sigma (b (u + alph a La r))))) r + e r * sds u r)%C (fun r => - ws r)%C); [apply eg_add|].
    + apply (eg_moving (-1) L (fun t => eth_GHP (-2) (fbar 2 (b_sigma (b t)))) (eth_GHP (-2) (fbar 2 (sd (u + alph a La q)%R))) (alph a La) u q (e q)); [apply eg_alph; assumption|].
      intros l m. unfold eth_GHP, fscale. apply hd_cscale. unfold eth, ladder. destruct (l <? _)%Z; [apply hd_const|]. apply hd_cscale. unfold fbar. apply hd_cscale, hd_conj. apply (bs_dot _ _ _ _ _ HB).
    + apply eg_mul; [apply e_eg|apply Esd_ok].
    + apply eg_opp. apply (eg_field (-1)).
  - change (-1 + 1)%Z with 0%Z. rewrite (walph_eth2 a La Hreal q). unfold Ess, Esd, ess, esd'. cx.
Qed.
Lemma flat_gauge : bondi_gauge (flat a La L b).
Proof.
  exists (fun u q => (E 1%nat u q + e q * D 1%nat u q) + Cscale 3 (w q * P 2%nat u q + e q * (E 2%nat u q + e q * D 2%nat u q))
    + Cscale 3 ((w q * e q + e q * w q) * P 3%nat u q + e q * e q * (E 3%nat u q + e q * D 3%nat u q))
    + (((w q * e q + e q * w q) * e q + e q * e q * w q) * P 4%nat u q + e q * e q * e q * (E 4%nat u q + e q * D 4%nat u q)))%C.
  exists (fun u q => (E 2%nat u q + e q * D 2%nat u q) + Cscale 2 (w q * P 3%nat u q + e q * (E 3%nat u q + e q * D 3%nat u q))
    + ((w q * e q + e q * w q) * P 4%nat u q + e q * e q * (E 4%nat u q + e q * D 4%nat u q)))%C.
  exists (fun u q => (E 3%nat u q + e q * D 3%nat u q) + (w q * P 4%nat u q + e q * (E 4%nat u q + e q * D 4%nat u q)))%C.
  exists (fun u q => D 5%nat u q), (fun u q => field 2 L (sdd (u + alph a La q)) q), Es, Ess, Esd.
  intros u q Hq. unfold flat; cbv zeta; fold e w. change (fun g => val L b g (u + alph a La q) q) with (fun g => P g u q).
  pose proof (point_0 L b sd sdd sddd HL HB (u + alph a La q) q Hq) as Q0. pose proof (point_1 L b sd sdd sddd HL HB (u + alph a La q) q Hq) as Q1.
  pose proof (point_2 L b sd sdd sddd HL HB (u + alph a La q) q Hq) as Q2. pose proof (point_3 L b sd sddd (u + alph a La q) q) as Q3.
  pose proof (point_psi3 L b sd sdd sddd HB (u + alph a La q) q) as Q4. pose proof (point_psi4 L b sd sdd sddd HL HB (u + alph a La q) q) as Q5.
  pose proof (point_im L b sd sdd sddd HL HB (u + alph a La q) q Hq) as Q6.
  change (dval L b sd sddd 0 (u + alph a La q) q) with (D 0%nat u q) in *. change (dval L b sd sddd 1 (u + alph a La q) q) with (D 1%nat u q) in *.
  change (dval L b sd sddd 2 (u + alph a La q) q) with (D 2%nat u q) in *. change (dval L b sd sddd 3 (u + alph a La q) q) with (D 3%nat u q) in *.
  change (dval L b sd sddd 5 (u + alph a La q) q) with (D 5%nat u q) in *.
  change (evalu L b 1 (u + alph a La q) q) with (E 1%nat u q) in *. change (evalu L b 2 (u + alph a La q) q) with (E 2%nat u q) in *.
  change (evalu L b 3 (u + alph a La q) q) with (E 3%nat u q) in *. change (evalu L b 4 (u + alph a La q) q) with (E 4%nat u q) in *.
  change (val L b 2 (u + alph a La q) q) with (P 2%nat u q) in *. change (val L b 3 (u + alph a La q) q) with (P 3%nat u q) in *.
  change (val L b 4 (u + alph a La q) q) with (P 4%nat u q) in *. change (val L b 5 (u + alph a La q) q) with (P 5%nat u q) in *.
  split; [split|split; [split; [|split]|split; [split; [|split]|split; [|split; [|split; [|split; [|split]]]]]]].
  - eapply hd_eq; [apply (hd_add (fun x => P 5%nat x q) (fun _ => - w q)%C); [apply P_hd; lia|apply hd_const]|ring].
  - apply (hd_later (fun t => field 2 L (sd t) q)). apply hd_field. intros; apply (bs_ddot _ _ _ _ _ HB).
  - apply (eg_ext (fun r => P 1%nat u r + Cscale 3 (e r * P 2%nat u r) + Cscale 3 (e r * e r * P 3%nat u r) + e r * e r * e r * P 4%nat u r)%C); [exact Hq|reflexivity|].
    apply eg_add; [apply eg_add; [apply eg_add|]|]; [apply P_eg; lia|apply eg_scale; apply eg_mul; [apply e_eg|apply P_eg; lia]|apply eg_scale; apply (eg_mul (fun r => e r * e r)%C); [apply eg_mul; apply e_eg|apply P_eg; lia]|].
    apply (eg_mul (fun r => e r * e r * e r)%C); [apply (eg_mul (fun r => e r * e r)%C); [apply eg_mul; apply e_eg|apply e_eg]|apply P_eg; lia].
  - apply (eg_ext (fun r => P 2%nat u r + Cscale 2 (e r * P 3%nat u r) + e r * e r * P 4%nat u r)%C); [exact Hq|reflexivity|].
    apply eg_add; [apply eg_add|]; [apply P_eg; lia|apply eg_scale; apply eg_mul; [apply e_eg|apply P_eg; lia]|apply (eg_mul (fun r => e r * e r)%C); [apply eg_mul; apply e_eg|apply P_eg; lia]].
  - apply (eg_ext (fun r => P 3%nat u r + e r * P 4%nat u r)%C); [exact Hq|reflexivity|].
    apply eg_add; [apply P_eg; lia|apply eg_mul; [apply e_eg|apply P_eg; lia]].
  - apply Es_ok; exact Hq.
  - apply Ess_ok.
  - apply Esd_ok.
  - eapply hd_eq; [apply (hd_add (fun x => P 0%nat x q + Cscale 4 (e q * P 1%nat x q) + Cscale 6 (e q * e q * P 2%nat x q) + Cscale 4 (e q * e q * e q * P 3%nat x q))%C (fun x => e q * e q * e q * e q * P 4%nat x q)%C);
      [apply (hd_add (fun x => P 0%nat x q + Cscale 4 (e q * P 1%nat x q) + Cscale 6 (e q * e q * P 2%nat x q))%C (fun x => Cscale 4 (e q * e q * e q * P 3%nat x q))%C);
        [apply (hd_add (fun x => P 0%nat x q + Cscale 4 (e q * P 1%nat x q))%C (fun x => Cscale 6 (e q * e q * P 2%nat x q))%C);
          [apply (hd_add (fun x => P 0%nat x q) (fun x => Cscale 4 (e q * P 1%nat x q))%C); [apply P_hd; lia|apply hd_cscale, hd_ctimes, P_hd; lia]|apply hd_cscale, hd_ctimes, P_hd; lia]
        |apply hd_cscale, hd_ctimes, P_hd; lia]|apply hd_ctimes, P_hd; lia]|].
    rewrite !Cscale_mul, Q0, Q1, Q2, Q3. cx.
  - eapply hd_eq; [apply (hd_add (fun x => P 1%nat x q + Cscale 3 (e q * P 2%nat x q) + Cscale 3 (e q * e q * P 3%nat x q))%C (fun x => e q * e q * e q * P 4%nat x q)%C);
        [apply (hd_add (fun x => P 1%nat x q + Cscale 3 (e q * P 2%nat x q))%C (fun x => Cscale 3 (e q * e q * P 3%nat x q))%C);
          [apply (hd_add (fun x => P 1%nat x q) (fun x => Cscale 3 (e q * P 2%nat x q))%C); [apply P_hd; lia|apply hd_cscale, hd_ctimes, P_hd; lia]|apply hd_cscale, hd_ctimes, P_hd; lia]
        |apply hd_ctimes, P_hd; lia]|].
    rewrite Q1, Q2, Q3. cx.
  - eapply hd_eq; [apply (hd_add (fun x => P 2%nat x q + Cscale 2 (e q * P 3%nat x q))%C (fun x => e q * e q * P 4%nat x q)%C);
        [apply (hd_add (fun x => P 2%nat x q) (fun x => Cscale 2 (e q * P 3%nat x q))%C); [apply P_hd; lia|apply hd_cscale, hd_ctimes, P_hd; lia]
        |apply hd_ctimes, P_hd; lia]|].
    rewrite Q2, Q3. cx.
  - change (P 3%nat u q + e q * P 4%nat u q = - Esd u q)%C. rewrite Q4, Q5. unfold Esd, esd', sdds, esd, sddval. ring.
  - exact Q5.
  - change (im (P 2%nat u q + Cscale 2 (e q * P 3%nat u q) + e q * e q * P 4%nat u q)%C = - im (Ess u q + (P 5%nat u q - w q) * Conj (D 5%nat u q))%C). rewrite Q4, Q5.
    transitivity (im (P 2%nat u q) - im (Cscale 2 (e q * esd' u q) + e q * e q * sdds u q)%C); [unfold esd', sdds, esd, sddval; cbn; ring|].
    rewrite Q6. pose proof (dalph_real a La HLa Hreal q) as R0. change (D 5%nat u q) with (field 2 L (sd (u + alph a La q)%R) q). unfold Ess, sds. fold (w q). unfold Csub. cbn [im Cadd Copp]. rewrite R0. cbn. ring.
Qed.
(** The quantity psi2 + sigma d(conj sigma)/du + eth^2 conj(sigma), the integrand of the Moreschi supermomentum *)
Lemma flat_moreschi : forall u q, qnorm2 q = 1 ->
  (flat a La L b 2 u q + flat a La L b 5 u q * Conj (D 5%nat u q) + Ess u q = P 2%nat u q + P 5%nat u q * Conj (D 5%nat u q) + ess L b (u + alph a La q) q - dalph a La q)%C.
Proof.
  intros u q Hq. unfold flat; cbv zeta; fold e w. pose proof (point_psi3 L b sd sdd sddd HB (u + alph a La q) q) as Q4. pose proof (point_psi4 L b sd sdd sddd HL HB (u + alph a La q) q) as Q5.
  change (val L b 2 (u + alph a La q) q) with (P 2%nat u q). change (val L b 5 (u + alph a La q) q) with (P 5%nat u q). rewrite Q4, Q5. unfold Ess, esd', sds, sdds, esd, sddval.
  change (D 5%nat u q) with (field 2 L (sd (u + alph a La q)%R) q). cx.
Qed.
Lemma flat_moreschi_any : forall u q Sd Es' Ess', qnorm2 q = 1 -> has_derivative (fun x => flat a La L b 5 x q) u Sd ->
  (forall r, qnorm2 r = 1 -> ethG (fun x => Conj (flat a La L b 5 u x)) r (Es' r)) -> ethG Es' q Ess' ->
  (flat a La L b 2 u q + flat a La L b 5 u q * Conj Sd + Ess' = P 2%nat u q + P 5%nat u q * Conj (D 5%nat u q) + ess L b (u + alph a La q) q - dalph a La q)%C.
Proof.
  intros u q Sd Es' Ess' Hq H1 H2 H3. rewrite <- flat_moreschi by exact Hq.
  assert (E1 : Sd = D 5%nat u q).
  { apply (hd_unique _ _ _ _ H1). eapply hd_eq; [apply (hd_add (fun x => P 5%nat x q) (fun _ => - w q)%C); [apply P_hd; lia|apply hd_const]|ring]. }
  assert (E2 : Ess' = Ess u q).
  { apply (eg_unique (Es u) q); [|apply Ess_ok]. apply (eg_ext Es'); [exact Hq| |exact H3]. intros r Hr. apply (eg_unique _ _ _ _ (H2 r Hr)). apply Es_ok. exact Hr. }
  rewrite E1, E2. reflexivity.
Qed.
End Gauge.

(** The fields computed for a supertranslation and a rotation of a solution are a solution. *)
Theorem C76_transform : forall p a La L b sd sdd sddd, qnorm2 p = 1 -> (0 <= La)%Z -> is_real a La -> (0 <= L)%Z -> bondi_solution L b sd sdd sddd ->
  bondi_gauge (moved p a La L b).
Proof.
  intros p a La L b sd sdd sddd Hp HLa HR HL HB.
  apply (gauge_ext (fun f u q => flat a La L b f u (qmul p q))); [intros; symmetry; apply moved_flat; assumption|].
  apply gauge_left; [exact Hp|]. exact (flat_gauge a La L b sd sdd sddd HLa HR HL HB).
Qed.
(** The integrand of the Moreschi supermomentum is that of the data at the same point of null infinity less eth^2 ethbar^2 alpha. *)
Theorem C76_supermomentum : forall p a La L b sd sdd sddd u q Sd Es Ess, qnorm2 p = 1 -> (0 <= La)%Z -> is_real a La -> (0 <= L)%Z -> bondi_solution L b sd sdd sddd ->
  qnorm2 q = 1 -> has_derivative (fun x => moved p a La L b 5 x q) u Sd ->
  (forall r, qnorm2 r = 1 -> ethG (fun x => Conj (moved p a La L b 5 u x)) r (Es r)) -> ethG Es q Ess ->
  let r := qmul p q in let t := u + re (field 0 La (mode_at a) r) in
  (moved p a La L b 2 u q + moved p a La L b 5 u q * Conj Sd + Ess =
   field 0 L (b_psi2 (b t)) r + field 2 L (b_sigma (b t)) r * Conj (field 2 L (sd t) r) + field 0 L (eth_GHP (-1) (eth_GHP (-2) (fbar 2 (b_sigma (b t))))) r
   - field 0 La (eth_GHP (-1) (eth_GHP (-2) (ethbar_GHP (-1) (ethbar_GHP 0 (mode_at a))))) r)%C.
Proof.
  intros p a La L b sd sdd sddd u q Sd Es Ess Hp HLa HR HL HB Hq H1 H2 H3 r t. assert (Hr : qnorm2 r = 1) by (unfold r; rewrite qnorm2_mul, Hp, Hq; ring).
  assert (Hpi : qnorm2 (qconj p) = 1) by (rewrite qnorm2_conj; exact Hp).
  assert (INV : forall x, qmul p (qmul (qconj p) x) = x) by (intros x; rewrite qmul_assoc, qmul_conj_r, Hp; destruct x; apply quat_eq; cbn; ring).
  assert (INV' : forall x, qmul (qconj p) (qmul p x) = x) by (intros x; rewrite qmul_assoc, qmul_conj_l, Hp; destruct x; apply quat_eq; cbn; ring).
  rewrite !moved_flat by lia. fold r.
  assert (X := flat_moreschi_any a La L b sd sdd sddd HLa HR HL HB u r Sd (fun x => Es (qmul (qconj p) x)) Ess Hr). cbv zeta in X.
  rewrite X.
  - unfold val, dval, ess, dalph. cbn [spin_of bfield nth dmode]. change (alph a La r) with (re (field 0 La (mode_at a) r)). fold t.
    assert (ED : field 0 La (fun l m => Cscale (D_value l) (mode_at a l m)) r = field 0 La (eth_GHP (-1) (eth_GHP (-2) (ethbar_GHP (-1) (ethbar_GHP 0 (mode_at a))))) r).
    { apply field_ext. intros l m Hl Hm. symmetry. apply (C37_is_eth2_ethbar2 (mode_at a)). lia. }
    rewrite ED. reflexivity.
  - apply (hd_ext (fun x => moved p a La L b 5 x q)); [intros x; apply moved_flat; lia|exact H1].
  - intros y Hy. specialize (H2 (qmul (qconj p) y)). rewrite qnorm2_mul, Hpi, Hy in H2. specialize (H2 ltac:(ring)).
    apply (eg_ext (fun x => (fun z => Conj (moved p a La L b 5 u z)) (qmul (qconj p) x))); [exact Hy| |exact (eg_left (qconj p) (fun z => Conj (moved p a La L b 5 u z)) y _ H2)].
    intros z Hz. cbv beta. rewrite moved_flat by lia. rewrite INV. reflexivity.
  - apply (eg_left (qconj p) Es). unfold r. rewrite INV'. exact H3.
Qed.
