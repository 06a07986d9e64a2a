(** C36: the charges are the ell <= 1 projections of pointwise products of the fields. *)
From Coq Require Import String Ascii ZArith Reals List Bool Lia Lra Permutation.
From Verif Require Import Common Cplx Times_Model Times_Proofs Quat Kwargs_Model ABD_Model ABD_Proofs ABDBalance_Proofs.
Import ListNotations.
Open Scope R_scope.

(** * Specification *)
Definition upto (L : Z) (f : modes) : Prop := forall l m, (l < 0 \/ L < l \/ m < - l \/ l < m)%Z -> f l m = C0.
(** [E s f x]: the value at the point [x] of the function of spin weight [s] with modes [f]; the table [K] is the one that
    multiplies functions: the untruncated product (ell up to 2 L) takes the product of the values. *)
Record evaluation {X : Type} (K : Z -> Z -> Z -> Z -> Z -> Z -> Z -> R) (L : Z) (E : Z -> modes -> X -> C) : Prop := {
  ev_add : forall s f g x, E s (fadd f g) x = (E s f x + E s g x)%C;
  ev_scale : forall s k f x, E s (fscale k f) x = Cscale k (E s f x);
  ev_muli : forall s f x, E s (fmuli f) x = (Ci * E s f x)%C;
  ev_bar : forall s f x, E (- s)%Z (fbar s f) x = Conj (E s f x);
  ev_ext : forall s f g x, (forall l m, f l m = g l m) -> E s f x = E s g x;
  ev_mul : forall a b f g x, upto L f -> upto L g ->
     E (a + b)%Z (multiply K L (2 * L) a b f g) x = (E a f x * E b g x)%C }.

Lemma upto_bar : forall L s f, upto L f -> upto L (fbar s f).
Proof. intros L s f H l m Hl. unfold fbar. rewrite H by lia. cx_lin. Qed.
Lemma upto_eth : forall L s f, upto L f -> upto L (eth_GHP s f).
Proof. intros L s f H l m Hl. unfold eth_GHP, eth, ladder, fscale. rewrite H by lia. destruct (_ <? _)%Z; cx_lin. Qed.

Section Pointwise.
  Context {X : Type}.
  Variable K : Z -> Z -> Z -> Z -> Z -> Z -> Z -> R.
  Variable L : Z.
  Variable E : Z -> modes -> X -> C.
  Hypothesis HE : evaluation K L E.
  Hypothesis HL : (1 <= L)%Z.
  Variable b : bondi.
  Variable sbd : modes.
  Hypothesis Hs : upto L (b_sigma b).
  Hypothesis Hd : upto L sbd.

  Lemma ev_opp : forall s f x, E s (fopp f) x = (- E s f x)%C.
  Proof.
    intros s f x. rewrite (ev_ext _ _ _ HE s (fopp f) (fscale (-1) f)) by (intros; unfold fopp, fscale; cx_lin).
    rewrite (ev_scale _ _ _ HE). cx_lin.
  Qed.
  Lemma ev_real : forall f x, E 0 (freal f) x = RtoC (re (E 0 f x)).
  Proof.
    intros f x. unfold freal. rewrite (ev_scale _ _ _ HE), (ev_add _ _ _ HE).
    rewrite (ev_bar _ _ _ HE 0 f x : E 0 (fbar 0 f) x = _). cx_lin.
  Qed.

  (** The four-momentum: - Re (psi2 + sigma conj(sigma)'). *)
  Theorem C36_momentum_pointwise : forall dflt, exists F,
    (forall x, E 0 F x = RtoC (- re (E 0 (b_psi2 b) x + E 2 (b_sigma b) x * E (-2) sbd x)%C))
    /\ bondi_four_momentum K L b sbd dflt = charge_vector F.
  Proof.
    intros dflt. exists (fopp (freal (fadd (b_psi2 b) (multiply K L (2 * L) 2 (-2) (b_sigma b) sbd)))). split.
    - intros x. rewrite ev_opp, ev_real, (ev_add _ _ _ HE).
      rewrite (ev_mul _ _ _ HE 2 (-2) (b_sigma b) sbd x Hs Hd : E 0 _ x = _). cx_lin.
    - unfold bondi_four_momentum, mass_aspect. change (1 =? 0)%Z with false. cbv iota.
      rewrite !charge_opp, !charge_real. erewrite charge_ext; [reflexivity|]. intros l m Hl. unfold fadd, truncate_ell.
      destruct (Z.leb_spec l 1); [|lia]. rewrite (multiply_low K L 1 (2 * L)) by lia. reflexivity.
  Qed.

  (** The angular momentum: i (psi1 + sigma eth conj(sigma)). *)
  Theorem C36_angular_pointwise : exists F,
    (forall x, E 1 F x = (Ci * (E 1 (b_psi1 b) x + E 2 (b_sigma b) x * E (-1) (eth_GHP (-2) (fbar 2 (b_sigma b))) x))%C)
    /\ bondi_angular_momentum K L b = snd (charge_vector F).
  Proof.
    exists (fmuli (fadd (b_psi1 b) (multiply K L (2 * L) 2 (-1) (b_sigma b) (eth_GHP (-2) (fbar 2 (b_sigma b)))))). split.
    - intros x. rewrite (ev_muli _ _ _ HE), (ev_add _ _ _ HE).
      rewrite (ev_mul _ _ _ HE 2 (-1) (b_sigma b) _ x Hs (upto_eth _ _ _ (upto_bar _ _ _ Hs)) : E 1 _ x = _). reflexivity.
    - unfold bondi_angular_momentum, angular_aspect. f_equal. apply charge_ext. intros l m Hl. unfold fmuli, fadd, truncate_ell.
      destruct (Z.leb_spec l 1); [|lia]. rewrite (multiply_low K L 1 (2 * L)) by lia. reflexivity.
  Qed.

  (** The centre-of-mass charge: - (psi1 + sigma eth conj(sigma) + 1/2 eth |sigma|^2). *)
  Theorem C36_CoM_pointwise : exists F S,
    (forall x, E 0 S x = RtoC (norm2 (E 2 (b_sigma b) x)))
    /\ (forall x, E 1 F x = (- (E 1 (b_psi1 b) x + E 2 (b_sigma b) x * E (-1) (eth_GHP (-2) (fbar 2 (b_sigma b))) x
                                 + Cscale (/ 2) (E 1 (eth_GHP 0 S) x)))%C)
    /\ bondi_CoM_charge K L b = snd (charge_vector F).
  Proof.
    set (S := multiply K L (2 * L) 2 (-2) (b_sigma b) (fbar 2 (b_sigma b))).
    exists (fopp (fadd (fadd (b_psi1 b) (multiply K L (2 * L) 2 (-1) (b_sigma b) (eth_GHP (-2) (fbar 2 (b_sigma b)))))
                       (fscale (/ 2) (eth_GHP 0 S)))), S. split; [|split].
    - intros x. unfold S. rewrite (ev_mul _ _ _ HE 2 (-2) (b_sigma b) _ x Hs (upto_bar _ _ _ Hs) : E 0 _ x = _).
      rewrite (ev_bar _ _ _ HE 2 (b_sigma b) x : E (-2) _ x = _). unfold norm2. cx_lin.
    - intros x. rewrite ev_opp, !(ev_add _ _ _ HE), (ev_scale _ _ _ HE).
      rewrite (ev_mul _ _ _ HE 2 (-1) (b_sigma b) _ x Hs (upto_eth _ _ _ (upto_bar _ _ _ Hs)) : E 1 _ x = _). reflexivity.
    - unfold bondi_CoM_charge, com_part. f_equal. apply charge_ext. intros l m Hl. unfold fopp, fadd, fscale, truncate_ell.
      destruct (Z.leb_spec l 1); [|lia]. rewrite (multiply_low K L 1 (2 * L)) by lia.
      assert (ES : eth_GHP 0 (multiply K L 1 2 (-2) (b_sigma b) (fbar 2 (b_sigma b))) l m = eth_GHP 0 S l m).
      { apply eth_ext. apply multiply_low; lia. }
      rewrite ES. replace (1 / 2) with (/ 2) by field. reflexivity.
  Qed.

  (** The supermomenta: psi2 + sigma conj(sigma)' plus the second derivatives of the shear; modes up to ell_max are exact. *)
  Theorem C35_pointwise : forall d, exists F,
    (forall x, E 0 F x =
       (E 0 (b_psi2 b) x + E 2 (b_sigma b) x * E (-2) sbd x
        + match d with
          | BondiSachs => C0
          | Moreschi => E 0 (eth_GHP (-1) (eth_GHP (-2) (fbar 2 (b_sigma b)))) x
          | Geroch => Cscale (/ 2) (E 0 (eth_GHP (-1) (eth_GHP (-2) (fbar 2 (b_sigma b)))) x - E 0 (ethbar_GHP 1 (ethbar_GHP 2 (b_sigma b))) x)
          | GerochWinicour => - E 0 (ethbar_GHP 1 (ethbar_GHP 2 (b_sigma b))) x
          end)%C)
    /\ forall l m, (l <= L)%Z -> supermomentum_aspect K L b sbd d l m = F l m.
  Proof.
    intros d. set (base := fadd (b_psi2 b) (multiply K L (2 * L) 2 (-2) (b_sigma b) sbd)).
    set (e2 := eth_GHP (-1) (eth_GHP (-2) (fbar 2 (b_sigma b)))). set (e2b := ethbar_GHP 1 (ethbar_GHP 2 (b_sigma b))).
    assert (B : forall x, E 0 base x = (E 0 (b_psi2 b) x + E 2 (b_sigma b) x * E (-2) sbd x)%C).
    { intros x. unfold base. rewrite (ev_add _ _ _ HE). rewrite (ev_mul _ _ _ HE 2 (-2) (b_sigma b) sbd x Hs Hd : E 0 _ x = _). reflexivity. }
    exists (match d with BondiSachs => base | Moreschi => fadd base e2
                 | Geroch => fadd base (fscale (/ 2) (fadd e2 (fopp e2b))) | GerochWinicour => fadd base (fopp e2b) end).
    split.
    - intros x. destruct d; rewrite ?(ev_add _ _ _ HE), ?(ev_scale _ _ _ HE), ?(ev_add _ _ _ HE), ?ev_opp, B; cx_lin.
    - intros l m Hl. unfold supermomentum_aspect, grid_multiply. cbv zeta. fold e2 e2b.
      assert (BB : fadd (b_psi2 b) (multiply K L L 2 (-2) (b_sigma b) sbd) l m = base l m).
      { unfold base, fadd. rewrite (multiply_low K L L (2 * L)) by lia. reflexivity. }
      destruct d; unfold fadd, fsub, fscale, fopp in *; rewrite ?BB; cx_lin.
  Qed.
End Pointwise.

(** * A family of functions closed under multiplication: r^ell e^(i m x), with even spin weights only *)
Definition csign (m : Z) : R := if (m <? 0)%Z then sgn m else 1.
Definition cis (t : R) : C := mkC (cos t) (sin t).
Definition Yd (x : R * R) (p : Z * Z) : C := Cscale (csign (snd p) * fst x ^ Z.to_nat (fst p)) (cis (IZR (snd p) * snd x)).
Definition Ed (L s : Z) (f : modes) (x : R * R) : C :=
  if Z.even s then csum (fun p => (f (fst p) (snd p) * Yd x p)%C) (LMs (2 * L)) else C0.
Definition Kd (a l1 m1 b l2 m2 l : Z) : R :=
  if Z.even a && Z.even b && (l =? l1 + l2)%Z then csign m1 * csign m2 * csign (m1 + m2) else 0.

Lemma csign_sq : forall m, csign m * csign m = 1.
Proof. intros m. unfold csign. destruct (m <? 0)%Z; [apply sgn_sq|ring]. Qed.
Lemma csign_flip : forall m, sgn m * csign (- m) = csign m.
Proof.
  intros m. unfold csign. destruct (Z.ltb_spec m 0), (Z.ltb_spec (- m) 0); try lia.
  - ring. - rewrite sgn_opp. apply sgn_sq. - replace m with 0%Z by lia. cbn. ring.
Qed.
Lemma cis_add : forall a b, cis (a + b) = (cis a * cis b)%C.
Proof. intros. unfold cis. rewrite cos_plus, sin_plus. apply C_eq; cbn; ring. Qed.
Lemma Yd_mul : forall x l1 m1 l2 m2, (0 <= l1)%Z -> (0 <= l2)%Z ->
  Cscale (csign m1 * csign m2 * csign (m1 + m2)) (Yd x (l1 + l2, m1 + m2)%Z) = (Yd x (l1, m1) * Yd x (l2, m2))%C.
Proof.
  intros x l1 m1 l2 m2 H1 H2. unfold Yd. cbn [fst snd]. rewrite plus_IZR, Rmult_plus_distr_r, cis_add, Z2Nat.inj_add, pow_add by lia.
  pose proof (csign_sq (m1 + m2)) as Q. destruct (cis (IZR m1 * snd x)) as [p q], (cis (IZR m2 * snd x)) as [r s].
  apply C_eq; cbn [re im Cscale Cmul]; ring [Q].
Qed.
Lemma LMs_split : forall L, (0 <= L)%Z ->
  LMs (2 * L) = (LMs L ++ flat_map (fun l => map (pair l) (zrange (- l) (l + 1))) (zrange (L + 1) (2 * L + 1)))%list.
Proof. intros L H. unfold LMs. rewrite (zrange_split 0 (L + 1) (2 * L + 1)) by lia. apply flat_map_app. Qed.
Lemma sum_upto : forall L f (g : Z * Z -> C), (0 <= L)%Z -> upto L f ->
  csum (fun p => (f (fst p) (snd p) * g p)%C) (LMs (2 * L)) = csum (fun p => (f (fst p) (snd p) * g p)%C) (LMs L).
Proof.
  intros L f g HL H. rewrite LMs_split, csum_app by exact HL.
  rewrite (csum_const0 _ (flat_map _ _)); [ring|]. intros [l m] I. apply in_flat_map in I. destruct I as (k & I & J).
  apply zrange_In in I. apply in_map_iff in J. destruct J as (j & E & _). injection E as -> ->. cbn [fst snd]. rewrite H by lia. ring.
Qed.
Lemma csum_times : forall A B (f : A -> C) (g : B -> C) la lb,
  (csum f la * csum g lb)%C = csum (fun a => csum (fun b => (f a * g b)%C) lb) la.
Proof.
  intros. induction la as [|a la IH]; cbn [csum]; [ring|]. rewrite <- IH, csum_scale. ring.
Qed.

Example C36_pointwise_case : forall L, (0 <= L)%Z -> evaluation Kd L (Ed L).
Proof.
  intros L HL. constructor.
  - intros s f g x. unfold Ed. destruct (Z.even s); [|ring]. rewrite <- csum_add. apply csum_ext. intros p _. unfold fadd. ring.
  - intros s k f x. unfold Ed. destruct (Z.even s); [|cx_lin]. rewrite <- csum_Cscale. apply csum_ext. intros p _. unfold fscale. cx_lin.
  - intros s f x. unfold Ed. destruct (Z.even s); [|ring]. rewrite <- csum_scale. apply csum_ext. intros p _. unfold fmuli. ring.
  - intros s f x. unfold Ed. rewrite Z.even_opp. destruct (Z.even s) eqn:Es; [|cx_lin].
    rewrite csum_conj. rewrite (LMs_flip (2 * L)). apply csum_ext. intros [l m] _. unfold flipm, fbar, Yd. cbn [fst snd].
    rewrite Z.opp_involutive, sgn_add, sgn_opp. replace (sgn s) with 1 by (unfold sgn; rewrite Es; reflexivity).
    pose proof (csign_flip m) as F. rewrite opp_IZR, Ropp_mult_distr_l_reverse. unfold cis. rewrite cos_neg, sin_neg.
    rewrite <- F. destruct (f l m) as [p q]. apply C_eq; cbn [re im Cscale Cmul Conj]; ring.
  - intros s f g x H. unfold Ed. destruct (Z.even s); [|reflexivity]. apply csum_ext. intros p _. rewrite H. reflexivity.
  - intros a b f g x Hf Hg. unfold Ed. rewrite Z.even_add.
    destruct (Z.even a) eqn:Ea, (Z.even b) eqn:Eb; cbn [Bool.eqb]; try ring.
    2: { rewrite csum_const0; [ring|]. intros p _. unfold multiply, Kd. rewrite Ea, Eb. cbn [andb].
         destruct (_ <=? _)%Z; [|ring]. rewrite csum_const0; [ring|]. intros p' _. apply csum_const0. intros q' _.
         destruct (_ =? _)%Z; [cx_lin|reflexivity]. }
    rewrite (sum_upto L f), (sum_upto L g) by assumption. rewrite csum_times.
    rewrite (csum_ext _ (fun p => csum (fun p' => csum (fun q' =>
       (if (snd p' + snd q' =? snd p)%Z then Cscale (Kd a (fst p') (snd p') b (fst q') (snd q') (fst p))
            (f (fst p') (snd p') * g (fst q') (snd q'))%C else C0) * Yd x p)%C (LMs L)) (LMs L))).
    2: { intros [l m] Ip. apply LMs_In in Ip. unfold multiply. cbn [fst snd]. destruct (Z.leb_spec l (2 * L)); [|lia].
         match goal with |- (?s * ?y)%C = _ => replace (s * y)%C with (y * s)%C by ring end. rewrite <- csum_scale. apply csum_ext. intros p' _. rewrite <- csum_scale. apply csum_ext. intros q' _. ring. }
    rewrite csum_swap. apply csum_ext. intros [l1 m1] I1. apply LMs_In in I1.
    rewrite csum_swap. apply csum_ext. intros [l2 m2] I2. apply LMs_In in I2. cbn [fst snd].
    rewrite (csum_pick _ _ (LMs (2 * L)) (l1 + l2, m1 + m2)%Z).
    + cbn [fst snd]. rewrite Z.eqb_refl. unfold Kd. rewrite Ea, Eb, Z.eqb_refl. cbn [andb].
      transitivity (f l1 m1 * g l2 m2 * Cscale (csign m1 * csign m2 * csign (m1 + m2)) (Yd x (l1 + l2, m1 + m2)%Z))%C; [cx_lin|].
      rewrite Yd_mul by lia. ring.
    + apply LMs_NoDup.
    + apply LMs_In. lia.
    + intros [l m] _ Ne. cbn [fst snd]. destruct (Z.eqb_spec (m1 + m2) m) as [E|]; [subst m|ring].
      unfold Kd. rewrite Ea, Eb. cbn [andb]. destruct (Z.eqb_spec l (l1 + l2)) as [->|]; [congruence|]. cx_lin.
Qed.
