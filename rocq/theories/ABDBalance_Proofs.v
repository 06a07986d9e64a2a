(** C57: balance laws of the Bondi charges, for every solution of the Bondi equations. *)
From Coq Require Import String Ascii ZArith Reals List Bool Lia Lra Permutation.
From Verif Require Import Common Cplx Times_Model Times_Proofs Quat Kwargs_Model ABD_Model ABD_Proofs.
Import ListNotations.
Open Scope R_scope.

(** * Specification *)
(** Rate of change of a scalar and a vector. *)
Definition rate3 (f : R -> vec3) (u : R) (g : vec3) : Prop :=
  derivable_pt_lim (fun x => fst (fst (f x))) u (fst (fst g))
  /\ derivable_pt_lim (fun x => snd (fst (f x))) u (snd (fst g))
  /\ derivable_pt_lim (fun x => snd (f x)) u (snd g).
Definition rate4 (f : R -> R * vec3) (u : R) (g : R * vec3) : Prop :=
  derivable_pt_lim (fun x => fst (f x)) u (fst g) /\ rate3 (fun x => snd (f x)) u (snd g).
(** The mass aspect is real (constraint_mass_aspect). *)
Definition real_mass_aspect (K : Z -> Z -> Z -> Z -> Z -> Z -> Z -> R) (L : Z) (b : bondi) (sd : modes) : Prop :=
  forall l m, fimag (b_psi2 b) l m
    = (- fimag (fadd (eth_GHP (-1) (eth_GHP (-2) (fbar 2 (b_sigma b)))) (multiply K L L 2 (-2) (b_sigma b) (fbar 2 sd))) l m)%C.
(** The product with the constant function: only ell = ell', m = -m' contribute to ell = 0, with weight (-1)^m / sqrt(4 pi);
    there is no harmonic of spin weight 2 below ell = 2 (Product_Proofs shows that the harmonics themselves have this table). *)
Definition K_orthogonal (K : Z -> Z -> Z -> Z -> Z -> Z -> Z -> R) : Prop :=
  forall l1 l2 m, K 2%Z l1 m (-2)%Z l2 (- m)%Z 0%Z = if ((l1 =? l2) && (2 <=? l1) && (Z.abs m <=? l1))%Z then sgn m / sqrt (4 * PI) else 0.
(** The squared size of a field of spin weight 2, by its modes. *)
Definition norm_spin2 (L : Z) (f : modes) : R := rsum (fun p => if (2 <=? fst p)%Z then norm2 (f (fst p) (snd p)) else 0) (LMs L).

(** * Derivatives *)
Lemma hd_mult : forall f g u d e, has_derivative f u d -> has_derivative g u e ->
  has_derivative (fun x => (f x * g x)%C) u (d * g u + f u * e)%C.
Proof.
  intros f g u d e [A B] [A' B']. split; cbn.
  - replace (re d * re (g u) - im d * im (g u) + (re (f u) * re e - im (f u) * im e))
      with ((re d * re (g u) + re (f u) * re e) - (im d * im (g u) + im (f u) * im e)) by ring.
    apply (derivable_pt_lim_minus (fun x => re (f x) * re (g x)) (fun x => im (f x) * im (g x)));
      apply (derivable_pt_lim_mult (fun x => _) (fun x => _)); assumption.
  - replace (re d * im (g u) + im d * re (g u) + (re (f u) * im e + im (f u) * re e))
      with ((re d * im (g u) + re (f u) * im e) + (im d * re (g u) + im (f u) * re e)) by ring.
    apply (derivable_pt_lim_plus (fun x => re (f x) * im (g x)) (fun x => im (f x) * re (g x)));
      apply (derivable_pt_lim_mult (fun x => _) (fun x => _)); assumption.
Qed.
Lemma hd_cscale : forall k f u d, has_derivative f u d -> has_derivative (fun x => Cscale k (f x)) u (Cscale k d).
Proof. intros k f u d [A B]. split; cbn; apply (derivable_pt_lim_scal (fun x => _)); assumption. Qed.
Lemma hd_conj : forall f u d, has_derivative f u d -> has_derivative (fun x => Conj (f x)) u (Conj d).
Proof. intros f u d [A B]. split; cbn; [exact A|apply (derivable_pt_lim_opp (fun x => _)); exact B]. Qed.
Lemma hd_opp : forall f u d, has_derivative f u d -> has_derivative (fun x => (- f x)%C) u (- d)%C.
Proof. intros f u d [A B]. split; cbn; apply (derivable_pt_lim_opp (fun x => _)); assumption. Qed.
Lemma hd_csum : forall A (f : A -> R -> C) (d : A -> C) u l, (forall a, has_derivative (f a) u (d a)) ->
  has_derivative (fun x => csum (fun a => f a x) l) u (csum d l).
Proof.
  intros A f d u l H. induction l as [|a l IH]; [exact (hd_const C0 u)|].
  change (fun x => csum (fun a0 => f a0 x) (a :: l)) with (fun x => (f a x + csum (fun a0 => f a0 x) l)%C).
  change (csum d (a :: l)) with (d a + csum d l)%C. apply hd_add; auto.
Qed.

(** A time-dependent field and its rate. *)
Definition field_rate (f : R -> modes) (u : R) (d : modes) : Prop := forall l m, has_derivative (fun x => f x l m) u (d l m).
Lemma fr_multiply : forall K L Lo a b f g u d e, field_rate f u d -> field_rate g u e ->
  field_rate (fun x => multiply K L Lo a b (f x) (g x)) u
             (fadd (multiply K L Lo a b d (g u)) (multiply K L Lo a b (f u) e)).
Proof.
  intros K L Lo a b f g u d e Hf Hg l m. unfold fadd, multiply. destruct (l <=? Lo)%Z.
  2: { eapply hd_eq; [apply hd_const|ring]. }
  rewrite <- csum_add. apply hd_csum. intros p. rewrite <- csum_add. apply hd_csum. intros q.
  destruct (_ =? m)%Z; [|eapply hd_eq; [apply hd_const|ring]].
  eapply hd_eq; [apply hd_cscale; apply hd_mult; [apply Hf|apply Hg]|]. cx.
Qed.
Lemma fr_eth : forall s f u d, field_rate f u d -> field_rate (fun x => eth_GHP s (f x)) u (eth_GHP s d).
Proof.
  intros s f u d H l m. unfold eth_GHP, eth, ladder, fscale. apply hd_cscale. destruct (_ <? _)%Z; [apply hd_const|].
  apply hd_cscale, H.
Qed.
Lemma fr_bar : forall s f u d, field_rate f u d -> field_rate (fun x => fbar s (f x)) u (fbar s d).
Proof. intros s f u d H l m. unfold fbar. apply hd_cscale, hd_conj, H. Qed.
Lemma fr_add : forall f g u d e, field_rate f u d -> field_rate g u e -> field_rate (fun x => fadd (f x) (g x)) u (fadd d e).
Proof. intros f g u d e Hf Hg l m. apply hd_add; [apply Hf|apply Hg]. Qed.
Lemma fr_opp : forall f u d, field_rate f u d -> field_rate (fun x => fopp (f x)) u (fopp d).
Proof. intros f u d H l m. apply hd_opp, H. Qed.
Lemma fr_sub : forall f g u d e, field_rate f u d -> field_rate g u e -> field_rate (fun x => fsub (f x) (g x)) u (fsub d e).
Proof. intros f g u d e Hf Hg l m. destruct (Hf l m) as [A B]. destruct (Hg l m) as [A' B']. split; apply (derivable_pt_lim_minus (fun x => _) (fun x => _)); assumption. Qed.
Lemma fr_scale : forall k f u d, field_rate f u d -> field_rate (fun x => fscale k (f x)) u (fscale k d).
Proof. intros k f u d H l m. apply hd_cscale, H. Qed.
Lemma fr_time : forall f u d, field_rate f u d -> field_rate (fun x => fscale x (f x)) u (fadd (f u) (fscale u d)).
Proof. intros f u d H l m. apply hd_scale, H. Qed.
Lemma fr_real : forall f u d, field_rate f u d -> field_rate (fun x => freal (f x)) u (freal d).
Proof. intros f u d H. unfold freal. apply fr_scale. apply fr_add; [exact H|apply fr_bar, H]. Qed.
Lemma fr_muli : forall f u d, field_rate f u d -> field_rate (fun x => fmuli (f x)) u (fmuli d).
Proof. intros f u d H l m. unfold fmuli. eapply hd_eq; [apply (hd_mult (fun _ => Ci) (fun x => f x l m)); [apply hd_const|apply H]|]. cbv beta. cx. Qed.
Lemma fr_truncate : forall k f u d, field_rate f u d -> field_rate (fun x => truncate_ell k (f x)) u (truncate_ell k d).
Proof. intros k f u d H l m. unfold truncate_ell. destruct (l <=? k)%Z; [apply H|apply hd_const]. Qed.

Lemma rate_charge : forall F u G, field_rate F u G -> rate4 (fun x => charge_vector (F x)) u (charge_vector G).
Proof.
  intros F u G H. unfold charge_vector. cbv zeta.
  assert (Sc : forall (f : R -> R) (k d : R), derivable_pt_lim f u d -> derivable_pt_lim (fun x => f x / k) u (d / k)).
  { intros f k d D. unfold Rdiv. replace (d * / k) with (/ k * d) by ring.
    apply (derivable_pt_lim_ext (fun x => / k * f x)); [intros; ring|]. apply (derivable_pt_lim_scal f). exact D. }
  destruct (H 0%Z 0%Z) as [A0 _]. destruct (H 1%Z (-1)%Z) as [Am Bm]. destruct (H 1%Z 0%Z) as [Az _]. destruct (H 1%Z 1%Z) as [Ap Bp].
  split; [|split; [|split]]; cbn [fst snd re im Cadd Csub].
  - apply Sc. exact A0.
  - apply Sc, Sc. apply (derivable_pt_lim_minus (fun x => re (F x 1%Z (-1)%Z)) (fun x => re (F x 1%Z 1%Z))); assumption.
  - apply Sc, Sc. apply (derivable_pt_lim_plus (fun x => im (F x 1%Z (-1)%Z)) (fun x => im (F x 1%Z 1%Z))); assumption.
  - apply Sc, Sc. exact Az.
Qed.

(** * Lemmas on the fields *)
Lemma rate3_eq : forall f u g h, rate3 f u g -> g = h -> rate3 f u h.
Proof. intros; subst; assumption. Qed.
Lemma rate4_eq : forall f u g h, rate4 f u g -> g = h -> rate4 f u h.
Proof. intros; subst; assumption. Qed.
Lemma multiply_low : forall K L Lo Lo' a b f g l m, (l <= Lo)%Z -> (l <= Lo')%Z ->
  multiply K L Lo a b f g l m = multiply K L Lo' a b f g l m.
Proof. intros. unfold multiply. destruct (Z.leb_spec l Lo); [|lia]. destruct (Z.leb_spec l Lo'); [reflexivity|lia]. Qed.
Lemma multiply_opp_r : forall K L Lo a b f g l m, multiply K L Lo a b f (fopp g) l m = (- multiply K L Lo a b f g l m)%C.
Proof.
  intros. rewrite (multiply_ext K L Lo a b f f (fopp g) (fscale (-1) g)) by (try reflexivity; intros; unfold fopp, fscale; cx_lin).
  rewrite multiply_scale_r. cx_lin.
Qed.
Lemma eth_opp : forall s f l m, eth_GHP s (fopp f) l m = (- eth_GHP s f l m)%C.
Proof. intros. rewrite (eth_ext s (fopp f) (fscale (-1) f)) by (unfold fopp, fscale; cx_lin). rewrite eth_scale. cx_lin. Qed.
Lemma charge_opp : forall f, charge_vector (fopp f) = (- fst (charge_vector f), v3scale (-1) (snd (charge_vector f))).
Proof.
  intros f. rewrite (charge_ext (fopp f) (fscale (-1) f)) by (intros; unfold fopp, fscale; cx_lin).
  rewrite charge_scale. f_equal. ring.
Qed.
Lemma charge_muli : forall f, charge_vector (fmuli f) = charge_vector (fopp (fimag f)).
Proof.
  intros f. rewrite <- charge_real. apply charge_ext. intros l m _. unfold freal, fimag, fopp, fscale, fadd.
  replace (fbar 0 (fmuli f) l m) with (- (Ci * fbar 0 f l m))%C by (unfold fbar, fmuli; cx_lin). unfold fmuli. cx_lin.
Qed.
Lemma vec_eq : forall a b : vec3, fst (fst a) = fst (fst b) -> snd (fst a) = snd (fst b) -> snd a = snd b -> a = b.
Proof. intros [[x y] z] [[u v] w]; cbn; intros; subst; reflexivity. Qed.
Lemma v3add_comp : forall a b, v3add a b = ((fst (fst a) + fst (fst b), snd (fst a) + snd (fst b)), snd a + snd b).
Proof. intros [[x y] z] [[u v] w]. reflexivity. Qed.
Lemma v3scale_comp : forall k a, v3scale k a = ((k * fst (fst a), k * snd (fst a)), k * snd a).
Proof. intros k [[x y] z]. reflexivity. Qed.

Section Balance.
  Variable K : Z -> Z -> Z -> Z -> Z -> Z -> Z -> R.
  Variable L : Z.
  Hypothesis HL : (1 <= L)%Z.
  Variable b : R -> bondi.
  Variables sd sdd : R -> modes.
  Hypothesis EQ : bondi_equations K L b sd sdd.
  Notation prod := (multiply K L 1).

  Lemma psi2_rate : forall u l m, (l <= 1)%Z ->
    has_derivative (fun x => b_psi2 (b x) l m) u (- prod 2 (-2) (b_sigma (b u)) (fbar 2 (sdd u)) l m)%C.
  Proof.
    intros u l m Hl. eapply hd_eq; [apply (eq_bianchi_2 _ _ _ _ _ EQ)|].
    rewrite (eth_ext (-1) (b_psi3 (b u)) (fopp (eth_GHP (-2) (fbar 2 (sd u))))) by apply (eq_psi3 _ _ _ _ _ EQ).
    rewrite eth_opp, eth2_low by lia.
    rewrite (multiply_ext K L L 2 (-2) (b_sigma (b u)) (b_sigma (b u)) (b_psi4 (b u)) (fopp (fbar 2 (sdd u))));
      [|reflexivity|intros; apply (eq_psi4 _ _ _ _ _ EQ)].
    rewrite multiply_opp_r. rewrite (multiply_low K L L 1) by lia. ring.
  Qed.
  Lemma sigma_rate : forall u, field_rate (fun x => b_sigma (b x)) u (sd u).
  Proof. intros u l m. apply (eq_sigma_dot _ _ _ _ _ EQ). Qed.
  Lemma sbd_rate : forall u, field_rate (fun x => fbar 2 (sd x)) u (fbar 2 (sdd u)).
  Proof. intros u. apply fr_bar. intros l m. apply (eq_sigma_ddot _ _ _ _ _ EQ). Qed.
  Lemma psi1_rate : forall u l m, (l <= 1)%Z ->
    has_derivative (fun x => b_psi1 (b x) l m) u
      (eth_GHP 0 (b_psi2 (b u)) l m - Cscale 2 (prod 2 (-1) (b_sigma (b u)) (eth_GHP (-2) (fbar 2 (sd u))) l m))%C.
  Proof.
    intros u l m Hl. eapply hd_eq; [apply (eq_bianchi_1 _ _ _ _ _ EQ)|].
    rewrite (multiply_ext K L L 2 (-1) (b_sigma (b u)) (b_sigma (b u)) (b_psi3 (b u)) (fopp (eth_GHP (-2) (fbar 2 (sd u)))));
      [|reflexivity|intros; apply (eq_psi3 _ _ _ _ _ EQ)].
    rewrite multiply_opp_r. rewrite (multiply_low K L L 1) by lia. cx_lin.
  Qed.
  Lemma fr_low : forall f u d, (forall l m, (l <= 1)%Z -> has_derivative (fun x => f x l m) u (d l m)) ->
    field_rate (fun x => truncate_ell 1 (f x)) u (truncate_ell 1 d).
  Proof. intros f u d H l m. unfold truncate_ell. destruct (Z.leb_spec l 1); [apply H; assumption|apply hd_const]. Qed.

  (** psi2 + sigma conj(sigma)' , the integrand of the momentum *)
  Lemma news_rate : forall u, exists G,
    field_rate (fun x => fadd (truncate_ell 1 (b_psi2 (b x))) (prod 2 (-2) (b_sigma (b x)) (fbar 2 (sd x)))) u G
    /\ forall l m, (l <= 1)%Z -> G l m = prod 2 (-2) (sd u) (fbar 2 (sd u)) l m.
  Proof.
    intros u. eexists. split.
    - apply fr_add; [apply fr_low; exact (psi2_rate u)|]. apply fr_multiply; [apply sigma_rate|apply sbd_rate].
    - intros l m Hl. unfold fadd, truncate_ell. destruct (Z.leb_spec l 1); [|lia]. ring.
  Qed.

  (** Bondi's mass loss: the rate of the four-momentum is minus the ell <= 1 part of the square of the news. *)
  Theorem C57_momentum : forall dflt u,
    let F := charge_vector (prod 2 (-2) (sd u) (fbar 2 (sd u))) in
    rate4 (fun x => bondi_four_momentum K L (b x) (fbar 2 (sd x)) dflt) u (- fst F, v3scale (-1) (snd F)).
  Proof.
    intros dflt u. cbv zeta. unfold bondi_four_momentum, mass_aspect. change (1 =? 0)%Z with false. cbv iota.
    destruct (news_rate u) as (G & HG & EG).
    eapply rate4_eq; [apply rate_charge; apply fr_opp, fr_real, HG|].
    rewrite charge_opp, charge_real, (charge_ext G _ EG). reflexivity.
  Qed.

  (** Rate of psi1 + sigma eth conj(sigma). *)
  Lemma twist_rate : forall u, exists G,
    field_rate (fun x => fadd (truncate_ell 1 (b_psi1 (b x)))
                              (prod 2 (-1) (b_sigma (b x)) (eth_GHP (-2) (fbar 2 (b_sigma (b x)))))) u G
    /\ forall l m, (l <= 1)%Z ->
         G l m = fadd (eth_GHP 0 (b_psi2 (b u)))
                      (fsub (prod 2 (-1) (sd u) (eth_GHP (-2) (fbar 2 (b_sigma (b u)))))
                            (prod 2 (-1) (b_sigma (b u)) (eth_GHP (-2) (fbar 2 (sd u))))) l m.
  Proof.
    intros u. eexists. split.
    - apply fr_add; [apply fr_low; exact (psi1_rate u)|].
      apply fr_multiply; [apply sigma_rate|]. apply fr_eth, fr_bar, sigma_rate.
    - intros l m Hl. unfold fadd, fsub, truncate_ell. destruct (Z.leb_spec l 1); [|lia]. cx_lin.
  Qed.

  Lemma imag_psi2_low : forall u, real_mass_aspect K L (b u) (sd u) -> forall l m, (l <= 1)%Z ->
    fimag (b_psi2 (b u)) l m = (- fimag (prod 2 (-2) (b_sigma (b u)) (fbar 2 (sd u))) l m)%C.
  Proof.
    intros u H l m Hl. rewrite H, fimag_add.
    rewrite (fimag_ext (multiply K L L 2 (-2) (b_sigma (b u)) (fbar 2 (sd u))) (prod 2 (-2) (b_sigma (b u)) (fbar 2 (sd u))))
      by (intros; apply multiply_low; lia).
    replace (fimag (eth_GHP (-1) (eth_GHP (-2) (fbar 2 (b_sigma (b u))))) l m) with C0; [ring|].
    unfold fimag, fbar. rewrite !eth2_low by lia. cx_lin.
  Qed.

  (** The rate of the angular momentum is quadratic in the shear and the news. *)
  Theorem C57_angular_momentum : forall u, real_mass_aspect K L (b u) (sd u) ->
    let flux := fadd (fmuli (fsub (prod 2 (-1) (sd u) (eth_GHP (-2) (fbar 2 (b_sigma (b u)))))
                                  (prod 2 (-1) (b_sigma (b u)) (eth_GHP (-2) (fbar 2 (sd u))))))
                     (fimag (prod 2 (-2) (b_sigma (b u)) (fbar 2 (sd u)))) in
    rate3 (fun x => bondi_angular_momentum K L (b x)) u (snd (charge_vector flux)).
  Proof.
    intros u HM. cbv zeta. unfold bondi_angular_momentum, angular_aspect.
    destruct (twist_rate u) as (G & HG & EG).
    eapply rate3_eq; [apply rate_charge; apply fr_muli, HG|].
    set (T := fsub _ _) in *.
    rewrite (charge_ext (fmuli G) (fadd (fmuli T) (fmuli (eth_GHP 0 (b_psi2 (b u)))))).
    2: { intros l m Hl. unfold fmuli, fadd. rewrite EG by exact Hl. unfold fadd. ring. }
    rewrite !charge_add. cbn [snd]. f_equal.
    transitivity (snd (charge_vector (fmuli (b_psi2 (b u))))).
    - transitivity (snd (charge_vector (eth_GHP 0 (fmuli (b_psi2 (b u)))))); [|apply charge_eth].
      f_equal. apply charge_ext. intros l m _. unfold fmuli, eth_GHP, eth, ladder, fscale. destruct (_ <? _)%Z; cx_lin.
    - f_equal. rewrite charge_muli. apply charge_ext. intros l m Hl. unfold fopp. rewrite (imag_psi2_low u HM) by exact Hl. ring.
  Qed.

  (** The rate of the boost charge: the part linear in psi2 cancels against the explicit time. *)
  Theorem C57_boost : forall u, K_symmetric K -> K_flip K ->
    let G := charge_vector (fsub (prod 2 (-1) (sd u) (eth_GHP (-2) (fbar 2 (b_sigma (b u)))))
                                 (prod 2 (-1) (b_sigma (b u)) (eth_GHP (-2) (fbar 2 (sd u))))) in
    let F := charge_vector (prod 2 (-2) (sd u) (fbar 2 (sd u))) in
    rate3 (fun x => bondi_boost_charge K L (b x) (fbar 2 (sd x)) x) u (v3add (v3scale (-1) (snd G)) (v3scale u (snd F))).
  Proof.
    intros u HS HF. cbv zeta. unfold bondi_boost_charge, boost_aspect, com_part.
    destruct (twist_rate u) as (G & HG & EG). destruct (news_rate u) as (N & HN & EN).
    eapply rate3_eq.
    - apply rate_charge. apply fr_opp. apply fr_sub.
      + apply fr_add; [exact HG|]. apply fr_scale, fr_eth. apply fr_multiply; [apply sigma_rate|apply fr_bar, sigma_rate].
      + apply fr_time. apply fr_eth, fr_real, HN.
    - set (s := b_sigma (b u)) in *.
      set (T := fsub (prod 2 (-1) (sd u) (eth_GHP (-2) (fbar 2 s))) (prod 2 (-1) s (eth_GHP (-2) (fbar 2 (sd u))))) in *.
      set (Q := prod 2 (-2) s (fbar 2 (sd u))). set (Q' := prod 2 (-2) (sd u) (fbar 2 s)).
      set (W := prod 2 (-2) (sd u) (fbar 2 (sd u))) in *.
      assert (QQ : forall l m, fbar 0 Q l m = Q' l m).
      { intros l m. unfold Q, Q'. rewrite fbar0_multiply by exact HF. rewrite multiply_comm by exact HS.
        apply multiply_ext; intros; [apply (fbar_fbar 2)|reflexivity]. }
      rewrite charge_opp. cbn [snd].
      match goal with |- v3scale _ (snd (charge_vector ?X)) = _ =>
        rewrite (charge_ext X (fadd (fadd T (fscale (- u) (eth_GHP 0 (freal W))))
                                (eth_GHP 0 (fadd (b_psi2 (b u)) (fsub (freal Q) (freal (fadd (truncate_ell 1 (b_psi2 (b u))) Q))))))) end.
      2: { intros l m Hl.
           assert (E1 : eth_GHP 0 (freal N) l m = eth_GHP 0 (freal W) l m).
           { apply eth_ext. unfold freal, fscale, fadd, fbar. rewrite !EN by exact Hl. reflexivity. }
           assert (E2 : eth_GHP 0 (fadd Q' Q) l m = Cscale 2 (eth_GHP 0 (freal Q) l m)).
           { rewrite <- eth_scale. apply eth_ext. unfold freal, fscale, fadd. rewrite QQ. cx_lin. }
           change (((G l m + Cscale (1 / 2) (eth_GHP 0 (fadd Q' Q) l m))
                    - (eth_GHP 0 (freal (fadd (truncate_ell 1 (b_psi2 (b u))) Q)) l m + Cscale u (eth_GHP 0 (freal N) l m)))%C
                   = ((T l m + Cscale (- u) (eth_GHP 0 (freal W) l m))
                      + eth_GHP 0 (fadd (b_psi2 (b u)) (fsub (freal Q) (freal (fadd (truncate_ell 1 (b_psi2 (b u))) Q)))) l m)%C).
           rewrite EG, E1, E2 by exact Hl. rewrite eth_add. unfold fadd at 1.
           assert (E3 : forall f g, eth_GHP 0 (fsub f g) l m = (eth_GHP 0 f l m - eth_GHP 0 g l m)%C).
           { intros f g. rewrite (eth_ext 0 (fsub f g) (fadd f (fopp g))) by (unfold fsub, fadd, fopp; ring).
             rewrite eth_add, eth_opp. ring. }
           rewrite E3. cx_lin. }
      rewrite !charge_add. cbn [snd]. rewrite charge_eth, charge_scale. cbn [snd]. rewrite charge_eth, charge_real.
      assert (Z0 : snd (charge_vector (fadd (b_psi2 (b u)) (fsub (freal Q) (freal (fadd (truncate_ell 1 (b_psi2 (b u))) Q))))) = (0, 0, 0)).
      { rewrite <- charge_real.
        rewrite (charge_ext (freal _) (fscale 0 Q)).
        - rewrite charge_scale. cbn [snd]. destruct (snd (charge_vector Q)) as [[x y] z]. cbn. f_equal; [f_equal|]; ring.
        - intros l m Hl. unfold freal, fscale, fadd, fsub, fbar, truncate_ell. destruct (Z.leb_spec l 1); [|lia].
          rewrite !Z.opp_involutive. change (0 + m)%Z with m. change (0 + - m)%Z with (- m)%Z. rewrite sgn_opp.
          assert (E := sgn_sq m). destruct (b_psi2 (b u) l m) as [a1 a2], (b_psi2 (b u) l (- m)%Z) as [c1 c2], (Q l m) as [q1 q2], (Q l (- m)%Z) as [r1 r2].
          apply C_eq; cbn [re im Cadd Copp Csub Cmul Cscale C0 Ci Conj]; field [E]. }
      rewrite Z0. rewrite !v3scale_comp, !v3add_comp. cbn [fst snd]. f_equal; [f_equal|]; ring.
  Qed.
End Balance.

Lemma prod_zero_l : forall K L Lo a b f g, (forall l m, f l m = C0) -> forall l m, multiply K L Lo a b f g l m = C0.
Proof.
  intros K L Lo a b f g H l m. unfold multiply. destruct (l <=? Lo)%Z; [|reflexivity].
  apply csum_const0. intros p _. apply csum_const0. intros q _. destruct (_ =? m)%Z; [|reflexivity]. rewrite H. cx_lin.
Qed.
Lemma prod_zero_r : forall K L Lo a b f g, (forall l m, g l m = C0) -> forall l m, multiply K L Lo a b f g l m = C0.
Proof.
  intros K L Lo a b f g H l m. unfold multiply. destruct (l <=? Lo)%Z; [|reflexivity].
  apply csum_const0. intros p _. apply csum_const0. intros q _. destruct (_ =? m)%Z; [|reflexivity]. rewrite H. cx_lin.
Qed.
Lemma charge_zero : forall f, (forall l m, f l m = C0) -> charge_vector f = (0, (0, 0, 0)).
Proof.
  intros f H. unfold charge_vector. cbv zeta. rewrite !H. cbn [re im Cadd Csub C0]. unfold Rdiv.
  f_equal; [ring|]. f_equal; [f_equal|]; ring.
Qed.
Lemma constant_of_rate : forall f, (forall u, derivable_pt_lim f u 0) -> forall u v, f u = f v.
Proof.
  intros f H. assert (pr : derivable f) by (intros x; exists 0; apply H).
  apply (null_derivative_1 f pr). intros x. apply derive_pt_eq_0, H.
Qed.
Lemma constant3 : forall f, (forall u, rate3 f u (0, 0, 0)) -> forall u v, f u = f v.
Proof.
  intros f H u v. apply vec_eq;
    [apply (constant_of_rate (fun x => fst (fst (f x))))|apply (constant_of_rate (fun x => snd (fst (f x))))|apply (constant_of_rate (fun x => snd (f x)))];
    intros x; destruct (H x) as (A & B & D); assumption.
Qed.

(** Without radiation the four-momentum, the angular momentum and the boost charge are conserved, and the
    centre of mass moves uniformly with the momentum. *)
Theorem C57_no_radiation : forall K L b sd sdd dflt, (1 <= L)%Z -> K_symmetric K -> K_flip K ->
  bondi_equations K L b sd sdd -> (forall u, real_mass_aspect K L (b u) (sd u)) -> (forall u l m, sd u l m = C0) ->
  let P u := bondi_four_momentum K L (b u) (fbar 2 (sd u)) dflt in
  forall u v, P u = P v
    /\ bondi_angular_momentum K L (b u) = bondi_angular_momentum K L (b v)
    /\ bondi_boost_charge K L (b u) (fbar 2 (sd u)) u = bondi_boost_charge K L (b v) (fbar 2 (sd v)) v
    /\ bondi_CoM_charge K L (b u) = v3add (bondi_CoM_charge K L (b v)) (v3scale (u - v) (snd (P v))).
Proof.
  intros K L b sd sdd dflt HL HS HF EQ HM Z0. cbv zeta.
  assert (ZB : forall u l m, fbar 2 (sd u) l m = C0) by (intros; unfold fbar; rewrite Z0; cx_lin).
  assert (ZE : forall u l m, eth_GHP (-2) (fbar 2 (sd u)) l m = C0).
  { intros. unfold eth_GHP, eth, ladder, fscale. rewrite ZB. destruct (_ <? _)%Z; cx_lin. }
  assert (CP : forall u v, bondi_four_momentum K L (b u) (fbar 2 (sd u)) dflt = bondi_four_momentum K L (b v) (fbar 2 (sd v)) dflt).
  { assert (R : forall x, rate4 (fun x => bondi_four_momentum K L (b x) (fbar 2 (sd x)) dflt) x (0, (0, 0, 0))).
    { intros x. eapply rate4_eq; [apply (C57_momentum K L HL b sd sdd EQ dflt x)|].
      rewrite charge_zero by (intros; apply prod_zero_l; apply Z0). cbn. f_equal; [ring|]. f_equal; [f_equal|]; ring. }
    intros u v. rewrite (surjective_pairing (bondi_four_momentum K L (b u) _ _)), (surjective_pairing (bondi_four_momentum K L (b v) _ _)).
    f_equal.
    - apply (constant_of_rate (fun x => fst (bondi_four_momentum K L (b x) (fbar 2 (sd x)) dflt))). intros x. apply R.
    - apply (constant3 (fun x => snd (bondi_four_momentum K L (b x) (fbar 2 (sd x)) dflt))). intros x. apply R. }
  assert (CJ : forall u v, bondi_angular_momentum K L (b u) = bondi_angular_momentum K L (b v)).
  { apply constant3. intros x. eapply rate3_eq; [apply (C57_angular_momentum K L HL b sd sdd EQ x (HM x))|].
    rewrite charge_zero; [reflexivity|]. intros l m. unfold fadd at 1.
    assert (FI : forall f, (forall x y, f x y = C0) -> fimag f l m = C0) by (intros f Hf; unfold fimag, fbar; rewrite !Hf; cx_lin).
    rewrite (FI (multiply K L 1 2 (-2) (b_sigma (b x)) (fbar 2 (sd x)))) by (apply prod_zero_r, ZB).
    unfold fmuli, fsub. rewrite prod_zero_l by apply Z0. rewrite prod_zero_r by apply ZE. cx_lin. }
  assert (CN : forall u v, bondi_boost_charge K L (b u) (fbar 2 (sd u)) u = bondi_boost_charge K L (b v) (fbar 2 (sd v)) v).
  { apply (constant3 (fun x => bondi_boost_charge K L (b x) (fbar 2 (sd x)) x)). intros x.
    eapply rate3_eq; [apply (C57_boost K L HL b sd sdd EQ x HS HF)|].
    rewrite !charge_zero.
    - cbn. f_equal; [f_equal|]; ring.
    - intros. apply prod_zero_l, Z0.
    - intros l m. unfold fsub. rewrite prod_zero_l by apply Z0. rewrite prod_zero_r by apply ZE. cx_lin. }
  intros u v. split; [apply CP|]. split; [apply CJ|]. split; [apply CN|].
  rewrite (C36_center_of_mass K L (b u) (fbar 2 (sd u)) u dflt), (C36_center_of_mass K L (b v) (fbar 2 (sd v)) v dflt).
  rewrite (CP u v), (CN u v).
  rewrite !v3scale_comp, !v3add_comp. cbn [fst snd]. f_equal; [f_equal|]; ring.
Qed.

(** * Energy loss *)
Lemma csum_pick : forall A (F : A -> C) l a, NoDup l -> In a l -> (forall x, In x l -> x <> a -> F x = C0) -> csum F l = F a.
Proof.
  induction l as [|y l IH]; intros a ND I H; [destruct I|]. inversion ND; subst. cbn [csum]. destruct I as [->|I].
  - rewrite (csum_const0 F l); [ring|]. intros x Hx. apply H; [right; exact Hx|]. intros ->. contradiction.
  - rewrite (H y); [|left; reflexivity|intros ->; contradiction]. rewrite (IH a); auto; [ring|]. intros x Hx. apply H. right. exact Hx.
Qed.
Lemma norm_product : forall K L f, K_orthogonal K -> (0 <= L)%Z ->
  multiply K L 1 2 (-2) f (fbar 2 f) 0%Z 0%Z = RtoC (norm_spin2 L f / sqrt (4 * PI)).
Proof.
  intros K L f HK HL. unfold multiply. change (0 <=? 1)%Z with true. cbv iota.
  rewrite (csum_ext _ (fun p => RtoC (/ sqrt (4 * PI) * (if (2 <=? fst p)%Z then norm2 (f (fst p) (snd p)) else 0)))).
  - rewrite csum_RtoC, rsum_scale. f_equal. unfold Rdiv, norm_spin2. ring.
  - intros [l m] Hp. apply LMs_In in Hp. rewrite (csum_pick _ _ (LMs L) (l, (- m)%Z)).
    + cbn [fst snd]. replace (m + - m =? 0)%Z with true by lia. rewrite HK, Z.eqb_refl. replace (Z.abs m <=? l)%Z with true by lia. rewrite andb_true_r. cbn [andb]. destruct (2 <=? l)%Z; [|apply C_eq; cbn [re im Cscale RtoC]; ring]. unfold fbar. rewrite Z.opp_involutive.
      rewrite sgn_add, sgn_opp. change (sgn 2) with 1. pose proof (sgn_sq m) as E.
      destruct (f l m) as [x y]. apply C_eq; cbn [re im Cscale Cmul Conj RtoC norm2]; unfold norm2; cbn [re im]; unfold Rdiv; ring [E].
    + apply LMs_NoDup.
    + apply LMs_In. lia.
    + intros [l' m'] Hq Ne. cbn [fst snd]. destruct (Z.eqb_spec (m + m') 0) as [E|E]; [|reflexivity].
      assert (m' = - m)%Z by lia. subst m'. rewrite HK. destruct (Z.eqb_spec l l') as [->|_]; [congruence|]. cbn [andb]. cx_lin.
Qed.

(** The energy decreases at the rate given by the sum of the squared modes of the news, and never grows. *)
Theorem C57_energy : forall K L b sd sdd dflt, (1 <= L)%Z -> K_orthogonal K -> bondi_equations K L b sd sdd ->
  let E u := fst (bondi_four_momentum K L (b u) (fbar 2 (sd u)) dflt) in
  (forall u, derivable_pt_lim E u (- (norm_spin2 L (sd u) / (4 * PI))))
  /\ (forall u v, u <= v -> E v <= E u).
Proof.
  intros K L b sd sdd dflt HL HK EQ. cbv zeta.
  assert (D : forall u, derivable_pt_lim (fun x => fst (bondi_four_momentum K L (b x) (fbar 2 (sd x)) dflt)) u
                          (- (norm_spin2 L (sd u) / (4 * PI)))).
  { intros u. destruct (C57_momentum K L HL b sd sdd EQ dflt u) as [A _]. cbn [fst] in A.
    replace (norm_spin2 L (sd u) / (4 * PI))
      with (fst (charge_vector (multiply K L 1 2 (-2) (sd u) (fbar 2 (sd u))))); [exact A|].
    unfold charge_vector. cbv zeta. cbn [fst]. rewrite norm_product by (assumption || lia). cbn [re RtoC].
    pose proof PI_RGT_0. assert (Q : sqrt (4 * PI) * sqrt (4 * PI) = 4 * PI) by (apply sqrt_sqrt; lra).
    assert (sqrt (4 * PI) <> 0) by (apply Rgt_not_eq, sqrt_lt_R0; lra).
    unfold Rdiv. rewrite Rmult_assoc, <- Rinv_mult, Q. reflexivity. }
  split; [exact D|]. intros u v Huv. destruct (Req_dec u v) as [->|Ne]; [lra|].
  set (E := fun x => fst (bondi_four_momentum K L (b x) (fbar 2 (sd x)) dflt)) in *.
  destruct (MVT_cor2 E (fun x => - (norm_spin2 L (sd x) / (4 * PI))) u v) as (c & Hc & _); [lra|intros; apply D|].
  change (E v <= E u).
  assert (0 <= norm_spin2 L (sd c) / (4 * PI)).
  { apply Rmult_le_pos; [apply rsum_nonneg; intros p _; destruct (2 <=? fst p)%Z; [apply norm2_nonneg|lra]|]. left. apply Rinv_0_lt_compat. pose proof PI_RGT_0. lra. }
  nra.
Qed.

(** * Concrete case: an exact solution that radiates, with a product table meeting every hypothesis *)
Definition K0 : Z -> Z -> Z -> Z -> Z -> Z -> Z -> R := fun _ l1 m1 _ l2 m2 _ =>
  if ((l1 =? l2) && (m1 =? - m2) && (2 <=? l1) && (Z.abs m1 <=? l1))%Z then sgn m1 / sqrt (4 * PI) else 0.
Lemma K0_ok : K_symmetric K0 /\ K_flip K0 /\ K_orthogonal K0.
Proof.
  split; [|split].
  - intros a l1 m1 b l2 m2 l. unfold K0. rewrite (Z.eqb_sym l2 l1). destruct (Z.eqb_spec l1 l2) as [->|_]; [cbn [andb]|reflexivity].
    destruct (Z.eqb_spec m1 (- m2)) as [E|E]; destruct (Z.eqb_spec m2 (- m1)) as [E'|E']; try lia; [|reflexivity].
    rewrite E, sgn_opp, Z.abs_opp. reflexivity.
  - intros a l1 m1 b l2 m2 l. unfold K0. destruct (l1 =? l2)%Z; [cbn [andb]|reflexivity].
    destruct (Z.eqb_spec m1 (- m2)) as [E|E]; destruct (Z.eqb_spec (- m1) (- - m2)) as [E'|E']; try lia; [|reflexivity].
    rewrite sgn_opp, Z.abs_opp. reflexivity.
  - intros l1 l2 m. unfold K0. rewrite Z.opp_involutive, Z.eqb_refl. destruct (l1 =? l2)%Z; reflexivity.
Qed.
Example C57_case :
  let i := mkinit fzero (one_mode 2 2) fzero fzero fzero fzero in
  let b := from_initial_values_exact K0 2 i in let sd := exact_sigma_dot i in
  K_symmetric K0 /\ K_flip K0 /\ K_orthogonal K0 /\ bondi_equations K0 2 b sd (exact_sigma_ddot i)
  /\ (forall u, real_mass_aspect K0 2 (b u) (sd u))
  /\ derivable_pt_lim (fun u => fst (bondi_four_momentum K0 2 (b u) (fbar 2 (sd u)) 2)) 7 (- (1 / (4 * PI))).
Proof.
  cbv zeta. set (i := mkinit fzero (one_mode 2 2) fzero fzero fzero fzero). destruct K0_ok as (HS & HF & HO).
  assert (EQ := C34_exact K0 2 i).
  split; [exact HS|]. split; [exact HF|]. split; [exact HO|]. split; [exact EQ|]. split.
  - intros u l m. apply (C34_mass_aspect K0 2 i HS HF u l m).
  - destruct (C57_energy K0 2 _ _ _ 2 ltac:(lia) HO EQ) as [D _]. specialize (D 7).
    replace 1 with (norm_spin2 2 (exact_sigma_dot i 7)); [exact D|]. unfold norm_spin2.
    let v := eval vm_compute in (LMs 2) in change (LMs 2) with v. cbn [rsum fst snd Z.leb Z.compare Pos.compare Pos.compare_cont].
    unfold exact_sigma_dot, i, fadd, fscale, fzero, one_mode.
    cbn [i_sigmadot0 i_sigmaddot0 Z.eqb Pos.eqb andb]. unfold norm2. cbn [re im Cadd Cscale C0 C1]. ring.
Qed.
