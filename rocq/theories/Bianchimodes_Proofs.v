(** * The modes that come out of a supertranslation or rotation of a solution of the Bondi-gauge equations are a solution *)
From Coq Require Import Reals ZArith List Bool Lia Lra.
From Verif Require Import Common Cplx Quat Modes_Model Create_Model Times_Model Tables_Model Modal_Model Kwargs_Model Transform_Model Rotate_Model
  Modes_Proofs Modal_Proofs Rotate_Proofs Times_Proofs Kwargs_Proofs Transform_Proofs Wigner_Model Wigner_Proofs Sphere_Model Sphere_Proofs Harmonics_Proofs
  Pipeline_Model Pipeline_Proofs ABD_Model ABD_Proofs ABDBalance_Proofs ABDPointwise_Proofs Zturn_Model Zturn_Proofs Product_Proofs Gridmul_Model Gridmul_Proofs
  Abdpipe_Model Abdpipe_Proofs Eth_Proofs Bianchi_Proofs.
Import ListNotations.
Open Scope R_scope.

(** ** Modes without entries outside the range of the spin weight *)
Definition clean (s L : Z) (c : modes) : Prop := forall l m, ~ (Z.abs s <= l <= L /\ - l <= m <= l)%Z -> c l m = C0.
Definition clip (s L : Z) (c : modes) : modes := fun l m => if ((Z.abs s <=? l) && (l <=? L) && (- l <=? m) && (m <=? l))%Z then c l m else C0.
Lemma clip_clean : forall s L c, clean s L (clip s L c).
Proof. intros s L c l m H. unfold clip. destruct (Z.leb_spec (Z.abs s) l), (Z.leb_spec l L), (Z.leb_spec (- l) m), (Z.leb_spec m l); cbn [andb]; try reflexivity. exfalso; apply H; lia. Qed.
Lemma field_valid : forall s L a b q, (forall l m, (Z.abs s <= l <= L)%Z -> (- l <= m <= l)%Z -> a l m = b l m) -> field s L a q = field s L b q.
Proof.
  intros s L a b q H. rewrite (field_scale s L 1 a b); [cx|]. intros l m [Hl Hm]. rewrite (H l m) by lia. cx.
Qed.
Lemma field_clip : forall s L c q, field s L (clip s L c) q = field s L c q.
Proof.
  intros s L c q. apply field_valid. intros l m Hl Hm. unfold clip. destruct (Z.leb_spec (Z.abs s) l), (Z.leb_spec l L), (Z.leb_spec (- l) m), (Z.leb_spec m l); cbn [andb]; try reflexivity; lia.
Qed.
Lemma clean_upto : forall s L c, clean s L c -> upto L c.
Proof. intros s L c H l m O. apply H. lia. Qed.
Lemma clean_grow : forall s L L' c, (L <= L')%Z -> clean s L c -> clean s L' c.
Proof. intros s L L' c HL H l m O. apply H. lia. Qed.
Lemma clean_eq : forall s L a b, (0 <= L)%Z -> clean s L a -> clean s L b -> (forall q, qnorm2 q = 1 -> field s L a q = field s L b q) -> forall l m, a l m = b l m.
Proof.
  intros s L a b HL Ha Hb H l m. destruct (Z.le_gt_cases (Z.abs s) l), (Z.le_gt_cases l L), (Z.le_gt_cases (- l) m), (Z.le_gt_cases m l);
    try (rewrite Ha, Hb by lia; reflexivity). apply (field_unique s L); assumption || lia.
Qed.
Lemma clean_add : forall s L a b, clean s L a -> clean s L b -> clean s L (fadd a b).
Proof. intros s L a b Ha Hb l m O. unfold fadd. rewrite Ha, Hb by exact O. cx. Qed.
Lemma clean_scale : forall s L k a, clean s L a -> clean s L (fscale k a).
Proof. intros s L k a Ha l m O. unfold fscale. rewrite Ha by exact O. cx. Qed.
Lemma clean_opp : forall s L a, clean s L a -> clean s L (fopp a).
Proof. intros s L a Ha l m O. unfold fopp. rewrite Ha by exact O. cx. Qed.
Lemma clean_bar : forall s t L a, (Z.abs t = Z.abs s)%Z -> clean s L a -> clean t L (fbar s a).
Proof. intros s t L a E Ha l m O. unfold fbar. rewrite Ha by lia. cx. Qed.
Lemma clean_imag : forall L a, clean 0 L a -> clean 0 L (fimag a).
Proof. intros L a Ha l m O. unfold fimag, fbar. rewrite !Ha by lia. cx. Qed.
Lemma clean_eth : forall s L a, clean s L a -> clean (s + 1) L (eth_GHP s a).
Proof.
  intros s L a Ha l m O. unfold eth_GHP, eth, ladder, fscale. destruct (Z.ltb_spec l (Z.max (Z.abs s) (Z.abs (s + 1)))); [cx|]. rewrite Ha by lia. cx.
Qed.
Lemma clean_mul : forall L s1 s2 f g, clean (s1 + s2) (2 * L) (multiply product_table L (2 * L) s1 s2 f g).
Proof.
  intros L s1 s2 f g l m O. unfold multiply. destruct (Z.leb_spec l (2 * L)) as [B|B]; [|reflexivity].
  apply csum_const0. intros [l1 m1] I1. apply csum_const0. intros [l2 m2] I2. cbn [fst snd]. destruct (Z.eqb_spec (m1 + m2) m) as [E|E]; [|reflexivity]. subst m.
  unfold product_table. destruct (bool_dec (ok s1 l1 m1) true); [|cx]. destruct (bool_dec (ok s2 l2 m2) true); [|cx].
  assert (N : ok (s1 + s2) l (m1 + m2) = false). { unfold ok. destruct (Z.leb_spec (Z.abs (s1 + s2)) l), (Z.leb_spec (Z.abs (m1 + m2)) l); cbn [andb]; try reflexivity. exfalso; apply O; lia. }
  rewrite N. cbn [andb]. cx.
Qed.
Lemma clean_dot : forall s L (f : R -> modes) d u, (forall x, clean s L (f x)) -> (forall l m, has_derivative (fun x => f x l m) u (d l m)) -> clean s L d.
Proof.
  intros s L f d u Hf H l m O. apply (hd_unique (fun x => f x l m) u); [apply H|]. apply (hd_ext (fun _ => C0)); [intros x; rewrite (Hf x) by exact O; reflexivity|apply hd_const].
Qed.

(** ** From the partial differential equations to the modes *)
Section Modes.
Variable S : nat -> R -> quat -> C.
Variable N : Z.
Variable B : R -> bondi.
Variable dB : nat -> R -> modes.
Variables sdd sddd : R -> modes.
Hypothesis HN : (0 <= N)%Z.
Hypothesis HC : forall u f, (f < 6)%nat -> clean (spin_of f) N (bfield (B u) f).
Hypothesis HV : forall f u q, (f < 6)%nat -> qnorm2 q = 1 -> S f u q = field (spin_of f) N (bfield (B u) f) q.
Hypothesis HD : forall f u l m, (f < 6)%nat -> has_derivative (fun x => bfield (B x) f l m) u (dB f u l m).
Hypothesis HD2 : forall u l m, has_derivative (fun x => dB 5 x l m) u (sdd u l m).
Hypothesis HD3 : forall u l m, has_derivative (fun x => sdd x l m) u (sddd u l m).
Hypothesis HG : bondi_gauge S.
Lemma dB_clean : forall f u, (f < 6)%nat -> clean (spin_of f) N (dB f u).
Proof. intros f u Hf. apply (clean_dot _ N (fun x => bfield (B x) f) _ u); [intros x; apply HC; exact Hf|intros; apply HD; exact Hf]. Qed.
Lemma sdd_clean : forall u, clean 2 N (sdd u).
Proof. intros u. apply (clean_dot _ N (dB 5) _ u); [intros x; apply (dB_clean 5); lia|apply HD2]. Qed.
Lemma field_double : forall s c q, clean s N c -> field s N c q = field s (2 * N) c q.
Proof. intros s c q H. apply field_grow; [lia|]. intros; apply H; lia. Qed.
Lemma S_dot : forall f u q d, (f < 6)%nat -> qnorm2 q = 1 -> has_derivative (fun x => S f x q) u d -> d = field (spin_of f) N (dB f u) q.
Proof.
  intros f u q d Hf Hq H. apply (hd_unique _ _ _ _ H). apply (hd_ext (fun x => field (spin_of f) N (bfield (B x) f) q)); [intros x; symmetry; apply HV; assumption|].
  apply hd_field. intros; apply HD; exact Hf.
Qed.
Lemma S_eth : forall f u q d, (f < 6)%nat -> qnorm2 q = 1 -> ethG (S f u) q d -> d = field (spin_of f + 1) N (eth_GHP (spin_of f) (bfield (B u) f)) q.
Proof.
  intros f u q d Hf Hq H. apply (eg_unique _ _ _ _ H). apply (eg_ext (field (spin_of f) N (bfield (B u) f))); [exact Hq|intros r Hr; symmetry; apply HV; assumption|apply eg_field].
Qed.
Lemma prod_at : forall s1 s2 f g q, qnorm2 q = 1 -> clean s1 N f -> clean s2 N g ->
  (field s1 N f q * field s2 N g q)%C = field (s1 + s2) (2 * N) (multiply product_table N (2 * N) s1 s2 f g) q.
Proof.
  intros s1 s2 f g q Hq Hf Hg. rewrite (field_double s1 f q Hf), (field_double s2 g q Hg). symmetry.
  exact (ev_mul _ _ _ (C72_evaluation N HN) s1 s2 f g (exist _ q Hq) (clean_upto _ _ _ Hf) (clean_upto _ _ _ Hg)).
Qed.
Lemma bar_at : forall s f q, field (- s) N (fbar s f) q = Conj (field s N f q).
Proof. intros s f q. apply C68_conjugate_fields; [exact HN|]. intros; reflexivity. Qed.
Lemma dot_modes : forall f g k u l m, (f < 3)%nat -> (g < 6)%nat -> (spin_of g = spin_of f - 2)%Z ->
  (forall q, qnorm2 q = 1 -> exists e, ethG (S (Datatypes.S f) u) q e /\ has_derivative (fun x => S f x q) u (e + Cscale k (S 5%nat u q * S g u q))%C) ->
  dB f u l m = (eth_GHP (spin_of (Datatypes.S f)) (bfield (B u) (Datatypes.S f)) l m + Cscale k (multiply product_table N (2 * N) 2 (spin_of g) (b_sigma (B u)) (bfield (B u) g) l m))%C.
Proof.
  intros f g k u l m Hf Hg Es H.
  assert (E1 : (spin_of (Datatypes.S f) + 1 = spin_of f)%Z) by (destruct f as [|[|[|f]]]; [reflexivity..|lia]).
  assert (CE : clean (spin_of f) N (eth_GHP (spin_of (Datatypes.S f)) (bfield (B u) (Datatypes.S f)))) by (rewrite <- E1; apply clean_eth, HC; lia).
  assert (CM : clean (spin_of f) (2 * N) (multiply product_table N (2 * N) 2 (spin_of g) (b_sigma (B u)) (bfield (B u) g))).
  { replace (spin_of f) with (2 + spin_of g)%Z by lia. apply clean_mul. }
  revert l m. change (forall l m, dB f u l m = fadd (eth_GHP (spin_of (Datatypes.S f)) (bfield (B u) (Datatypes.S f))) (fscale k (multiply product_table N (2 * N) 2 (spin_of g) (b_sigma (B u)) (bfield (B u) g))) l m).
  apply (clean_eq (spin_of f) (2 * N)); [lia|apply (clean_grow _ N); [lia|apply dB_clean; lia]|apply clean_add; [apply (clean_grow _ N); [lia|exact CE]|apply clean_scale; exact CM]|].
  intros q Hq. destruct (H q Hq) as (e & He & Hd). rewrite <- (field_double (spin_of f) (dB f u) q) by (apply dB_clean; lia).
  rewrite <- (S_dot f u q _ ltac:(lia) Hq Hd). rewrite field_fadd, field_fscale. rewrite <- (field_double _ _ q CE).
  rewrite (S_eth (Datatypes.S f) u q e ltac:(lia) Hq He), E1. f_equal. f_equal. rewrite (HV 5 u q), (HV g u q) by (assumption || lia).
  replace (spin_of f) with (2 + spin_of g)%Z by lia. apply (prod_at 2 (spin_of g)); [exact Hq|apply (HC u 5); lia|apply HC; exact Hg].
Qed.
Lemma gauge_modes : bondi_solution N B (dB 5) sdd sddd.
Proof.
  destruct HG as (E1 & E2 & E3 & Sd & Sdd & Es & Ess & Esd & H). constructor.
  - intros u f Hf. apply (clean_upto (spin_of f)). apply HC. exact Hf.
  - intros u l m. apply (HD 5). lia.
  - exact HD2.
  - exact HD3.
  - intros u l m. eapply hd_eq; [apply (HD 0); lia|]. apply (dot_modes 0 2 3); try lia; [reflexivity|]. intros q Hq. destruct (H u q Hq) as (_ & (H1 & _ & _) & _ & H2 & _). eauto.
  - intros u l m. eapply hd_eq; [apply (HD 1); lia|]. apply (dot_modes 1 3 2); try lia; [reflexivity|]. intros q Hq. destruct (H u q Hq) as (_ & (_ & H1 & _) & _ & _ & H2 & _). eauto.
  - intros u l m. eapply hd_eq; [apply (HD 2); lia|]. rewrite (dot_modes 2 4 1 u l m); try lia; [cbn [bfield nth spin_of]; cx|reflexivity|].
    intros q Hq. destruct (H u q Hq) as (_ & (_ & _ & H1) & _ & _ & _ & H2 & _). exists (E3 u q). split; [exact H1|]. eapply hd_eq; [exact H2|cx].
  - intros u. change (forall l m, b_psi3 (B u) l m = fopp (eth_GHP (-2) (fbar 2 (dB 5 u))) l m).
    assert (CB : clean (-2) N (fbar 2 (dB 5 u))) by (apply clean_bar; [reflexivity|apply (dB_clean 5); lia]).
    apply (clean_eq (-1) N); [exact HN|apply (HC u 3); lia|apply clean_opp, (clean_eth (-2)); exact CB|]. intros q Hq. rewrite field_fopp.
    destruct (H u q Hq) as ((S1 & S2) & _ & (_ & _ & H1) & _ & _ & _ & H2 & _). change (field (-1) N (b_psi3 (B u)) q) with (field (spin_of 3) N (bfield (B u) 3) q). rewrite <- (HV 3 u q) by (lia || exact Hq). rewrite H2. f_equal.
    apply (eg_unique _ _ _ _ H1). apply (eg_ext (field (-2) N (fbar 2 (dB 5 u)))); [exact Hq| |apply (eg_field (-2))].
    intros r Hr. rewrite (bar_at 2). f_equal. symmetry. apply (S_dot 5 u r); [lia|exact Hr|]. apply (H u r Hr).
  - intros u. change (forall l m, b_psi4 (B u) l m = fopp (fbar 2 (sdd u)) l m).
    apply (clean_eq (-2) N); [exact HN|apply (HC u 4); lia|apply clean_opp, clean_bar; [reflexivity|apply sdd_clean]|]. intros q Hq. rewrite field_fopp, (bar_at 2).
    destruct (H u q Hq) as ((S1 & S2) & _ & _ & _ & _ & _ & _ & H2 & _). change (field (-2) N (b_psi4 (B u)) q) with (field (spin_of 4) N (bfield (B u) 4) q). rewrite <- (HV 4 u q) by (lia || exact Hq). rewrite H2. f_equal. f_equal.
    apply (hd_unique _ _ _ _ S2). apply (hd_ext (fun x => field 2 N (dB 5 x) q)); [|apply hd_field; apply HD2].
    intros x. symmetry. apply (S_dot 5 x q); [lia|exact Hq|]. apply (H x q Hq).
  - intros u. set (M := multiply product_table N (2 * N) 2 (-2) (b_sigma (B u)) (fbar 2 (dB 5 u))).
    set (X := eth_GHP (-1) (eth_GHP (-2) (fbar 2 (b_sigma (B u))))).
    assert (CX : clean 0 N X) by (apply (clean_eth (-1)), (clean_eth (-2)), clean_bar; [reflexivity|apply (HC u 5); lia]).
    change (forall l m, fimag (b_psi2 (B u)) l m = fopp (fimag (fadd X M)) l m).
    apply (clean_eq 0 (2 * N)); [lia|apply clean_imag, (clean_grow _ N); [lia|apply (HC u 2); lia]|apply clean_opp, clean_imag, clean_add; [apply (clean_grow _ N); [lia|exact CX]|apply (clean_mul N 2 (-2))]|].
    intros q Hq. rewrite field_fopp, !field_fimag by lia. rewrite field_fadd. rewrite <- (field_double 0 X q CX). rewrite <- (field_double 0 (b_psi2 (B u)) q) by (apply (HC u 2); lia).
    change 0%Z with (2 + -2)%Z at 3. unfold M. rewrite <- (prod_at 2 (-2)); [|exact Hq|apply (HC u 5); lia|apply clean_bar; [reflexivity|apply (dB_clean 5); lia]].
    rewrite (bar_at 2).
    destruct (H u q Hq) as ((S1 & S2) & _ & (H1 & H1' & _) & _ & _ & _ & _ & _ & H2). change (field 0 N (b_psi2 (B u)) q) with (field (spin_of 2) N (bfield (B u) 2) q). change (field 2 N (b_sigma (B u)) q) with (field (spin_of 5) N (bfield (B u) 5) q). rewrite <- (HV 2 u q), <- (HV 5 u q) by (lia || exact Hq). rewrite H2.
    rewrite (S_dot 5 u q _ ltac:(lia) Hq S1).
    assert (EX : Ess u q = field 0 N X q).
    { apply (eg_unique _ _ _ _ H1'). apply (eg_ext (field (-1) N (eth_GHP (-2) (fbar 2 (b_sigma (B u)))))); [exact Hq| |apply (eg_field (-1))].
      intros r Hr. destruct (H u r Hr) as (_ & _ & (H3 & _) & _). symmetry. apply (eg_unique _ _ _ _ H3).
      apply (eg_ext (field (-2) N (fbar 2 (b_sigma (B u))))); [exact Hr| |apply (eg_field (-2))]. intros y Hy. rewrite (bar_at 2). f_equal. symmetry. apply (HV 5 u y); [lia|exact Hy]. }
    rewrite EX. cbn [spin_of nth]. cx.
Qed.
End Modes.

(** ** Modes polynomial in time *)
Fixpoint peval (cs : list modes) (u : R) : modes := match cs with [] => fun _ _ => C0 | c :: cs' => fadd c (fscale u (peval cs' u)) end.
Definition polynomial (n : nat) (f : R -> modes) : Prop := exists cs, (length cs <= Datatypes.S n)%nat /\ forall t l m, f t l m = peval cs t l m.
Definition zmodes : modes := fun _ _ => C0.
Fixpoint padd (cs ds : list modes) : list modes := match cs, ds with [], _ => ds | _, [] => cs | c :: cs', d :: ds' => fadd c d :: padd cs' ds' end.
Fixpoint pder (cs : list modes) : list modes := match cs with [] => [] | c :: cs' => padd cs' (zmodes :: pder cs') end.
Lemma padd_eval : forall cs ds u l m, peval (padd cs ds) u l m = (peval cs u l m + peval ds u l m)%C.
Proof.
  induction cs as [|c cs IH]; intros [|d ds] u l m; cbn [padd peval]; unfold fadd, fscale; [cx|cx|cx|]. rewrite IH. cx.
Qed.
Lemma padd_length : forall cs ds, length (padd cs ds) = Nat.max (length cs) (length ds).
Proof. induction cs as [|c cs IH]; intros [|d ds]; cbn [padd length]; try lia. rewrite IH. lia. Qed.
Lemma padd_Forall : forall (P : modes -> Prop) cs ds, (forall c d, P c -> P d -> P (fadd c d)) -> Forall P cs -> Forall P ds -> Forall P (padd cs ds).
Proof.
  intros P cs ds HP. revert ds. induction cs as [|c cs IH]; intros [|d ds] H1 H2; cbn [padd]; try assumption. inversion H1; inversion H2; subst. constructor; auto.
Qed.
Lemma peval_clean : forall s L cs u, Forall (clean s L) cs -> clean s L (peval cs u).
Proof. intros s L cs u H. induction H; cbn [peval]; [intros l m _; reflexivity|]. apply clean_add; [assumption|apply clean_scale; assumption]. Qed.
Lemma zmodes_clean : forall s L, clean s L zmodes.
Proof. intros s L l m _. reflexivity. Qed.
Lemma pder_clean : forall s L cs, Forall (clean s L) cs -> Forall (clean s L) (pder cs).
Proof. intros s L cs H. induction H; cbn [pder]; [constructor|]. apply padd_Forall; [intros; apply clean_add; assumption|assumption|]. constructor; [apply zmodes_clean|assumption]. Qed.
Lemma peval_dot : forall cs u l m, has_derivative (fun x => peval cs x l m) u (peval (pder cs) u l m).
Proof.
  induction cs as [|c cs IH]; intros u l m; [exact (hd_const C0 u)|]. cbn [pder]. rewrite padd_eval. cbn [peval]. unfold fadd, fscale, zmodes.
  eapply hd_eq; [apply (hd_add (fun _ => c l m) (fun x => Cscale x (peval cs x l m))); [apply hd_const|]|].
  - apply (hd_ext (fun x => RtoC x * peval cs x l m)%C); [intros x; symmetry; apply Cscale_mul|]. apply (hd_mult (fun x => RtoC x) (fun x => peval cs x l m) u C1); [|apply IH].
    split; cbn; [apply derivable_pt_lim_id|apply derivable_pt_lim_const].
  - cx.
Qed.

(** ** Functions on the sphere with finitely many modes, and polynomials in time of them *)
Definition band (s L : Z) (g : quat -> C) : Prop := exists c, clean s L c /\ forall q, qnorm2 q = 1 -> g q = field s L c q.
Definition poly (s L : Z) (n : nat) (F : R -> quat -> C) : Prop := exists cs, (length cs <= Datatypes.S n)%nat /\ Forall (clean s L) cs /\ forall u q, qnorm2 q = 1 -> F u q = field s L (peval cs u) q.
Lemma band_field : forall s L a, band s L (field s L a).
Proof. intros s L a. exists (clip s L a). split; [apply clip_clean|]. intros q _. symmetry. apply field_clip. Qed.
Lemma band_mul : forall s1 L1 g1 s2 L2 g2, (0 <= L1)%Z -> (0 <= L2)%Z -> band s1 L1 g1 -> band s2 L2 g2 -> band (s1 + s2) (L1 + L2) (fun q => g1 q * g2 q)%C.
Proof.
  intros s1 L1 g1 s2 L2 g2 H1 H2 (c1 & C1' & E1) (c2 & C2' & E2). exists (clip (s1 + s2) (L1 + L2) (times s1 L1 s2 L2 c1 c2)). split; [apply clip_clean|].
  intros q Hq. rewrite E1, E2 by exact Hq. rewrite field_clip. apply (proj1 (C72_fields s1 L1 c1 s2 L2 c2 H1 H2)). exact Hq.
Qed.
Lemma field_cons : forall s L c cs u q, field s L (peval (c :: cs) u) q = (field s L c q + Cscale u (field s L (peval cs u) q))%C.
Proof. intros s L c cs u q. cbn [peval]. rewrite field_fadd, field_fscale. reflexivity. Qed.
Lemma field_nil : forall s L u q, field s L (peval [] u) q = C0.
Proof. intros s L u q. apply zero_field. intros; reflexivity. Qed.
Lemma poly_ext : forall s L n F G, (forall u q, qnorm2 q = 1 -> F u q = G u q) -> poly s L n F -> poly s L n G.
Proof. intros s L n F G H (cs & A & B & E). exists cs. split; [exact A|]. split; [exact B|]. intros u q Hq. rewrite <- H by exact Hq. apply E. exact Hq. Qed.
Lemma poly_grow : forall s L L' n n' F, (0 <= L <= L')%Z -> (n <= n')%nat -> poly s L n F -> poly s L' n' F.
Proof.
  intros s L L' n n' F HL Hn (cs & A & B & E). exists cs. split; [lia|]. split; [eapply Forall_impl; [|exact B]; intros c Hc; apply (clean_grow s L); [lia|exact Hc]|].
  intros u q Hq. rewrite E by exact Hq. apply field_grow; [exact HL|]. intros l m Hl. apply (peval_clean s L cs u B). lia.
Qed.
Lemma poly_add : forall s L n F G, poly s L n F -> poly s L n G -> poly s L n (fun u q => F u q + G u q)%C.
Proof.
  intros s L n F G (cs & A & B & E) (ds & A' & B' & E'). exists (padd cs ds). split; [rewrite padd_length; lia|]. split; [apply padd_Forall; [intros; apply clean_add; assumption|assumption|assumption]|].
  intros u q Hq. rewrite E, E' by exact Hq. rewrite <- field_fadd. apply field_ext. intros l m _ _. unfold fadd. symmetry. apply padd_eval.
Qed.
Lemma poly_scale : forall s L n k F, poly s L n F -> poly s L n (fun u q => Cscale k (F u q)).
Proof.
  intros s L n k F (cs & A & B & E). exists (map (fscale k) cs). split; [rewrite map_length; exact A|]. split; [apply Forall_map; eapply Forall_impl; [|exact B]; intros c Hc; apply clean_scale; exact Hc|].
  intros u q Hq. rewrite E by exact Hq. rewrite <- field_fscale. apply field_ext. intros l m _ _. clear A B E. induction cs as [|c cs IH]; cbn [map peval]; [unfold fscale; cx|].
  unfold fadd, fscale in *. rewrite <- IH. cx.
Qed.
Lemma poly_later : forall s L n F, poly s L n F -> poly s L (Datatypes.S n) (fun u q => Cscale u (F u q)).
Proof.
  intros s L n F (cs & A & B & E). exists (zmodes :: cs). split; [cbn [length]; lia|]. split; [constructor; [apply zmodes_clean|exact B]|].
  intros u q Hq. rewrite field_cons, E by exact Hq. rewrite (zero_field s L zmodes) by reflexivity. cx.
Qed.
Lemma poly_band : forall s L n g, band s L g -> poly s L n (fun _ q => g q).
Proof.
  intros s L n g (c & Hc & E). exists [c]. split; [cbn; lia|]. split; [constructor; [exact Hc|constructor]|]. intros u q Hq. rewrite field_cons, field_nil, E by exact Hq. cx.
Qed.
Lemma poly_mul : forall s1 L1 g s L n F, (0 <= L1)%Z -> (0 <= L)%Z -> band s1 L1 g -> poly s L n F -> poly (s1 + s) (L1 + L) n (fun u q => g q * F u q)%C.
Proof.
  intros s1 L1 g s L n F H1 HL (c1 & C1' & E1) (cs & A & B & E). exists (map (fun c => clip (s1 + s) (L1 + L) (times s1 L1 s L c1 c)) cs).
  split; [rewrite map_length; exact A|]. split; [apply Forall_map, Forall_forall; intros c _; apply clip_clean|].
  intros u q Hq. rewrite E1, E by exact Hq. clear A B E. induction cs as [|c cs IH]; cbn [map].
  - rewrite !field_nil. cx.
  - rewrite !field_cons, <- IH, field_clip, <- (proj1 (C72_fields s1 L1 c1 s L c H1 HL) q Hq). cx.
Qed.
Lemma poly_turn : forall s L n F p, (0 <= L)%Z -> qnorm2 p = 1 -> poly s L n F -> poly s L n (fun u q => F u (qmul p q)).
Proof.
  intros s L n F p HL Hp (cs & A & B & E). exists (map (fun c => clip s L (turn wigner_D p c)) cs).
  split; [rewrite map_length; exact A|]. split; [apply Forall_map, Forall_forall; intros c _; apply clip_clean|].
  intros u q Hq. rewrite E by (rewrite qnorm2_mul, Hp, Hq; ring). clear A B E. induction cs as [|c cs IH]; cbn [map].
  - rewrite !field_nil. reflexivity.
  - rewrite !field_cons, <- IH, field_clip, C68_field_rotation by exact HL. reflexivity.
Qed.
Section Polynomial.
Variable a : list C.
Variables La L : Z.
Hypothesis HLa : (0 <= La)%Z.
Hypothesis Hreal : is_real a La.
Hypothesis HL : (0 <= L)%Z.
Lemma alph_band : band 0 La (fun q => RtoC (alph a La q)).
Proof. destruct (band_field 0 La (mode_at a)) as (c & Hc & E). exists c. split; [exact Hc|]. intros q Hq. rewrite <- E by exact Hq. symmetry. apply (alph_field a La HLa Hreal). Qed.
Lemma poly_shift : forall s cs n, (length cs <= Datatypes.S n)%nat -> Forall (clean s L) cs -> poly s (L + Z.of_nat n * La) n (fun u q => field s L (peval cs (u + alph a La q)) q).
Proof.
  intros s. induction cs as [|c cs IH]; intros n Hn Hc.
  - exists []. split; [cbn; lia|]. split; [constructor|]. intros u q _. rewrite !field_nil. reflexivity.
  - inversion Hc as [|x y Hc1 Hc2 Ex]; subst. assert (B0 : poly s (L + Z.of_nat n * La) n (fun _ q => field s L c q)).
    { apply (poly_grow s L _ n n); [nia|lia|]. apply poly_band, band_field. }
    destruct n as [|n].
    + assert (cs = []) by (destruct cs; [reflexivity|cbn in Hn; lia]). subst cs. apply (poly_ext s _ _ (fun _ q => field s L c q)); [|exact B0].
      intros u q _. rewrite field_cons, field_nil. cx.
    + specialize (IH n ltac:(cbn in Hn; lia) Hc2).
      apply (poly_ext s _ _ (fun u q => field s L c q + (RtoC (alph a La q) * field s L (peval cs (u + alph a La q)%R) q + Cscale u (field s L (peval cs (u + alph a La q)%R) q)))%C).
      { intros u q _. rewrite field_cons. cx. }
      apply poly_add; [exact B0|]. apply poly_add.
      * apply (poly_grow s (La + (L + Z.of_nat n * La)) _ n); [nia|lia|]. apply (poly_mul 0 La _ s); [exact HLa|nia|apply alph_band|exact IH].
      * apply (poly_grow s (L + Z.of_nat n * La) _ (Datatypes.S n)); [nia|lia|]. apply poly_later. exact IH.
Qed.
Variable b : R -> bondi.
Variable n : nat.
Hypothesis HB : forall f, (f < 6)%nat -> polynomial n (fun t => bfield (b t) f).
Let N := (L + Z.of_nat (n + 4) * La)%Z.
Let P f u q := val L b f (u + alph a La q) q.
Lemma P_poly : forall f, (f < 6)%nat -> poly (spin_of f) (L + Z.of_nat n * La) n (P f).
Proof.
  intros f Hf. destruct (HB f Hf) as (cs & Hcs & E). pose proof (poly_shift (spin_of f) (map (clip (spin_of f) L) cs) n ltac:(rewrite map_length; exact Hcs)) as H.
  eapply poly_ext; [|apply H, Forall_map, Forall_forall; intros; apply clip_clean]. intros u q Hq. cbv beta. unfold P, val.
  assert (X : forall t, field (spin_of f) L (peval (map (clip (spin_of f) L) cs) t) q = field (spin_of f) L (peval cs t) q).
  { intros t. clear. induction cs as [|c cs IH]; [reflexivity|]. cbn [map]. rewrite !field_cons, IH, field_clip. reflexivity. }
  rewrite X. apply field_ext. intros l m _ _. symmetry. apply E.
Qed.
Lemma e_band : band 1 La (ealph a La).
Proof. apply band_field. Qed.
Lemma ee_band : band 2 (2 * La) (fun q => ealph a La q * ealph a La q)%C.
Proof. replace (2 * La)%Z with (La + La)%Z by lia. apply (band_mul 1 La _ 1 La); try assumption; apply e_band. Qed.
Lemma eee_band : band 3 (3 * La) (fun q => ealph a La q * ealph a La q * ealph a La q)%C.
Proof. replace (3 * La)%Z with (2 * La + La)%Z by lia. apply (band_mul 2 (2 * La) _ 1 La); [lia|lia|apply ee_band|apply e_band]. Qed.
Lemma eeee_band : band 4 (4 * La) (fun q => ealph a La q * ealph a La q * ealph a La q * ealph a La q)%C.
Proof. replace (4 * La)%Z with (3 * La + La)%Z by lia. apply (band_mul 3 (3 * La) _ 1 La); [lia|lia|apply eee_band|apply e_band]. Qed.
Lemma P_times : forall s j g f, (0 <= j <= 4)%Z -> (f < 6)%nat -> band s (j * La) g -> poly (s + spin_of f) N n (fun u q => g q * P f u q)%C.
Proof.
  intros s j g f Hj Hf Hg. apply (poly_grow _ (j * La + (L + Z.of_nat n * La)) _ n); [unfold N; nia|lia|]. apply poly_mul; [nia|nia|exact Hg|apply P_poly; exact Hf].
Qed.
Lemma P_grow : forall f, (f < 6)%nat -> poly (spin_of f) N n (P f).
Proof. intros f Hf. apply (poly_grow _ (L + Z.of_nat n * La) _ n); [unfold N; nia|lia|]. apply P_poly; exact Hf. Qed.
Lemma flat_poly : forall f, (f < 6)%nat -> poly (spin_of f) N n (flat a La L b f).
Proof.
  pose proof (P_times 1 1 (ealph a La)) as X1. replace (1 * La)%Z with La in X1 by lia. specialize (X1) . 
  pose proof (fun f H => P_times 2 2 _ f ltac:(lia) H ee_band) as X2. pose proof (fun f H => P_times 3 3 _ f ltac:(lia) H eee_band) as X3. pose proof (fun f H => P_times 4 4 _ f ltac:(lia) H eeee_band) as X4.
  pose proof (fun f H => X1 f ltac:(lia) H e_band) as Y1. clear X1.
  intros f Hf. destruct f as [|[|[|[|[|[|f]]]]]]; [..|lia]; unfold flat; cbv zeta.
  - apply poly_add; [apply poly_add; [apply poly_add; [apply poly_add; [apply (P_grow 0); lia|apply poly_scale, (Y1 1%nat); lia]|apply poly_scale, (X2 2%nat); lia]|apply poly_scale, (X3 3%nat); lia]|apply (X4 4%nat); lia].
  - apply poly_add; [apply poly_add; [apply poly_add; [apply (P_grow 1); lia|apply poly_scale, (Y1 2%nat); lia]|apply poly_scale, (X2 3%nat); lia]|apply (X3 4%nat); lia].
  - apply poly_add; [apply poly_add; [apply (P_grow 2); lia|apply poly_scale, (Y1 3%nat); lia]|apply (X2 4%nat); lia].
  - apply poly_add; [apply (P_grow 3); lia|apply (Y1 4%nat); lia].
  - apply (P_grow 4); lia.
  - apply (poly_ext 2 N n (fun u q => P 5%nat u q + Cscale (-1) (walph a La q))%C); [intros u q _; unfold P; apply C_eq; cbn [re im Cadd Csub Cscale]; ring|]. apply poly_add; [apply (P_grow 5); lia|apply poly_scale].
    apply (poly_grow 2 La N n n); [unfold N; nia|lia|]. apply poly_band, band_field.
Qed.
End Polynomial.

(** ** The modes that come out *)
Theorem C76_modes : forall n p a La L b sd sdd sddd M, qnorm2 p = 1 -> (0 <= La)%Z -> is_real a La -> (0 <= L)%Z -> bondi_solution L b sd sdd sddd ->
  (forall f, (f < 6)%nat -> polynomial n (fun t => bfield (b t) f)) -> (L + Z.of_nat (n + 4) * La <= M)%Z ->
  exists b' sd' sdd' sddd', bondi_solution M b' sd' sdd' sddd' /\ (forall f, (f < 6)%nat -> polynomial n (fun t => bfield (b' t) f)) /\
    (forall f u, (f < 6)%nat -> clean (spin_of f) M (bfield (b' u) f)) /\
    forall f u q, (f < 6)%nat -> qnorm2 q = 1 -> field (spin_of f) M (bfield (b' u) f) q = moved p a La L b f u q.
Proof.
  intros n p a La L b sd sdd sddd M Hp HLa HR HL HB HP HM.
  assert (X : forall f, (f < 6)%nat -> poly (spin_of f) M n (moved p a La L b f)).
  { intros f Hf. apply (poly_ext _ _ _ (fun u q => flat a La L b f u (qmul p q))); [intros; symmetry; apply moved_flat; exact Hf|].
    apply poly_turn; [nia|exact Hp|]. apply (poly_grow _ (L + Z.of_nat (n + 4) * La) _ n); [nia|lia|]. apply flat_poly; assumption. }
  destruct (X 0%nat ltac:(lia)) as (c0 & A0 & B0 & E0). destruct (X 1%nat ltac:(lia)) as (c1 & A1 & B1 & E1). destruct (X 2%nat ltac:(lia)) as (c2 & A2 & B2 & E2).
  destruct (X 3%nat ltac:(lia)) as (c3 & A3 & B3 & E3). destruct (X 4%nat ltac:(lia)) as (c4 & A4 & B4 & E4). destruct (X 5%nat ltac:(lia)) as (c5 & A5 & B5 & E5).
  set (cs := fun f : nat => nth f [c0; c1; c2; c3; c4; c5] c5).
  set (b' := fun u => mkbondi (peval c0 u) (peval c1 u) (peval c2 u) (peval c3 u) (peval c4 u) (peval c5 u)).
  assert (BF : forall f u, (f < 6)%nat -> bfield (b' u) f = peval (cs f) u) by (intros f u Hf; destruct f as [|[|[|[|[|[|f]]]]]]; [reflexivity..|lia]).
  assert (CS : forall f, (f < 6)%nat -> (length (cs f) <= Datatypes.S n)%nat /\ Forall (clean (spin_of f) M) (cs f) /\ forall u q, qnorm2 q = 1 -> moved p a La L b f u q = field (spin_of f) M (peval (cs f) u) q).
  { intros f Hf. destruct f as [|[|[|[|[|[|f]]]]]]; [..|lia]; (split; [assumption|]; split; assumption). }
  exists b', (peval (pder c5)), (peval (pder (pder c5))), (peval (pder (pder (pder c5)))). split; [|split; [|split]].
  - apply (gauge_modes (moved p a La L b) M b' (fun f => peval (pder (cs f)))).
    + nia.
    + intros u f Hf. rewrite BF by exact Hf. apply peval_clean, CS. exact Hf.
    + intros f u q Hf Hq. rewrite BF by exact Hf. apply CS; assumption.
    + intros f u l m Hf. apply (hd_ext (fun x => peval (cs f) x l m)); [intros x; rewrite BF by exact Hf; reflexivity|apply peval_dot].
    + intros u l m. apply peval_dot.
    + intros u l m. apply peval_dot.
    + apply (C76_transform p a La L b sd sdd sddd); assumption.
  - intros f Hf. exists (cs f). split; [apply CS; exact Hf|]. intros t l m. rewrite BF by exact Hf. reflexivity.
  - intros f u Hf. rewrite BF by exact Hf. apply peval_clean, CS. exact Hf.
  - intros f u q Hf Hq. rewrite BF by exact Hf. symmetry. apply CS; assumption.
Qed.

(** ** From end to end *)
(** Interpolation through four or more points of a cubic is that cubic, as for scipy's CubicSpline with its default end conditions. *)
Definition cubic (c0 c1 c2 c3 : C) (x : R) : C := (c0 + Cscale x (c1 + Cscale x (c2 + Cscale x c3)))%C.
Definition cubics (spline : list R -> list C -> res (R -> C)) : Prop :=
  forall xs c0 c1 c2 c3, increasing xs -> (4 <= length xs)%nat -> exists g, spline xs (map (cubic c0 c1 c2 c3) xs) = Ok g /\ forall x, g x = cubic c0 c1 c2 c3 x.
(** Data that are the values of [B] at their times *)
Definition samples (b : bdata) (B : R -> bondi) : Prop :=
  forall f i l m, (f < 6)%nat -> (i < length (bd_u b))%nat -> valid 0 (bd_hi b) l m -> bmode b f i l m = bfield (B (nth i (bd_u b) 0)) f l m.
Lemma field_cubic : forall s L cs q, (length cs <= 4)%nat -> exists c0 c1 c2 c3, forall x, field s L (peval cs x) q = cubic c0 c1 c2 c3 x.
Proof.
  intros s L cs q H. destruct cs as [|c0 [|c1 [|c2 [|c3 [|]]]]]; [..|cbn in H; lia].
  - exists C0, C0, C0, C0. intros x. rewrite field_nil. unfold cubic. cx.
  - exists (field s L c0 q), C0, C0, C0. intros x. rewrite !field_cons, field_nil. unfold cubic. cx.
  - exists (field s L c0 q), (field s L c1 q), C0, C0. intros x. rewrite !field_cons, field_nil. unfold cubic. cx.
  - exists (field s L c0 q), (field s L c1 q), (field s L c2 q), C0. intros x. rewrite !field_cons, field_nil. unfold cubic. cx.
  - exists (field s L c0 q), (field s L c1 q), (field s L c2 q), (field s L c3 q). intros x. rewrite !field_cons, field_nil. unfold cubic. cx.
Qed.
Theorem C76_pipeline : forall spline map2salm b k p B sd sdd sddd, let L := bd_hi b in let La := ell_max_of (p_super p) in let out := p_output p in let n := (2 * p_working p + 1)%Z in
  passes spline -> cubics spline -> data_ok b -> increasing (bd_u b) -> (4 <= length (bd_u b))%nat -> abd_process L k = Ok p -> p_boost p = (0, 0, 0) ->
  bondi_solution L B sd sdd sddd -> (forall f, (f < 6)%nat -> polynomial 3 (fun t => bfield (B t) f)) -> samples b B ->
  (L + 7 * La <= out <= p_working p)%Z -> (forall f, (f < 6)%nat -> exact map2salm (spin_of f) n n) ->
  exists b' B' sd' sdd' sddd', abd_transform spline map2salm b k = Ok b' /\ bd_hi b' = out /\ data_ok b' /\
    bondi_solution out B' sd' sdd' sddd' /\ samples b' B' /\
    (forall f u q, (f < 6)%nat -> qnorm2 q = 1 -> field (spin_of f) out (bfield (B' u) f) q = moved (p_rotation p) (p_super p) La L B f u q) /\
    new_slices (0, 0, 0) (nth 0 (p_super p) C0) (map (fun q => direction_of (p_super p) La (0, 0, 0) (qmul (p_rotation p) q)) (grid_points n n)) (bd_u b) = Ok (bd_u b') /\
    (forall f, (f < 6)%nat -> polynomial 3 (fun t => bfield (B' t) f)) /\ (forall f u, (f < 6)%nat -> clean (spin_of f) out (bfield (B' u) f)).
Proof.
  intros spline map2salm b k p B sd sdd sddd L La out n HS HCu Hb Hi H4 Hp Hv HB HP HSa Ho HX.
  destruct (abd_grid spline HS map2salm b k p Hb Hi ltac:(lia) Hp) as (newt & Eo & EA). fold n La in Eo, EA. rewrite Hv in Eo, EA.
  destruct (C28_parameters _ _ _ Hp) as (Hq & _). destruct (C28_real _ _ _ Hp) as (L' & HL' & Hm & HR). destruct (real_modes_id _ L' ltac:(lia) Hm HR) as [_ EL].
  assert (La = L') by exact EL. subst L'. assert (H0 : (0 <= L)%Z) by exact (proj1 Hb).
  assert (RM : map (grid_rotor (p_rotation p) (0, 0, 0)) (grid_points n n) = map (qmul (p_rotation p)) (grid_points n n)).
  { apply map_ext_in. intros r I. apply (C55_parallel (p_rotation p) r (0, 0, 0) Hq (grid_points_unit _ _ _ I)). }
  rewrite RM in Eo, EA. rewrite map_map in Eo.
  destruct (C76_modes 3 (p_rotation p) (p_super p) La L B sd sdd sddd out Hq ltac:(lia) HR H0 HB HP ltac:(lia)) as (B' & sd' & sdd' & sddd' & HB' & HP' & HC' & HV').
  (** the interpolated values are those of the transformed fields *)
  assert (TR : forall f i r, (f < 6)%nat -> In r (grid_points n n) -> track spline b p (qmul (p_rotation p) r) f (nth i newt 0) = field (spin_of f) out (bfield (B' (nth i newt 0)) f) r).
  { intros f i r Hf Ir. assert (Ur := grid_points_unit _ _ _ Ir). set (q := qmul (p_rotation p) r).
    unfold track. fold La. rewrite Hv. set (d := direction_of (p_super p) La (0, 0, 0) q).
    destruct (HP' f Hf) as (cs & Hcs & Ecs). destruct (field_cubic (spin_of f) out cs r Hcs) as (c0 & c1 & c2 & c3 & EC).
    assert (F : forall x, moved (p_rotation p) (p_super p) La L B f x r = cubic c0 c1 c2 c3 x).
    { intros x. rewrite <- HV' by assumption. rewrite <- EC. apply field_ext. intros l m _ _. apply Ecs. }
    assert (EK : map (fun m => part f (abd_point (0, 0, 0) d (nth m (bd_u b) 0) (points b m q))) (seq 0 (length (bd_u b))) = map (cubic c0 c1 c2 c3) (knots (0, 0, 0) d (bd_u b))).
    { unfold knots. rewrite map_map. apply nth_ext with (d := C0) (d' := cubic c0 c1 c2 c3 (kfactor (0, 0, 0) (d_r d) * (0 - d_alpha d))); [rewrite !map_length, seq_length; reflexivity|].
      intros j Hj. rewrite map_length, seq_length in Hj. rewrite (map_nth (fun t => cubic c0 c1 c2 c3 (kfactor (0, 0, 0) (d_r d) * (t - d_alpha d))) (bd_u b) 0).
      set (g := fun m => part f (abd_point (0, 0, 0) d (nth m (bd_u b) 0) (points b m q))). rewrite (nth_indep _ C0 (g 0%nat)) by (rewrite map_length, seq_length; exact Hj).
      rewrite (map_nth g), seq_nth by exact Hj. cbn [Nat.add]. unfold g. rewrite (proj2 (still_k _)). rewrite <- F. unfold moved. fold q d.
      replace (1 * (nth j (bd_u b) 0 - d_alpha d) + d_alpha d) with (nth j (bd_u b) 0) by ring. f_equal. f_equal.
      assert (EP : forall g, (g < 6)%nat -> point b g j q = field (spin_of g) L (bfield (B (nth j (bd_u b) 0)) g) q).
      { intros g' Hg. unfold point. apply field_ext. intros l m Hl Hm'. apply HSa; [exact Hg|exact Hj|]. split; [exact Hl|exact Hm']. }
      unfold points. rewrite !EP by lia. reflexivity. }
    rewrite EK. assert (IK : increasing (knots (0, 0, 0) d (bd_u b))).
    { unfold knots. apply increasing_map; [|exact Hi]. intros x y Lxy. rewrite (proj2 (still_k _)). lra. }
    destruct (HCu (knots (0, 0, 0) d (bd_u b)) c0 c1 c2 c3 IK) as (g & -> & Hg); [unfold knots; rewrite map_length; exact H4|]. rewrite Hg, <- F. symmetry. apply HV'; assumption. }
  set (row := fun f i => map (fun lm => if ((Z.abs (spin_of f) <=? fst lm) && (fst lm <=? out))%Z then bfield (B' (nth i newt 0)) f (fst lm) (snd lm) else C0) (LM_range 0 out)).
  assert (MM : forall f i, (f < 6)%nat -> map2salm n n (map (fun q => track spline b p q f (nth i newt 0)) (map (qmul (p_rotation p)) (grid_points n n))) (spin_of f) out = row f i).
  { intros f i Hf. rewrite map_map. rewrite (map_ext_in _ (field (spin_of f) out (bfield (B' (nth i newt 0)) f))) by (intros r Ir; apply TR; assumption).
    unfold row. apply (HX f Hf); unfold n; lia. }
  rewrite EA. rewrite (each_ok _ _ _ (fun f => map (row f) (seq 0 (length newt)))).
  2: { intros f Hf. apply in_seq in Hf. apply each_ok. intros i _. cbv zeta. fold out. rewrite MM by lia. unfold row at 1. rewrite map_length. pose proof (LM_range_length 0 out ltac:(lia) ltac:(lia)) as EL2.
       destruct (Z.eqb_spec (Z.of_nat (length (LM_range 0 out))) ((out + 1) ^ 2)); [reflexivity|exfalso; nia]. }
  cbn [rbind]. fold out. eexists. exists B', sd', sdd', sddd'. split; [reflexivity|]. cbn [bd_u bd_hi]. split; [reflexivity|].
  assert (NF : forall f, (f < 6)%nat -> nth f (map (fun f => map (row f) (seq 0 (length newt))) (seq 0 6)) [] = map (row f) (seq 0 (length newt))).
  { intros f Hf. destruct f as [|[|[|[|[|[|f]]]]]]; try lia; reflexivity. }
  split; [|split; [exact HB'|split; [|split; [exact HV'|split; [exact Eo|split; [exact HP'|exact HC']]]]]].
  - split; [cbn [bd_hi]; lia|]. split; [reflexivity|]. intros f Hf. cbn [bd_fields bd_u bd_hi]. rewrite NF by exact Hf. split; [rewrite map_length, seq_length; reflexivity|].
    intros r I. apply in_map_iff in I. destruct I as (i & <- & I). unfold row. apply map_length.
  - intros f i l m Hf Hi' Hv'. cbn [bd_u bd_hi] in *. unfold bmode. cbn [bd_fields]. rewrite NF by exact Hf.
    rewrite (nth_indep _ [] (row f 0%nat)) by (rewrite map_length, seq_length; exact Hi'). rewrite (map_nth (row f)), seq_nth by exact Hi'. cbn [Nat.add].
    unfold row. rewrite mode_map by (lia || exact Hv'). cbn [fst snd]. destruct (Z.leb_spec (Z.abs (spin_of f)) l) as [B1|B1]; cbn [andb].
    + destruct Hv' as [Hl _]. destruct (Z.leb_spec l out); [reflexivity|lia].
    + symmetry. apply HC'; [exact Hf|lia].
Qed.

(** ** Data built from initial values *)
Lemma upto_le : forall L L' f, (L <= L')%Z -> upto L f -> upto L' f.
Proof. intros L L' f H Hf l m O. apply Hf. lia. Qed.
Lemma upto_add : forall L f g, upto L f -> upto L g -> upto L (fadd f g).
Proof. intros L f g Hf Hg l m O. unfold fadd. rewrite Hf, Hg by exact O. cx. Qed.
Lemma upto_sub : forall L f g, upto L f -> upto L g -> upto L (fsub f g).
Proof. intros L f g Hf Hg l m O. unfold fsub. rewrite Hf, Hg by exact O. cx. Qed.
Lemma upto_scale : forall L k f, upto L f -> upto L (fscale k f).
Proof. intros L k f Hf l m O. unfold fscale. rewrite Hf by exact O. cx. Qed.
Lemma upto_opp : forall L f, upto L f -> upto L (fopp f).
Proof. intros L f Hf l m O. unfold fopp. rewrite Hf by exact O. cx. Qed.
Lemma upto_muli : forall L f, upto L f -> upto L (fmuli f).
Proof. intros L f Hf l m O. unfold fmuli. rewrite Hf by exact O. cx. Qed.
Lemma upto_real : forall L f, upto L f -> upto L (freal f).
Proof. intros L f Hf. apply upto_scale, upto_add; [exact Hf|apply upto_bar; exact Hf]. Qed.
Lemma upto_imag : forall L f, upto L f -> upto L (fimag f).
Proof. intros L f Hf l m O. unfold fimag. rewrite Hf, (upto_bar L 0 f Hf) by exact O. cx. Qed.
Lemma upto_mul : forall L Lo s1 s2 L1 L2 f g, upto L1 f -> upto L2 g -> upto (L1 + L2) (multiply product_table L Lo s1 s2 f g).
Proof.
  intros L Lo s1 s2 L1 L2 f g Hf Hg l m O. unfold multiply. destruct (l <=? Lo)%Z; [|reflexivity].
  apply csum_const0. intros [l1 m1] I1. apply csum_const0. intros [l2 m2] I2. cbn [fst snd]. destruct (Z.eqb_spec (m1 + m2) m) as [E|E]; [|reflexivity]. subst m.
  destruct (Z.lt_ge_cases L1 l1) as [B1|B1]; [rewrite (Hf l1 m1) by lia; cx|]. destruct (Z.lt_ge_cases L2 l2) as [B2|B2]; [rewrite (Hg l2 m2) by lia; cx|].
  unfold product_table. destruct (bool_dec (ok s1 l1 m1) true); [|cx]. destruct (bool_dec (ok s2 l2 m2) true); [|cx].
  assert (N : (ok (s1 + s2) l (m1 + m2) && (l <=? l1 + l2))%Z = false).
  { unfold ok. destruct (Z.leb_spec (Z.abs (s1 + s2)) l), (Z.leb_spec (Z.abs (m1 + m2)) l), (Z.leb_spec l (l1 + l2)); cbn [andb]; try reflexivity. lia. }
  rewrite N. cx.
Qed.
Lemma mul_full : forall L s1 s2 L1 L2 f g, upto L1 f -> upto L2 g -> (0 <= L)%Z -> (L1 + L2 <= L)%Z -> forall l m, multiply product_table L L s1 s2 f g l m = multiply product_table L (2 * L) s1 s2 f g l m.
Proof.
  intros L s1 s2 L1 L2 f g Hf Hg HL HLL l m. destruct (Z.lt_ge_cases L l) as [B|B].
  - rewrite (upto_mul L L s1 s2 L1 L2 f g Hf Hg), (upto_mul L (2 * L) s1 s2 L1 L2 f g Hf Hg) by lia. reflexivity.
  - unfold multiply. destruct (Z.leb_spec l L), (Z.leb_spec l (2 * L)); try lia. reflexivity.
Qed.
Ltac up_solve := repeat first [assumption | match goal with
  | |- upto _ (eth_GHP _ _) => apply upto_eth | |- upto _ (fbar _ _) => apply upto_bar | |- upto _ (freal _) => apply upto_real | |- upto _ (fimag _) => apply upto_imag
  | |- upto _ (fmuli _) => apply upto_muli | |- upto _ (fopp _) => apply upto_opp | |- upto _ (fsub _ _) => apply upto_sub | |- upto _ (fadd _ _) => apply upto_add | |- upto _ (fscale _ _) => apply upto_scale end].
(** The shear and its derivatives have modes up to L0, psi2 up to 2 L0, and there is room for 3 L0. *)
Definition roomy (L L0 : Z) (i : initial) : Prop :=
  (0 <= L0)%Z /\ (3 * L0 <= L)%Z /\ upto L0 (i_sigma0 i) /\ upto L0 (i_sigmadot0 i) /\ upto L0 (i_sigmaddot0 i) /\ upto (2 * L0) (i_psi2 i) /\ upto L (i_psi1 i) /\ upto L (i_psi0 i).
Section Initial.
Variables L L0 : Z.
Variable i : initial.
Hypothesis HR : roomy L L0 i.
Lemma up_s : upto L0 (s0 i) /\ upto L0 (s1 i) /\ upto L0 (s2 i).
Proof. destruct HR as (_ & _ & H1 & H2 & H3 & _). split; [exact H1|]. split; [exact H2|]. apply upto_scale. exact H3. Qed.
Lemma up_4 : upto L0 (p4_0 i).
Proof. destruct up_s as (A0 & A1 & A2). unfold p4_0. up_solve. Qed.
Lemma up_3 : upto L0 (p3_0 i) /\ upto L0 (p3_1 i).
Proof. destruct up_s as (A0 & A1 & A2). split; [unfold p3_0|unfold p3_1]; up_solve. Qed.
Lemma up_m : forall s1' s2' f g, upto L0 f -> upto L0 g -> upto (2 * L0) (mul product_table L s1' s2' f g).
Proof. intros a' b' f g Hf Hg. replace (2 * L0)%Z with (L0 + L0)%Z by lia. apply upto_mul; assumption. Qed.
Lemma up_m2 : forall s1' s2' f g, upto L0 f -> upto (2 * L0) g -> upto L (mul product_table L s1' s2' f g).
Proof. intros a' b' f g Hf Hg. apply (upto_le (L0 + 2 * L0)); [destruct HR; lia|]. apply upto_mul; assumption. Qed.
Lemma up_L0 : forall f, upto L0 f -> upto (2 * L0) f.
Proof. intros f. apply upto_le. destruct HR; lia. Qed.
Lemma up_2L0 : forall f, upto (2 * L0) f -> upto L f.
Proof. intros f. apply upto_le. destruct HR; lia. Qed.
Lemma up_2 : upto (2 * L0) (p2_0 product_table L i) /\ upto (2 * L0) (p2_1 product_table L i) /\ upto (2 * L0) (p2_2 product_table L i) /\ upto (2 * L0) (p2_3 product_table L i).
Proof.
  destruct up_s as (A0 & A1 & A2), up_3 as (B0 & B1). pose proof up_4 as D. assert (P2 : upto (2 * L0) (i_psi2 i)) by (destruct HR as (_ & _ & _ & _ & _ & H & _); exact H).
  split; [|split; [|split]]; [unfold p2_0|unfold p2_1|unfold p2_2|unfold p2_3]; up_solve; first [apply up_m; solve [up_solve]|apply up_L0; solve [up_solve]].
Qed.
Lemma up_1 : upto L (p1_0 i) /\ upto (2 * L0) (p1_1 product_table L i) /\ upto (2 * L0) (p1_2 product_table L i) /\ upto (2 * L0) (p1_3 product_table L i) /\ upto (2 * L0) (p1_4 product_table L i).
Proof.
  destruct up_s as (A0 & A1 & A2), up_3 as (B0 & B1), up_2 as (D0 & D1 & D2 & D3).
  split; [destruct HR as (_ & _ & _ & _ & _ & _ & H & _); exact H|].
  split; [|split; [|split]]; [unfold p1_1|unfold p1_2|unfold p1_3|unfold p1_4]; up_solve; first [apply up_m; solve [up_solve]|apply up_L0; solve [up_solve]].
Qed.
Lemma up_0 : upto L (p0_0 i) /\ upto L (p0_1 product_table L i) /\ upto L (p0_2 product_table L i) /\ upto L (p0_3 product_table L i) /\ upto L (p0_4 product_table L i) /\
  upto L (p0_5 product_table L i) /\ upto L (p0_6 product_table L i).
Proof.
  destruct up_s as (A0 & A1 & A2), up_2 as (D0 & D1 & D2 & D3), up_1 as (E0 & E1 & E2 & E3 & E4). apply up_2L0 in E1, E2, E3, E4.
  split; [destruct HR as (_ & _ & _ & _ & _ & _ & _ & H); exact H|].
  split; [|split; [|split; [|split; [|split]]]]; [unfold p0_1|unfold p0_2|unfold p0_3|unfold p0_4|unfold p0_5|unfold p0_6]; up_solve; first [apply up_m2; solve [up_solve]].
Qed.
Let b := from_initial_values_exact product_table L i.
Lemma up_sigma : forall u, upto L0 (b_sigma (b u)).
Proof. intros u. destruct up_s as (A0 & A1 & A2). unfold b, from_initial_values_exact, exact_sigma. cbn [b_sigma]. up_solve. Qed.
Lemma up_psi3 : forall u, upto L0 (b_psi3 (b u)).
Proof. intros u. destruct up_3 as (A0 & A1). unfold b, from_initial_values_exact, exact_psi3. cbn [b_psi3]. up_solve. Qed.
Lemma up_psi2 : forall u, upto (2 * L0) (b_psi2 (b u)).
Proof. intros u. destruct up_2 as (A0 & A1 & A2 & A3). unfold b, from_initial_values_exact, exact_psi2. cbn [b_psi2]. up_solve. Qed.
Lemma up_sdot : forall u, upto L0 (exact_sigma_dot i u).
Proof. intros u. destruct HR as (_ & _ & _ & H1 & H2 & _). unfold exact_sigma_dot. up_solve. Qed.
Theorem C76_initial : bondi_solution L b (exact_sigma_dot i) (exact_sigma_ddot i) (fun _ => zmodes) /\ forall f, (f < 6)%nat -> polynomial 6 (fun t => bfield (b t) f).
Proof.
  destruct HR as (H0 & H3 & HR'). pose proof (C34_exact product_table L i) as X. fold b in X. split.
  - constructor.
    + intros u f Hf. destruct up_0 as (A0 & A1 & A2 & A3 & A4 & A5 & A6), up_1 as (E0 & E1 & E2 & E3 & E4). apply up_2L0 in E1, E2, E3, E4.
      destruct f as [|[|[|[|[|[|f]]]]]]; [..|lia]; cbn [bfield nth]; [| |apply up_2L0, up_psi2|apply up_2L0, up_L0, up_psi3| |apply up_2L0, up_L0, up_sigma].
      * unfold b, from_initial_values_exact, exact_psi0. cbn [b_psi0]. up_solve.
      * unfold b, from_initial_values_exact, exact_psi1. cbn [b_psi1]. up_solve.
      * apply up_2L0, up_L0, up_4.
    + apply (eq_sigma_dot _ _ _ _ _ X).
    + apply (eq_sigma_ddot _ _ _ _ _ X).
    + intros u l m. apply (hd_const (i_sigmaddot0 i l m)).
    + intros u l m. eapply hd_eq; [apply (eq_bianchi_0 _ _ _ _ _ X)|]. rewrite (mul_full L 2 0 L0 (2 * L0)); [reflexivity|apply up_sigma|apply up_psi2|lia|lia].
    + intros u l m. eapply hd_eq; [apply (eq_bianchi_1 _ _ _ _ _ X)|]. rewrite (mul_full L 2 (-1) L0 L0); [reflexivity|apply up_sigma|apply up_psi3|lia|lia].
    + intros u l m. eapply hd_eq; [apply (eq_bianchi_2 _ _ _ _ _ X)|]. rewrite (mul_full L 2 (-2) L0 L0); [reflexivity|apply up_sigma|apply up_4|lia|lia].
    + apply (eq_psi3 _ _ _ _ _ X).
    + apply (eq_psi4 _ _ _ _ _ X).
    + intros u l m. pose proof (C34_mass_aspect product_table L i C72_symmetric C72_flip u l m) as Y. cbv zeta in Y. fold b in Y. rewrite Y. f_equal. apply fimag_ext. intros k. unfold fadd. f_equal.
      apply (mul_full L 2 (-2) L0 L0); [apply up_sigma|apply upto_bar, up_sdot|lia|lia].
  - intros f Hf. destruct f as [|[|[|[|[|[|f]]]]]]; [..|lia].
    + exists [p0_0 i; p0_1 product_table L i; p0_2 product_table L i; p0_3 product_table L i; p0_4 product_table L i; p0_5 product_table L i; p0_6 product_table L i].
      split; [cbn; lia|]. intros t l m. cbn [bfield nth peval]. unfold b, from_initial_values_exact, exact_psi0. cbn [b_psi0]. unfold fadd, fscale. cx.
    + exists [p1_0 i; p1_1 product_table L i; p1_2 product_table L i; p1_3 product_table L i; p1_4 product_table L i].
      split; [cbn; lia|]. intros t l m. cbn [bfield nth peval]. unfold b, from_initial_values_exact, exact_psi1. cbn [b_psi1]. unfold fadd, fscale. cx.
    + exists [p2_0 product_table L i; p2_1 product_table L i; p2_2 product_table L i; p2_3 product_table L i].
      split; [cbn; lia|]. intros t l m. cbn [bfield nth peval]. unfold b, from_initial_values_exact, exact_psi2. cbn [b_psi2]. unfold fadd, fscale. cx.
    + exists [p3_0 i; p3_1 i]. split; [cbn; lia|]. intros t l m. cbn [bfield nth peval]. unfold b, from_initial_values_exact, exact_psi3. cbn [b_psi3]. unfold fadd, fscale. cx.
    + exists [p4_0 i]. split; [cbn; lia|]. intros t l m. cbn [bfield nth peval]. unfold b, from_initial_values_exact, exact_psi4. cbn [b_psi4]. unfold fadd, fscale. cx.
    + exists [s0 i; s1 i; s2 i]. split; [cbn; lia|]. intros t l m. cbn [bfield nth peval]. unfold b, from_initial_values_exact, exact_sigma. cbn [b_sigma]. unfold fadd, fscale. cx.
Qed.
End Initial.

(** ** Cases *)
(** Data with a shear that changes quadratically in time, a mass, and a supertranslation of degree two: the theorems apply and neither the gravitational waves nor the supertranslation is zero. *)
Definition ex_i : initial := mkinit (one_mode 2 0) (one_mode 2 1) (one_mode 2 2) (one_mode 0 0) (one_mode 1 0) (one_mode 2 1).
Definition ex_a : list C := [C0; C0; C0; C0; mkC 0 1; C0; C1; C0; mkC 0 (-1)].
Lemma ex_a_real : is_real ex_a 2.
Proof.
  intros l m Hl Hm. assert (H : (l = 0 \/ l = 1 \/ l = 2)%Z) by lia.
  destruct H as [-> | [-> | ->]]; [assert (H : (m = 0)%Z) by lia|assert (H : (m = -1 \/ m = 0 \/ m = 1)%Z) by lia|assert (H : (m = -2 \/ m = -1 \/ m = 0 \/ m = 1 \/ m = 2)%Z) by lia];
    repeat destruct H as [H|H]; subst m; unfold mode_at, ex_a; repeat match goal with |- context [Z.to_nat ?e] => let v := eval compute in (Z.to_nat e) in change (Z.to_nat e) with v end;
    cbn [nth]; unfold sgn; cbn [Z.even]; apply C_eq; cbn; ring.
Qed.
Lemma one_upto : forall l m L, (0 <= l <= L)%Z -> (- l <= m <= l)%Z -> upto L (one_mode l m).
Proof. intros l m L Hl Hm x y O. unfold one_mode. destruct (Z.eqb_spec x l), (Z.eqb_spec y m); cbn [andb]; try reflexivity. lia. Qed.
Lemma ex_i_roomy : roomy 6 2 ex_i.
Proof. unfold roomy, ex_i. cbn [i_sigma0 i_sigmadot0 i_sigmaddot0 i_psi2 i_psi1 i_psi0]. split; [lia|]. split; [lia|]. repeat split; apply one_upto; lia. Qed.
Example C76_case : let b := from_initial_values_exact product_table 6 ex_i in
  bondi_gauge (moved (mkq 0 0 0 1) ex_a 2 6 b) /\
  (exists b' sd' sdd' sddd', bondi_solution 26 b' sd' sdd' sddd' /\ forall f u q, (f < 6)%nat -> qnorm2 q = 1 -> field (spin_of f) 26 (bfield (b' u) f) q = moved (mkq 0 0 0 1) ex_a 2 6 b f u q) /\
  b_psi4 (b 0) 2%Z (-2)%Z = RtoC (-1).
Proof.
  cbv zeta. set (b := from_initial_values_exact product_table 6 ex_i). assert (Hq : qnorm2 (mkq 0 0 0 1) = 1) by (unfold qnorm2; cbn; ring).
  destruct (C76_initial 6 2 ex_i ex_i_roomy) as [HB HP]. fold b in HB, HP. split; [|split].
  - exact (C76_transform _ ex_a 2 6 _ _ _ _ Hq ltac:(lia) ex_a_real ltac:(lia) HB).
  - destruct (C76_modes 6 (mkq 0 0 0 1) ex_a 2 6 b _ _ _ 26 Hq ltac:(lia) ex_a_real ltac:(lia) HB HP ltac:(lia)) as (b' & d1 & d2 & d3 & H1 & _ & _ & H2). exists b', d1, d2, d3. split; assumption.
  - rewrite (bs_4 _ _ _ _ _ HB). unfold fbar, exact_sigma_ddot, ex_i, s2, fscale. cbn [i_sigmaddot0]. unfold one_mode. cbn. apply C_eq; cbn; field.
Qed.

(** Interpolation that passes through every point and is exact on cubics *)
Definition lagrange (x0 x1 x2 x3 y0 y1 y2 y3 x : R) : R :=
  y0 * ((x - x1) * (x - x2) * (x - x3) / ((x0 - x1) * (x0 - x2) * (x0 - x3))) + y1 * ((x - x0) * (x - x2) * (x - x3) / ((x1 - x0) * (x1 - x2) * (x1 - x3)))
  + y2 * ((x - x0) * (x - x1) * (x - x3) / ((x2 - x0) * (x2 - x1) * (x2 - x3))) + y3 * ((x - x0) * (x - x1) * (x - x2) / ((x3 - x0) * (x3 - x1) * (x3 - x2))).
Definition through (xs : list R) (ys : list C) (x : R) : C := match xs, ys with
  | x0 :: x1 :: x2 :: x3 :: _, y0 :: y1 :: y2 :: y3 :: _ => mkC (lagrange x0 x1 x2 x3 (re y0) (re y1) (re y2) (re y3) x) (lagrange x0 x1 x2 x3 (im y0) (im y1) (im y2) (im y3) x)
  | _, _ => C0 end.
Definition Ceqb (a b : C) : bool := if Req_EM_T (re a) (re b) then if Req_EM_T (im a) (im b) then true else false else false.
Definition cubic_or_lookup (xs : list R) (ys : list C) : res (R -> C) :=
  if forallb (fun p => Ceqb (through xs ys (fst p)) (snd p)) (combine xs ys) then Ok (through xs ys) else clookup xs ys.
Lemma Ceqb_spec : forall a b, Ceqb a b = true <-> a = b.
Proof.
  intros [a a'] [b b']. unfold Ceqb. cbn [re im]. destruct (Req_EM_T a b) as [->|N]; [|split; [discriminate|intros E; injection E; congruence]].
  destruct (Req_EM_T a' b') as [->|N]; [split; reflexivity|split; [discriminate|intros E; injection E; congruence]].
Qed.
Lemma cubic_or_lookup_passes : passes cubic_or_lookup.
Proof.
  intros xs ys HI Hn HL. unfold cubic_or_lookup. destruct (forallb _ _) eqn:E; [|apply clookup_passes; assumption].
  eexists. split; [reflexivity|]. intros i Hi. rewrite forallb_forall in E. apply Ceqb_spec.
  specialize (E (nth i xs 0, nth i ys C0)). apply E. rewrite <- combine_nth by (symmetry; exact HL). apply nth_In. rewrite combine_length. lia.
Qed.
Lemma through_cubic : forall c0 c1 c2 c3 x0 x1 x2 x3 xs, x0 < x1 -> x1 < x2 -> x2 < x3 -> forall x, through (x0 :: x1 :: x2 :: x3 :: xs) (map (cubic c0 c1 c2 c3) (x0 :: x1 :: x2 :: x3 :: xs)) x = cubic c0 c1 c2 c3 x.
Proof.
  intros [a0 b0] [a1 b1] [a2 b2] [a3 b3] x0 x1 x2 x3 xs H1 H2 H3 x. cbn [map through]. unfold lagrange, cubic, Cscale. apply C_eq; cbn; field; lra.
Qed.
Lemma cubic_or_lookup_cubics : cubics cubic_or_lookup.
Proof.
  intros xs c0 c1 c2 c3 HI H4. destruct xs as [|x0 [|x1 [|x2 [|x3 xs]]]]; try (cbn in H4; lia).
  assert (X1 : x0 < x1) by (apply increasing_lt with (l := x1 :: x2 :: x3 :: xs); [exact HI|left; reflexivity]).
  assert (X2 : x1 < x2) by (apply increasing_lt with (l := x2 :: x3 :: xs); [inversion HI; assumption|left; reflexivity]).
  assert (X3 : x2 < x3) by (apply increasing_lt with (l := x3 :: xs); [inversion HI as [| |? ? ? ? HJ]; inversion HJ; assumption|left; reflexivity]).
  exists (through (x0 :: x1 :: x2 :: x3 :: xs) (map (cubic c0 c1 c2 c3) (x0 :: x1 :: x2 :: x3 :: xs))). split; [|apply through_cubic; assumption].
  unfold cubic_or_lookup. destruct (forallb _ _) eqn:E; [reflexivity|]. exfalso. apply not_true_iff_false in E. apply E. apply forallb_forall. intros [x y] I. cbn [fst snd]. apply Ceqb_spec.
  rewrite through_cubic by assumption. revert I. generalize (x0 :: x1 :: x2 :: x3 :: xs). induction l as [|z l IH]; [contradiction|]. cbn [map combine]. intros [I|I]; [injection I as <- <-; reflexivity|apply IH, I].
Qed.
(** A pulse of psi1 that makes psi0 grow linearly, at four times *)
Definition ex_B (t : R) : bondi := mkbondi (fadd (one_mode 2 0) (fscale t (eth_GHP 1 (one_mode 2 1)))) (one_mode 2 1) zmodes zmodes zmodes zmodes.
Definition ex_bB : bdata := mkbd [0; 1; 2; 3] 2 (map (fun f => map (fun t => map (fun lm => bfield (ex_B t) f (fst lm) (snd lm)) (LM_range 0 2)) [0; 1; 2; 3]) (seq 0 6)) InertialFrame [].
Lemma multiply_zmodes : forall L Lo s1 s2 g l m, multiply product_table L Lo s1 s2 zmodes g l m = C0.
Proof.
  intros L Lo s1 s2 g l m. unfold multiply. destruct (l <=? Lo)%Z; [|reflexivity]. apply csum_const0. intros p _. apply csum_const0. intros q _. destruct (_ =? _)%Z; [|reflexivity]. unfold zmodes. cx.
Qed.
Lemma ex_B_solution : bondi_solution 2 ex_B (fun _ => zmodes) (fun _ => zmodes) (fun _ => zmodes) /\ forall f, (f < 6)%nat -> polynomial 3 (fun t => bfield (ex_B t) f).
Proof.
  assert (U0 : upto 2 zmodes) by (intros l m _; reflexivity). assert (U1 : upto 2 (one_mode 2 1)) by (apply one_upto; lia). assert (U2 : upto 2 (one_mode 2 0)) by (apply one_upto; lia).
  assert (E0 : forall s f l m, (forall x y, f x y = C0) -> eth_GHP s f l m = C0) by (intros s f l m H; unfold eth_GHP, eth, ladder, fscale; rewrite H; destruct (_ <? _)%Z; cx).
  assert (EZ : forall s l m, eth_GHP s zmodes l m = C0) by (intros; apply E0; reflexivity).
  assert (EB : forall s l m, fbar s zmodes l m = C0) by (intros; unfold fbar, zmodes; cx).
  split.
  - constructor; try (intros u l m; exact (hd_const C0 u)).
    + intros u f Hf. destruct f as [|[|[|[|[|[|f]]]]]]; [..|lia]; cbn [bfield nth ex_B b_psi0 b_psi1 b_psi2 b_psi3 b_psi4 b_sigma]; up_solve.
    + intros u l m. cbn [ex_B b_psi0 b_psi1 b_psi2 b_sigma]. rewrite multiply_zmodes. unfold fadd, fscale. generalize (one_mode 2 0 l m), (eth_GHP 1 (one_mode 2 1) l m). intros v w.
      eapply hd_eq; [apply (hd_add (fun _ => v) (fun t => Cscale t w)); [exact (hd_const v u)|exact (hd_scale (fun _ => w) u C0 (hd_const w u))]|cx].
    + intros u l m. cbn [ex_B b_psi1 b_psi2 b_psi3 b_sigma]. rewrite multiply_zmodes, EZ. eapply hd_eq; [exact (hd_const (one_mode 2 1 l m) u)|cx].
    + intros u l m. cbn [ex_B b_psi2 b_psi3 b_psi4 b_sigma]. rewrite multiply_zmodes, EZ. eapply hd_eq; [exact (hd_const C0 u)|cx].
    + intros u l m. cbn [ex_B b_psi3]. rewrite E0 by (intros; apply EB). unfold zmodes. cx.
    + intros u l m. cbn [ex_B b_psi4]. unfold fbar, zmodes. cx.
    + intros u l m. cbn [ex_B b_psi2 b_sigma]. unfold fimag, fscale, fmuli, fsub, fadd, fbar. rewrite !multiply_zmodes. rewrite !E0 by (intros; apply E0; intros; apply EB). unfold zmodes. cx.
  - intros f Hf. destruct f as [|[|[|[|[|[|f]]]]]]; [..|lia].
    + exists [one_mode 2 0; eth_GHP 1 (one_mode 2 1)]. split; [cbn; lia|]. intros t l m. cbn [bfield nth peval ex_B b_psi0]. unfold fadd, fscale. cx.
    + exists [one_mode 2 1]. split; [cbn; lia|]. intros t l m. cbn [bfield nth peval ex_B b_psi1]. unfold fadd, fscale. cx.
    + exists []. split; [cbn; lia|]. reflexivity.
    + exists []. split; [cbn; lia|]. reflexivity.
    + exists []. split; [cbn; lia|]. reflexivity.
    + exists []. split; [cbn; lia|]. reflexivity.
Qed.
Lemma ex_bB_row : forall f i, (f < 6)%nat -> (i < 4)%nat -> nth i (nth f (bd_fields ex_bB) []) [] = map (fun lm => bfield (ex_B (nth i [0; 1; 2; 3] 0)) f (fst lm) (snd lm)) (LM_range 0 2).
Proof. intros f i Hf Hi. destruct f as [|[|[|[|[|[|f]]]]]]; try lia; destruct i as [|[|[|[|i]]]]; try lia; reflexivity. Qed.
Definition ex_kB : Kwargs_Model.kwargs := mkkw (Some ex_a) None None None (Some 16%Z) (Some 16%Z) None None.
Lemma ex_kB_process : exists p, abd_process 2 ex_kB = Ok p /\ p_super p = ex_a /\ p_boost p = (0, 0, 0) /\ p_output p = 16%Z /\ p_working p = 16%Z.
Proof.
  assert (A : qabs (mkq 1 0 0 0) = 1). { unfold qabs, qnorm2. cbn [qw qx qy qz]. replace (1 * 1 + 0 * 0 + 0 * 0 + 0 * 0) with 1 by ring. apply sqrt_1. }
  assert (RR : exists q, read_rotation None = Ok q).
  { unfold read_rotation. cbn [quat_of]. rewrite A. destruct (Rltb_spec 1 (3 / 10 ^ 16)); [exfalso; lra|]. eexists. reflexivity. }
  assert (RB : read_boost None = Ok (0, 0, 0)).
  { unfold read_boost. cbn [vec3_of]. assert (N : norm3 (0, 0, 0) = 0) by (unfold norm3; replace (0 * 0 + 0 * 0 + 0 * 0) with 0 by ring; apply sqrt_0). rewrite N. destruct (Rleb_spec 1 0); [exfalso; lra|reflexivity]. }
  destruct RR as [q RR]. destruct (proj2 (read_super_ok (Some ex_a))) as [a E1]. { intros x Ex. injection Ex as <-. right. exists 2%Z. split; [lia|reflexivity]. }
  assert (E1' : read_super impose_reality (k_super ex_kB) = Ok a) by exact E1. destruct (read_super_modes ex_kB a E1') as (L & HL & Hm & _).
  destruct (proj2 (override_ok ex_kB a ltac:(unfold Kwargs_Proofs.has_modes in Hm; nia))) as [[a' s] E2]. { split; [discriminate|]. split; [discriminate|]. discriminate. }
  assert (EP : abd_process 2 ex_kB = Ok (mkproc q (0, 0, 0) a' 16 16)).
  { unfold abd_process. rewrite E1'. cbn [rbind]. rewrite E2. cbn [rbind ex_kB k_working_ell_max k_output_ell_max k_rotation k_boost dflt]. change (16 <? 2)%Z with false. cbv iota. rewrite RR. cbn [rbind]. rewrite RB. reflexivity. }
  exists (mkproc q (0, 0, 0) a' 16 16). split; [exact EP|]. split; [|repeat split]. apply (C28_unchanged 2 ex_kB _ ex_a 2 EP); try reflexivity; [lia|exact ex_a_real].
Qed.
Example C76_case_pipeline : exists map2salm b' B' sd' sdd' sddd', (forall f, (f < 6)%nat -> exact map2salm (spin_of f) 33 33) /\
  abd_transform cubic_or_lookup map2salm ex_bB ex_kB = Ok b' /\ bd_hi b' = 16%Z /\ bondi_solution 16 B' sd' sdd' sddd' /\ samples b' B' /\
  forall f u q, (f < 6)%nat -> qnorm2 q = 1 -> field (spin_of f) 16 (bfield (B' u) f) q = moved q1 ex_a 2 2 ex_B f u q.
Proof.
  destruct (C68_inverse_exists 2 33 33) as [m1 X1]. destruct (C68_inverse_exists 1 33 33) as [m2 X2]. destruct (C68_inverse_exists 0 33 33) as [m3 X3].
  destruct (C68_inverse_exists (-1) 33 33) as [m4 X4]. destruct (C68_inverse_exists (-2) 33 33) as [m5 X5].
  set (mm := fun nt np vals s L => if (s =? 2)%Z then m1 nt np vals s L else if (s =? 1)%Z then m2 nt np vals s L else if (s =? 0)%Z then m3 nt np vals s L
             else if (s =? -1)%Z then m4 nt np vals s L else m5 nt np vals s L).
  assert (HX : forall f, (f < 6)%nat -> exact mm (spin_of f) 33 33).
  { intros f Hf. destruct f as [|[|[|[|[|[|f]]]]]]; try lia; intros L a lmax; [apply X1|apply X2|apply X3|apply X4|apply X5|apply X1]. }
  destruct ex_kB_process as (p & EP & ES & EB & EO & EW). destruct ex_B_solution as [HB HP]. destruct (C28_parameters _ _ _ EP) as (_ & _ & _ & HR & _). specialize (HR eq_refl).
  assert (HD : data_ok ex_bB).
  { split; [cbn; lia|]. split; [reflexivity|]. intros f Hf. split; [destruct f as [|[|[|[|[|[|f]]]]]]; try lia; reflexivity|]. intros row I. apply (In_nth _ _ []) in I. destruct I as (i & Hi & <-).
    assert (Hi' : (i < 4)%nat) by (destruct f as [|[|[|[|[|[|f]]]]]]; try lia; exact Hi). rewrite ex_bB_row by assumption. apply map_length. }
  assert (HS : samples ex_bB ex_B).
  { intros f i l m Hf Hi Hv. unfold bmode. rewrite ex_bB_row by assumption. rewrite mode_map by (assumption || lia). reflexivity. }
  assert (EL : ell_max_of ex_a = 2%Z) by reflexivity.
  destruct (C76_pipeline cubic_or_lookup mm ex_bB ex_kB p ex_B _ _ _ cubic_or_lookup_passes cubic_or_lookup_cubics HD ltac:(cbn; repeat constructor; lra) ltac:(cbn; lia) EP EB HB HP HS)
    as (b' & B' & d1 & d2 & d3 & H1 & H2 & _ & H3 & H4 & H5 & _).
  - rewrite ES, EL, EO, EW. cbn [ex_bB bd_hi]. lia.
  - rewrite EW. exact HX.
  - rewrite EO in H2, H3. exists mm, b', B', d1, d2, d3. split; [exact HX|]. split; [exact H1|]. split; [exact H2|]. split; [exact H3|]. split; [exact H4|].
    intros f u q Hf Hq. specialize (H5 f u q Hf Hq). rewrite EO, ES, EL, HR in H5. exact H5.
Qed.
