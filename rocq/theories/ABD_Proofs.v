(** Proofs about Bondi data. *)
From Coq Require Import String Ascii ZArith Reals List Bool Lia Lra Permutation.
From Verif Require Import Common Cplx Times_Model Times_Proofs Quat Kwargs_Model Transition_Proofs ABD_Model.
Import ListNotations.
Open Scope R_scope.

(** ** Linearity of the operations *)
Lemma multiply_add_l : forall K L Lo a b f f' g l m, multiply K L Lo a b (fadd f f') g l m = (multiply K L Lo a b f g l m + multiply K L Lo a b f' g l m)%C.
Proof.
  intros. unfold multiply. destruct (l <=? Lo)%Z; [|ring]. rewrite <- csum_add. apply csum_ext. intros p _. rewrite <- csum_add.
  apply csum_ext. intros q _. destruct (_ =? m)%Z; [|ring]. unfold fadd. cx.
Qed.
Lemma multiply_add_r : forall K L Lo a b f g g' l m, multiply K L Lo a b f (fadd g g') l m = (multiply K L Lo a b f g l m + multiply K L Lo a b f g' l m)%C.
Proof.
  intros. unfold multiply. destruct (l <=? Lo)%Z; [|ring]. rewrite <- csum_add. apply csum_ext. intros p _. rewrite <- csum_add.
  apply csum_ext. intros q _. destruct (_ =? m)%Z; [|ring]. unfold fadd. cx.
Qed.
Lemma csum_Cscale : forall A x (f : A -> C) l, csum (fun a => Cscale x (f a)) l = Cscale x (csum f l).
Proof. intros. rewrite Cscale_mul, <- csum_scale. apply csum_ext. intros. apply Cscale_mul. Qed.
Lemma multiply_scale_l : forall K L Lo a b x f g l m, multiply K L Lo a b (fscale x f) g l m = Cscale x (multiply K L Lo a b f g l m).
Proof.
  intros. unfold multiply. destruct (l <=? Lo)%Z; [|cx]. rewrite <- csum_Cscale. apply csum_ext. intros p _. rewrite <- csum_Cscale.
  apply csum_ext. intros q _. destruct (_ =? m)%Z; [|cx]. unfold fscale. cx.
Qed.
Lemma multiply_scale_r : forall K L Lo a b x f g l m, multiply K L Lo a b f (fscale x g) l m = Cscale x (multiply K L Lo a b f g l m).
Proof.
  intros. unfold multiply. destruct (l <=? Lo)%Z; [|cx]. rewrite <- csum_Cscale. apply csum_ext. intros p _. rewrite <- csum_Cscale.
  apply csum_ext. intros q _. destruct (_ =? m)%Z; [|cx]. unfold fscale. cx.
Qed.
Lemma multiply_ext : forall K L Lo a b f f' g g' l m, (forall x y, f x y = f' x y) -> (forall x y, g x y = g' x y) ->
  multiply K L Lo a b f g l m = multiply K L Lo a b f' g' l m.
Proof.
  intros K L Lo a b f f' g g' l m Hf Hg. unfold multiply. destruct (l <=? Lo)%Z; [|reflexivity].
  apply csum_ext. intros p _. apply csum_ext. intros q _. rewrite Hf, Hg. reflexivity.
Qed.
Lemma eth_add : forall s f g l m, eth_GHP s (fadd f g) l m = (eth_GHP s f l m + eth_GHP s g l m)%C.
Proof. intros. unfold eth_GHP, eth, ladder, fscale, fadd. destruct (_ <? _)%Z; cx. Qed.
Lemma eth_scale : forall s x f l m, eth_GHP s (fscale x f) l m = Cscale x (eth_GHP s f l m).
Proof. intros. unfold eth_GHP, eth, ladder, fscale. destruct (_ <? _)%Z; cx. Qed.
Lemma eth_ext : forall s f g l m, f l m = g l m -> eth_GHP s f l m = eth_GHP s g l m.
Proof. intros s f g l m H. unfold eth_GHP, eth, ladder, fscale. rewrite H. reflexivity. Qed.
Lemma ethbar_ext : forall s f g l m, f l m = g l m -> ethbar_GHP s f l m = ethbar_GHP s g l m.
Proof. intros s f g l m H. unfold ethbar_GHP, ethbar, fscale. rewrite H. reflexivity. Qed.
Lemma fbar_add : forall s f g l m, fbar s (fadd f g) l m = (fbar s f l m + fbar s g l m)%C.
Proof. intros. unfold fbar, fadd. cx. Qed.
Lemma fbar_scale : forall s x f l m, fbar s (fscale x f) l m = Cscale x (fbar s f l m).
Proof. intros. unfold fbar, fscale. cx. Qed.
Lemma fbar_fbar : forall s f l m, fbar (- s) (fbar s f) l m = f l m.
Proof.
  intros. unfold fbar. rewrite Z.opp_involutive. assert (E := sgn_sq (s + m)).
  replace (sgn (s + - m)) with (sgn (s + m)) by (rewrite !sgn_add, sgn_opp; reflexivity).
  replace (sgn (- s + m)) with (sgn (s + m)) by (rewrite !sgn_add, sgn_opp; reflexivity).
  destruct (f l m) as [x y]. apply C_eq; cbn; [replace x with (1 * x) at 2 by ring|replace y with (1 * y) at 2 by ring]; rewrite <- E; ring.
Qed.

(** ** Symmetry of the product *)
(** What the 3-j coefficients of the library satisfy: the product is commutative and commutes with conjugation. *)
Definition K_symmetric (K : Z -> Z -> Z -> Z -> Z -> Z -> Z -> R) : Prop :=
  forall a l1 m1 b l2 m2 l, K a l1 m1 b l2 m2 l = K b l2 m2 a l1 m1 l.
Definition K_flip (K : Z -> Z -> Z -> Z -> Z -> Z -> Z -> R) : Prop :=
  forall a l1 m1 b l2 m2 l, K (- a)%Z l1 (- m1)%Z (- b)%Z l2 (- m2)%Z l = K a l1 m1 b l2 m2 l.

Lemma multiply_comm : forall K L Lo a b f g l m, K_symmetric K -> multiply K L Lo a b f g l m = multiply K L Lo b a g f l m.
Proof.
  intros K L Lo a b f g l m HK. unfold multiply. destruct (l <=? Lo)%Z; [|reflexivity]. rewrite csum_swap.
  apply csum_ext. intros p _. apply csum_ext. intros q _. rewrite (Z.add_comm (snd q)). destruct (_ =? m)%Z; [|reflexivity].
  rewrite HK. f_equal. ring.
Qed.
Lemma LMs_In : forall L l m, In (l, m) (LMs L) <-> (0 <= l <= L /\ - l <= m <= l)%Z.
Proof.
  intros L l m. unfold LMs. rewrite in_flat_map. split.
  - intros (x & Hx & H). apply zrange_In in Hx. apply in_map_iff in H. destruct H as (y & E & Hy). apply zrange_In in Hy. injection E as -> ->. lia.
  - intros H. exists l. split; [apply zrange_In; lia|]. apply in_map_iff. exists m. split; [reflexivity|apply zrange_In; lia].
Qed.
Lemma NoDup_flat : forall A B (f : A -> list B) l, NoDup l -> (forall x, In x l -> NoDup (f x)) ->
  (forall x y b, In x l -> In y l -> In b (f x) -> In b (f y) -> x = y) -> NoDup (flat_map f l).
Proof.
  induction l as [|a l IH]; intros HN HF HD; simpl; [constructor|]. inversion HN; subst.
  assert (G : forall (l1 l2 : list B), NoDup l1 -> NoDup l2 -> (forall b, In b l1 -> ~ In b l2) -> NoDup (l1 ++ l2)).
  { induction l1 as [|b l1 IH1]; intros l2 N1 N2 D; simpl; [exact N2|]. inversion N1; subst. constructor.
    - rewrite in_app_iff. intros [I|I]; [contradiction|]. apply (D b); [left; reflexivity|exact I].
    - apply IH1; auto. intros c I. apply D. right. exact I. }
  apply G.
  - apply HF. left. reflexivity.
  - apply IH; auto. + intros x I. apply HF. right. exact I. + intros x y b I1 I2. apply HD; right; assumption.
  - intros b I1 I2. apply in_flat_map in I2. destruct I2 as (y & I2 & I3). assert (a = y) by (apply (HD a y b); auto; [left; reflexivity|right; exact I2]). subst. contradiction.
Qed.
Lemma LMs_NoDup : forall L, NoDup (LMs L).
Proof.
  intros L. unfold LMs. apply NoDup_flat.
  - apply zrange_NoDup.
  - intros x _. apply FinFun.Injective_map_NoDup; [|apply zrange_NoDup]. intros a b E. injection E as E. exact E.
  - intros x y [u v] _ _ H1 H2. apply in_map_iff in H1. apply in_map_iff in H2. destruct H1 as (c & E1 & _), H2 as (d & E2 & _).
    injection E1 as <- _. injection E2 as <- _. reflexivity.
Qed.
Definition flipm (p : Z * Z) : Z * Z := (fst p, (- snd p)%Z).
Lemma LMs_flip : forall L (F : Z * Z -> C), csum F (LMs L) = csum (fun p => F (flipm p)) (LMs L).
Proof.
  intros L F. transitivity (csum F (map flipm (LMs L))); [|apply csum_map]. apply csum_perm. apply NoDup_Permutation.
  - apply LMs_NoDup.
  - apply FinFun.Injective_map_NoDup; [|apply LMs_NoDup]. intros [a b] [c d] E. unfold flipm in E. cbn in E. injection E as -> E. f_equal. lia.
  - intros [a b]. rewrite LMs_In, in_map_iff. split.
    + intros H. exists (a, (- b)%Z). unfold flipm. cbn. split; [f_equal; lia|apply LMs_In; lia].
    + intros ([c d] & E & H). apply LMs_In in H. unfold flipm in E. cbn in E. injection E as <- <-. lia.
Qed.
Lemma fbar_multiply : forall K L Lo a b f g l m, K_flip K ->
  fbar (a + b) (multiply K L Lo a b f g) l m = multiply K L Lo (- a) (- b) (fbar a f) (fbar b g) l m.
Proof.
  intros K L Lo a b f g l m HK. unfold multiply, fbar at 1. destruct (l <=? Lo)%Z; [|rewrite Conj_C0; cx].
  rewrite csum_conj, <- csum_Cscale, LMs_flip. apply csum_ext. intros [l1 m1] _. unfold flipm; cbn [fst snd].
  rewrite csum_conj, <- csum_Cscale, LMs_flip. apply csum_ext. intros [l2 m2] _. unfold flipm; cbn [fst snd].
  replace (- m1 + - m2 =? - m)%Z with (m1 + m2 =? m)%Z by (destruct (Z.eqb_spec (m1 + m2) m), (Z.eqb_spec (- m1 + - m2) (- m)); try reflexivity; lia).
  destruct (Z.eqb_spec (m1 + m2) m) as [<-|_]; [|rewrite Conj_C0; cx].
  rewrite <- (HK (- a)%Z l1 m1 (- b)%Z l2 m2 l), !Z.opp_involutive. unfold fbar.
  replace (sgn (a + b + (m1 + m2))) with (sgn (a + m1) * sgn (b + m2)) by (rewrite <- sgn_add; f_equal; lia).
  cx.
Qed.

(** ** C34: from_initial_values *)
(** Derivative of a complex function of time. *)
Definition has_derivative (f : R -> C) (u : R) (d : C) : Prop :=
  derivable_pt_lim (fun x => re (f x)) u (re d) /\ derivable_pt_lim (fun x => im (f x)) u (im d).
Lemma hd_const : forall c u, has_derivative (fun _ => c) u C0.
Proof. intros. split; apply derivable_pt_lim_const. Qed.
Lemma hd_add : forall f g u d e, has_derivative f u d -> has_derivative g u e -> has_derivative (fun x => (f x + g x)%C) u (d + e)%C.
Proof. intros f g u d e [A B] [A' B']. split; cbn; apply (derivable_pt_lim_plus (fun x => _) (fun x => _)); assumption. Qed.
Lemma hd_scale : forall f u d, has_derivative f u d -> has_derivative (fun x => Cscale x (f x)) u (f u + Cscale u d)%C.
Proof.
  intros f u d [A B]. split; cbn.
  - replace (re (f u) + u * re d) with (1 * re (f u) + u * re d) by ring.
    apply (derivable_pt_lim_mult (fun x => x) (fun x => re (f x))); [apply derivable_pt_lim_id|exact A].
  - replace (im (f u) + u * im d) with (1 * im (f u) + u * im d) by ring.
    apply (derivable_pt_lim_mult (fun x => x) (fun x => im (f x))); [apply derivable_pt_lim_id|exact B].
Qed.
Lemma hd_eq : forall f u d e, has_derivative f u d -> d = e -> has_derivative f u e.
Proof. intros; subst; assumption. Qed.

Ltac hd_solve := repeat first [apply hd_add | apply hd_scale | apply hd_const].

Ltac expand_lin :=
  repeat first [ rewrite multiply_add_l | rewrite multiply_add_r | rewrite multiply_scale_l | rewrite multiply_scale_r
               | rewrite eth_add | rewrite eth_scale | rewrite fbar_add | rewrite fbar_scale ].

(** The Bondi-gauge equations (constraints.py), as equations between functions of time. *)
Record bondi_equations (K : Z -> Z -> Z -> Z -> Z -> Z -> Z -> R) (L : Z) (b : R -> bondi) (sd sdd : R -> modes) : Prop := {
  eq_bianchi_0 : forall u l m, has_derivative (fun x => b_psi0 (b x) l m) u
      (eth_GHP 1 (b_psi1 (b u)) l m + Cscale 3 (multiply K L L 2 0 (b_sigma (b u)) (b_psi2 (b u)) l m))%C;
  eq_bianchi_1 : forall u l m, has_derivative (fun x => b_psi1 (b x) l m) u
      (eth_GHP 0 (b_psi2 (b u)) l m + Cscale 2 (multiply K L L 2 (-1) (b_sigma (b u)) (b_psi3 (b u)) l m))%C;
  eq_bianchi_2 : forall u l m, has_derivative (fun x => b_psi2 (b x) l m) u
      (eth_GHP (-1) (b_psi3 (b u)) l m + multiply K L L 2 (-2) (b_sigma (b u)) (b_psi4 (b u)) l m)%C;
  eq_psi3 : forall u l m, b_psi3 (b u) l m = (- eth_GHP (-2) (fbar 2 (sd u)) l m)%C;
  eq_psi4 : forall u l m, b_psi4 (b u) l m = (- fbar 2 (sdd u) l m)%C;
  eq_sigma_dot : forall u l m, has_derivative (fun x => b_sigma (b x) l m) u (sd u l m);
  eq_sigma_ddot : forall u l m, has_derivative (fun x => sd x l m) u (sdd u l m) }.

(** First and second time derivative of the shear. *)
Definition exact_sigma_dot (i : initial) (u : R) : modes := fadd (i_sigmadot0 i) (fscale u (i_sigmaddot0 i)).
Definition exact_sigma_ddot (i : initial) (u : R) : modes := i_sigmaddot0 i.

Ltac cx_lin := apply C_eq; cbn [re im Cadd Copp Csub Cmul Cscale RtoC Conj C0 C1 Ci]; field; try (apply Rgt_not_eq, sqrt_lt_R0; lra).

Theorem C34_exact : forall K L i,
  bondi_equations K L (from_initial_values_exact K L i) (exact_sigma_dot i) (exact_sigma_ddot i).
Proof.
  intros K L i. constructor; intros u l m;
    unfold from_initial_values_exact; cbn [b_psi0 b_psi1 b_psi2 b_psi3 b_psi4 b_sigma].
  - unfold exact_psi0, exact_psi1, exact_psi2, exact_sigma.
    eapply hd_eq; [unfold fadd, fscale; hd_solve|]. cbv beta.
    expand_lin. unfold p0_1, p0_2, p0_3, p0_4, p0_5, p0_6, mul. unfold fadd, fscale.
    change (fun l0 m0 : Z => Cscale 3 (s0 i l0 m0)) with (fscale 3 (s0 i)). change (fun l0 m0 : Z => Cscale 3 (s1 i l0 m0)) with (fscale 3 (s1 i)).
    change (fun l0 m0 : Z => Cscale 3 (s2 i l0 m0)) with (fscale 3 (s2 i)). expand_lin. cx_lin.
  - unfold exact_psi1, exact_psi2, exact_psi3, exact_sigma.
    eapply hd_eq; [unfold fadd, fscale; hd_solve|]. cbv beta.
    expand_lin. unfold p1_1, p1_2, p1_3, p1_4, mul. unfold fadd, fscale.
    change (fun l0 m0 : Z => Cscale 2 (s0 i l0 m0)) with (fscale 2 (s0 i)). change (fun l0 m0 : Z => Cscale 2 (s1 i l0 m0)) with (fscale 2 (s1 i)).
    change (fun l0 m0 : Z => Cscale 2 (s2 i l0 m0)) with (fscale 2 (s2 i)). expand_lin. cx_lin.
  - unfold exact_psi2, exact_psi3, exact_psi4, exact_sigma.
    eapply hd_eq; [unfold fadd, fscale; hd_solve|]. cbv beta.
    expand_lin. unfold p2_1, p2_2, p2_3, mul. unfold fadd, fscale.
    change (fun l0 m0 : Z => Cscale (1 / 3) (s2 i l0 m0)) with (fscale (1 / 3) (s2 i)). expand_lin. cx_lin.
  - unfold exact_psi3, exact_sigma_dot, p3_0, p3_1, s1, s2. unfold fadd, fscale, fopp.
    match goal with |- (Cscale u (Cscale (-2) ?x) + - ?y)%C = (- ?z)%C =>
      assert (E1 : x = Cscale (/ 2) (eth_GHP (-2) (fbar 2 (i_sigmaddot0 i)) l m)) end.
    { rewrite <- eth_scale. apply eth_ext. unfold fbar, fscale. cx. }
    rewrite E1.
    assert (E2 : eth_GHP (-2) (fbar 2 (fun l0 m0 => (i_sigmadot0 i l0 m0 + Cscale u (i_sigmaddot0 i l0 m0))%C)) l m
                 = (eth_GHP (-2) (fbar 2 (i_sigmadot0 i)) l m + Cscale u (eth_GHP (-2) (fbar 2 (i_sigmaddot0 i)) l m))%C).
    { rewrite <- eth_scale, <- eth_add. apply eth_ext. unfold fbar, fadd, fscale. cx. }
    rewrite E2. cx_lin.
  - unfold exact_psi4, exact_sigma_ddot, p4_0, s2. unfold fscale, fbar. cx_lin.
  - unfold exact_sigma, exact_sigma_dot. eapply hd_eq; [unfold fadd, fscale; hd_solve|]. cbv beta. unfold fadd, fscale, s1, s2, fscale. cx_lin.
  - unfold exact_sigma_dot, exact_sigma_ddot. eapply hd_eq; [unfold fadd, fscale; hd_solve|]. cbv beta. cx_lin.
Qed.

(** Real and imaginary parts of functions of spin weight 0. *)
Lemma fimag_ext : forall f g l m, (forall k, f l k = g l k) -> fimag f l m = fimag g l m.
Proof. intros f g l m H. unfold fimag, fbar. rewrite !H. reflexivity. Qed.
Lemma fimag_add : forall f g l m, fimag (fadd f g) l m = (fimag f l m + fimag g l m)%C.
Proof. intros. unfold fimag. rewrite fbar_add. unfold fadd. cx_lin. Qed.
Lemma fimag_scale : forall x f l m, fimag (fscale x f) l m = Cscale x (fimag f l m).
Proof. intros. unfold fimag. rewrite fbar_scale. unfold fscale. cx_lin. Qed.
Lemma fimag_opp : forall f l m, fimag (fopp f) l m = (- fimag f l m)%C.
Proof. intros. unfold fimag, fbar, fopp. cx_lin. Qed.
Lemma fimag_zero : forall f l m, fbar 0 f l m = f l m -> fimag f l m = C0.
Proof. intros f l m H. unfold fimag. rewrite H. cx_lin. Qed.
Lemma fbar_zero : forall f l m, fimag f l m = C0 -> fbar 0 f l m = f l m.
Proof.
  intros f l m H. unfold fimag in H. set (d := (f l m - fbar 0 f l m)%C) in H.
  assert (E : d = C0). { assert (H1 := f_equal re H). assert (H2 := f_equal im H). cbn [re im Cadd Copp Csub Cmul Cscale C0 Ci] in H1, H2. destruct d as [x y]. cbn [re im] in *. apply C_eq; cbn [re im C0]; lra. }
  unfold d in E. transitivity (f l m - (f l m - fbar 0 f l m))%C; [ring|rewrite E; ring].
Qed.
Lemma fbar0_freal : forall f l m, fbar 0 (freal f) l m = freal f l m.
Proof. intros. unfold freal. rewrite fbar_scale, fbar_add. assert (E := fbar_fbar 0 f l m). change (- 0)%Z with 0%Z in E. rewrite E. unfold fscale, fadd. cx_lin. Qed.
Lemma fbar0_fimag : forall f l m, fbar 0 (fimag f) l m = fimag f l m.
Proof.
  intros. unfold fimag. unfold fbar.
  rewrite Z.opp_involutive. change (0 + m)%Z with m. change (0 + - m)%Z with (- m)%Z. rewrite sgn_opp.
  assert (E := sgn_sq m). destruct (f l m) as [a b], (f l (- m)%Z) as [c d]. apply C_eq; cbn [re im Cadd Copp Csub Cmul Cscale C0 Ci Conj]; ring [E].
Qed.
Lemma fimag_freal : forall f l m, fimag (freal f) l m = C0.
Proof. intros. apply fimag_zero, fbar0_freal. Qed.
Lemma fimag_muli_real : forall g l m, (forall k, fbar 0 g l k = g l k) -> fimag (fmuli g) l m = g l m.
Proof.
  intros g l m H. unfold fimag. replace (fbar 0 (fmuli g) l m) with (- (Ci * fbar 0 g l m))%C by (unfold fbar, fmuli; cx_lin).
  rewrite H. unfold fmuli. cx_lin.
Qed.
Lemma fbar0_multiply : forall K L Lo f g l m, K_flip K ->
  fbar 0 (multiply K L Lo 2 (-2) f g) l m = multiply K L Lo (-2) 2 (fbar 2 f) (fbar (-2) g) l m.
Proof. intros K L Lo f g l m HF. exact (fbar_multiply K L Lo 2 (-2) f g l m HF). Qed.
Lemma real_square : forall K L Lo f l m, K_symmetric K -> K_flip K ->
  fbar 0 (multiply K L Lo 2 (-2) f (fbar 2 f)) l m = multiply K L Lo 2 (-2) f (fbar 2 f) l m.
Proof.
  intros K L Lo f l m HS HF. rewrite fbar0_multiply by exact HF.
  rewrite multiply_comm by exact HS. apply multiply_ext; intros; [apply (fbar_fbar 2)|reflexivity].
Qed.
Lemma real_cross : forall K L Lo f g l m, K_symmetric K -> K_flip K ->
  fbar 0 (fadd (multiply K L Lo 2 (-2) f (fbar 2 g)) (multiply K L Lo 2 (-2) g (fbar 2 f))) l m
  = fadd (multiply K L Lo 2 (-2) f (fbar 2 g)) (multiply K L Lo 2 (-2) g (fbar 2 f)) l m.
Proof.
  intros K L Lo f g l m HS HF. rewrite fbar_add. unfold fadd.
  rewrite !fbar0_multiply by exact HF.
  rewrite (multiply_comm K L Lo (-2) 2 (fbar 2 f)) by exact HS. rewrite (multiply_comm K L Lo (-2) 2 (fbar 2 g)) by exact HS.
  rewrite (multiply_ext K L Lo 2 (-2) (fbar (-2) (fbar 2 g)) g (fbar 2 f) (fbar 2 f)); [|intros; apply (fbar_fbar 2)|reflexivity].
  rewrite (multiply_ext K L Lo 2 (-2) (fbar (-2) (fbar 2 f)) f (fbar 2 g) (fbar 2 g)); [|intros; apply (fbar_fbar 2)|reflexivity].
  ring.
Qed.

Lemma fimag5 : forall a b x f y g z h l m,
  fimag (fadd (fadd (fadd (fadd a b) (fscale x f)) (fscale y g)) (fscale z h)) l m
  = (fimag a l m + fimag b l m + Cscale x (fimag f l m) + Cscale y (fimag g l m) + Cscale z (fimag h l m))%C.
Proof. intros. rewrite !fimag_add, !fimag_scale. reflexivity. Qed.
Lemma eth2_ext : forall f g l m, f l m = g l m -> eth_GHP (-1) (eth_GHP (-2) f) l m = eth_GHP (-1) (eth_GHP (-2) g) l m.
Proof. intros. apply eth_ext, eth_ext. assumption. Qed.
Lemma eth2_lin : forall x y f g h l m, eth_GHP (-1) (eth_GHP (-2) (fadd (fadd f (fscale x g)) (fscale y h))) l m
  = (eth_GHP (-1) (eth_GHP (-2) f) l m + Cscale x (eth_GHP (-1) (eth_GHP (-2) g) l m) + Cscale y (eth_GHP (-1) (eth_GHP (-2) h) l m))%C.
Proof.
  intros. rewrite <- !eth_scale, <- !eth_add. apply eth_ext. rewrite !eth_add, !eth_scale. unfold fadd, fscale. rewrite ?eth_scale. reflexivity.
Qed.

(** The mass aspect is real at every time (constraint_mass_aspect). *)
Theorem C34_mass_aspect : forall K L i, K_symmetric K -> K_flip K -> forall u l m,
  let b := from_initial_values_exact K L i u in
  fimag (b_psi2 b) l m
  = (- fimag (fadd (eth_GHP (-1) (eth_GHP (-2) (fbar 2 (b_sigma b)))) (multiply K L L 2 (-2) (b_sigma b) (fbar 2 (exact_sigma_dot i u)))) l m)%C.
Proof.
  intros K L i HS HF u l m. cbv zeta. unfold from_initial_values_exact. cbn [b_psi2 b_sigma].
  set (A0 := fadd (eth_GHP (-1) (eth_GHP (-2) (fbar 2 (s0 i)))) (mul K L 2 (-2) (s0 i) (fbar 2 (s1 i)))).
  assert (P20 : forall k, fimag (p2_0 K L i) l k = (- fimag A0 l k)%C).
  { intros k. unfold p2_0. fold A0.
    rewrite (fimag_ext _ (fadd (freal (i_psi2 i)) (fopp (fmuli (fimag A0))))) by (intros; unfold fadd, fsub, fopp; ring).
    rewrite fimag_add, fimag_freal, fimag_opp, fimag_muli_real by (intros; apply fbar0_fimag). ring. }
  set (B := fadd (eth_GHP (-1) (eth_GHP (-2) (fbar 2 (exact_sigma i u)))) (multiply K L L 2 (-2) (exact_sigma i u) (fbar 2 (exact_sigma_dot i u)))).
  assert (Sum : fimag (fadd (exact_psi2 K L i u) B) l m = C0).
  2:{ rewrite fimag_add in Sum. transitivity (fimag (exact_psi2 K L i u) l m + fimag B l m - fimag B l m)%C; [ring|rewrite Sum; ring]. }
  set (M11 := multiply K L L 2 (-2) (s1 i) (fbar 2 (s1 i))). set (M22 := multiply K L L 2 (-2) (s2 i) (fbar 2 (s2 i))).
  set (M12 := fadd (multiply K L L 2 (-2) (s1 i) (fbar 2 (s2 i))) (multiply K L L 2 (-2) (s2 i) (fbar 2 (s1 i)))).
  rewrite (fimag_ext _ (fadd (fadd (fadd (fadd (p2_0 K L i) A0) (fscale u M11)) (fscale (u * u) M12)) (fscale (4 / 3 * (u * u * u)) M22))).
  - rewrite fimag5, P20. rewrite (fimag_zero M11), (fimag_zero M12), (fimag_zero M22); [cx_lin| | |].
    + apply real_square; assumption. + apply real_cross; assumption. + apply real_square; assumption.
  - intros k. unfold B.
    assert (E2 : eth_GHP (-1) (eth_GHP (-2) (fbar 2 (exact_sigma i u))) l k
      = (eth_GHP (-1) (eth_GHP (-2) (fbar 2 (s0 i))) l k + Cscale u (eth_GHP (-1) (eth_GHP (-2) (fbar 2 (s1 i))) l k)
         + Cscale (u * u) (eth_GHP (-1) (eth_GHP (-2) (fbar 2 (s2 i))) l k))%C).
    { rewrite <- eth2_lin. apply eth2_ext. unfold exact_sigma, fbar, fadd, fscale. cx_lin. }
    assert (S2 : forall x y, i_sigmaddot0 i x y = fscale 2 (s2 i) x y) by (intros; unfold s2, fscale; cx_lin).
    assert (E3 : multiply K L L 2 (-2) (exact_sigma i u) (fbar 2 (exact_sigma_dot i u)) l k
      = multiply K L L 2 (-2) (exact_sigma i u) (fadd (fbar 2 (s1 i)) (fscale (2 * u) (fbar 2 (s2 i)))) l k).
    { apply multiply_ext; [reflexivity|]. intros x y. unfold exact_sigma_dot, fbar, fadd, fscale. rewrite !S2. unfold s1, fscale. cx_lin. }
    transitivity (exact_psi2 K L i u l k + (eth_GHP (-1) (eth_GHP (-2) (fbar 2 (exact_sigma i u))) l k
                  + multiply K L L 2 (-2) (exact_sigma i u) (fbar 2 (exact_sigma_dot i u)) l k))%C; [reflexivity|].
    rewrite E2, E3. unfold exact_sigma, exact_psi2. expand_lin.
    assert (P2 : forall s x f, eth_GHP s (fopp f) l x = (- eth_GHP s f l x)%C)
      by (intros; rewrite (eth_ext s (fopp f) (fscale (-1) f)) by (unfold fopp, fscale; cx_lin); rewrite eth_scale; cx_lin).
    unfold A0, M11, M12, M22, p2_1, p2_2, p2_3, p3_0, p3_1, p4_0, mul. unfold fadd, fscale.
    repeat match goal with |- context [fun l0 m0 : Z => Cscale ?c (?f l0 m0)] => change (fun l0 m0 : Z => Cscale c (f l0 m0)) with (fscale c f) end.
    expand_lin. rewrite P2. cx_lin.
Qed.

(** Initial values are those given (the imaginary part of psi2 being fixed by the reality of the mass aspect). *)
Theorem C34_initial : forall K L i l m,
  let b := from_initial_values_exact K L i 0 in
  b_psi1 b l m = i_psi1 i l m /\ b_psi0 b l m = i_psi0 i l m /\ b_sigma b l m = i_sigma0 i l m
  /\ exact_sigma_dot i 0 l m = i_sigmadot0 i l m /\ freal (b_psi2 b) l m = freal (i_psi2 i) l m.
Proof.
  intros K L i l m. cbv zeta. unfold from_initial_values_exact. cbn [b_psi0 b_psi1 b_psi2 b_sigma].
  unfold exact_psi1, exact_psi0, exact_sigma, exact_sigma_dot, exact_psi2.
  repeat split; try (unfold fadd at 1, fscale at 1; unfold p1_0, p0_0, s0; cx_lin).
  set (A := fimag (fadd (eth_GHP (-1) (eth_GHP (-2) (fbar 2 (s0 i)))) (mul K L 2 (-2) (s0 i) (fbar 2 (s1 i))))).
  assert (P : forall k, fadd (fscale 0 (fadd (fscale 0 (fadd (fscale 0 (p2_3 K L i)) (p2_2 K L i))) (p2_1 K L i))) (p2_0 K L i) l k
              = (freal (i_psi2 i) l k - Ci * A l k)%C).
  { intros k. unfold fadd at 1, fscale at 1. unfold p2_0. fold A. unfold fsub, fmuli. cx_lin. }
  assert (RA : fbar 0 A l m = A l m) by apply fbar0_fimag. assert (RR := fbar0_freal (i_psi2 i) l m).
  unfold freal at 1. unfold fscale at 1. unfold fadd at 1. rewrite P. unfold fbar at 1. rewrite P.
  unfold fbar in RA, RR. set (z := A l m) in *. set (w := freal (i_psi2 i) l m) in *.
  assert (E : Cscale (sgn (0 + m)) (Conj (freal (i_psi2 i) l (- m)%Z - Ci * A l (- m)%Z)) = (w + Ci * z)%C).
  { rewrite Conj_sub, Conj_mul. transitivity (Cscale (sgn (0 + m)) (Conj (freal (i_psi2 i) l (- m)%Z)) + Ci * Cscale (sgn (0 + m)) (Conj (A l (- m)%Z)))%C; [cx_lin|].
    rewrite RA, RR. reflexivity. }
  rewrite E. cx_lin.
Qed.

Lemma apply_bar : forall n M s f i l m, apply_time n M (fun j => fbar s (f j)) i l m = fbar s (apply_time n M f i) l m.
Proof.
  intros. unfold apply_time, fbar. rewrite csum_conj, <- csum_Cscale. apply csum_ext. intros j _. cx_lin.
Qed.
(** Sampled shear: psi3 and psi4 satisfy their defining equations exactly, whatever (real-linear) differentiation rule
    is used, and the mass aspect is real at the first sample if integrals start from zero there. *)
Theorem C34_sampled : forall K L n D D2 J sg q2,
  (forall i l m, sampled_psi4 n D2 sg i l m = (- apply_time n D2 (fun j => fbar 2 (sg j)) i l m)%C)
  /\ (forall i l m, sampled_psi3 n D sg i l m = (- eth_GHP (-2) (apply_time n D (fun j => fbar 2 (sg j)) i) l m)%C)
  /\ ((forall j, J 0%nat j = 0) -> forall l m,
       fimag (sampled_psi2 K L n D D2 J sg q2 0%nat) l m
       = (- fimag (fadd (eth_GHP (-1) (eth_GHP (-2) (fbar 2 (sg 0%nat))))
                        (multiply K L L 2 (-2) (sg 0%nat) (apply_time n D (fun j => fbar 2 (sg j)) 0%nat))) l m)%C).
Proof.
  intros K L n D D2 J sg q2. repeat split.
  - intros i l m. unfold sampled_psi4, fopp. rewrite apply_bar. reflexivity.
  - intros i l m. unfold sampled_psi3, fopp. f_equal. apply eth_ext. rewrite apply_bar. reflexivity.
  - intros HJ l m. unfold sampled_psi2, sadd, sconst. rewrite fimag_add. rewrite fimag_zero.
    + unfold adjusted_psi2. set (A := fadd _ _).
      rewrite (fimag_ext _ (fadd (freal q2) (fopp (fmuli (fimag A))))) by (intros; unfold fadd, fsub, fopp; ring).
      rewrite fimag_add, fimag_freal, fimag_opp, fimag_muli_real by (intros; apply fbar0_fimag). ring.
    + assert (Z : forall l m, apply_time n J (fun j => fadd (eth_GHP (-1) (sampled_psi3 n D sg j)) (mul K L 2 (-2) (sg j) (sampled_psi4 n D2 sg j))) 0%nat l m = C0).
      { intros. unfold apply_time. apply csum_const0. intros j _. rewrite HJ. cx_lin. }
      unfold fbar. rewrite !Z. rewrite Conj_C0. cx_lin.
Qed.
Definition one_mode (l m : Z) : modes := fun x y => if (x =? l)%Z && (y =? m)%Z then C1 else C0.
Definition K1 : Z -> Z -> Z -> Z -> Z -> Z -> Z -> R := fun _ _ _ _ _ _ _ => 1.
Definition fzero : modes := fun _ _ => C0.
(** A case: coefficients with both symmetries, and a shear growing like u^2/2 in the (2,2) mode; psi2 grows like u^3. *)
Example C34_case : K_symmetric K1 /\ K_flip K1
  /\ b_psi2 (from_initial_values_exact K1 2 (mkinit fzero fzero (one_mode 2 2) fzero fzero fzero) 6) 0%Z 0%Z = RtoC (-36).
Proof.
  split; [intro; reflexivity|]. split; [intro; reflexivity|].
  unfold from_initial_values_exact, exact_psi2. cbn [b_psi2].
  set (i := mkinit fzero fzero (one_mode 2 2) fzero fzero fzero).
  assert (Zs0 : forall x y, s0 i x y = C0) by reflexivity. assert (Zs1 : forall x y, s1 i x y = C0) by reflexivity.
  assert (ML : forall f g, (forall x y, f x y = C0) -> forall a b l m, mul K1 2 a b f g l m = C0).
  { intros f g H a b l m. unfold mul, multiply. destruct (l <=? 2)%Z; [|reflexivity]. apply csum_const0. intros p _. apply csum_const0. intros q _.
    destruct (_ =? m)%Z; [|reflexivity]. rewrite H. cx_lin. }
  assert (EZ : forall s f l m, f l m = C0 -> eth_GHP s f l m = C0).
  { intros s f l m H. unfold eth_GHP, eth, ladder, fscale. rewrite H. destruct (_ <? _)%Z; cx_lin. }
  assert (B1 : forall x y, fbar 2 (s1 i) x y = C0) by (intros; unfold fbar; rewrite Zs1, Conj_C0; cx_lin).
  assert (B0 : forall x y, fbar 2 (s0 i) x y = C0) by (intros; unfold fbar; rewrite Zs0, Conj_C0; cx_lin).
  assert (E31 : eth_GHP (-1) (p3_1 i) 0%Z 0%Z = C0) by (unfold eth_GHP, eth, ladder, fscale; cbn; cx_lin).
  assert (P1 : p2_1 K1 2 i 0%Z 0%Z = C0).
  { unfold p2_1, fadd. rewrite ML by exact Zs0. rewrite EZ; [ring|]. unfold p3_0, fopp. rewrite EZ by apply B1. ring. }
  assert (P2 : p2_2 K1 2 i 0%Z 0%Z = C0).
  { unfold p2_2, fscale, fadd. rewrite ML by exact Zs1. rewrite E31. cx_lin. }
  assert (P0 : p2_0 K1 2 i 0%Z 0%Z = C0).
  { unfold p2_0, fsub, fmuli. set (A := fadd _ _). assert (A0 : A 0%Z 0%Z = C0).
    { unfold A, fadd. rewrite ML by exact Zs0. rewrite EZ; [ring|]. apply EZ, B0. }
    unfold fimag, fbar. change (- 0)%Z with 0%Z. rewrite A0. unfold freal, fscale, fadd, fbar. cbn. unfold fzero. cx_lin. }
  assert (P3 : p2_3 K1 2 i 0%Z 0%Z = RtoC (- / 6)).
  { unfold p2_3, mul, multiply, K1. change (0 <=? 2)%Z with true. cbn [fst snd].
    let v := eval vm_compute in (LMs 2) in change (LMs 2) with v. cbn [csum fst snd Z.add Z.eqb Pos.eqb Pos.add Z.pos_sub Z.opp].
    unfold p4_0, s2, fbar, fscale, i. cbn [i_sigmaddot0]. unfold one_mode. cbn [Z.add Z.eqb Pos.eqb Pos.add Z.pos_sub Z.opp andb]. cbn. cx_lin. }
  unfold fadd, fscale. rewrite P0, P1, P2, P3. cx_lin.
Qed.

(** ** C35: supermomentum *)
Lemma eth_zero : forall s f l m, f l m = C0 -> eth_GHP s f l m = C0.
Proof. intros s f l m H. unfold eth_GHP, eth, ladder, fscale. rewrite H. destruct (_ <? _)%Z; cx_lin. Qed.
Lemma ethbar_zero : forall s f l m, f l m = C0 -> ethbar_GHP s f l m = C0.
Proof. intros s f l m H. unfold ethbar_GHP, ethbar, fscale. rewrite H. destruct (_ <? _)%Z; cx_lin. Qed.
Lemma eth2_low : forall f l m, (l < 2)%Z -> eth_GHP (-1) (eth_GHP (-2) f) l m = C0.
Proof.
  intros f l m H. apply eth_zero. unfold eth_GHP, eth, ladder, fscale. change (Z.max (Z.abs (-2)) (Z.abs (-2 + 1))) with 2%Z.
  destruct (Z.ltb_spec l 2) as [A|A]; [cx_lin|lia].
Qed.
Lemma ethbar2_low : forall f l m, (l < 2)%Z -> ethbar_GHP 1 (ethbar_GHP 2 f) l m = C0.
Proof.
  intros f l m H. apply ethbar_zero. unfold ethbar_GHP, ethbar, fscale. change (Z.max (Z.abs 2) (Z.abs (2 - 1))) with 2%Z.
  destruct (Z.ltb_spec l 2) as [A|A]; [cx_lin|lia].
Qed.

(** The four definitions agree below ell = 2, and Geroch is the mean of Moreschi and Geroch-Winicour. *)
Theorem C35_definitions : forall K L b sbd d d' l m,
  ((l < 2)%Z -> supermomentum_aspect K L b sbd d l m = supermomentum_aspect K L b sbd d' l m)
  /\ supermomentum_aspect K L b sbd Geroch l m
     = Cscale (/ 2) (supermomentum_aspect K L b sbd Moreschi l m + supermomentum_aspect K L b sbd GerochWinicour l m)%C
  /\ (supermomentum_aspect K L b sbd Moreschi l m - supermomentum_aspect K L b sbd BondiSachs l m
      = eth_GHP (-1) (eth_GHP (-2) (fbar 2 (b_sigma b))) l m)%C
  /\ (supermomentum_aspect K L b sbd BondiSachs l m - supermomentum_aspect K L b sbd GerochWinicour l m
      = ethbar_GHP 1 (ethbar_GHP 2 (b_sigma b)) l m)%C.
Proof.
  intros K L b sbd d d' l m. split; [|split; [|split]].
  - intros H. assert (B : forall e, supermomentum_aspect K L b sbd e l m = supermomentum_aspect K L b sbd BondiSachs l m).
    { intros e. destruct e; unfold supermomentum_aspect; cbv zeta; unfold fadd, fsub, fscale; rewrite ?eth2_low, ?ethbar2_low by exact H; cx_lin. }
    rewrite (B d), (B d'). reflexivity.
  - unfold supermomentum_aspect. cbv zeta. unfold fadd, fsub, fscale. cx_lin.
  - unfold supermomentum_aspect. cbv zeta. unfold fadd, fsub, fscale. cx_lin.
  - unfold supermomentum_aspect. cbv zeta. unfold fadd, fsub, fscale. cx_lin.
Qed.

(** With a real mass aspect the Moreschi supermomentum is a real function. *)
Theorem C35_moreschi_real : forall K L b sbd,
  (forall l m, fimag (b_psi2 b) l m = (- fimag (fadd (eth_GHP (-1) (eth_GHP (-2) (fbar 2 (b_sigma b)))) (multiply K L L 2 (-2) (b_sigma b) sbd)) l m)%C) ->
  forall l m, fbar 0 (supermomentum_aspect K L b sbd Moreschi) l m = supermomentum_aspect K L b sbd Moreschi l m.
Proof.
  intros K L b sbd H l m. apply fbar_zero. unfold supermomentum_aspect. cbv zeta. rewrite !fimag_add. rewrite H, fimag_add. unfold grid_multiply. ring.
Qed.
(** ... which holds for the solutions built by from_initial_values. *)
Theorem C35_moreschi_real_exact : forall K L i u, K_symmetric K -> K_flip K -> forall l m,
  let f := supermomentum_aspect K L (from_initial_values_exact K L i u) (fbar 2 (exact_sigma_dot i u)) Moreschi in
  fbar 0 f l m = f l m.
Proof. intros K L i u HS HF l m. cbv zeta. apply C35_moreschi_real. intros. apply C34_mass_aspect; assumption. Qed.

(** Integrated form: the modes of the conjugate, scaled by -1/sqrt(4 pi); names are matched in any case. *)
Theorem C35_integrated : forall K L b sbd name f, supermomentum K L b sbd name false = Ok f ->
  exists g, supermomentum K L b sbd name true = Ok g
  /\ forall l m, g l m = Cscale (- / sqrt (4 * PI) * sgn m) (Conj (f l (- m)%Z)).
Proof.
  intros K L b sbd name f H. unfold supermomentum in *. destruct (parse_def name) as [d|]; [|discriminate]. cbn [rbind] in *.
  injection H as <-. eexists. split; [reflexivity|]. intros l m. unfold fscale, fbar. change (0 + m)%Z with m.
  assert (P : sqrt (4 * PI) = 2 * sqrt PI).
  { rewrite sqrt_mult; [|lra|left; apply PI_RGT_0]. replace 4 with (2 * 2) by ring. rewrite sqrt_square by lra. reflexivity. }
  assert (N : sqrt PI <> 0) by (apply Rgt_not_eq, sqrt_lt_R0, PI_RGT_0). rewrite P.
  apply C_eq; cbn [re im Cscale Conj]; field; exact N.
Qed.
Lemma lower_char_eq : forall c d, lower_char c = lower_char d -> forall K, K (lower_char c) = K (lower_char d) :> bool.
Proof. intros; congruence. Qed.
Theorem C35_names : forall s s' , lower s = lower s' -> parse_def s = parse_def s'.
Proof. intros s s' H. unfold parse_def. rewrite H. reflexivity. Qed.
Theorem C35_accepted : forall s d, parse_def s = Ok d <->
  In (lower s, d) [("bondi-sachs"%string, BondiSachs); ("bs"%string, BondiSachs); ("moreschi"%string, Moreschi); ("m"%string, Moreschi);
                   ("geroch"%string, Geroch); ("g"%string, Geroch); ("geroch-winicour"%string, GerochWinicour); ("gw"%string, GerochWinicour)].
Proof.
  intros s d. unfold parse_def. generalize (lower s) as w. intros w. split.
  - intros H.
    repeat match type of H with (if ?c || ?e then _ else _) = _ => destruct c eqn:E1; [apply String.eqb_eq in E1; subst; injection H as <-; cbn; tauto|];
      destruct e eqn:E2; [apply String.eqb_eq in E2; subst; injection H as <-; cbn; tauto|]; cbn [orb] in H; clear E1 E2 end.
    discriminate.
  - intros H. cbn in H. repeat (destruct H as [H|H]; [injection H as <- <-; reflexivity|]). contradiction.
Qed.
Example C35_case : parse_def "Geroch-Winicour" = Ok GerochWinicour /\ parse_def "M" = Ok Moreschi /\ parse_def "Bondi" = Err ValueError.
Proof. repeat split. Qed.

(** ** C36: charges *)
Lemma charge_real : forall f, charge_vector (freal f) = charge_vector f.
Proof.
  intros f. unfold charge_vector, freal, fbar, fscale, fadd. cbv zeta. change (- (-1))%Z with 1%Z. change (- (0))%Z with 0%Z. change (- (1))%Z with (-1)%Z.
  change (sgn (0 + 0)) with 1. change (sgn (0 + -1)) with (-1). change (sgn (0 + 1)) with (-1).
  cbn [re im Cscale Cadd Csub Conj].
  f_equal; [unfold Rdiv; field; apply Rgt_not_eq, sqrt_lt_R0; pose proof PI_RGT_0; lra|].
  assert (N6 : sqrt 6 <> 0) by (apply Rgt_not_eq, sqrt_lt_R0; lra). assert (N3 : sqrt 3 <> 0) by (apply Rgt_not_eq, sqrt_lt_R0; lra).
  assert (NP : sqrt (4 * PI) <> 0) by (apply Rgt_not_eq, sqrt_lt_R0; pose proof PI_RGT_0; lra).
  apply f_equal2; [apply f_equal2|]; field; auto.
Qed.

(** charge_vector_from_aspect is the projection on ell <= 1: an aspect whose real part is c + v.n (plus ell >= 2) gives (c, v/3). *)
Definition has_parts (f : modes) (c : R) (v : vec3) : Prop :=
  freal f 0%Z 0%Z = constant_as_ell_0_mode c /\ [freal f 1%Z (-1)%Z; freal f 1%Z 0%Z; freal f 1%Z 1%Z] = vector_as_ell_1_modes v.
Lemma sqrt_consts3 : sqrt (2 * PI / 3) = sqrt (4 * PI) / sqrt 6 /\ sqrt 2 / sqrt 6 = / sqrt 3.
Proof.
  assert (P := PI_RGT_0). split.
  - rewrite <- sqrt_div by lra. f_equal. field.
  - rewrite <- sqrt_div, <- sqrt_inv by lra. f_equal. field.
Qed.
Theorem C36_projection : forall f c v, has_parts f c v -> charge_vector f = (c, v3scale (/ 3) v).
Proof.
  intros f c [[x y] z] [H0 H1]. rewrite <- charge_real. unfold charge_vector. cbv zeta. rewrite H0.
  unfold vector_as_ell_1_modes in H1. assert (H2 := f_equal (fun l => nth 1 l C0) H1). assert (H3 := f_equal (fun l => nth 2 l C0) H1).
  apply (f_equal (fun l => nth 0 l C0)) in H1. cbn [nth] in H1, H2, H3. rewrite H1, H2, H3. destruct sqrt_consts3 as [S1 S2].
  assert (N6 : sqrt 6 <> 0) by (apply Rgt_not_eq, sqrt_lt_R0; lra). assert (N3 : sqrt 3 <> 0) by (apply Rgt_not_eq, sqrt_lt_R0; lra).
  assert (NP : sqrt (4 * PI) <> 0) by (apply Rgt_not_eq, sqrt_lt_R0; pose proof PI_RGT_0; lra).
  assert (Q6 : sqrt 6 * sqrt 6 = 6) by (apply sqrt_sqrt; lra). assert (Q3 : sqrt 3 * sqrt 3 = 3) by (apply sqrt_sqrt; lra).
  assert (S2' : sqrt 2 = sqrt 6 / sqrt 3) by (apply (Rmult_eq_reg_r (/ sqrt 6)); [|apply Rinv_neq_0_compat; exact N6]; unfold Rdiv in *; rewrite S2; field; auto).
  unfold constant_as_ell_0_mode, v3scale. rewrite ?S1. cbn [re im Cscale Cadd Csub RtoC].
  apply f_equal2; [field; exact NP|].
  assert (D6 : / sqrt 6 * / sqrt 6 = / 6) by (rewrite <- Rinv_mult, Q6; reflexivity).
  assert (D3 : / sqrt 3 * / sqrt 3 = / 3) by (rewrite <- Rinv_mult, Q3; reflexivity).
  apply f_equal2; [apply f_equal2|].
  - replace (/ 3 * x) with (2 * x * / 6) by field. rewrite <- D6. field; auto.
  - replace (/ 3 * y) with (2 * y * / 6) by field. rewrite <- D6. field; auto.
  - rewrite S2'. rewrite <- D3. field; auto.
Qed.
(** Every aspect has such parts, so the projection is total. *)
Theorem C36_projection_total : forall f, exists c v, has_parts f c v.
Proof.
  intros f. destruct (f 0%Z 0%Z) as [a0 b0] eqn:F0. destruct (f 1%Z (-1)%Z) as [am bm] eqn:Fm. destruct (f 1%Z 0%Z) as [az bz] eqn:Fz. destruct (f 1%Z 1%Z) as [ap bp] eqn:Fp.
  assert (NP : sqrt (4 * PI) <> 0) by (apply Rgt_not_eq, sqrt_lt_R0; pose proof PI_RGT_0; lra).
  assert (NQ : sqrt (2 * PI / 3) <> 0) by (apply Rgt_not_eq, sqrt_lt_R0; pose proof PI_RGT_0; lra).
  assert (N2 : sqrt 2 <> 0) by (apply Rgt_not_eq, sqrt_lt_R0; lra).
  set (s := sqrt (2 * PI / 3)) in *.
  exists (a0 / sqrt (4 * PI)), ((am - ap) / 2 / s, (bm + bp) / 2 / s, az / sqrt 2 / s).
  unfold has_parts, freal, fbar, fscale, fadd. change (- (-1))%Z with 1%Z. change (- (0))%Z with 0%Z. change (- (1))%Z with (-1)%Z.
  change (sgn (0 + 0)) with 1. change (sgn (0 + -1)) with (-1). change (sgn (0 + 1)) with (-1). rewrite F0, Fm, Fz, Fp. fold s.
  unfold constant_as_ell_0_mode, vector_as_ell_1_modes. fold s. split; [apply C_eq; cbn; field; exact NP|].
  apply f_equal2; [|apply f_equal2; [|apply f_equal2; [|reflexivity]]]; apply C_eq; cbn [re im Cscale Cadd Conj RtoC]; field; auto.
Qed.

Lemma charge_scale : forall x f, charge_vector (fscale x f) = (x * fst (charge_vector f), v3scale x (snd (charge_vector f))).
Proof.
  intros x f. unfold charge_vector, fscale, v3scale. cbv zeta. cbn [fst snd re im Cscale Cadd Csub].
  apply f_equal2; [unfold Rdiv; ring|apply f_equal2; [apply f_equal2|]; unfold Rdiv; ring].
Qed.
Lemma charge_add : forall f g, charge_vector (fadd f g) = (fst (charge_vector f) + fst (charge_vector g), v3add (snd (charge_vector f)) (snd (charge_vector g))).
Proof.
  intros f g. unfold charge_vector, fadd, v3add. cbv zeta. cbn [fst snd re im Cscale Cadd Csub].
  apply f_equal2; [unfold Rdiv; ring|apply f_equal2; [apply f_equal2|]; unfold Rdiv; ring].
Qed.
Lemma charge_ext : forall f g, (forall l m, (l <= 1)%Z -> f l m = g l m) -> charge_vector f = charge_vector g.
Proof. intros f g H. unfold charge_vector. rewrite !H by lia. reflexivity. Qed.
(** NP-eth of an ell = 1 function of spin weight 0 in the GHP normalisation has the same mode weights. *)
Lemma eth_ell1 : forall f m, eth_GHP 0 f 1%Z m = f 1%Z m.
Proof.
  intros f m. unfold eth_GHP, eth, ladder, fscale. cbn [Z.ltb Z.abs Z.max Z.add Z.compare Pos.compare Pos.compare_cont Z.sub Z.mul Z.opp Pos.mul Pos.add].
  assert (N2 : sqrt 2 <> 0) by (apply Rgt_not_eq, sqrt_lt_R0; lra). apply C_eq; cbn [re im Cscale]; field; exact N2.
Qed.
Lemma charge_eth : forall f, snd (charge_vector (eth_GHP 0 f)) = snd (charge_vector f).
Proof. intros f. unfold charge_vector. cbv zeta. cbn [snd]. rewrite !eth_ell1. reflexivity. Qed.

(** Centre-of-mass charge = boost charge + t * momentum. *)
Theorem C36_center_of_mass : forall K L b sbd t dflt,
  bondi_CoM_charge K L b = v3add (bondi_boost_charge K L b sbd t) (v3scale t (snd (bondi_four_momentum K L b sbd dflt))).
Proof.
  intros K L b sbd t dflt. unfold bondi_CoM_charge, bondi_boost_charge, bondi_four_momentum, mass_aspect. change (1 =? 0)%Z with false. cbv iota.
  set (A := com_part K L b). set (B := fadd _ _).
  rewrite (charge_ext (boost_aspect K L b sbd t) (fadd (fopp A) (fscale t (eth_GHP 0 (freal B)))))
    by (intros; unfold boost_aspect; fold A; fold B; clearbody A B; unfold fopp, fsub, fadd; ring).
  rewrite charge_add. cbn [snd]. rewrite charge_scale. cbn [snd]. rewrite charge_eth.
  rewrite (charge_ext (fopp (freal B)) (fscale (-1) (freal B))) by (intros; unfold fopp, fscale; cx_lin).
  rewrite charge_scale. cbn [snd]. destruct (snd (charge_vector (fopp A))) as [[x y] z]. destruct (snd (charge_vector (freal B))) as [[u v] w].
  unfold v3add, v3scale. apply f_equal2; [apply f_equal2|]; ring.
Qed.

(** The four-momentum is minus the ell <= 1 part of the supermomentum, whichever definition is used. *)
Theorem C36_momentum_supermomentum : forall K L b sbd dflt d, (1 <= L)%Z ->
  let P := charge_vector (supermomentum_aspect K L b sbd d) in
  bondi_four_momentum K L b sbd dflt = (- fst P, v3scale (-1) (snd P)).
Proof.
  intros K L b sbd dflt d HL. cbv zeta.
  rewrite (charge_ext (supermomentum_aspect K L b sbd d) (fadd (truncate_ell 1 (b_psi2 b)) (multiply K L 1 2 (-2) (b_sigma b) sbd))).
  2:{ intros l m Hl. destruct (C35_definitions K L b sbd d BondiSachs l m) as [E _]. rewrite E by lia.
      unfold supermomentum_aspect. cbv zeta. unfold fadd, truncate_ell, grid_multiply, multiply.
      destruct (Z.leb_spec l 1); [|lia]. destruct (Z.leb_spec l L); [reflexivity|lia]. }
  unfold bondi_four_momentum, mass_aspect. change (1 =? 0)%Z with false. cbv iota. set (B := fadd _ _).
  rewrite (charge_ext (fopp (freal B)) (fscale (-1) (freal B))) by (intros; unfold fopp, fscale; cx_lin).
  rewrite charge_scale, charge_real. f_equal. ring.
Qed.

(** mass_aspect(k) removes everything above ell = k, except that mass_aspect(0) keeps all modes. *)
(** The rest mass is the invariant length of the four-momentum, when that is not spacelike. *)
Theorem C36_rest_mass : forall K L b sbd dflt e x y z, bondi_four_momentum K L b sbd dflt = (e, (x, y, z)) ->
  x * x + y * y + z * z <= e * e ->
  let M := bondi_rest_mass K L b sbd dflt in 0 <= M /\ M * M = e * e - (x * x + y * y + z * z)
  /\ (x = 0 -> y = 0 -> z = 0 -> M = Rabs e).
Proof.
  intros K L b sbd dflt e x y z E C M. subst M. unfold bondi_rest_mass. rewrite E.
  replace (e ^ 2 - (x ^ 2 + y ^ 2 + z ^ 2)) with (e * e - (x * x + y * y + z * z)) by ring.
  split; [apply sqrt_pos|]. split; [apply sqrt_sqrt; lra|]. intros -> -> ->.
  replace (e * e - (0 * 0 + 0 * 0 + 0 * 0)) with (e * e) by ring. apply sqrt_Rsqr_abs.
Qed.
Theorem C36_mass_aspect_truncated : forall K L b sbd dflt k l m, k <> 0%Z -> (k < l)%Z -> mass_aspect K L b sbd dflt (TInt k) l m = C0.
Proof.
  intros K L b sbd dflt k l m Hk Hl. unfold mass_aspect. destruct (Z.eqb_spec k 0); [contradiction|].
  assert (Z : forall m, fadd (truncate_ell k (b_psi2 b)) (multiply K L k 2 (-2) (b_sigma b) sbd) l m = C0).
  { intros m'. unfold fadd, truncate_ell, multiply. destruct (Z.leb_spec l k); [lia|]. ring. }
  unfold fopp, freal, fscale, fbar. unfold fadd at 1. rewrite !Z, Conj_C0. cx_lin.
Qed.
Theorem C36_mass_aspect_zero_refuted : exists b sbd dflt l m, (0 < l)%Z /\ mass_aspect K1 2 b sbd dflt (TInt 0) l m <> C0.
Proof.
  exists (mkbondi fzero fzero (one_mode 1 0) fzero fzero fzero), fzero, 2%Z, 1%Z, 0%Z. split; [lia|].
  unfold mass_aspect. cbn [b_psi2 b_sigma Z.eqb]. intros H. apply (f_equal re) in H. revert H.
  assert (Z : forall l m, multiply K1 2 2 2 (-2) fzero fzero l m = C0).
  { intros l m. unfold multiply. destruct (l <=? 2)%Z; [|reflexivity]. apply csum_const0. intros p _. apply csum_const0. intros q _. destruct (_ =? m)%Z; [|reflexivity]. unfold fzero. cx_lin. }
  unfold fopp, freal, fscale, fbar. unfold fadd. change (- 0)%Z with 0%Z. rewrite Z. change (one_mode 1 0 1%Z 0%Z) with C1. change (sgn (0 + 0)) with 1.
  cbn [re im Cadd Copp Cscale Conj C0 C1]. lra.
Qed.
Example C36_case : has_parts (fun l m => if (l =? 0)%Z then constant_as_ell_0_mode 5 else C0) 5 (0, 0, 0)
  /\ charge_vector (fun l m => if (l =? 0)%Z then constant_as_ell_0_mode 5 else C0) = (5, v3scale (/ 3) (0, 0, 0)).
Proof.
  assert (H : has_parts (fun l m => if (l =? 0)%Z then constant_as_ell_0_mode 5 else C0) 5 (0, 0, 0)).
  { split.
    - unfold freal, fscale, fadd, fbar. cbn. unfold constant_as_ell_0_mode. cx.
    - unfold freal, fscale, fadd, fbar. unfold vector_as_ell_1_modes. cbn [Z.eqb].
      apply f_equal2; [|apply f_equal2; [|apply f_equal2; [|reflexivity]]]; apply C_eq; cbn; ring. }
  split; [exact H|]. apply C36_projection. exact H.
Qed.

(** ** C56: dimensionless spin *)
(** Independent specification: boost the angular-momentum tensor (M^{jk} = eps_jki J_i, M^{j0} = N_j) to the rest frame. *)
Definition comp (v : vec3) (i : nat) : R := let '(x, y, z) := v in match i with 1 => x | 2 => y | _ => z end%nat.
Definition boost_matrix (g : R) (v : vec3) (a b : nat) : R :=
  match a, b with
  | O, O => g
  | O, _ => - g * comp v b
  | _, O => - g * comp v a
  | _, _ => (if Nat.eqb a b then 1 else 0) + g * g / (1 + g) * comp v a * comp v b
  end.
Definition tensor (N J : vec3) (a b : nat) : R :=
  match a, b with
  | O, O => 0
  | O, _ => - comp N b
  | _, O => comp N a
  | 1%nat, 2%nat => comp J 3 | 2%nat, 1%nat => - comp J 3
  | 2%nat, 3%nat => comp J 1 | 3%nat, 2%nat => - comp J 1
  | 3%nat, 1%nat => comp J 2 | 1%nat, 3%nat => - comp J 2
  | _, _ => 0
  end.
Definition sum4 (f : nat -> R) : R := f 0%nat + f 1%nat + f 2%nat + f 3%nat.
Definition boosted (L T : nat -> nat -> R) (a b : nat) : R := sum4 (fun c => sum4 (fun d => L a c * T c d * L b d)).
Definition dual (T : nat -> nat -> R) : vec3 := (T 2%nat 3%nat, T 3%nat 1%nat, T 1%nat 2%nat).
Definition vec4 (E : R) (P : vec3) (a : nat) : R := match a with O => E | _ => comp P a end.

Definition rest_gamma (E : R) (P : vec3) : R := E / sqrt (E ^ 2 - v3dot P P).
Lemma rest_gamma_eq : forall E P, 0 < E -> v3dot P P < E ^ 2 ->
  1 / sqrt (1 - norm3 (v3scale (/ E) P) ^ 2) = rest_gamma E P /\ norm3 (v3scale (/ E) P) ^ 2 = v3dot P P / E ^ 2.
Proof.
  intros E [[x y] z] HE H. unfold v3dot in *.
  assert (N : norm3 (v3scale (/ E) (x, y, z)) ^ 2 = (x * x + y * y + z * z) / E ^ 2).
  { unfold norm3, v3scale. rewrite pow2_sqrt; [field; lra|].
    pose proof (Rle_0_sqr (/ E * x)). pose proof (Rle_0_sqr (/ E * y)). pose proof (Rle_0_sqr (/ E * z)). unfold Rsqr in *. lra. }
  split; [|exact N]. rewrite N. unfold rest_gamma, v3dot. set (s := x * x + y * y + z * z) in *.
  replace (1 - s / E ^ 2) with ((E ^ 2 - s) / E ^ 2) by (field; lra).
  rewrite sqrt_div by (try apply pow_lt; lra). replace (E ^ 2) with (E * E) at 2 by ring. rewrite sqrt_square by lra.
  assert (0 < sqrt (E ^ 2 - s)) by (apply sqrt_lt_R0; lra). field. split; lra.
Qed.

(** The boost by v = P/E is the one to the rest frame. *)
Lemma C56_rest_frame : forall E P, 0 < E -> v3dot P P < E ^ 2 ->
  let L := boost_matrix (rest_gamma E P) (v3scale (/ E) P) in
  sum4 (fun b => L 0%nat b * vec4 E P b) = sqrt (E ^ 2 - v3dot P P)
  /\ forall a, (1 <= a <= 3)%nat -> sum4 (fun b => L a b * vec4 E P b) = 0.
Proof.
  intros E [[x y] z] HE H. cbv zeta. unfold rest_gamma. unfold v3dot in *. set (s := E ^ 2 - (x * x + y * y + z * z)) in *.
  assert (Hs : 0 < sqrt s) by (apply sqrt_lt_R0; unfold s; lra). set (m := sqrt s) in *.
  assert (M : m * m = E ^ 2 - (x * x + y * y + z * z)) by (unfold m; rewrite sqrt_sqrt; [reflexivity|unfold s; lra]).
  assert (X2 : x * x = E ^ 2 - m * m - y * y - z * z) by lra. clearbody m. clear s.
  assert (Hm : m <> 0) by lra. assert (HE' : E <> 0) by lra. assert (Hg : 1 + E / m <> 0) by (assert (0 < E / m) by (apply Rdiv_lt_0_compat; lra); lra).
  assert (Hg' : m + E <> 0) by lra.
  unfold sum4, boost_matrix, vec4, v3scale, comp. cbn [Nat.eqb]. split.
  - transitivity ((E * E - (x * x + y * y + z * z)) / m); [field; lra|]. replace (E * E - (x * x + y * y + z * z)) with (m * m) by lra. field. lra.
  - intros a Ha. destruct a as [|[|[|[|a]]]]; try lia; cbn [Nat.eqb].
    + transitivity (x * (1 - E / m + (x * x + y * y + z * z) / (m * (m + E)))); [field; lra|].
      replace (x * x + y * y + z * z) with (E * E - m * m) by lra. field. lra.
    + transitivity (y * (1 - E / m + (x * x + y * y + z * z) / (m * (m + E)))); [field; lra|].
      replace (x * x + y * y + z * z) with (E * E - m * m) by lra. field. lra.
    + transitivity (z * (1 - E / m + (x * x + y * y + z * z) / (m * (m + E)))); [field; lra|].
      replace (x * x + y * y + z * z) with (E * E - m * m) by lra. field. lra.
Qed.
Lemma dual_boosted : forall g v N J,
  dual (boosted (boost_matrix g v) (tensor N J))
  = v3add (v3add (v3scale (1 + g * g / (1 + g) * v3dot v v) J) (v3scale g (v3cross v N))) (v3scale (- (g * g / (1 + g) * v3dot J v)) v).
Proof.
  intros g [[x y] z] [[n1 n2] n3] [[j1 j2] j3]. unfold dual, boosted, sum4, boost_matrix, tensor, comp, v3add, v3scale, v3cross, v3dot. cbn [Nat.eqb].
  generalize (g * g / (1 + g)) as k. intros k. apply f_equal2; [apply f_equal2|]; ring.
Qed.
Lemma v3_eta : forall x y z x' y' z' : R, x = x' -> y = y' -> z = z' -> (x, y, z) = (x', y', z').
Proof. intros; subst; reflexivity. Qed.
Lemma spin_unfold : forall N J E P, 0 < E -> v3dot P P < E ^ 2 ->
  let g := rest_gamma E P in let v := v3scale (/ E) P in
  dimensionless_spin N J E P
  = v3scale (/ (E ^ 2 - v3dot P P)) (v3add (v3scale g (v3add J (v3cross v N))) (v3scale (- (g * g / (1 + g) * v3dot J v)) v))
  /\ 1 + g * g / (1 + g) * v3dot v v = g.
Proof.
  intros N J E P HE H. cbv zeta. destruct (rest_gamma_eq E P HE H) as [G Nv]. unfold dimensionless_spin. cbv zeta. rewrite G.
  set (g := rest_gamma E P) in *. set (v := v3scale (/ E) P) in *.
  assert (Gp : 0 < g) by (unfold g, rest_gamma; apply Rdiv_lt_0_compat; [exact HE|apply sqrt_lt_R0; lra]).
  assert (Vn : norm3 v * norm3 v = v3dot v v).
  { destruct v as [[x y] z]. unfold norm3, v3dot. apply sqrt_sqrt. pose proof (Rle_0_sqr x). pose proof (Rle_0_sqr y). pose proof (Rle_0_sqr z). unfold Rsqr in *. lra. }
  assert (G2 : g * g * (1 - v3dot v v) = 1).
  { replace (v3dot v v) with (v3dot P P / E ^ 2) by (rewrite <- Vn, <- Nv; ring).
    assert (Q : g * g = E ^ 2 / (E ^ 2 - v3dot P P)).
    { unfold g, rest_gamma. assert (S : 0 < sqrt (E ^ 2 - v3dot P P)) by (apply sqrt_lt_R0; lra).
      rewrite <- (sqrt_sqrt (E ^ 2 - v3dot P P)) at 3 by lra. field. lra. }
    rewrite Q. field. split; lra. }
  assert (Kv : g * g / (1 + g) * v3dot v v = g - 1).
  { replace (g * g / (1 + g) * v3dot v v) with ((g * g - g * g * (1 - v3dot v v)) / (1 + g)) by (field; lra). rewrite G2. field. lra. }
  split; [|lra]. f_equal. f_equal.
  destruct (Req_EM_T (norm3 v) 0) as [Z|Z].
  - assert (V0 : v = (0, 0, 0)).
    { assert (D : v3dot v v = 0) by (rewrite <- Vn, Z; ring). destruct v as [[x y] z]. unfold v3dot in D.
      pose proof (Rle_0_sqr x). pose proof (Rle_0_sqr y). pose proof (Rle_0_sqr z). unfold Rsqr in *.
      apply v3_eta; apply Rsqr_0_uniq; unfold Rsqr; lra. }
    rewrite V0. destruct J as [[a b] c]. unfold v3scale, v3dot. apply v3_eta; ring.
  - assert (F : (g - 1) / (norm3 v * norm3 v) = g * g / (1 + g)).
    { rewrite Vn in *. assert (D : v3dot v v <> 0) by (rewrite <- Vn; apply Rmult_integral_contrapositive; auto). rewrite <- Kv. field. split; [lra|exact D]. }
    rewrite <- F. destruct J as [[a b] c]. destruct v as [[x y] z]. set (n := norm3 (x, y, z)) in *. unfold v3scale, v3dot. apply v3_eta; field; exact Z.
Qed.

(** bondi_dimensionless_spin is J/M^2 of the rest frame. *)
Theorem C56_rest_frame_spin : forall N J E P, 0 < E -> v3dot P P < E ^ 2 ->
  v3scale (E ^ 2 - v3dot P P) (dimensionless_spin N J E P)
  = dual (boosted (boost_matrix (rest_gamma E P) (v3scale (/ E) P)) (tensor N J)).
Proof.
  intros N J E P HE H. destruct (spin_unfold N J E P HE H) as [U G]. rewrite U, dual_boosted, G.
  set (g := rest_gamma E P) in *. set (v := v3scale (/ E) P) in *. set (k := g * g / (1 + g)). set (M := E ^ 2 - v3dot P P). assert (HM : M <> 0) by (unfold M; lra).
  clearbody M k g v. destruct J as [[a b] c], v as [[x y] z], N as [[n1 n2] n3]. unfold v3scale, v3add, v3cross, v3dot. apply v3_eta; field; exact HM.
Qed.
(** It does not depend on the origin of space and time. *)
Theorem C56_translation : forall N J E P a t, 0 < E -> v3dot P P < E ^ 2 ->
  dimensionless_spin (v3add (v3add N (v3scale E a)) (v3scale (- t) P)) (v3add J (v3cross a P)) E P = dimensionless_spin N J E P.
Proof.
  intros N J E P a t HE H. destruct (spin_unfold N J E P HE H) as [U _].
  destruct (spin_unfold (v3add (v3add N (v3scale E a)) (v3scale (- t) P)) (v3add J (v3cross a P)) E P HE H) as [U' _]. rewrite U, U'. f_equal.
  generalize (rest_gamma E P) as g. intros g. generalize (g * g / (1 + g)) as k. intros k.
  destruct J as [[j1 j2] j3], N as [[n1 n2] n3], P as [[p1 p2] p3], a as [[a1 a2] a3]. unfold v3scale, v3add, v3cross, v3dot. apply v3_eta; field; lra.
Qed.
(** A system at rest. *)
Theorem C56_at_rest : forall N J E, 0 < E -> dimensionless_spin N J E (0, 0, 0) = v3scale (/ E ^ 2) J.
Proof.
  intros N J E HE. destruct (spin_unfold N J E (0, 0, 0) HE) as [U G]; [unfold v3dot; replace (0 * 0 + 0 * 0 + 0 * 0) with 0 by ring; apply pow_lt; exact HE|].
  rewrite U. unfold rest_gamma. replace (E ^ 2 - v3dot (0, 0, 0) (0, 0, 0)) with (E * E) by (unfold v3dot; ring). rewrite sqrt_square by lra.
  replace (E / E) with 1 by (field; lra). destruct J as [[a b] c], N as [[n1 n2] n3]. unfold v3scale, v3add, v3cross, v3dot. apply v3_eta; field; lra.
Qed.
Example C56_case : 0 < 5 /\ v3dot (0, 0, 3) (0, 0, 3) < 5 ^ 2 /\ dimensionless_spin (0, 0, 0) (4, 0, 16) 5 (0, 0, 3) = (5 / 16, 0, 1).
Proof.
  assert (HE : 0 < 5) by lra. assert (H : v3dot (0, 0, 3) (0, 0, 3) < 5 ^ 2) by (unfold v3dot; lra).
  split; [exact HE|]. split; [exact H|]. destruct (spin_unfold (0, 0, 0) (4, 0, 16) 5 (0, 0, 3) HE H) as [U _]. rewrite U.
  unfold rest_gamma. replace (5 ^ 2 - v3dot (0, 0, 3) (0, 0, 3)) with (4 * 4) by (unfold v3dot; ring). rewrite sqrt_square by lra.
  unfold v3scale, v3add, v3cross, v3dot. apply v3_eta; field.
Qed.

(** ** C37: the operator D *)
Lemma scale_between_nth : forall a b x h pos k d, (k < length h)%nat ->
  nth k (scale_between a b x pos h) d
  = if (a <=? pos + Z.of_nat k)%Z && (pos + Z.of_nat k <? b)%Z then Cscale x (nth k h d) else nth k h d.
Proof.
  induction h as [|c h IH]; intros pos k d H; [cbn in H; lia|]. cbn [scale_between]. destruct k as [|k].
  - cbn [nth]. replace (pos + Z.of_nat 0)%Z with pos by lia. reflexivity.
  - cbn [nth]. cbn in H. rewrite IH by lia. replace (pos + 1 + Z.of_nat k)%Z with (pos + Z.of_nat (S k))%Z by lia. reflexivity.
Qed.
Lemma scale_between_length : forall a b x h pos, length (scale_between a b x pos h) = length h.
Proof. induction h as [|c h IH]; intros; cbn; congruence. Qed.
(** ell of the mode stored at position k *)
Lemma LM_order : forall l m l' m', (0 <= l)%Z -> (0 <= l')%Z -> (- l <= m <= l)%Z -> (- l' <= m' <= l')%Z ->
  (LM l' (- l') <= LM l m < LM l' l' + 1)%Z -> l = l'.
Proof. intros l m l' m' H1 H2 H3 H4 [A B]. unfold LM in *. nia. Qed.
Theorem C37_modes : forall value h L l m d, (0 <= l)%Z -> (- l <= m <= l)%Z -> (LM l m < Z.of_nat (length h))%Z ->
  nth (Z.to_nat (LM l m)) (scale_all value h L) d
  = (if (l <=? L)%Z then Cscale (value l) (nth (Z.to_nat (LM l m)) h d) else nth (Z.to_nat (LM l m)) h d)
  /\ length (scale_all value h L) = length h.
Proof.
  intros value h L l m d Hl Hm Hi. unfold scale_all.
  assert (LMp : (0 <= LM l m)%Z) by (unfold LM; nia).
  assert (G : forall (ls : list Z) acc, NoDup ls -> (forall x, In x ls -> (0 <= x)%Z) -> length acc = length h ->
    nth (Z.to_nat (LM l m)) (fold_left (fun acc l => scale_between (LM l (- l)) (LM l l + 1) (value l) 0 acc) ls acc) d
    = (if in_dec Z.eq_dec l ls then Cscale (value l) (nth (Z.to_nat (LM l m)) acc d) else nth (Z.to_nat (LM l m)) acc d)
    /\ length (fold_left (fun acc l => scale_between (LM l (- l)) (LM l l + 1) (value l) 0 acc) ls acc) = length h).
  { induction ls as [|a ls IH]; intros acc ND Hp Hlen; cbn [fold_left]; [split; [reflexivity|exact Hlen]|].
    inversion ND; subst. destruct (IH (scale_between (LM a (- a)) (LM a a + 1) (value a) 0 acc)) as [E1 E2];
      [assumption|intros; apply Hp; right; assumption|rewrite scale_between_length; exact Hlen|].
    split; [|exact E2]. rewrite E1. rewrite scale_between_nth by lia. rewrite Z2Nat.id by exact LMp. cbn [Z.add].
    assert (Ha : (0 <= a)%Z) by (apply Hp; left; reflexivity).
    destruct (Z.leb_spec (LM a (- a)) (LM l m)) as [A|A]; cbn [andb].
    - destruct (Z.ltb_spec (LM l m) (LM a a + 1)) as [B|B].
      + assert (l = a) by (apply (LM_order l m a a); lia). subst a. destruct (in_dec Z.eq_dec l (l :: ls)) as [I|I]; [|exfalso; apply I; left; reflexivity].
        destruct (in_dec Z.eq_dec l ls); [contradiction|reflexivity].
      + assert (N : l <> a) by (intros ->; unfold LM in B; lia).
        destruct (in_dec Z.eq_dec l ls) as [I|I], (in_dec Z.eq_dec l (a :: ls)) as [I'|I']; try reflexivity.
        * exfalso. apply I'. right. exact I. * exfalso. destruct I'; [congruence|contradiction].
    - assert (N : l <> a) by (intros ->; unfold LM in A; lia).
      destruct (in_dec Z.eq_dec l ls) as [I|I], (in_dec Z.eq_dec l (a :: ls)) as [I'|I']; try reflexivity.
      * exfalso. apply I'. right. exact I. * exfalso. destruct I'; [congruence|contradiction]. }
  destruct (G (zrange 0 (L + 1)) h) as [E1 E2]; [apply zrange_NoDup|intros x I; apply zrange_In in I; lia|reflexivity|].
  split; [|exact E2]. rewrite E1. destruct (in_dec Z.eq_dec l (zrange 0 (L + 1))) as [I|I]; destruct (Z.leb_spec l L) as [A|A]; try reflexivity.
  - apply zrange_In in I. lia.
  - exfalso. apply I. apply zrange_In. lia.
Qed.
Lemma poly4_pos : forall l, (2 <= l)%Z -> 0 < poly4 l.
Proof. intros l H. unfold poly4. apply IZR_lt. nia. Qed.
Lemma scale_all_length : forall value h L, length (scale_all value h L) = length h.
Proof.
  intros. unfold scale_all. generalize (zrange 0 (L + 1)) as ls. intros ls. revert h. induction ls as [|a ls IH]; intros h; cbn; [reflexivity|].
  rewrite IH. apply scale_between_length.
Qed.
(** Dinverse undoes D on ell >= 2 and both erase ell < 2. *)
Theorem C37_inverse : forall h L l m d, (0 <= l <= L)%Z -> (- l <= m <= l)%Z -> (LM l m < Z.of_nat (length h))%Z ->
  nth (Z.to_nat (LM l m)) (Dinverse (D_op h L) L) d = (if (l <? 2)%Z then C0 else nth (Z.to_nat (LM l m)) h d)
  /\ nth (Z.to_nat (LM l m)) (D_op (Dinverse h L) L) d = (if (l <? 2)%Z then C0 else nth (Z.to_nat (LM l m)) h d).
Proof.
  intros h L l m d Hl Hm Hi. unfold Dinverse, D_op. split.
  - destruct (C37_modes Dinv_value (scale_all D_value h L) L l m d) as [E _]; [lia|exact Hm|rewrite scale_all_length; exact Hi|]. rewrite E.
    destruct (C37_modes D_value h L l m d) as [E' _]; [lia|exact Hm|exact Hi|]. rewrite E'. destruct (Z.leb_spec l L); [|lia].
    unfold Dinv_value, D_value. destruct (Z.ltb_spec l 2) as [A|A]; [cx_lin|]. assert (P := poly4_pos l A). cx_lin; lra.
  - destruct (C37_modes D_value (scale_all Dinv_value h L) L l m d) as [E _]; [lia|exact Hm|rewrite scale_all_length; exact Hi|]. rewrite E.
    destruct (C37_modes Dinv_value h L l m d) as [E' _]; [lia|exact Hm|exact Hi|]. rewrite E'. destruct (Z.leb_spec l L); [|lia].
    unfold Dinv_value, D_value. destruct (Z.ltb_spec l 2) as [A|A]; [cx_lin|]. assert (P := poly4_pos l A). cx_lin; lra.
Qed.
(** Modes above the given ell_max are left alone. *)
Theorem C37_above : forall h L l m d, (0 <= l)%Z -> (L < l)%Z -> (- l <= m <= l)%Z -> (LM l m < Z.of_nat (length h))%Z ->
  nth (Z.to_nat (LM l m)) (D_op h L) d = nth (Z.to_nat (LM l m)) h d /\ nth (Z.to_nat (LM l m)) (Dinverse h L) d = nth (Z.to_nat (LM l m)) h d.
Proof.
  intros h L l m d H0 Hl Hm Hi. unfold D_op, Dinverse.
  destruct (C37_modes D_value h L l m d H0 Hm Hi) as [E _]. destruct (C37_modes Dinv_value h L l m d H0 Hm Hi) as [E' _]. rewrite E, E'.
  destruct (Z.leb_spec l L); [lia|]. split; reflexivity.
Qed.
(** D is eth^2 ethbar^2 (GHP) on functions of spin weight 0. *)
Theorem C37_is_eth2_ethbar2 : forall f l m, (0 <= l)%Z ->
  eth_GHP (-1) (eth_GHP (-2) (ethbar_GHP (-1) (ethbar_GHP 0 f))) l m = Cscale (D_value l) (f l m).
Proof.
  intros f l m Hl. unfold D_value. destruct (Z.ltb_spec l 2) as [A|A].
  - rewrite eth2_low by exact A. cx_lin.
  - unfold eth_GHP, ethbar_GHP, eth, ethbar, ladder, fscale.
    change (Z.max (Z.abs (-1)) (Z.abs (-1 + 1))) with 1%Z. change (Z.max (Z.abs (-2)) (Z.abs (-2 + 1))) with 2%Z.
    change (Z.max (Z.abs (-1)) (Z.abs (-1 - 1))) with 2%Z. change (Z.max (Z.abs 0) (Z.abs (0 - 1))) with 1%Z.
    destruct (Z.ltb_spec l 1); [lia|]. destruct (Z.ltb_spec l 2); [lia|].
    replace ((l - -1) * (l + (-1 + 1)))%Z with ((l + 1) * l)%Z by ring. replace ((l - -2) * (l + (-2 + 1)))%Z with ((l + 2) * (l - 1))%Z by ring.
    replace ((l + -1) * (l - -1 + 1))%Z with ((l + 2) * (l - 1))%Z by ring. replace ((l + 0) * (l - 0 + 1))%Z with ((l + 1) * l)%Z by ring.
    set (A1 := IZR ((l + 1) * l)). set (A2 := IZR ((l + 2) * (l - 1))).
    assert (S1 : sqrt A1 * sqrt A1 = A1) by (apply sqrt_sqrt, IZR_le; nia). assert (S2 : sqrt A2 * sqrt A2 = A2) by (apply sqrt_sqrt, IZR_le; nia).
    assert (P4 : poly4 l = A1 * A2) by (unfold poly4, A1, A2; rewrite <- mult_IZR; f_equal; ring). rewrite P4.
    assert (Q : sqrt 2 * sqrt 2 = 2) by (apply sqrt_sqrt; lra). assert (N2 : sqrt 2 <> 0) by (apply Rgt_not_eq, sqrt_lt_R0; lra).
    assert (I2 : / sqrt 2 * / sqrt 2 = / 2) by (rewrite <- Rinv_mult, Q; reflexivity). set (s := / sqrt 2) in *. set (a := sqrt A1). set (b := sqrt A2).
    destruct (f l m) as [x y]. apply C_eq; cbn [re im Cscale].
    + transitivity ((s * s) * (s * s) * (a * a) * (b * b) * x); [ring|rewrite I2; unfold a, b; rewrite S1, S2; field].
    + transitivity ((s * s) * (s * s) * (a * a) * (b * b) * y); [ring|rewrite I2; unfold a, b; rewrite S1, S2; field].
Qed.
Example C37_case : D_op (repeat C1 9) 2 = repeat C0 4 ++ repeat (RtoC 6) 5.
Proof.
  unfold D_op, scale_all. let v := eval vm_compute in (zrange 0 (2 + 1)) in change (zrange 0 (2 + 1)) with v. cbn -[D_value].
  unfold D_value, poly4. cbn. repeat (apply f_equal2; [apply C_eq; cbn; field|]). reflexivity. Qed.
Lemma fbar_eth : forall s f l m, fbar (s + 1) (eth_GHP s f) l m = ethbar_GHP (- s) (fbar s f) l m.
Proof.
  intros s f l m. unfold fbar, eth_GHP, ethbar_GHP, eth, ethbar, ladder, fscale.
  replace (Z.max (Z.abs (- s)) (Z.abs (- s - 1))) with (Z.max (Z.abs s) (Z.abs (s + 1))) by lia.
  destruct (l <? _)%Z; [rewrite Conj_scale, Conj_C0; cx_lin|].
  replace ((l + - s) * (l - - s + 1))%Z with ((l - s) * (l + (s + 1)))%Z by ring.
  replace (sgn (s + 1 + m)) with (- sgn (s + m)) by (rewrite !sgn_add; change (sgn 1) with (-1); ring). cx_lin.
Qed.
(** CWWY_angular_momentum: for a shear eth^2 alpha of a real function alpha the computed potential is 2 alpha (ell >= 2). *)
Theorem C37_potential : forall alpha l m, (2 <= l)%Z -> (forall x y, fbar 0 alpha x y = alpha x y) ->
  let sg := eth_GHP 1 (eth_GHP 0 alpha) in
  Cscale (Dinv_value l) (fadd (ethbar_GHP 1 (ethbar_GHP 2 sg)) (eth_GHP (-1) (eth_GHP (-2) (fbar 2 sg))) l m) = Cscale 2 (alpha l m).
Proof.
  intros alpha l m Hl HR. cbv zeta. unfold fadd.
  assert (E1 : eth_GHP (-1) (eth_GHP (-2) (fbar 2 (eth_GHP 1 (eth_GHP 0 alpha)))) l m = Cscale (D_value l) (alpha l m)).
  { rewrite <- (C37_is_eth2_ethbar2 alpha l m) by lia. apply eth2_ext. rewrite (fbar_eth 1). apply ethbar_ext.
    rewrite (fbar_eth 0). apply ethbar_ext. apply HR. }
  assert (E2 : ethbar_GHP 1 (ethbar_GHP 2 (eth_GHP 1 (eth_GHP 0 alpha))) l m = Cscale (D_value l) (alpha l m)).
  { unfold D_value. destruct (Z.ltb_spec l 2); [lia|]. unfold eth_GHP, ethbar_GHP, eth, ethbar, ladder, fscale.
    change (Z.max (Z.abs 1) (Z.abs (1 - 1))) with 1%Z. change (Z.max (Z.abs 2) (Z.abs (2 - 1))) with 2%Z.
    change (Z.max (Z.abs 1) (Z.abs (1 + 1))) with 2%Z. change (Z.max (Z.abs 0) (Z.abs (0 + 1))) with 1%Z.
    destruct (Z.ltb_spec l 1); [lia|]. destruct (Z.ltb_spec l 2); [lia|].
    replace ((l + 1) * (l - 1 + 1))%Z with ((l + 1) * l)%Z by ring. replace ((l + 2) * (l - 2 + 1))%Z with ((l + 2) * (l - 1))%Z by ring.
    replace ((l - 1) * (l + (1 + 1)))%Z with ((l + 2) * (l - 1))%Z by ring. replace ((l - 0) * (l + (0 + 1)))%Z with ((l + 1) * l)%Z by ring.
    set (A1 := IZR ((l + 1) * l)). set (A2 := IZR ((l + 2) * (l - 1))).
    assert (S1 : sqrt A1 * sqrt A1 = A1) by (apply sqrt_sqrt, IZR_le; nia). assert (S2 : sqrt A2 * sqrt A2 = A2) by (apply sqrt_sqrt, IZR_le; nia).
    assert (P4 : poly4 l = A1 * A2) by (unfold poly4, A1, A2; rewrite <- mult_IZR; f_equal; ring). rewrite P4.
    assert (Q : sqrt 2 * sqrt 2 = 2) by (apply sqrt_sqrt; lra).
    assert (I2 : / sqrt 2 * / sqrt 2 = / 2) by (rewrite <- Rinv_mult, Q; reflexivity). set (s := / sqrt 2) in *. set (a := sqrt A1). set (b := sqrt A2).
    destruct (alpha l m) as [x y]. apply C_eq; cbn [re im Cscale].
    + transitivity ((s * s) * (s * s) * (a * a) * (b * b) * x); [ring|rewrite I2; unfold a, b; rewrite S1, S2; field].
    + transitivity ((s * s) * (s * s) * (a * a) * (b * b) * y); [ring|rewrite I2; unfold a, b; rewrite S1, S2; field]. }
  rewrite E1, E2. unfold D_value, Dinv_value. destruct (Z.ltb_spec l 2); [lia|]. assert (P := poly4_pos l Hl). cx_lin; lra.
Qed.
