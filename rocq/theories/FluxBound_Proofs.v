(** C41: the momentum flux never exceeds the energy flux. *)
From Coq Require Import Reals ZArith List Bool Lia Lra Psatz.
From Verif Require Import Common Cplx Modes_Model Modes_Proofs Modal_Model Modal_Proofs Ladder_Proofs Flux_Model Flux_Proofs FluxOps_Proofs.
Import ListNotations.
Open Scope Z_scope.

(** Coefficients of the factorization (spherical harmonics times the two components of a spinor). *)
Definition al (s l k : Z) : R := sqrt (IZR ((l + k) * (l + s)) / IZR (l * (2 * l + 1))).
Definition be (s l k : Z) : R := sqrt (IZR ((l - k) * (l - s)) / IZR (l * (2 * l - 1))).
Definition ga (s l k : Z) : R := sqrt (IZR ((l - k + 1) * (l + s)) / IZR (l * (2 * l + 1))).
Definition de (s l k : Z) : R := sqrt (IZR ((l + k - 1) * (l - s)) / IZR (l * (2 * l - 1))).

Ltac guards := repeat match goal with
  | |- context [?a <=? ?b] => rewrite (proj2 (Z.leb_le a b)) by lia
  | |- context [?a =? ?a] => rewrite Z.eqb_refl
  end; cbn [andb].
Ltac izr := repeat rewrite ?mult_IZR, ?plus_IZR, ?minus_IZR, ?opp_IZR.

Lemma sqrt3 : forall x y z u v, (0 <= x)%R -> (0 <= y)%R -> (0 <= z)%R -> (0 <= u)%R -> (0 <= v)%R ->
  (x * (y * z) = u * v)%R -> (sqrt x * (sqrt y * sqrt z))%R = (sqrt u * sqrt v)%R.
Proof.
  intros x y z u v Hx Hy Hz Hu Hv E. rewrite <- !sqrt_mult; auto; try (apply Rmult_le_pos; auto). rewrite E. reflexivity.
Qed.

Definition W (s j l m mu : Z) : R :=
  (sqrt ((2 * IZR l + 1) / (2 * IZR j + 1)) * (CG_l1 l m mu j (m + mu) * CG_l1 l (- s) 0 j (- s)))%R.
Lemma p_z_W : forall s j l m, p_z_val s j l m = W s j l m 0.
Proof. intros. unfold p_z_val, W. rewrite Z.add_0_r. ring. Qed.
Lemma p_pm_W : forall s sign j l m, 0 <= l -> 0 <= j -> p_pm_val s sign j l m = (pm_spin sign * W s j l m sign)%R.
Proof. intros. unfold p_pm_val, W. rewrite pm_elements by auto. ring. Qed.

Lemma diag_z : forall s l m, Z.abs s <= l -> Z.abs m <= l -> 1 <= l -> p_z_val s l l m = (- IZR m * IZR s / (IZR l * (IZR l + 1)))%R.
Proof.
  intros s l m Hs Hm Hl. unfold p_z_val, CG_l1. rewrite !Z.add_0_r. guards. unfold cg_table. rewrite Z.sub_diag.
  assert (L : (1 <= IZR l)%R) by (apply IZR_le; lia).
  replace ((2 * IZR l + 1) / (2 * IZR l + 1))%R with 1%R by (field; lra). rewrite sqrt_1.
  assert (S : (sqrt (IZR (l * (l + 1))) * sqrt (IZR (l * (l + 1))) = IZR l * (IZR l + 1))%R).
  { rewrite sqrt_sqrt by (apply IZR_nn; nia). izr. reflexivity. }
  assert (N : sqrt (IZR (l * (l + 1))) <> 0%R) by (apply Rgt_not_eq, sqrt_lt_R0, IZR_pos; nia).
  rewrite <- S. rewrite opp_IZR. field. exact N.
Qed.
Lemma diag_0 : forall s m mu, W s 0 0 m mu = 0%R.
Proof. intros. unfold W, CG_l1. change (Z.abs (0 - 1) <=? 0) with false. rewrite !andb_false_r. cbn [andb]. ring. Qed.
Lemma up_z : forall s l m, Z.abs s <= l -> Z.abs m <= l -> p_z_val s (l + 1) l m = (al s (l + 1) m * be s (l + 1) m)%R.
Proof.
  intros s l m Hs Hm. rewrite p_z_W. unfold W, CG_l1. rewrite !Z.add_0_r. guards. unfold cg_table. replace (l + 1 - l) with 1 by ring.
  unfold al, be. assert (L : (0 <= IZR l)%R) by (apply IZR_le; lia).
  apply sqrt3; try (apply div_nn; [apply IZR_nn; nia|apply IZR_pos; nia]).
  - apply div_nn; izr; lra.
  - izr. field. repeat split; lra.
Qed.
Lemma diag_p : forall s l m, Z.abs s <= l -> Z.abs m <= l -> Z.abs (m + 1) <= l -> 1 <= l ->
  p_pm_val s 1 l l m = (- IZR s * sqrt (IZR ((l + m + 1) * (l - m))) / (IZR l * (IZR l + 1)))%R.
Proof.
  intros s l m Hs Hm Hm' Hl. rewrite p_pm_W by lia. unfold W, CG_l1. rewrite !Z.add_0_r. guards. unfold cg_table. rewrite Z.sub_diag.
  assert (L : (1 <= IZR l)%R) by (apply IZR_le; lia).
  replace ((2 * IZR l + 1) / (2 * IZR l + 1))%R with 1%R by (field; lra). rewrite sqrt_1. unfold pm_spin.
  replace ((l + (m + 1)) * (l - (m + 1) + 1)) with ((l + m + 1) * (l - m)) by ring.
  rewrite sqrt_div_alt by (apply IZR_pos; nia).
  replace (2 * l * (l + 1)) with (2 * (l * (l + 1))) by ring. rewrite (mult_IZR 2 (l * (l + 1))).
  rewrite sqrt_mult by (try lra; apply IZR_nn; nia).
  assert (S : (sqrt (IZR (l * (l + 1))) * sqrt (IZR (l * (l + 1))) = IZR l * (IZR l + 1))%R).
  { rewrite sqrt_sqrt by (apply IZR_nn; nia). izr. reflexivity. }
  assert (N : sqrt (IZR (l * (l + 1))) <> 0%R) by (apply Rgt_not_eq, sqrt_lt_R0, IZR_pos; nia).
  assert (N2 : sqrt 2 <> 0%R) by (apply Rgt_not_eq, sqrt_lt_R0; lra).
  rewrite <- S. rewrite opp_IZR. field. split; auto.
Qed.
Lemma sqrt2_in : forall x y, (0 <= x)%R -> (0 <= y)%R -> (sqrt 2 * (sqrt x * sqrt y))%R = (sqrt (2 * x) * sqrt y)%R.
Proof. intros. rewrite (sqrt_mult 2 x) by lra. ring. Qed.
Lemma up_p : forall s l m, Z.abs s <= l -> Z.abs m <= l -> p_pm_val s 1 (l + 1) l m = (- (al s (l + 1) (m + 1) * de s (l + 1) (m + 1)))%R.
Proof.
  intros s l m Hs Hm. rewrite p_pm_W by lia. unfold W, CG_l1. rewrite !Z.add_0_r. guards. unfold cg_table. replace (l + 1 - l) with 1 by ring.
  unfold al, de, pm_spin. assert (L : (0 <= IZR l)%R) by (apply IZR_le; lia).
  match goal with |- (_ * (sqrt ?x * (sqrt ?y * sqrt ?z)))%R = (- (sqrt ?u * sqrt ?v))%R =>
    assert (E : (sqrt (2 * x) * (sqrt y * sqrt z))%R = (sqrt u * sqrt v)%R) end.
  { apply sqrt3; try (apply div_nn; [apply IZR_nn; nia|apply IZR_pos; nia]).
    - apply Rmult_le_pos; [lra|]. apply div_nn; izr; lra.
    - izr. field. repeat split; lra. }
  rewrite <- E. rewrite sqrt_mult; [ring|lra|]. apply div_nn; izr; lra.
Qed.
Lemma down_p : forall s l m, Z.abs s <= l - 1 -> Z.abs m <= l -> Z.abs (m + 1) <= l - 1 -> p_pm_val s 1 (l - 1) l m = (be s l (m + 1) * ga s l (m + 1))%R.
Proof.
  intros s l m Hs Hm Hm'. rewrite p_pm_W by lia. unfold W, CG_l1. rewrite !Z.add_0_r. guards. unfold cg_table. replace (l - 1 - l) with (-1) by ring.
  unfold be, ga, pm_spin. assert (L : (1 <= IZR l)%R) by (apply IZR_le; lia).
  match goal with |- (_ * (sqrt ?x * (sqrt ?y * - sqrt ?z)))%R = (sqrt ?u * sqrt ?v)%R =>
    assert (E : (sqrt (2 * x) * (sqrt y * sqrt z))%R = (sqrt u * sqrt v)%R) end.
  { apply sqrt3; try (apply div_nn; [apply IZR_nn; nia|apply IZR_pos; nia]).
    - apply Rmult_le_pos; [lra|]. apply div_nn; izr; lra.
    - izr. field. repeat split; lra. }
  rewrite <- E. rewrite sqrt_mult; [ring|lra|]. apply div_nn; izr; lra.
Qed.

Lemma sqrt_self : forall a b, 0 <= a -> 0 <= b -> (sqrt (IZR a / IZR b) * sqrt (IZR a / IZR b))%R = (IZR a / IZR b)%R \/ b = 0.
Proof. intros a b Ha Hb. destruct (Z.eq_dec b 0); [right; auto|left]. apply sqrt_sqrt. apply div_nn; [apply IZR_nn; lia|apply IZR_pos; lia]. Qed.
Lemma sqrt_00 : forall x, sqrt (IZR 0 / x) = 0%R.
Proof. intros. unfold Rdiv. rewrite Rmult_0_l. apply sqrt_0. Qed.

Lemma al0 : al 0 0 0 = 0%R. Proof. unfold al. change ((0 + 0) * (0 + 0)) with 0. apply sqrt_00. Qed.
Lemma ga0 : ga 0 0 1 = 0%R. Proof. unfold ga. change ((0 - 1 + 1) * (0 + 0)) with 0. apply sqrt_00. Qed.
Lemma be1 : be 0 1 0 = 1%R. Proof. transitivity (sqrt 1); [unfold be; f_equal; cbn; field|apply sqrt_1]. Qed.
Lemma de1 : de 0 1 1 = 1%R. Proof. transitivity (sqrt 1); [unfold de; f_equal; cbn; field|apply sqrt_1]. Qed.
Lemma RtoC_1 : RtoC 1 = C1. Proof. reflexivity. Qed.
Lemma norm_ab : forall s l m, Z.abs s <= l -> Z.abs m <= l -> (al s l m * al s l m + be s (l + 1) m * be s (l + 1) m)%R = (1 - p_z_val s l l m)%R.
Proof.
  intros s l m Hs Hm. destruct (Z.eq_dec l 0) as [->|Hl].
  - assert (s = 0) as -> by lia. assert (m = 0) as -> by lia. rewrite p_z_W, diag_0. change (0 + 1) with 1. rewrite al0, be1. ring.
  - rewrite diag_z by lia. unfold al, be. assert (L : (1 <= IZR l)%R) by (apply IZR_le; lia).
    rewrite !sqrt_sqrt by (apply div_nn; [apply IZR_nn; nia|apply IZR_pos; nia]). izr. field. repeat split; lra.
Qed.
Lemma norm_gd : forall s l m, Z.abs s <= l -> Z.abs m <= l -> (ga s l (m + 1) * ga s l (m + 1) + de s (l + 1) (m + 1) * de s (l + 1) (m + 1))%R = (1 + p_z_val s l l m)%R.
Proof.
  intros s l m Hs Hm. destruct (Z.eq_dec l 0) as [->|Hl].
  - assert (s = 0) as -> by lia. assert (m = 0) as -> by lia. rewrite p_z_W, diag_0. change (0 + 1) with 1. rewrite ga0, de1. ring.
  - rewrite diag_z by lia. unfold ga, de. assert (L : (1 <= IZR l)%R) by (apply IZR_le; lia).
    rewrite !sqrt_sqrt by (apply div_nn; [apply IZR_nn; nia|apply IZR_pos; nia]). izr. field. repeat split; lra.
Qed.
Lemma up_gd : forall s l m, Z.abs s <= l -> Z.abs m <= l -> p_z_val s (l + 1) l m = (ga s (l + 1) (m + 1) * de s (l + 1) (m + 1))%R.
Proof.
  intros s l m Hs Hm. rewrite up_z by auto. unfold al, be, ga, de.
  assert (L : (0 <= IZR l)%R) by (apply IZR_le; lia).
  rewrite <- !sqrt_mult by (apply div_nn; [apply IZR_nn; nia|apply IZR_pos; nia]). f_equal. izr. field. repeat split; lra.
Qed.
Lemma sqrt_common : forall x y c, (0 <= c)%R -> (0 <= y)%R -> x = (y * (c * c))%R -> sqrt x = (sqrt y * c)%R.
Proof. intros x y c Hc Hy ->. rewrite sqrt_mult by (auto; nra). rewrite sqrt_square by auto. reflexivity. Qed.
Lemma cross_diag : forall s l m, Z.abs s <= l -> Z.abs m <= l -> Z.abs (m + 1) <= l ->
  (al s l (m + 1) * ga s l (m + 1) - be s (l + 1) (m + 1) * de s (l + 1) (m + 1))%R = (- p_pm_val s 1 l l m)%R.
Proof.
  intros s l m Hs Hm Hm'. assert (Hl : 1 <= l) by lia. rewrite diag_p by lia. unfold al, be, ga, de.
  assert (L : (1 <= IZR l)%R) by (apply IZR_le; lia).
  rewrite <- !sqrt_mult by (apply div_nn; [apply IZR_nn; nia|apply IZR_pos; nia]).
  rewrite (sqrt_common (IZR ((l + (m + 1)) * (l + s)) / IZR (l * (2 * l + 1)) * (IZR ((l - (m + 1) + 1) * (l + s)) / IZR (l * (2 * l + 1))))
     (IZR ((l + m + 1) * (l - m))) (IZR (l + s) / IZR (l * (2 * l + 1)))).
  2:{ apply div_nn; [apply IZR_nn; lia|apply IZR_pos; nia]. }
  2:{ apply IZR_nn; nia. }
  2:{ izr. field. repeat split; lra. }
  rewrite (sqrt_common (IZR ((l + 1 - (m + 1)) * (l + 1 - s)) / IZR ((l + 1) * (2 * (l + 1) - 1)) * (IZR ((l + 1 + (m + 1) - 1) * (l + 1 - s)) / IZR ((l + 1) * (2 * (l + 1) - 1))))
     (IZR ((l + m + 1) * (l - m))) (IZR (l + 1 - s) / IZR ((l + 1) * (2 * (l + 1) - 1)))).
  2:{ apply div_nn; [apply IZR_nn; lia|apply IZR_pos; nia]. }
  2:{ apply IZR_nn; nia. }
  2:{ izr. field. repeat split; lra. }
  generalize (sqrt (IZR ((l + m + 1) * (l - m)))). intros q. izr. field. repeat split; lra.
Qed.

(** ** The quadratic form *)
Section Quad.
Variable K : Z.
Variable X : Z -> Z -> C.
Hypothesis K0 : 2 <= K.
Hypothesis Xsmall : forall l m, K - 1 <= Z.abs l \/ K - 1 <= Z.abs m -> X l m = C0.

Lemma quad : forall (p q p' q' : Z -> Z -> R) e, Z.abs e <= 1 ->
  box K (fun l k => (Conj (RtoC (p l k) * X l k + RtoC (q l k) * X (l - 1)%Z k) * (RtoC (p' l k) * X l (k - e)%Z + RtoC (q' l k) * X (l - 1)%Z (k - e)%Z))%C)
  = box K (fun l m => (Conj (X l (m + e)%Z) * X l m * RtoC (p l (m + e)%Z * p' l (m + e)%Z + q (l + 1)%Z (m + e)%Z * q' (l + 1)%Z (m + e)%Z)
       + Conj (X (l + 1)%Z (m + e)%Z) * X l m * RtoC (p (l + 1)%Z (m + e)%Z * q' (l + 1)%Z (m + e)%Z)
       + Conj (X (l - 1)%Z (m + e)%Z) * X l m * RtoC (q l (m + e)%Z * p' l (m + e)%Z))%C).
Proof.
  intros p q p' q' e He.
  transitivity (box K (fun l k => (Conj (X l k) * X l (k - e)%Z * RtoC (p l k * p' l k))%C) +
    box K (fun l k => (Conj (X (l - 1)%Z k) * X (l - 1)%Z (k - e)%Z * RtoC (q l k * q' l k))%C) +
    box K (fun l k => (Conj (X l k) * X (l - 1)%Z (k - e)%Z * RtoC (p l k * q' l k))%C) +
    box K (fun l k => (Conj (X (l - 1)%Z k) * X l (k - e)%Z * RtoC (q l k * p' l k))%C))%C.
  { rewrite <- !box_add. apply box_ext. intros l m. rewrite !Conj_add, !Conj_mul, !Conj_RtoC, !RtoC_mul. ring. }
  rewrite <- (box_shift K 0 e (fun l k => (Conj (X l k) * X l (k - e)%Z * RtoC (p l k * p' l k))%C)); try lia.
  2:{ intros l m H. rewrite (Xsmall l m) by lia. rewrite Conj_C0. ring. }
  rewrite <- (box_shift K 1 e (fun l k => (Conj (X (l - 1)%Z k) * X (l - 1)%Z (k - e)%Z * RtoC (q l k * q' l k))%C)); try lia.
  2:{ intros l m H. rewrite (Xsmall (l - 1) m) by lia. rewrite Conj_C0. ring. }
  rewrite <- (box_shift K 1 e (fun l k => (Conj (X l k) * X (l - 1)%Z (k - e)%Z * RtoC (p l k * q' l k))%C)); try lia.
  2:{ intros l m H. rewrite (Xsmall l m) by lia. rewrite Conj_C0. ring. }
  rewrite <- (box_shift K 0 e (fun l k => (Conj (X (l - 1)%Z k) * X l (k - e)%Z * RtoC (q l k * p' l k))%C)); try lia.
  2:{ intros l m H. rewrite (Xsmall (l - 1) m) by lia. rewrite Conj_C0. ring. }
  rewrite <- !box_add. apply box_ext. intros l m. rewrite !RtoC_add, !RtoC_mul.
  replace (l + 1 - 1) with l by ring. replace (m + e - e) with m by ring. rewrite !Z.add_0_r. ring.
Qed.

Variable s : Z.
Hypothesis Xsupp : forall l m, ~ (Z.abs s <= l /\ Z.abs m <= l) -> X l m = C0.

Definition En : C := box K (fun l m => (Conj (X l m) * X l m)%C).
Definition op (dm : Z) (val : Z -> Z -> Z -> R) : C :=
  box K (fun l m => csum (fun d => (Conj (X (l + d)%Z (m + dm)%Z) * X l m * RtoC (val (l + d)%Z l m))%C) steps).
Definition Pz : C := op 0 (p_z_val s).
Definition Pp : C := op 1 (p_pm_val s 1).

Ltac off := match goal with |- context [X ?a ?b] => rewrite (Xsupp a b) by lia end; rewrite ?Conj_C0; ring.
Lemma quad_ab : box K (fun l k => (Conj (RtoC (al s l k) * X l k + RtoC (- be s l k) * X (l - 1)%Z k) * (RtoC (al s l k) * X l k + RtoC (- be s l k) * X (l - 1)%Z k))%C) = (En - Pz)%C.
Proof.
  transitivity (box K (fun l k => (Conj (RtoC (al s l k) * X l k + RtoC (- be s l k) * X (l - 1)%Z k) * (RtoC (al s l k) * X l (k - 0)%Z + RtoC (- be s l k) * X (l - 1)%Z (k - 0)%Z))%C)).
  { apply box_ext. intros l m. rewrite !Z.sub_0_r. reflexivity. }
  rewrite (quad (al s) (fun l k => - be s l k)%R (al s) (fun l k => - be s l k)%R 0) by lia.
  unfold En, Pz, op. rewrite <- box_sub. apply box_ext. intros l m. unfold steps. cbn [csum]. rewrite !Z.add_0_r. change (l + -1) with (l - 1).
  assert (Dl : (Z.abs s <= l /\ Z.abs m <= l) \/ ~ (Z.abs s <= l /\ Z.abs m <= l)) by lia. destruct Dl as [[Hs Hm]|Dl].
  2:{ rewrite (Xsupp l m Dl). ring. }
  replace (al s l m * al s l m + - be s (l + 1) m * - be s (l + 1) m)%R with (1 - p_z_val s l l m)%R by (rewrite <- norm_ab by auto; ring).
  replace (al s (l + 1) m * - be s (l + 1) m)%R with (- p_z_val s (l + 1) l m)%R by (rewrite up_z by auto; ring).
  assert (D : (Z.abs s <= l - 1 /\ Z.abs m <= l - 1) \/ ~ (Z.abs s <= l - 1 /\ Z.abs m <= l - 1)) by lia.
  destruct D as [[D1 D2]|D].
  - replace (- be s l m * al s l m)%R with (- p_z_val s (l - 1) l m)%R.
    2:{ rewrite p_z_sym by lia. replace l with (l - 1 + 1) at 1 by ring. rewrite up_z by auto. replace (l - 1 + 1) with l by ring. ring. }
    rewrite !RtoC_opp, RtoC_sub. rewrite RtoC_1. ring.
  - rewrite (Xsupp (l - 1) m D), Conj_C0. rewrite !RtoC_opp, RtoC_sub, RtoC_1. ring.
Qed.
Lemma quad_gd : box K (fun l k => (Conj (RtoC (ga s l k) * X l (k - 1)%Z + RtoC (de s l k) * X (l - 1)%Z (k - 1)%Z) * (RtoC (ga s l k) * X l (k - 1)%Z + RtoC (de s l k) * X (l - 1)%Z (k - 1)%Z))%C) = (En + Pz)%C.
Proof.
  rewrite <- (box_shift K 0 1) by (try lia; intros l m H; rewrite (Xsmall l (m - 1)), (Xsmall (l - 1) (m - 1)) by lia; ring).
  transitivity (box K (fun l k => (Conj (RtoC (ga s l (k + 1)) * X l k + RtoC (de s l (k + 1)) * X (l - 1)%Z k) * (RtoC (ga s l (k + 1)) * X l (k - 0)%Z + RtoC (de s l (k + 1)) * X (l - 1)%Z (k - 0)%Z))%C)).
  { apply box_ext. intros l m. rewrite !Z.sub_0_r, !Z.add_0_r. replace (m + 1 - 1) with m by ring. reflexivity. }
  rewrite (quad (fun l k => ga s l (k + 1)) (fun l k => de s l (k + 1)) (fun l k => ga s l (k + 1)) (fun l k => de s l (k + 1)) 0) by lia.
  unfold En, Pz, op. rewrite <- box_add. apply box_ext. intros l m. unfold steps. cbn [csum]. rewrite !Z.add_0_r. change (l + -1) with (l - 1).
  assert (Dl : (Z.abs s <= l /\ Z.abs m <= l) \/ ~ (Z.abs s <= l /\ Z.abs m <= l)) by lia. destruct Dl as [[Hs Hm]|Dl].
  2:{ rewrite (Xsupp l m Dl). ring. }
  rewrite norm_gd by auto. rewrite <- up_gd by auto.
  assert (D : (Z.abs s <= l - 1 /\ Z.abs m <= l - 1) \/ ~ (Z.abs s <= l - 1 /\ Z.abs m <= l - 1)) by lia.
  destruct D as [[D1 D2]|D].
  - replace (de s l (m + 1) * ga s l (m + 1))%R with (p_z_val s (l - 1) l m)%R.
    2:{ rewrite p_z_sym by lia. replace l with (l - 1 + 1) at 1 by ring. rewrite up_gd by auto. replace (l - 1 + 1) with l by ring. ring. }
    rewrite RtoC_add. rewrite RtoC_1. ring.
  - rewrite (Xsupp (l - 1) m D), Conj_C0. rewrite RtoC_add, RtoC_1. ring.
Qed.
Lemma quad_cross : box K (fun l k => (Conj (RtoC (al s l k) * X l k + RtoC (- be s l k) * X (l - 1)%Z k) * (RtoC (ga s l k) * X l (k - 1)%Z + RtoC (de s l k) * X (l - 1)%Z (k - 1)%Z))%C) = (- Pp)%C.
Proof.
  rewrite (quad (al s) (fun l k => - be s l k)%R (ga s) (de s) 1) by lia.
  unfold Pp, op. transitivity (- C1 * box K (fun l m => csum (fun d => (Conj (X (l + d)%Z (m + 1)%Z) * X l m * RtoC (p_pm_val s 1 (l + d)%Z l m))%C) steps))%C; [|ring].
  rewrite <- box_scale. apply box_ext. intros l m. unfold steps. cbn [csum]. rewrite !Z.add_0_r. change (l + -1) with (l - 1).
  assert (Dl : (Z.abs s <= l /\ Z.abs m <= l) \/ ~ (Z.abs s <= l /\ Z.abs m <= l)) by lia. destruct Dl as [[Hs Hm]|Dl].
  2:{ rewrite (Xsupp l m Dl). ring. }
  replace (al s (l + 1) (m + 1) * de s (l + 1) (m + 1))%R with (- p_pm_val s 1 (l + 1) l m)%R by (rewrite up_p by auto; ring).
  assert (T1 : (Conj (X l (m + 1)%Z) * X l m * RtoC (al s l (m + 1) * ga s l (m + 1) + - be s (l + 1) (m + 1) * de s (l + 1) (m + 1)))%C
     = (- (Conj (X l (m + 1)%Z) * X l m * RtoC (p_pm_val s 1 l l m)))%C).
  { destruct (Z_le_gt_dec (Z.abs (m + 1)) l) as [H|H].
    - replace (al s l (m + 1) * ga s l (m + 1) + - be s (l + 1) (m + 1) * de s (l + 1) (m + 1))%R with (- p_pm_val s 1 l l m)%R by (rewrite <- cross_diag by auto; ring).
      rewrite RtoC_opp. ring.
    - rewrite (Xsupp l (m + 1)) by lia. rewrite Conj_C0. ring. }
  assert (T2 : (Conj (X (l - 1)%Z (m + 1)%Z) * X l m * RtoC (- be s l (m + 1) * ga s l (m + 1)))%C
     = (- (Conj (X (l - 1)%Z (m + 1)%Z) * X l m * RtoC (p_pm_val s 1 (l - 1) l m)))%C).
  { assert (D : (Z.abs s <= l - 1 /\ Z.abs (m + 1) <= l - 1) \/ ~ (Z.abs s <= l - 1 /\ Z.abs (m + 1) <= l - 1)) by lia.
    destruct D as [[D1 D2]|D].
    - rewrite down_p by auto. rewrite <- RtoC_opp || idtac. replace (- be s l (m + 1) * ga s l (m + 1))%R with (- (be s l (m + 1) * ga s l (m + 1)))%R by ring. rewrite RtoC_opp. ring.
    - rewrite (Xsupp (l - 1) (m + 1) D), Conj_C0. ring. }
  rewrite T1, T2, RtoC_opp. ring.
Qed.
Lemma box_re_nonneg : forall f, (forall l m, (0 <= re (f l m))%R) -> (0 <= re (box K f))%R.
Proof. intros f H. unfold box. rewrite re_csum. apply rsum_nonneg. intros l _. rewrite re_csum. apply rsum_nonneg. intros m _. apply H. Qed.
Lemma form_nonneg : forall a b : C, (0 <= norm2 a * (re En - re Pz) + norm2 b * (re En + re Pz) - 2 * re (Conj a * b * Pp)%C)%R.
Proof.
  intros a b.
  set (u := fun l k => (RtoC (al s l k) * X l k + RtoC (- be s l k) * X (l - 1)%Z k)%C).
  set (v := fun l k => (RtoC (ga s l k) * X l (k - 1)%Z + RtoC (de s l k) * X (l - 1)%Z (k - 1)%Z)%C).
  assert (P := box_re_nonneg (fun l k => (Conj (a * u l k + b * v l k) * (a * u l k + b * v l k))%C)).
  assert (Q : box K (fun l k => (Conj (a * u l k + b * v l k) * (a * u l k + b * v l k))%C) =
    (Conj a * a * (En - Pz) + Conj b * b * (En + Pz) + Conj a * b * (- Pp) + a * Conj b * Conj (- Pp))%C).
  { rewrite <- quad_ab, <- quad_gd, <- quad_cross, box_conj, <- !box_scale, <- !box_add. apply box_ext. intros l k.
    fold (u l k). fold (v l k). rewrite !Conj_add, !Conj_mul, Conj_involutive. ring. }
  rewrite Q in P. clear Q. refine (Rle_trans _ _ _ (P _) _).
  - intros l k. destruct (a * u l k + b * v l k)%C as [x y]. cbn. nra.
  - right. destruct a as [a1 a2], b as [b1 b2]. destruct En, Pz, Pp. cbn. unfold norm2. cbn. ring.
Qed.
Lemma momentum_bound : (re Pp * re Pp + im Pp * im Pp + re Pz * re Pz <= re En * re En)%R /\ (0 <= re En)%R.
Proof.
  assert (HE : (0 <= re En)%R).
  { apply box_re_nonneg. intros l m. destruct (X l m). cbn. nra. }
  split; auto.
  assert (H1 := form_nonneg C0 C1). assert (H2 := form_nonneg C1 C0). unfold norm2 in H1, H2. cbn in H1, H2.
  assert (U : (0 <= re En + re Pz)%R) by lra. assert (V : (0 <= re En - re Pz)%R) by lra. clear H1 H2.
  assert (F : forall t, (0 <= t * t * (re En - re Pz) + (re Pp * re Pp + im Pp * im Pp) * (re En + re Pz) - 2 * t * (re Pp * re Pp + im Pp * im Pp))%R).
  { intros t. assert (H := form_nonneg (RtoC t) (Conj Pp)). destruct Pp as [x y]. cbn in *. unfold norm2 in H. cbn in H. lra. }
  assert (N : (0 <= re Pp * re Pp + im Pp * im Pp)%R) by nra.
  revert F N U V. generalize (re Pp * re Pp + im Pp * im Pp)%R (re En) (re Pz). intros n e z F N U V.
  destruct (Rle_lt_or_eq_dec _ _ U) as [Hu|Hu].
  - specialize (F (e + z)%R). assert ((e + z) * (n - (e + z) * (e - z)) <= 0)%R by nra.
    assert (n - (e + z) * (e - z) <= 0)%R; [|nra].
    apply Rnot_lt_le. intros Hc. assert (0 < (e + z) * (n - (e + z) * (e - z)))%R by (apply Rmult_lt_0_compat; lra). lra.
  - rewrite <- Hu in F. assert (n = 0)%R; [|nra].
    destruct (Rle_lt_or_eq_dec _ _ N) as [Hn|Hn]; [exfalso|lra].
    destruct (Rle_lt_or_eq_dec _ _ V) as [Hv|Hv].
    + specialize (F (n / (e - z))%R). 
      replace (n / (e - z) * (n / (e - z)) * (e - z) + n * 0 - 2 * (n / (e - z)) * n)%R with (- (n * n / (e - z)))%R in F by (field; lra).
      assert (0 < n * n / (e - z))%R by (apply Rdiv_lt_0_compat; nra). lra.
    + specialize (F 1%R). lra.
Qed.
End Quad.
