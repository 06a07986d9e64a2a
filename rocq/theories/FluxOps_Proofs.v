(** C41: the operators behind the momentum, angular momentum and boost fluxes. *)
From Coq Require Import Reals ZArith List Bool Lia Lra Psatz.
From Verif Require Import Common Cplx Modes_Model Modes_Proofs Modal_Model Modal_Proofs Ladder_Proofs Flux_Model Flux_Proofs.
Import ListNotations.
Open Scope Z_scope.

(** * Sums over a box that contains all modes *)
Definition ext (lo hi : Z) (f : Z -> Z -> C) (l m : Z) : C :=
  if (lo <=? l) && (l <=? hi) && (- l <=? m) && (m <=? l) then f l m else C0.
Lemma ext_in : forall lo hi f l m, valid lo hi l m -> ext lo hi f l m = f l m.
Proof.
  intros lo hi f l m [H1 H2]. unfold ext. replace (_ && _ && _ && _) with true; auto.
  symmetry. rewrite !andb_true_iff, !Z.leb_le. lia.
Qed.
Lemma ext_out : forall lo hi f l m, ~ valid lo hi l m -> ext lo hi f l m = C0.
Proof.
  intros lo hi f l m H. unfold ext. destruct (_ && _ && _ && _) eqn:E; auto. exfalso. apply H.
  rewrite !andb_true_iff, !Z.leb_le in E. unfold valid. lia.
Qed.
Definition box (K : Z) (g : Z -> Z -> C) : C :=
  csum (fun l => csum (fun m => g l m) (zrange (- K) (K + 1))) (zrange (- K) (K + 1)).
Lemma box_ext : forall K f g, (forall l m, f l m = g l m) -> box K f = box K g.
Proof. intros K f g H. apply csum_ext. intros l _. apply csum_ext. intros m _. apply H. Qed.
Lemma box_add : forall K f g, box K (fun l m => f l m + g l m)%C = (box K f + box K g)%C.
Proof. intros K f g. unfold box. rewrite <- csum_add. apply csum_ext. intros l _. apply csum_add. Qed.
Lemma box_scale : forall K k f, box K (fun l m => k * f l m)%C = (k * box K f)%C.
Proof. intros K k f. unfold box. rewrite <- csum_scale. apply csum_ext. intros l _. apply csum_scale. Qed.
Lemma box_sub : forall K f g, box K (fun l m => f l m - g l m)%C = (box K f - box K g)%C.
Proof.
  intros K f g. replace (box K f - box K g)%C with (box K f + (- C1) * box K g)%C by ring. rewrite <- box_scale, <- box_add.
  apply box_ext. intros; ring.
Qed.
Lemma box_conj : forall K f, Conj (box K f) = box K (fun l m => Conj (f l m)).
Proof. intros K f. unfold box. rewrite csum_conj. apply csum_ext. intros l _. apply csum_conj. Qed.
Lemma box_csum : forall K (L : list Z) (g : Z -> Z -> Z -> C), box K (fun l m => csum (fun d => g d l m) L) = csum (fun d => box K (g d)) L.
Proof.
  intros K L g. unfold box. rewrite (csum_swap _ _ _ L). apply csum_ext. intros l _. rewrite (csum_swap _ _ _ L). reflexivity.
Qed.
(** Shifting by at most one in each direction, for functions that vanish near the edge. *)
Lemma csum_shift1 : forall K d (f : Z -> C), 0 <= K -> Z.abs d <= 1 -> (forall i, K <= Z.abs i -> f i = C0) ->
  csum (fun i => f (i + d)) (zrange (- K) (K + 1)) = csum f (zrange (- K) (K + 1)).
Proof.
  intros K d f HK Hd H. rewrite csum_zshift. rewrite <- (csum_extend f (- K + 1) K (- K) (K + 1)) by (try lia; intros; apply H; lia).
  symmetry. apply csum_extend; try lia. intros; apply H; lia.
Qed.
Definition small (K : Z) (g : Z -> Z -> C) : Prop := forall l m, K <= Z.abs l \/ K <= Z.abs m -> g l m = C0.
Lemma box_shift : forall K d e g, 0 <= K -> Z.abs d <= 1 -> Z.abs e <= 1 -> small K g -> box K (fun l m => g (l + d) (m + e)) = box K g.
Proof.
  intros K d e g HK Hd He H. unfold box.
  transitivity (csum (fun l => csum (fun m => g (l + d) m) (zrange (- K) (K + 1))) (zrange (- K) (K + 1))).
  - apply csum_ext. intros l _. apply (csum_shift1 K e (fun m => g (l + d) m)); auto.
  - apply (csum_shift1 K d (fun l => csum (fun m => g l m) (zrange (- K) (K + 1)))); auto.
    intros l Hl. apply csum_const0. intros m _. apply H. auto.
Qed.

Definition steps : list Z := [-1; 0; 1].
(** The expectation value of a coupling operator as a sum over the box. *)
Lemma coupled_box : forall lo hi K dm val a b, 0 <= lo -> 0 <= K -> hi + 2 <= K -> Z.abs dm <= 1 ->
  bra_ket a b (coupled lo hi dm val) =
  box K (fun l m => csum (fun d => (Conj (ext lo hi a (l + d)%Z (m + dm)%Z) * ext lo hi b l m * RtoC (val (l + d)%Z l m))%C) steps).
Proof.
  intros lo hi K dm val a b Hlo HK0 HK Hdm. unfold bra_ket, coupled, box. rewrite csum_flat_map.
  rewrite <- (csum_extend _ lo (hi + 1) (- K) (K + 1)).
  2:{ lia. } 2:{ lia. }
  2:{ intros l Hl. apply csum_const0. intros m _. apply csum_const0. intros d _. rewrite (ext_out lo hi b) by (unfold valid; lia). ring. }
  apply csum_ext. intros l Hl. apply zrange_In in Hl. rewrite csum_flat_map.
  set (T := fun j => csum (fun m => (Conj (ext lo hi a j (m + dm)%Z) * ext lo hi b l m * RtoC (val j l m))%C) (zrange (- K) (K + 1))).
  transitivity (csum T (zrange (Z.max lo (l - 1)) (Z.min hi (l + 1) + 1))).
  { apply csum_ext. intros j Hj. apply zrange_In in Hj. rewrite csum_flat_map. unfold T.
    rewrite <- (csum_extend _ (- l) (l + 1) (- K) (K + 1)).
    2:{ lia. } 2:{ lia. } 2:{ intros m Hm. rewrite (ext_out lo hi b) by (unfold valid; lia). ring. }
    apply csum_ext. intros m Hm. apply zrange_In in Hm. cbv zeta. rewrite (ext_in lo hi b) by (unfold valid; lia).
    destruct (Z.ltb_spec (m + dm) (- j)); cbn [orb].
    { rewrite ext_out by (unfold valid; lia). cbn [csum]. rewrite Conj_C0. ring. }
    destruct (Z.ltb_spec j (m + dm)); cbn [csum e_j e_n e_l e_m e_v].
    { rewrite ext_out by (unfold valid; lia). rewrite Conj_C0. ring. }
    rewrite ext_in by (unfold valid; lia). ring. }
  transitivity (csum T (zrange (l - 1) (l + 2))).
  { destruct (Z.le_gt_cases (l - 1) hi).
    - rewrite (zrange_split (l - 1) (Z.max lo (l - 1)) (l + 2)) by lia.
      rewrite (zrange_split (Z.max lo (l - 1)) (Z.min hi (l + 1) + 1) (l + 2)) by lia. rewrite !csum_app.
      rewrite (csum_const0 T (zrange (l - 1) (Z.max lo (l - 1)))).
      2:{ intros j Hj. apply zrange_In in Hj. apply csum_const0. intros m _. rewrite ext_out by (unfold valid; lia). rewrite Conj_C0. ring. }
      rewrite (csum_const0 T (zrange (Z.min hi (l + 1) + 1) (l + 2))).
      2:{ intros j Hj. apply zrange_In in Hj. apply csum_const0. intros m _. rewrite ext_out by (unfold valid; lia). rewrite Conj_C0. ring. }
      ring.
    - lia. }
  replace (zrange (l - 1) (l + 2)) with (map (fun d => l + d) steps).
  2:{ rewrite (zrange_cons (l - 1)) by lia. rewrite (zrange_cons (l - 1 + 1)) by lia. rewrite (zrange_cons (l - 1 + 1 + 1)) by lia.
      rewrite zrange_empty by lia. unfold steps. cbn [map]. repeat (f_equal; try lia). }
  rewrite csum_map. unfold T. rewrite csum_swap. reflexivity.
Qed.

(** * Adjoints *)
(** If the matrix elements of the two operators are related by exchanging rows and columns, the
    expectation values are related by complex conjugation, up to the same sign. *)
Lemma adjoint : forall lo hi K dm (val val' : Z -> Z -> Z -> R) (k : R) a b, 0 <= lo -> 0 <= K -> hi + 2 <= K -> Z.abs dm <= 1 ->
  (forall l j m, valid lo hi l m -> valid lo hi j (m + dm) -> Z.abs (l - j) <= 1 -> val' l j (m + dm) = (k * val j l m)%R) ->
  bra_ket b a (coupled lo hi (- dm) val') = (RtoC k * Conj (bra_ket a b (coupled lo hi dm val)))%C.
Proof.
  intros lo hi K dm val val' k a b Hlo HK0 HK Hdm HV.
  rewrite (coupled_box lo hi K) by lia. rewrite (coupled_box lo hi K) by lia. rewrite box_conj, <- box_scale.
  set (A := ext lo hi a). set (B := ext lo hi b).
  transitivity (csum (fun d => box K (fun l m => (Conj (B (l + d)%Z (m - dm)%Z) * A l m * RtoC (val' (l + d)%Z l m))%C)) steps).
  { apply (box_csum K steps (fun d l m => (Conj (B (l + d)%Z (m - dm)%Z) * A l m * RtoC (val' (l + d)%Z l m))%C)). }
  transitivity (csum (fun d => box K (fun l m => (RtoC k * Conj (Conj (A (l + d)%Z (m + dm)%Z) * B l m * RtoC (val (l + d)%Z l m)))%C)) steps).
  2:{ rewrite <- (box_csum K steps (fun d l m => (RtoC k * Conj (Conj (A (l + d)%Z (m + dm)%Z) * B l m * RtoC (val (l + d)%Z l m)))%C)).
    apply box_ext. intros l m. rewrite csum_scale, csum_conj. reflexivity. }
  assert (Hs : forall d, Z.abs d <= 1 ->
    box K (fun l m => (Conj (B (l + d)%Z (m - dm)%Z) * A l m * RtoC (val' (l + d)%Z l m))%C) =
    box K (fun l m => (RtoC k * Conj (Conj (A (l + - d)%Z (m + dm)%Z) * B l m * RtoC (val (l + - d)%Z l m)))%C)).
  { intros d Hd.
    rewrite <- (box_shift K (- d) dm (fun l m => (Conj (B (l + d)%Z (m - dm)%Z) * A l m * RtoC (val' (l + d)%Z l m))%C)); try lia.
    - apply box_ext. intros l m. replace (l + - d + d) with l by ring. replace (m + dm - dm) with m by ring.
      rewrite !Conj_mul, Conj_RtoC, Conj_involutive.
      destruct (Z_le_gt_dec lo l); [destruct (Z_le_gt_dec l hi)|]; [|unfold B; rewrite (ext_out lo hi b) by (unfold valid; lia); rewrite Conj_C0; ring|unfold B; rewrite (ext_out lo hi b) by (unfold valid; lia); rewrite Conj_C0; ring].
      destruct (Z_le_gt_dec (- l) m); [destruct (Z_le_gt_dec m l)|]; [|unfold B; rewrite (ext_out lo hi b) by (unfold valid; lia); rewrite Conj_C0; ring|unfold B; rewrite (ext_out lo hi b) by (unfold valid; lia); rewrite Conj_C0; ring].
      assert (DV : valid lo hi (l + - d) (m + dm) \/ ~ valid lo hi (l + - d) (m + dm)) by (unfold valid; lia).
      destruct DV as [DV|DV]; [|unfold A; rewrite (ext_out lo hi a) by auto; ring].
      rewrite (HV l (l + - d) m) by (auto; try (unfold valid; lia); lia). rewrite RtoC_mul. ring.
    - intros l m Hlm. unfold A. rewrite (ext_out lo hi a) by (unfold valid; lia). ring. }
  unfold steps. cbn [csum]. rewrite !Hs by lia. replace (- (-1)) with 1 by reflexivity. replace (- 0) with 0 by reflexivity. change (- (1)) with (-1). ring.
Qed.

(** * Symmetry of the coupling coefficients *)
Lemma IZR_pos : forall n, 0 < n -> (0 < IZR n)%R.
Proof. intros n H. apply (IZR_lt 0). exact H. Qed.
Lemma IZR_nn : forall n, 0 <= n -> (0 <= IZR n)%R.
Proof. intros n H. apply (IZR_le 0). exact H. Qed.
Lemma div_nn : forall a b, (0 <= a -> 0 < b -> 0 <= a / b)%R.
Proof. intros a b Ha Hb. unfold Rdiv. apply Rmult_le_pos; auto. apply Rlt_le, Rinv_0_lt_compat, Hb. Qed.

Lemma sqrt_split : forall x y z, x = (y * z)%R -> (0 <= y)%R -> (0 <= z)%R -> sqrt x = (sqrt y * sqrt z)%R.
Proof. intros x y z -> Hy Hz. apply sqrt_mult; auto. Qed.
Ltac nnz := match goal with
  | |- (0 <= IZR _ / IZR _)%R => apply div_nn; [apply IZR_nn; nia|apply IZR_pos; nia]
  | |- (0 <= (_ + _) / (_ + _))%R => apply div_nn; rewrite <- ?mult_IZR, <- ?plus_IZR; [apply IZR_nn; nia|apply IZR_pos; nia]
  end.
Lemma cg_sym : forall l m mu j, 0 <= l -> 0 <= j -> Z.abs mu <= 1 ->
  CG_l1 l m mu j (m + mu) = (sgn mu * sgn (j - l) * (sqrt ((2 * IZR j + 1) / (2 * IZR l + 1)) * CG_l1 j (m + mu) (- mu) l m))%R.
Proof.
  intros l m mu j Hl Hj Hmu. unfold CG_l1.
  destruct (Z_le_gt_dec (Z.abs m) l) as [Hm|Hm].
  2:{ rewrite (proj2 (Z.leb_gt (Z.abs m) l)) by lia. rewrite ?andb_false_r; cbn [andb]; rewrite ?andb_false_r; cbn [andb]; rewrite ?andb_false_r; cbn [andb]; ring. }
  destruct (Z_le_gt_dec (Z.abs (m + mu)) j) as [HM|HM].
  2:{ rewrite (proj2 (Z.leb_gt (Z.abs (m + mu)) j)) by lia. rewrite ?andb_false_r; cbn [andb]; rewrite ?andb_false_r; cbn [andb]; ring. }
  rewrite Z.eqb_refl. replace (m =? m + mu + - mu) with true by (symmetry; apply Z.eqb_eq; ring).
  rewrite (proj2 (Z.leb_le (Z.abs m) l)), (proj2 (Z.leb_le (Z.abs (m + mu)) j)), (proj2 (Z.leb_le (Z.abs mu) 1)), (proj2 (Z.leb_le (Z.abs (- mu)) 1)) by lia.
  cbn [andb].
  assert (EB : ((Z.abs (l - 1) <=? j) && (j <=? l + 1)) = ((Z.abs (j - 1) <=? l) && (l <=? j + 1))).
  { apply eq_true_iff_eq. rewrite !andb_true_iff, !Z.leb_le. lia. }
  rewrite <- EB. destruct (_ && _) eqn:E; [|ring]. rewrite andb_true_iff, !Z.leb_le in E.
  assert (D : j - l = -1 \/ j - l = 0 \/ j - l = 1) by lia.
  assert (U : mu = -1 \/ mu = 0 \/ mu = 1) by lia.
  unfold cg_table.
  destruct D as [D|[D|D]], U as [-> |[-> | ->]]; rewrite D; replace (l - j) with (- (j - l)) by ring; rewrite D; cbv match.
  all: replace j with (l + (j - l)) by ring; rewrite D.
  all: assert (L1 : (0 <= IZR l)%R) by (apply IZR_nn; lia).
  5:{ rewrite !Z.add_0_r. cbv [sgn Z.even Z.opp]. replace ((2 * IZR l + 1) / (2 * IZR l + 1))%R with 1%R by (field; lra). rewrite sqrt_1. ring. }
  all: cbv [sgn Z.even Z.opp].
  all: match goal with
  | |- sqrt ?x = (_ * _ * (sqrt ?y * sqrt ?z))%R => assert (S : sqrt x = (sqrt y * sqrt z)%R); [apply sqrt_split|rewrite S; ring]
  | |- sqrt ?x = (_ * _ * (sqrt ?y * - sqrt ?z))%R => assert (S : sqrt x = (sqrt y * sqrt z)%R); [apply sqrt_split|rewrite S; ring]
  | |- (- sqrt ?x)%R = (_ * _ * (sqrt ?y * sqrt ?z))%R => assert (S : sqrt x = (sqrt y * sqrt z)%R); [apply sqrt_split|rewrite S; ring]
  end; try nnz.
  all: repeat rewrite ?mult_IZR, ?plus_IZR, ?minus_IZR; field.
  all: try (assert (1 <= IZR l)%R by (apply IZR_le; lia)); repeat split; lra.
Qed.
Lemma sq_ratio : forall j l, 0 <= l -> 0 <= j ->
  (sqrt ((2 * IZR l + 1) / (2 * IZR j + 1)) * (sqrt ((2 * IZR j + 1) / (2 * IZR l + 1)) * sqrt ((2 * IZR j + 1) / (2 * IZR l + 1))))%R = sqrt ((2 * IZR j + 1) / (2 * IZR l + 1)).
Proof.
  intros j l Hl Hj. apply IZR_nn in Hl, Hj. rewrite <- Rmult_assoc. rewrite <- sqrt_mult by (apply div_nn; lra).
  replace ((2 * IZR l + 1) / (2 * IZR j + 1) * ((2 * IZR j + 1) / (2 * IZR l + 1)))%R with 1%R by (field; lra). rewrite sqrt_1. ring.
Qed.
(** Two coefficients at once: the product that occurs in every matrix element. *)
Lemma pair_sym : forall l j m mu n nu, 0 <= l -> 0 <= j -> Z.abs mu <= 1 -> Z.abs nu <= 1 ->
  (sqrt ((2 * IZR l + 1) / (2 * IZR j + 1)) * (CG_l1 l m mu j (m + mu) * CG_l1 l n nu j (n + nu)))%R
  = (sgn (mu + nu) * (sqrt ((2 * IZR j + 1) / (2 * IZR l + 1)) * (CG_l1 j (m + mu) (- mu) l m * CG_l1 j (n + nu) (- nu) l n)))%R.
Proof.
  intros l j m mu n nu Hl Hj Hm Hn. rewrite (cg_sym l m mu j), (cg_sym l n nu j) by auto. rewrite <- (sq_ratio j l) at 3 by auto. rewrite sgn_add.
  transitivity (sgn mu * sgn nu * (sgn (j - l) * sgn (j - l)) * (sqrt ((2 * IZR l + 1) / (2 * IZR j + 1)) *
   (sqrt ((2 * IZR j + 1) / (2 * IZR l + 1)) * sqrt ((2 * IZR j + 1) / (2 * IZR l + 1))) * (CG_l1 j (m + mu) (- mu) l m * CG_l1 j (n + nu) (- nu) l n)))%R; [ring|].
  rewrite sgn_sq. ring.
Qed.
Lemma p_z_sym : forall s l j m, 0 <= l -> 0 <= j -> p_z_val s l j m = p_z_val s j l m.
Proof.
  intros s l j m Hl Hj. unfold p_z_val. pose proof (pair_sym j l m 0 (- s) 0 Hj Hl ltac:(lia) ltac:(lia)) as H. rewrite !Z.add_0_r in H. cbn [Z.opp] in H.
  rewrite !Rmult_assoc. rewrite H. cbv [sgn Z.even Z.add]. ring.
Qed.
Lemma chi_z_sym : forall s l j m, 0 <= l -> 0 <= j -> ethbar_chi_z_val s l j m = (-1 * eth_chi_z_val s j l m)%R.
Proof.
  intros s l j m Hl Hj. unfold ethbar_chi_z_val, eth_chi_z_val.
  pose proof (pair_sym j l m 0 (- s - 1) 1 Hj Hl ltac:(lia) ltac:(lia)) as H. rewrite !Z.add_0_r in H.
  replace (- s - 1 + 1) with (- s) in H by ring. replace (- 1 - s) with (- s - 1) by ring.
  change (- 0) with 0 in H. change (- (1)) with (-1) in H. change (sgn (0 + 1)) with (-1)%R in H.
  transitivity (sqrt 2 * (sqrt ((2 * IZR j + 1) / (2 * IZR l + 1)) * (CG_l1 j m 0 l m * CG_l1 j (- s - 1) 1 l (- s))))%R; [ring|]. rewrite H. ring.
Qed.
Definition pm_spin (sign : Z) : R := (-1 * IZR sign * sqrt 2)%R.
(** The elements of the plus and minus operators without the factors of pi. *)
Lemma pm_elements : forall c sp mu spM sign j l m, 0 <= l -> 0 <= j ->
  (pm_prefac sign * Y_mat_el c (CG_1l mu l sp j spM) j (m + sign) sign l m)%R
  = (pm_spin sign * c * (sqrt ((2 * IZR l + 1) / (2 * IZR j + 1)) * (CG_l1 l m sign j (m + sign) * CG_l1 l sp mu j spM)))%R.
Proof.
  intros c sp mu spM sign j l m Hl Hj. unfold pm_prefac, Y_mat_el, CG_1l, pm_spin. apply IZR_nn in Hl, Hj. pose proof PI_RGT_0.
  transitivity (-1 * IZR sign * (sqrt (8 * PI / 3) * sqrt ((2 * 1 + 1) * (2 * IZR l + 1) / (4 * PI * (2 * IZR j + 1)))) *
     (sgn (1 + l - j) * sgn (1 + l - j)) * c * (CG_l1 l m sign j (m + sign) * CG_l1 l sp mu j spM))%R; [ring|].
  rewrite sgn_sq, <- sqrt_mult.
  - replace (8 * PI / 3 * ((2 * 1 + 1) * (2 * IZR l + 1) / (4 * PI * (2 * IZR j + 1))))%R with (2 * ((2 * IZR l + 1) / (2 * IZR j + 1)))%R by (field; lra).
    rewrite sqrt_mult by (try lra; apply div_nn; lra). ring.
  - lra.
  - apply div_nn; [lra|]. apply Rmult_lt_0_compat; lra.
Qed.
Lemma p_pm_sym : forall s sign l j m, 0 <= l -> 0 <= j -> Z.abs sign <= 1 -> sign <> 0 ->
  p_pm_val s (- sign) l j (m + sign) = p_pm_val s sign j l m.
Proof.
  intros s sign l j m Hl Hj Hs Hn. unfold p_pm_val.
  rewrite !pm_elements by auto. pose proof (pair_sym l j m sign (- s) 0 Hl Hj Hs ltac:(lia)) as H. rewrite !Z.add_0_r in H. rewrite H.
  replace (m + sign + - sign) with m by ring. change (- 0) with 0. unfold pm_spin. rewrite opp_IZR.
  replace (sgn sign) with (-1)%R by (assert (sign = 1 \/ sign = -1) as [-> | ->] by lia; reflexivity). ring.
Qed.
Lemma chi_pm_sym : forall s sign l j m, 0 <= l -> 0 <= j -> Z.abs sign <= 1 -> sign <> 0 ->
  ethbar_chi_pm_val s (- sign) l j (m + sign) = (-1 * eth_chi_pm_val s sign j l m)%R.
Proof.
  intros s sign l j m Hl Hj Hs Hn. unfold ethbar_chi_pm_val, eth_chi_pm_val. replace (- 1 - s) with (- s + -1) by ring.
  rewrite !pm_elements by auto. pose proof (pair_sym l j m sign (- s) (-1) Hl Hj Hs ltac:(lia)) as H. rewrite H.
  replace (m + sign + - sign) with m by ring. change (- (-1)) with 1. unfold pm_spin. rewrite opp_IZR.
  replace (sgn (sign + -1)) with 1%R by (assert (sign = 1 \/ sign = -1) as [-> | ->] by lia; reflexivity). ring.
Qed.
