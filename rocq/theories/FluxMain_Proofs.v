(** C41: momentum, angular momentum and boost fluxes of a waveform. *)
From Coq Require Import Reals ZArith List Bool Lia Lra Psatz.
From Verif Require Import Common Cplx Modes_Model Modes_Proofs Modal_Model Modal_Proofs Ladder_Proofs Flux_Model Flux_Proofs FluxOps_Proofs FluxBound_Proofs.
Import ListNotations.
Open Scope Z_scope.

(** * Specification: multiplication by the direction (n_x, n_y, n_z) and rotation generators on modes *)
(** Sum over all modes of a range. *)
Definition over (lo hi : Z) (g : Z -> Z -> C) : C :=
  csum (fun l => csum (fun m => g l m) (zrange (- l) (l + 1))) (zrange lo (hi + 1)).
(** <F|G> *)
Definition inner (lo hi : Z) (F G : Z -> Z -> C) : C := over lo hi (fun l m => (Conj (F l m) * G l m)%C).

(** Mode coefficients of n_z f for f of spin weight s with modes F, from the recurrence for cos(theta) sY_lm. *)
Definition c_lm (s l m : Z) : R := sqrt (IZR ((l ^ 2 - m ^ 2) * (l ^ 2 - s ^ 2)) / IZR (l ^ 2 * (4 * l ^ 2 - 1))).
Definition nz (s : Z) (F : Z -> Z -> C) (l m : Z) : C :=
  (RtoC (c_lm s l m) * F (l - 1)%Z m - RtoC (IZR (m * s) / IZR (l * (l + 1))) * F l m + RtoC (c_lm s (l + 1) m) * F (l + 1)%Z m)%C.
(** The same for n_x + i n_y = sin(theta) exp(i phi). *)
Definition nplus (s : Z) (F : Z -> Z -> C) (l m : Z) : C :=
  (- (RtoC (sqrt (IZR ((l + m) * (l + m - 1) * (l ^ 2 - s ^ 2)) / IZR (l ^ 2 * (4 * l ^ 2 - 1)))) * F (l - 1)%Z (m - 1)%Z)
   - RtoC (IZR s * sqrt (IZR ((l + m) * (l - m + 1))) / IZR (l * (l + 1))) * F l (m - 1)%Z
   + RtoC (sqrt (IZR ((l - m + 1) * (l - m + 2) * ((l + 1) ^ 2 - s ^ 2)) / IZR ((l + 1) ^ 2 * (4 * (l + 1) ^ 2 - 1)))) * F (l + 1)%Z (m - 1)%Z)%C.
(** Standard angular momentum matrices. *)
Definition Jz (F : Z -> Z -> C) (l m : Z) : C := (RtoC (IZR m) * F l m)%C.
Definition Jx (F : Z -> Z -> C) (l m : Z) : C :=
  (RtoC (/ 2) * (RtoC (sqrt (IZR ((l + m) * (l - m + 1)))) * F l (m - 1)%Z + RtoC (sqrt (IZR ((l - m) * (l + m + 1)))) * F l (m + 1)%Z))%C.
Definition Jy (F : Z -> Z -> C) (l m : Z) : C :=
  (RtoC (/ 2) * (- Ci) * (RtoC (sqrt (IZR ((l + m) * (l - m + 1)))) * F l (m - 1)%Z - RtoC (sqrt (IZR ((l - m) * (l + m + 1)))) * F l (m + 1)%Z))%C.

(** ** From the box to the range *)
Lemma over_box : forall lo hi K g, 0 <= lo -> 0 <= K -> hi <= K -> (forall l m, ~ valid lo hi l m -> g l m = C0) ->
  over lo hi g = box K g.
Proof.
  intros lo hi K g Hlo HK0 HK H. unfold over, box.
  rewrite <- (csum_extend (fun l => csum (fun m => g l m) (zrange (- K) (K + 1))) lo (hi + 1) (- K) (K + 1)); try lia.
  - apply csum_ext. intros l Hl. apply zrange_In in Hl. apply csum_extend; try lia. intros i Hi. apply H. unfold valid. lia.
  - intros l Hl. apply csum_const0. intros m _. apply H. unfold valid. lia.
Qed.
Lemma over_ext : forall lo hi f g, (forall l m, valid lo hi l m -> f l m = g l m) -> over lo hi f = over lo hi g.
Proof.
  intros lo hi f g H. apply csum_ext. intros l Hl. apply zrange_In in Hl. apply csum_ext. intros m Hm. apply zrange_In in Hm. apply H. unfold valid. lia.
Qed.
Lemma coupled_over : forall lo hi dm val a b, 0 <= lo -> Z.abs dm <= 1 ->
  bra_ket a b (coupled lo hi dm val) =
  inner lo hi a (fun l m => csum (fun d => (ext lo hi b (l - d)%Z (m - dm)%Z * RtoC (val l (l - d)%Z (m - dm)%Z))%C) steps).
Proof.
  intros lo hi dm val a b Hlo Hdm. destruct (Z_lt_le_dec hi lo) as [Hh|Hh].
  { unfold bra_ket, coupled, inner, over. rewrite zrange_empty by lia. reflexivity. }
  set (K := hi + 2). rewrite (coupled_box lo hi K) by (unfold K; lia).
  rewrite (box_csum K steps (fun d l m => (Conj (ext lo hi a (l + d)%Z (m + dm)%Z) * ext lo hi b l m * RtoC (val (l + d)%Z l m))%C)).
  transitivity (box K (fun l m => (Conj (ext lo hi a l m) * csum (fun d => (ext lo hi b (l - d)%Z (m - dm)%Z * RtoC (val l (l - d)%Z (m - dm)%Z))%C) steps)%C)).
  - transitivity (csum (fun d => box K (fun l m => (Conj (ext lo hi a l m) * (ext lo hi b (l - d)%Z (m - dm)%Z * RtoC (val l (l - d)%Z (m - dm)%Z)))%C)) steps).
    + apply csum_ext. intros d Hd. assert (Z.abs d <= 1) by (unfold steps in Hd; cbn in Hd; lia).
      rewrite <- (box_shift K (- d) (- dm) (fun l m => (Conj (ext lo hi a (l + d)%Z (m + dm)%Z) * ext lo hi b l m * RtoC (val (l + d)%Z l m))%C)); try (unfold K; lia).
      * apply box_ext. intros l m. replace (l + - d + d) with l by ring. replace (m + - dm + dm) with m by ring.
        replace (l + - d) with (l - d) by ring. replace (m + - dm) with (m - dm) by ring. ring.
      * intros l m Hlm. rewrite (ext_out lo hi b) by (unfold valid, K in *; lia). ring.
    + rewrite <- (box_csum K steps (fun d l m => (Conj (ext lo hi a l m) * (ext lo hi b (l - d)%Z (m - dm)%Z * RtoC (val l (l - d)%Z (m - dm)%Z)))%C)).
      apply box_ext. intros l m. rewrite csum_scale. reflexivity.
  - rewrite <- (over_box lo hi K) by (try (unfold K; lia); intros l m Hv; rewrite ext_out by auto; rewrite Conj_C0; ring).
    apply over_ext. intros l m Hv. rewrite ext_in by auto. reflexivity.
Qed.

Lemma c_prod : forall s l m, Z.abs s <= l -> Z.abs m <= l -> (al s (l + 1) m * be s (l + 1) m)%R = c_lm s (l + 1) m.
Proof.
  intros s l m Hs Hm. unfold al, be, c_lm. assert (L : (0 <= IZR l)%R) by (apply IZR_nn; lia).
  rewrite <- sqrt_mult by (apply div_nn; [apply IZR_nn; nia|apply IZR_pos; nia]). f_equal. rewrite !Z.pow_2_r. izr. field. repeat split; nra.
Qed.
Lemma p_z_spec : forall s lo hi F l m, Z.abs s <= lo -> 1 <= lo -> valid lo hi l m ->
  csum (fun d => (ext lo hi F (l - d)%Z (m - 0)%Z * RtoC (p_z_val s l (l - d)%Z (m - 0)%Z))%C) steps = nz s (ext lo hi F) l m.
Proof.
  intros s lo hi F l m Hs H1 [Hl Hm]. unfold steps, nz. cbn [csum]. rewrite !Z.sub_0_r. replace (l - -1) with (l + 1) by ring.
  assert (T1 : (ext lo hi F (l + 1)%Z m * RtoC (p_z_val s l (l + 1)%Z m))%C = (RtoC (c_lm s (l + 1) m) * ext lo hi F (l + 1)%Z m)%C).
  { rewrite p_z_sym by lia. rewrite up_z, c_prod by lia. ring. }
  assert (T2 : (ext lo hi F (l - 1)%Z m * RtoC (p_z_val s l (l - 1)%Z m))%C = (RtoC (c_lm s l m) * ext lo hi F (l - 1)%Z m)%C).
  { assert (D : valid lo hi (l - 1) m \/ ~ valid lo hi (l - 1) m) by (unfold valid; lia). destruct D as [D|D].
    - unfold valid in D. replace (p_z_val s l (l - 1) m) with (p_z_val s (l - 1 + 1) (l - 1) m) by (f_equal; ring). rewrite up_z, c_prod by lia.
      replace (l - 1 + 1) with l by ring. ring.
    - rewrite ext_out by auto. ring. }
  rewrite T1, T2, diag_z by lia. replace (- IZR m * IZR s / (IZR l * (IZR l + 1)))%R with (- (IZR (m * s) / IZR (l * (l + 1))))%R.
  2:{ izr. field. assert (1 <= IZR l)%R by (apply IZR_le; lia). lra. }
  rewrite RtoC_opp. ring.
Qed.
Lemma p_plus_spec : forall s lo hi F l m, Z.abs s <= lo -> 1 <= lo -> valid lo hi l m ->
  csum (fun d => (ext lo hi F (l - d)%Z (m - 1)%Z * RtoC (p_pm_val s 1 l (l - d)%Z (m - 1)%Z))%C) steps = nplus s (ext lo hi F) l m.
Proof.
  intros s lo hi F l m Hs H1 [Hl Hm]. unfold steps, nplus. cbn [csum]. rewrite !Z.sub_0_r. replace (l - -1) with (l + 1) by ring.
  assert (L : (1 <= IZR l)%R) by (apply IZR_le; lia).
  assert (T1 : (ext lo hi F (l + 1)%Z (m - 1)%Z * RtoC (p_pm_val s 1 l (l + 1)%Z (m - 1)%Z))%C =
     (RtoC (sqrt (IZR ((l - m + 1) * (l - m + 2) * ((l + 1) ^ 2 - s ^ 2)) / IZR ((l + 1) ^ 2 * (4 * (l + 1) ^ 2 - 1)))) * ext lo hi F (l + 1)%Z (m - 1)%Z)%C).
  { replace (p_pm_val s 1 l (l + 1) (m - 1)) with (p_pm_val s 1 (l + 1 - 1) (l + 1) (m - 1)) by (f_equal; ring).
    rewrite down_p by lia. replace (m - 1 + 1) with m by ring. unfold be, ga.
    rewrite <- sqrt_mult by (apply div_nn; [apply IZR_nn; nia|apply IZR_pos; nia]).
    match goal with |- (_ * RtoC (sqrt ?x))%C = (RtoC (sqrt ?y) * _)%C => replace x with y; [ring|] end.
    rewrite !Z.pow_2_r. izr. field. repeat split; nra. }
  assert (T2 : (ext lo hi F (l - 1)%Z (m - 1)%Z * RtoC (p_pm_val s 1 l (l - 1)%Z (m - 1)%Z))%C =
     (- (RtoC (sqrt (IZR ((l + m) * (l + m - 1) * (l ^ 2 - s ^ 2)) / IZR (l ^ 2 * (4 * l ^ 2 - 1)))) * ext lo hi F (l - 1)%Z (m - 1)%Z))%C).
  { assert (D : valid lo hi (l - 1) (m - 1) \/ ~ valid lo hi (l - 1) (m - 1)) by (unfold valid; lia). destruct D as [D|D].
    - unfold valid in D. replace (p_pm_val s 1 l (l - 1) (m - 1)) with (p_pm_val s 1 (l - 1 + 1) (l - 1) (m - 1)) by (f_equal; ring).
      rewrite up_p by lia. replace (l - 1 + 1) with l by ring. replace (m - 1 + 1) with m by ring. unfold al, de.
      assert (L2 : (2 <= IZR l)%R) by (apply IZR_le; lia).
      rewrite <- sqrt_mult by (apply div_nn; [apply IZR_nn; nia|apply IZR_pos; nia]). rewrite RtoC_opp.
      match goal with |- (_ * - RtoC (sqrt ?x))%C = (- (RtoC (sqrt ?y) * _))%C => replace x with y; [ring|] end.
      rewrite !Z.pow_2_r. izr. field. repeat split; nra.
    - rewrite ext_out by auto. ring. }
  assert (T3 : (ext lo hi F l (m - 1)%Z * RtoC (p_pm_val s 1 l l (m - 1)%Z))%C =
     (- (RtoC (IZR s * sqrt (IZR ((l + m) * (l - m + 1))) / IZR (l * (l + 1))) * ext lo hi F l (m - 1)%Z))%C).
  { assert (D : valid lo hi l (m - 1) \/ ~ valid lo hi l (m - 1)) by (unfold valid; lia). destruct D as [D|D].
    - unfold valid in D. rewrite diag_p by lia. replace ((l + (m - 1) + 1) * (l - (m - 1))) with ((l + m) * (l - m + 1)) by ring.
      match goal with |- (_ * RtoC ?x)%C = (- (RtoC ?y * _))%C => replace x with (- y)%R; [rewrite RtoC_opp; ring|] end.
      izr. field. lra.
    - rewrite ext_out by auto. ring. }
  rewrite T1, T2, T3. ring.
Qed.

(** ** Rotation generators *)
Lemma ok_inj : forall A (x y : A), Ok x = Ok y -> x = y. Proof. intros A x y H. injection H. auto. Qed.
Lemma csum_ci : forall f : Z -> C, forall L, csum (fun x => (Ci * f x)%C) L = (Ci * csum f L)%C.
Proof. intros. apply csum_scale. Qed.
Lemma over_scale : forall lo hi k f, over lo hi (fun l m => (k * f l m)%C) = (k * over lo hi f)%C.
Proof. intros. unfold over. rewrite <- csum_scale. apply csum_ext. intros l _. apply csum_scale. Qed.
Lemma over_add : forall lo hi f g, over lo hi (fun l m => (f l m + g l m)%C) = (over lo hi f + over lo hi g)%C.
Proof. intros. unfold over. rewrite <- csum_add. apply csum_ext. intros l _. apply csum_add. Qed.
Lemma j_z_over : forall lo hi a b es, j_z lo hi = Ok es -> bra_ket a b es = (Ci * inner lo hi a (Jz b))%C.
Proof.
  intros lo hi a b es H. injection H as <-. unfold bra_ket, inner. rewrite <- over_scale. unfold over. rewrite csum_flat_map. apply csum_ext. intros l _.
  rewrite csum_map. apply csum_ext. intros m _. cbn [e_j e_n e_l e_m e_v]. unfold Jz. replace (Cscale (IZR m) Ci) with (RtoC (IZR m) * Ci)%C by (cx; ring). ring.
Qed.
Lemma j_pm_over : forall sign lo hi a b es, sign = 1 \/ sign = -1 -> 0 <= lo -> j_plusminus sign lo hi = Ok es ->
  bra_ket a b es = (Ci * inner lo hi a (fun l m => RtoC (ladder_lm l ((m - sign) * sign)) * ext lo hi b l (m - sign)%Z))%C.
Proof.
  intros sign lo hi a b es Hs Hlo H.
  assert (E : j_plusminus sign lo hi = Ok (flat_map (fun ell =>
          flat_map (fun m =>
            let mp := m + sign in
            if (mp <? - ell) || (ell <? mp) then [] else [mke ell mp ell m (Cscale (ladder_lm ell (m * sign)) Ci)])
            (zrange (- ell) (ell + 1))) (zrange lo (hi + 1)))).
  { destruct Hs as [-> | ->]; reflexivity. }
  rewrite E in H. apply ok_inj in H. subst es.
  unfold bra_ket, inner. rewrite <- over_scale. unfold over. rewrite csum_flat_map. apply csum_ext. intros l Hl. apply zrange_In in Hl. rewrite csum_flat_map.
  set (g := fun m => (Ci * (Conj (ext lo hi a l m) * (RtoC (ladder_lm l ((m - sign) * sign)) * ext lo hi b l (m - sign)%Z)))%C).
  transitivity (csum (fun m => g (m + sign)) (zrange (- l) (l + 1))).
  { apply csum_ext. intros m Hm. apply zrange_In in Hm. cbv zeta. unfold g. replace (m + sign - sign) with m by ring.
    rewrite (ext_in lo hi b) by (unfold valid; lia).
    destruct (Z.ltb_spec (m + sign) (- l)); cbn [orb].
    { rewrite ext_out by (unfold valid; lia). rewrite Conj_C0. cbn [csum]. ring. }
    destruct (Z.ltb_spec l (m + sign)); cbn [csum e_j e_n e_l e_m e_v].
    { rewrite ext_out by (unfold valid; lia). rewrite Conj_C0. ring. }
    rewrite ext_in by (unfold valid; lia). replace (Cscale (ladder_lm l (m * sign)) Ci) with (RtoC (ladder_lm l (m * sign)) * Ci)%C by (cx; ring). ring. }
  rewrite csum_zshift.
  transitivity (csum g (zrange (- l) (l + 1))).
  - assert (Z0 : forall i, i < - l \/ l < i \/ i - sign < - l \/ l < i - sign -> g i = C0).
    { intros i Hi. unfold g. assert (D : ~ valid lo hi l i \/ ~ valid lo hi l (i - sign)) by (unfold valid; lia).
      destruct D as [D|D]; rewrite (ext_out _ _ _ _ _ D), ?Conj_C0; ring. }
    rewrite (csum_extend g (- l + sign) (l + 1 + sign) (- l - 2) (l + 3)) by (try lia; intros; apply Z0; lia).
    rewrite (csum_extend g (- l) (l + 1) (- l - 2) (l + 3)) by (try lia; intros; apply Z0; lia). reflexivity.
  - apply csum_ext. intros m Hm. apply zrange_In in Hm. unfold g. rewrite ext_in by (unfold valid; lia). reflexivity.
Qed.

(** * Evaluating the code *)
Lemma coupled_nonempty : forall lo hi dm val, 0 <= lo <= hi -> 1 <= hi -> Z.abs dm <= 1 -> coupled lo hi dm val <> [].
Proof.
  intros lo hi dm val H H1 Hd E. assert (I : In (mke hi (0 + dm) hi 0 (RtoC (val hi hi 0))) (coupled lo hi dm val)).
  { apply in_flat_map. exists hi. split; [apply zrange_In; lia|]. apply in_flat_map. exists hi. split; [apply zrange_In; lia|].
    apply in_flat_map. exists 0. split; [apply zrange_In; lia|]. cbv zeta.
    rewrite (proj2 (Z.ltb_ge _ _)) by lia. rewrite (proj2 (Z.ltb_ge _ _)) by lia. cbn [orb]. left. reflexivity. }
  rewrite E in I. destruct I.
Qed.
Lemma jpm_nonempty : forall sign lo hi es, sign = 1 \/ sign = -1 -> 0 <= lo <= hi -> 1 <= hi -> j_plusminus sign lo hi = Ok es -> es <> [].
Proof.
  intros sign lo hi es Hs H H1 E.
  assert (I : In (mke hi (0 + sign) hi 0 (Cscale (ladder_lm hi (0 * sign)) Ci)) es).
  { destruct Hs as [-> | ->]; cbn [j_plusminus Z.eqb Pos.eqb orb] in E; apply ok_inj in E; subst es;
      (apply in_flat_map; exists hi; split; [apply zrange_In; lia|]; apply in_flat_map; exists 0; split; [apply zrange_In; lia|]; cbv zeta;
       rewrite (proj2 (Z.ltb_ge _ _)) by lia; rewrite (proj2 (Z.ltb_ge _ _)) by lia; cbn [orb]; left; reflexivity). }
  intros ->. destruct I.
Qed.
Lemma jz_nonempty : forall lo hi es, 0 <= lo <= hi -> j_z lo hi = Ok es -> es <> [].
Proof.
  intros lo hi es H E -> . assert (I : In (mke hi 0 hi 0 (Cscale (IZR 0) Ci)) []); [|destruct I].
  injection E as E. rewrite <- E. apply in_flat_map. exists hi. split; [apply zrange_In; lia|]. apply in_map_iff. exists 0. split; auto. apply zrange_In; lia.
Qed.

Section Main.
Variable intersection : list R -> list R -> res (list R).
Variable interpolate : list R -> list (list C) -> list R -> list (list C).
Variable ddot : list R -> list (list C) -> list (list C).
Variable times_eqb : list R -> list R -> bool.
Hypothesis times_eqb_ok : forall a b, times_eqb a b = true <-> a = b.
(** The derivative of a table is a table of the same shape. *)
Hypothesis ddot_shape : forall t rows n, Forall (fun row => length row = n) rows ->
  length (ddot t rows) = length rows /\ Forall (fun row => length row = n) (ddot t rows).
Notation expect' := (expect intersection interpolate times_eqb).

Definition same_shape (a b : fwave) : Prop := f_spin a = f_spin b /\ f_lo a = f_lo b /\ f_hi a = f_hi b /\ f_t a = f_t b.
Lemma fwf_derivative : forall w, fwf w -> fwf (derivative ddot w).
Proof.
  intros w (H1 & H2 & H3). destruct (ddot_shape (f_t w) _ _ H3) as [L F]. unfold fwf, derivative. cbn. rewrite L. auto.
Qed.
Lemma expect_ok : forall a b M es, fwf a -> fwf b -> same_shape a b -> 1 <= f_hi a ->
  M (f_lo a) (f_hi a) = Ok es -> es <> [] -> inside (f_lo a) (f_hi a) es ->
  expect' a M b = Ok (map (fun t => bra_ket (fm a t) (fm b t) es) (seq 0 (length (f_t a)))).
Proof.
  intros a b M es Ha Hb (Hs & Hl & Hh & Ht) H1 HM Hne HI. unfold expect. pose proof Ha as (Hla & _).
  assert (N : 2 <= (f_hi a + 1) ^ 2 - f_lo a ^ 2) by (rewrite !Z.pow_2_r; nia).
  rewrite (C41_expectation_value intersection interpolate times_eqb times_eqb_ok a b M false false es); auto; try lia.
  - rewrite <- Hl, <- Hh, Z.max_id, Z.min_id. exact HM.
  - rewrite <- Hl, <- Hh, Z.max_id, Z.min_id. exact HI.
Qed.
Lemma same_refl : forall a, same_shape a a. Proof. intros. repeat split. Qed.

Lemma combine3 : forall (f g h : nat -> C) l k,
  cartesian k (map f l) (map g l) (map h l) =
  map (fun t => ((/ 2 * (re (f t) + re (g t)) / k)%R, (/ 2 * (im (f t) - im (g t)) / k)%R, (re (h t) / k)%R)) l.
Proof. intros f g h l k. unfold cartesian. induction l; cbn; [reflexivity|]. f_equal. exact IHl. Qed.

(** ** Momentum *)
Definition opz (a b : fwave) (s : Z) (t : nat) : C := bra_ket (fm a t) (fm b t) (coupled (f_lo a) (f_hi a) 0 (p_z_val s)).
Definition oppm (a b : fwave) (s sign : Z) (t : nat) : C := bra_ket (fm a t) (fm b t) (coupled (f_lo a) (f_hi a) sign (p_pm_val s sign)).
Lemma opz_conj : forall a b s t, fwf a -> f_lo a = f_lo b -> f_hi a = f_hi b -> opz b a s t = Conj (opz a b s t).
Proof.
  intros a b s t (Ha & _) Hl Hh. unfold opz. rewrite <- Hl, <- Hh.
  transitivity (RtoC 1 * Conj (bra_ket (fm a t) (fm b t) (coupled (f_lo a) (f_hi a) 0 (p_z_val s))))%C; [|rewrite RtoC_1; ring].
  apply (adjoint (f_lo a) (f_hi a) (f_hi a + 2) 0 (p_z_val s) (p_z_val s) 1 (fm a t) (fm b t)); try lia.
  - intros l j m Hv Hv' _. rewrite Z.add_0_r. unfold valid in *. rewrite p_z_sym by lia. ring.
Qed.
Lemma oppm_conj : forall a b s sign t, sign = 1 \/ sign = -1 -> fwf a -> f_lo a = f_lo b -> f_hi a = f_hi b -> oppm b a s (- sign) t = Conj (oppm a b s sign t).
Proof.
  intros a b s sign t Hsg (Ha & _) Hl Hh. unfold oppm. rewrite <- Hl, <- Hh.
  rewrite (adjoint (f_lo a) (f_hi a) (f_hi a + 2) sign (p_pm_val s sign) (p_pm_val s (- sign)) 1 (fm a t) (fm b t)); try lia.
  - rewrite RtoC_1. ring.
  - intros l j m Hv Hv' _. unfold valid in *. rewrite p_pm_sym by lia. ring.
Qed.
Lemma momentum_eval : forall w, fwf w -> f_type w = Thdot -> 1 <= f_hi w ->
  momentum_flux intersection interpolate ddot times_eqb w =
  Ok (map (fun t => ((re (oppm w w (-2) 1 t) / (16 * PI))%R, (im (oppm w w (-2) 1 t) / (16 * PI))%R, (re (opz w w (-2) t) / (16 * PI))%R))
        (seq 0 (length (f_t w)))).
Proof.
  intros w Hw HT H1. unfold momentum_flux. rewrite HT. cbn [rbind]. pose proof Hw as (Hl & _).
  rewrite (expect_ok w w (p_plusminus (-2) 1) (coupled (f_lo w) (f_hi w) 1 (p_pm_val (-2) 1)));
    auto using same_refl, coupled_inside; try (apply coupled_nonempty; lia). cbn [rbind].
  rewrite (expect_ok w w (p_plusminus (-2) (-1)) (coupled (f_lo w) (f_hi w) (-1) (p_pm_val (-2) (-1))));
    auto using same_refl, coupled_inside; try (apply coupled_nonempty; lia). cbn [rbind].
  rewrite (expect_ok w w (p_z (-2)) (coupled (f_lo w) (f_hi w) 0 (p_z_val (-2))));
    auto using same_refl, coupled_inside; try (apply coupled_nonempty; lia). cbn [rbind].
  rewrite combine3. f_equal. apply map_ext. intros t.
  fold (oppm w w (-2) 1 t). fold (oppm w w (-2) (-1) t). fold (opz w w (-2) t).
  change (-1) with (- (1)). rewrite (oppm_conj w w (-2) 1 t) by auto. cbn [re im Conj]. pose proof PI16.
  match goal with |- (?a, ?b, _) = (?a', ?b', _) => replace a with a' by (field; lra); replace b with b' by (field; lra) end. reflexivity.
Qed.

(** The waveform whose modes enter the flux formulas. *)
Definition rate_wave (w : fwave) : fwave := match f_type w with Th => derivative ddot w | _ => w end.
Lemma rate_wave_facts : forall w, fwf w -> f_type w <> Tother ->
  fwf (rate_wave w) /\ f_type (rate_wave w) = Thdot /\ f_lo (rate_wave w) = f_lo w /\ f_hi (rate_wave w) = f_hi w /\ f_t (rate_wave w) = f_t w /\ f_spin (rate_wave w) = f_spin w /\
  momentum_flux intersection interpolate ddot times_eqb w = momentum_flux intersection interpolate ddot times_eqb (rate_wave w) /\
  energy_flux ddot w = energy_flux ddot (rate_wave w).
Proof.
  intros w Hw HT. unfold rate_wave. destruct (f_type w) eqn:E; try congruence.
  - repeat split; auto; try apply fwf_derivative; auto.
    + unfold momentum_flux. rewrite E. reflexivity.
    + unfold energy_flux. rewrite E. reflexivity.
  - repeat split; auto; apply Hw.
Qed.

(** The momentum flux is (1/16 pi) times the expectation value of the direction: the plus and minus
    parts are complex conjugates, the z part is real, and the matrix elements are the standard ones. *)
Theorem C41_momentum_flux : forall w, fwf w -> f_type w <> Tother -> 2 <= f_lo w ->
  let F := fun t => ext (f_lo w) (f_hi w) (fm (rate_wave w) t) in
  momentum_flux intersection interpolate ddot times_eqb w =
  Ok (map (fun t =>
     let p := inner (f_lo w) (f_hi w) (F t) (nplus (-2) (F t)) in
     let z := inner (f_lo w) (f_hi w) (F t) (nz (-2) (F t)) in
     ((re p / (16 * PI))%R, (im p / (16 * PI))%R, (re z / (16 * PI))%R)) (seq 0 (length (f_t w)))) /\
  forall t, im (inner (f_lo w) (f_hi w) (F t) (nz (-2) (F t))) = 0%R.
Proof.
  intros w Hw HT H2 F. destruct (rate_wave_facts w Hw HT) as (Rw & RT & Rl & Rh & Rt & _ & RM & _).
  pose proof Rw as (RL & _).
  assert (EZ : forall t, opz (rate_wave w) (rate_wave w) (-2) t = inner (f_lo w) (f_hi w) (F t) (nz (-2) (F t))).
  { intros t. unfold opz. rewrite coupled_over by lia. rewrite Rl, Rh. apply over_ext. intros l m Hv. f_equal.
    - unfold F. rewrite ext_in by auto. reflexivity.
    - rewrite p_z_spec by (auto; lia). reflexivity. }
  split.
  - rewrite RM, momentum_eval by (auto; lia). f_equal. rewrite Rt. apply map_ext. intros t.
    assert (EP : oppm (rate_wave w) (rate_wave w) (-2) 1 t = inner (f_lo w) (f_hi w) (F t) (nplus (-2) (F t))).
    { unfold oppm. rewrite coupled_over by lia. rewrite Rl, Rh. apply over_ext. intros l m Hv. f_equal.
      - unfold F. rewrite ext_in by auto. reflexivity.
      - rewrite p_plus_spec by (auto; lia). reflexivity. }
    cbv zeta. rewrite EP, EZ. reflexivity.
  - intros t. rewrite <- EZ. assert (H := opz_conj (rate_wave w) (rate_wave w) (-2) t Rw eq_refl eq_refl).
    destruct (opz (rate_wave w) (rate_wave w) (-2) t) as [x y]. cbn in *. injection H as H. lra.
Qed.

(** ** The bound *)
Lemma energy_over : forall lo hi row, 0 <= lo -> length row = length (LM_range lo hi) ->
  RtoC (rsum norm2 row) = inner lo hi (mode lo row) (mode lo row).
Proof.
  intros lo hi row Hlo HL. assert (HM := has_modes_mode lo hi Hlo row HL).
  assert (E : row = map (fun lm => mode lo row (fst lm) (snd lm)) (LM_range lo hi)).
  { apply (has_modes_unique lo hi Hlo _ _ (mode lo row) (mode lo row)); auto. split; [apply map_length|]. intros l m [H1 H2].
    destruct (C01_index_is_position lo hi l m Hlo H1 H2) as [_ P]. rewrite nth_error_map, P. reflexivity. }
  rewrite E at 1. unfold inner, over, LM_range. rewrite <- csum_RtoC. rewrite csum_map, csum_flat_map. apply csum_ext. intros l _. rewrite csum_map.
  apply csum_ext. intros m _. cbn [fst snd]. destruct (mode lo row l m). unfold norm2. cx; ring.
Qed.
Lemma p_z_off : forall s j l m, l < Z.abs s \/ j < Z.abs s -> p_z_val s j l m = 0%R.
Proof.
  intros s j l m H. unfold p_z_val, CG_l1 at 2. destruct H as [H|H]; [rewrite (proj2 (Z.leb_gt (Z.abs (- s)) l)) by lia|rewrite (proj2 (Z.leb_gt (Z.abs (- s)) j)) by lia];
    rewrite ?andb_false_r; cbn [andb]; ring.
Qed.
Lemma p_pm_off : forall s sign j l m, l < Z.abs s \/ j < Z.abs s -> p_pm_val s sign j l m = 0%R.
Proof.
  intros s sign j l m H. unfold p_pm_val, Y_mat_el, CG_1l at 2, CG_l1. destruct H as [H|H]; [rewrite (proj2 (Z.leb_gt (Z.abs (- s)) l)) by lia|rewrite (proj2 (Z.leb_gt (Z.abs (- s)) j)) by lia];
    rewrite ?andb_false_r; cbn [andb]; ring.
Qed.
Definition restrict (s : Z) (F : Z -> Z -> C) (l m : Z) : C := if Z.abs s <=? l then F l m else C0.

Lemma bound_row : forall s lo hi F, 0 <= lo <= hi ->
  let p := bra_ket F F (coupled lo hi 1 (p_pm_val s 1)) in
  let z := bra_ket F F (coupled lo hi 0 (p_z_val s)) in
  let e := re (inner lo hi F F) in
  (re p * re p + im p * im p + re z * re z <= e * e)%R.
Proof.
  intros s lo hi F H p z e. set (K := hi + 2). set (A := ext lo hi F). set (X := restrict s A).
  assert (Xs : forall l m, K - 1 <= Z.abs l \/ K - 1 <= Z.abs m -> X l m = C0).
  { intros l m Hlm. unfold X, restrict. destruct (Z.abs s <=? l); auto. unfold A. rewrite ext_out; auto. unfold valid, K in *. lia. }
  assert (Xu : forall l m, ~ (Z.abs s <= l /\ Z.abs m <= l) -> X l m = C0).
  { intros l m Hlm. unfold X, restrict. destruct (Z.leb_spec (Z.abs s) l); auto. unfold A. rewrite ext_out; auto. unfold valid. lia. }
  assert (Ep : p = Pp K X s).
  { unfold p. rewrite (coupled_box lo hi K) by (unfold K; lia). unfold Pp, op. apply box_ext. intros l m. apply csum_ext. intros d _. fold A. unfold X, restrict.
    destruct (Z.leb_spec (Z.abs s) l), (Z.leb_spec (Z.abs s) (l + d)); auto; rewrite p_pm_off by lia; change (RtoC 0) with C0; ring. }
  assert (Ez : z = Pz K X s).
  { unfold z. rewrite (coupled_box lo hi K) by (unfold K; lia). unfold Pz, op. apply box_ext. intros l m. apply csum_ext. intros d _. fold A. unfold X, restrict.
    destruct (Z.leb_spec (Z.abs s) l), (Z.leb_spec (Z.abs s) (l + d)); auto; rewrite p_z_off by lia; change (RtoC 0) with C0; ring. }
  destruct (momentum_bound K X ltac:(unfold K; lia) Xs s Xu) as [B1 B2].
  assert (Le : (re (En K X) <= e)%R).
  { unfold e, inner. rewrite (over_ext lo hi (fun l m => (Conj (F l m) * F l m)%C) (fun l m => (Conj (A l m) * A l m)%C)).
    2:{ intros l m Hv. unfold A. rewrite ext_in by auto. reflexivity. }
    rewrite (over_box lo hi K) by (try (unfold K; lia); intros l m Hv; unfold A; rewrite ext_out by auto; ring).
    assert (Q := box_re_nonneg K (fun l m => (Conj (A l m) * A l m - Conj (X l m) * X l m)%C)).
    rewrite box_sub in Q. cbn [re Csub Cadd Copp] in Q. unfold En.
    assert (G : forall l m, (0 <= re (Conj (A l m) * A l m - Conj (X l m) * X l m)%C)%R).
    { intros l m. unfold X, restrict. destruct (Z.abs s <=? l).
      - right. destruct (A l m). cbn. ring.
      - destruct (A l m) as [x y]. cbn. nra. }
    specialize (Q G). cbn in Q. lra. }
  rewrite Ep, Ez. nra.
Qed.

(** At every time the momentum flux is at most the energy flux. *)
Theorem C41_momentum_at_most_energy : forall w, fwf w -> f_type w <> Tother -> 1 <= f_hi w ->
  exists P E, momentum_flux intersection interpolate ddot times_eqb w = Ok P /\ energy_flux ddot w = Ok E /\
    length P = length (f_t w) /\ length E = length (f_t w) /\
    forall i px py pz e, nth_error P i = Some (px, py, pz) -> nth_error E i = Some e ->
      (px * px + py * py + pz * pz <= e * e)%R.
Proof.
  intros w Hw HT H1. destruct (rate_wave_facts w Hw HT) as (Rw & RT & Rl & Rh & Rt & _ & RM & RE).
  rewrite RM, RE, momentum_eval by (auto; lia). pose proof (C40_energy_flux ddot (rate_wave w)) as HE. unfold rate_of in HE. rewrite RT in HE. rewrite HE.
  eexists. eexists. split; [reflexivity|]. split; [reflexivity|]. pose proof Rw as (RL & Rlen & Rrow).
  rewrite !map_length, seq_length, Rt. split; [auto|]. split; [congruence|].
  intros i px py pz e HP He. rewrite nth_error_map in HP, He.
  destruct (nth_error (seq 0 (length (f_t w))) i) as [t|] eqn:Et; [|discriminate]. destruct (nth_error (f_rows (rate_wave w)) i) as [row|] eqn:Er; [|discriminate].
  cbn [option_map] in HP, He. injection HP as <- <- <-. injection He as <-.
  assert (t = i) as ->.
  { assert (i < length (f_t w))%nat by (rewrite <- (seq_length (length (f_t w)) 0); apply nth_error_Some; congruence).
    rewrite (nth_error_nth' _ O) in Et by (rewrite seq_length; lia). rewrite seq_nth in Et by lia. injection Et as <-. reflexivity. }
  assert (B := bound_row (-2) (f_lo (rate_wave w)) (f_hi (rate_wave w)) (fm (rate_wave w) i) RL).
  cbv zeta in B. fold (oppm (rate_wave w) (rate_wave w) (-2) 1 i) in B. fold (opz (rate_wave w) (rate_wave w) (-2) i) in B.
  rewrite Forall_forall in Rrow. assert (L := Rrow row (nth_error_In _ _ Er)).
  assert (EE := energy_over _ _ row (proj1 RL) L).
  assert (F1 : fm (rate_wave w) i = mode (f_lo (rate_wave w)) row) by (unfold fm; rewrite (nth_error_nth _ _ [] Er); reflexivity).
  rewrite F1 in B at 1. rewrite F1 in B at 1. rewrite F1 in B. rewrite <- EE in B. cbn [re RtoC] in B. 
  unfold Rdiv. pose proof PI16 as HP. set (q := (/ (16 * PI))%R).
  assert (0 < q)%R by (apply Rinv_0_lt_compat; lra). assert (0 <= q * q)%R by nra.
  match type of B with (?l <= ?r)%R => assert (0 <= (r - l) * (q * q))%R by (apply Rmult_le_pos; lra) end. lra.
Qed.

(** ** Angular momentum *)
Lemma ladder_up : forall l m, ladder_lm l ((m - 1) * 1) = sqrt (IZR ((l + m) * (l - m + 1))).
Proof. intros. unfold ladder_lm. do 2 f_equal. ring. Qed.
Lemma ladder_down : forall l m, ladder_lm l ((m - -1) * -1) = sqrt (IZR ((l - m) * (l + m + 1))).
Proof. intros. unfold ladder_lm. do 2 f_equal. ring. Qed.
Lemma inner_lin : forall lo hi D k G, inner lo hi D (fun l m => k * G l m)%C = (k * inner lo hi D G)%C.
Proof. intros. unfold inner. rewrite <- over_scale. apply over_ext. intros; ring. Qed.
Lemma inner_plus : forall lo hi D G H, inner lo hi D (fun l m => G l m + H l m)%C = (inner lo hi D G + inner lo hi D H)%C.
Proof. intros. unfold inner. rewrite <- over_add. apply over_ext. intros; ring. Qed.
Lemma inner_ext : forall lo hi D G H, (forall l m, valid lo hi l m -> G l m = H l m) -> inner lo hi D G = inner lo hi D H.
Proof. intros lo hi D G H E. apply over_ext. intros l m Hv. rewrite E by auto. reflexivity. Qed.

Theorem C41_angular_momentum_flux : forall h d, fwf h -> fwf d -> f_type h = Th -> f_type d = Thdot -> same_shape d h -> 1 <= f_hi h ->
  angular_momentum_flux intersection interpolate ddot times_eqb h (Some d) =
  Ok (map (fun t =>
     let F := ext (f_lo h) (f_hi h) (fm h t) in
     let rate := fun J : (Z -> Z -> C) -> Z -> Z -> C => (- re (Ci * inner (f_lo h) (f_hi h) (fm d t) (J F))%C / (16 * PI))%R in
     (rate Jx, rate Jy, rate Jz)) (seq 0 (length (f_t h)))).
Proof.
  intros h d Hh Hd Th_ Td HS H1. unfold angular_momentum_flux, choose_hdot. rewrite Th_, Td. cbn [rbind].
  pose proof HS as (S1 & S2 & S3 & S4). pose proof Hh as (HL & _). pose proof Hd as (HLd & _).
  assert (Ep : exists es, j_plusminus 1 (f_lo d) (f_hi d) = Ok es) by (eexists; reflexivity). destruct Ep as (ep & Ep).
  assert (Em : exists es, j_plusminus (-1) (f_lo d) (f_hi d) = Ok es) by (eexists; reflexivity). destruct Em as (em & Em).
  assert (Ez : exists es, j_z (f_lo d) (f_hi d) = Ok es) by (eexists; reflexivity). destruct Ez as (ez & Ez).
  pose proof (jpm_inside 1 (f_lo d) (f_hi d)) as Ip. rewrite Ep in Ip.
  pose proof (jpm_inside (-1) (f_lo d) (f_hi d)) as Im. rewrite Em in Im.
  pose proof (jz_inside (f_lo d) (f_hi d)) as Iz. rewrite Ez in Iz.
  rewrite (expect_ok d h (j_plusminus 1) ep); auto; try lia; [|apply (jpm_nonempty 1 (f_lo d) (f_hi d)); auto; lia]. cbn [rbind].
  rewrite (expect_ok d h (j_plusminus (-1)) em); auto; try lia; [|apply (jpm_nonempty (-1) (f_lo d) (f_hi d)); auto; lia]. cbn [rbind].
  rewrite (expect_ok d h j_z ez); auto; try lia; [|apply (jz_nonempty (f_lo d) (f_hi d)); auto; lia]. cbn [rbind].
  rewrite combine3. f_equal. rewrite S4. apply map_ext. intros t. cbv zeta.
  rewrite (j_pm_over 1 _ _ _ _ ep) with (3 := Ep) by (auto; lia). rewrite (j_pm_over (-1) _ _ _ _ em) with (3 := Em) by (auto; lia).
  rewrite (j_z_over _ _ _ _ ez Ez). rewrite S2, S3.
  set (F := ext (f_lo h) (f_hi h) (fm h t)). set (D := fm d t). set (lo := f_lo h) in *. set (hi := f_hi h) in *.
  set (A := inner lo hi D (fun l m => (RtoC (sqrt (IZR ((l + m) * (l - m + 1)))) * F l (m - 1)%Z)%C)).
  set (B := inner lo hi D (fun l m => (RtoC (sqrt (IZR ((l - m) * (l + m + 1)))) * F l (m + 1)%Z)%C)).
  assert (EA : inner lo hi D (fun l m => (RtoC (ladder_lm l ((m - 1) * 1)) * F l (m - 1)%Z)%C) = A).
  { apply inner_ext. intros l m _. rewrite ladder_up. reflexivity. }
  assert (EB : inner lo hi D (fun l m => (RtoC (ladder_lm l ((m - -1) * -1)) * F l (m - -1)%Z)%C) = B).
  { apply inner_ext. intros l m _. rewrite ladder_down. replace (m - -1) with (m + 1) by ring. reflexivity. }
  rewrite EA, EB.
  assert (EX : inner lo hi D (Jx F) = (RtoC (/ 2) * (A + B))%C).
  { unfold A, B. rewrite <- inner_plus, <- inner_lin. reflexivity. }
  assert (EY : inner lo hi D (Jy F) = (RtoC (/ 2) * (- Ci) * (A + - C1 * B))%C).
  { unfold A, B. rewrite <- inner_lin, <- inner_plus, <- inner_lin. apply inner_ext. intros l m _. unfold Jy. ring. }
  assert (EZ : inner lo hi D (Jz (fm h t)) = inner lo hi D (Jz F)).
  { apply inner_ext. intros l m Hv. unfold Jz, F. rewrite ext_in by exact Hv. reflexivity. }
  rewrite EX, EY, EZ. pose proof PI16. destruct A as [a1 a2], B as [b1 b2], (inner lo hi D (Jz F)) as [z1 z2]. cbn.
  match goal with |- (?a, ?b, ?c) = (?a', ?b', ?c') => replace a with a' by (field; lra); replace b with b' by (field; lra); replace c with c' by (field; lra) end.
  reflexivity.
Qed.
(** The specification matrices satisfy the commutation relations of rotations. *)
Theorem C41_generators : forall F : Z -> Z -> C, (forall l m, l < Z.abs m -> F l m = C0) ->
  forall l m, Z.abs m <= l ->
  (Jx (Jy F) l m - Jy (Jx F) l m = Ci * Jz F l m)%C /\ (Jy (Jz F) l m - Jz (Jy F) l m = Ci * Jx F l m)%C /\ (Jz (Jx F) l m - Jx (Jz F) l m = Ci * Jy F l m)%C.
Proof.
  intros F HF l m Hm. unfold Jx, Jy, Jz. replace (m - 1 + 1) with m by ring. replace (m + 1 - 1) with m by ring.
  replace ((l - (m - 1)) * (l + (m - 1) + 1)) with ((l + m) * (l - m + 1)) by ring. replace ((l + (m + 1)) * (l - (m + 1) + 1)) with ((l - m) * (l + m + 1)) by ring.
  set (u := sqrt (IZR ((l + m) * (l - m + 1)))). set (v := sqrt (IZR ((l - m) * (l + m + 1)))).
  assert (U : (u * u = (IZR l + IZR m) * (IZR l - IZR m + 1))%R) by (unfold u; rewrite sqrt_sqrt by (apply IZR_nn; nia); izr; ring).
  assert (V : (v * v = (IZR l - IZR m) * (IZR l + IZR m + 1))%R) by (unfold v; rewrite sqrt_sqrt by (apply IZR_nn; nia); izr; ring).
  destruct (F l m) as [f1 f2], (F l (m - 1)%Z) as [a1 a2], (F l (m + 1)%Z) as [b1 b2], (F l (m - 1 - 1)%Z) as [c1 c2], (F l (m + 1 + 1)%Z) as [d1 d2].
  rewrite minus_IZR, plus_IZR. split; [|split]; apply C_eq; cbn; try ring.
  - transitivity (- / 2 * (u * u * f2) + / 2 * (v * v * f2))%R; [field|]. rewrite U, V. field.
  - transitivity (/ 2 * (u * u * f1) - / 2 * (v * v * f1))%R; [field|]. rewrite U, V. field.
Qed.
(** For a rigidly rotating pattern the energy flux is the angular velocity times the angular momentum flux. *)
Theorem C41_rigid_rotation : forall h d Om P E, fwf h -> fwf d -> f_type h = Th -> f_type d = Thdot -> same_shape d h -> 1 <= f_hi h ->
  (forall t l m, valid (f_lo h) (f_hi h) l m -> fm d t l m = (- Ci * RtoC (IZR m * Om) * fm h t l m)%C) ->
  angular_momentum_flux intersection interpolate ddot times_eqb h (Some d) = Ok P -> energy_flux ddot d = Ok E ->
  forall i jx jy jz e, nth_error P i = Some (jx, jy, jz) -> nth_error E i = Some e -> e = (Om * jz)%R.
Proof.
  intros h d Om P E Hh Hd Th_ Td HS H1 HR HP HE i jx jy jz e Hp He.
  rewrite C41_angular_momentum_flux in HP by auto. apply ok_inj in HP. subst P.
  pose proof (C40_energy_flux ddot d) as HE'. unfold rate_of in HE'. rewrite Td in HE'. rewrite HE' in HE. apply ok_inj in HE. subst E.
  rewrite nth_error_map in Hp, He. destruct (nth_error (seq 0 (length (f_t h))) i) as [t|] eqn:Et; [|discriminate]. destruct (nth_error (f_rows d) i) as [row|] eqn:Er; [|discriminate].
  cbn [option_map] in Hp, He. cbv zeta in Hp. injection Hp as _ _ <-. injection He as <-.
  assert (t = i) as ->.
  { assert (i < length (f_t h))%nat by (rewrite <- (seq_length (length (f_t h)) 0); apply nth_error_Some; congruence).
    rewrite (nth_error_nth' _ O) in Et by (rewrite seq_length; lia). rewrite seq_nth in Et by lia. injection Et as <-. reflexivity. }
  pose proof HS as (S1 & S2 & S3 & S4). pose proof Hd as (HLd & _ & Hrow). rewrite Forall_forall in Hrow.
  assert (EE := energy_over _ _ row (proj1 HLd) (Hrow row (nth_error_In _ _ Er))).
  assert (F1 : mode (f_lo d) row = fm d i) by (unfold fm; rewrite (nth_error_nth _ _ [] Er); reflexivity).
  rewrite F1, S2, S3 in EE.
  assert (EJ : (RtoC Om * - (Ci * inner (f_lo h) (f_hi h) (fm d i) (Jz (ext (f_lo h) (f_hi h) (fm h i)))))%C = RtoC (rsum norm2 row)).
  { rewrite EE. transitivity (RtoC Om * - Ci * inner (f_lo h) (f_hi h) (fm d i) (Jz (ext (f_lo h) (f_hi h) (fm h i))))%C; [ring|].
    rewrite <- inner_lin. apply inner_ext. intros l m Hv. unfold Jz. rewrite ext_in by auto. rewrite (HR i l m Hv). rewrite RtoC_mul. ring. }
  apply (f_equal re) in EJ. cbn [re RtoC] in EJ. rewrite <- EJ. pose proof PI16.
  destruct (inner (f_lo h) (f_hi h) (fm d i) (Jz (ext (f_lo h) (f_hi h) (fm h i)))) as [x y]. cbn. field. lra.
Qed.
End Main.
