(** C70: one supertranslation pass towards the superrest frame. *)
From Coq Require Import Reals ZArith List Bool Lia Lra.
From Verif Require Import Common Cplx Quat Modes_Model Times_Model Tables_Model Modal_Model Kwargs_Model ABD_Model Transform_Model Superrest_Model Rotate_Model
  Modes_Proofs Modal_Proofs Rotate_Proofs Times_Proofs Kwargs_Proofs ABD_Proofs Transform_Proofs Superrest_Proofs Wigner_Model Wigner_Proofs Sphere_Model Sphere_Proofs Harmonics_Proofs
  Pipeline_Model Pipeline_Proofs Rest_Model.
From Verif Require ABDBalance_Proofs.
Import ListNotations.
Open Scope R_scope.

(** ** Specification *)
(** The supermomentum with modes [psi] carries the four-momentum (E, P): its part of degree at most 1 is -(E + 3 P.n). *)
Definition carries_momentum (psi : list C) (E : R) (P : vec3) : Prop := has_parts (mode_at psi) (- E) (v3scale (-3) P).
(** Reflection in the plane y = 0 *)
Definition mirror (n : vec3) : vec3 := let '(x, y, z) := n in (x, - y, z).
(** The direction of grid point number (i, j) of the grid used for degrees up to L *)
Definition at_cell (L : Z) (ij : Z * Z) : vec3 := direction (node (2 * L + 1) ij).

(** ** The grid *)
Lemma grid_cells : forall n, grid_points n n = map (node n) (cells n).
Proof.
  intros n. unfold grid_points, cells. rewrite flat_map_concat_map, flat_map_concat_map, concat_map, map_map. f_equal. apply map_ext. intros i.
  rewrite map_map. reflexivity.
Qed.
Lemma node_unit : forall n ij, qnorm2 (node n ij) = 1.
Proof. intros. apply from_spherical_unit. Qed.
Lemma row_field : forall a L q, (0 <= L)%Z -> Kwargs_Proofs.has_modes a L -> dotl a (SWSH 0 L q) = field 0 L (mode_at a) q.
Proof.
  intros a L q HL H. assert (E := full_dot 0 a L q HL H). unfold tensordot in E. destruct (Nat.eqb _ _); [|discriminate]. apply Ok_inj in E. exact E.
Qed.
Lemma salm2map_field : forall a L n, (0 <= L)%Z -> Kwargs_Proofs.has_modes a L -> salm2map a L n = map (fun ij => field 0 L (mode_at a) (node n ij)) (cells n).
Proof. intros a L n HL H. unfold salm2map. apply map_ext. intros ij. apply row_field; assumption. Qed.
Lemma mapped_modes : forall (f : Z * Z -> C) L, (0 <= L)%Z -> Kwargs_Proofs.has_modes (map f (LM_range 0 L)) L.
Proof. intros f L HL. unfold Kwargs_Proofs.has_modes. rewrite map_length. pose proof (LM_range_length 0 L ltac:(lia) ltac:(lia)). nia. Qed.
Lemma mapped_at : forall (f : Z * Z -> C) L l m, (0 <= l <= L)%Z -> (- l <= m <= l)%Z -> mode_at (map f (LM_range 0 L)) l m = f (l, m).
Proof. intros. rewrite mode_at_0. apply mode_map; [lia|]. unfold valid. lia. Qed.

Lemma row_modes : forall a L, (0 <= L)%Z -> Kwargs_Proofs.has_modes a L -> a = map (fun lm => mode_at a (fst lm) (snd lm)) (LM_range 0 L).
Proof.
  intros a L HL H. rewrite (row_map 0 L a) at 1 by (lia || apply full_length; assumption). apply map_ext. intros lm. rewrite mode_at_0. reflexivity.
Qed.
Lemma rows_equal : forall a b L, (0 <= L)%Z -> Kwargs_Proofs.has_modes a L -> Kwargs_Proofs.has_modes b L ->
  (forall l m, (0 <= l <= L)%Z -> (- l <= m <= l)%Z -> mode_at a l m = mode_at b l m) -> a = b.
Proof.
  intros a b L HL Ha Hb H. rewrite (row_modes a L HL Ha), (row_modes b L HL Hb). apply map_ext_in. intros [l m] I. apply LM_range_In in I. cbn [fst snd]. apply H; lia.
Qed.

(** ** The four-vector of the grid *)
Lemma unit_value : forall L l m q, (0 <= l <= L)%Z -> (- l <= m <= l)%Z -> dotl (unit_modes L l m) (SWSH 0 L q) = swsh 0 l m q.
Proof.
  intros L l m q Hl Hm. unfold unit_modes, SWSH. rewrite dotl_map.
  transitivity (csum (fun lm => (swsh 0 (fst lm) (snd lm) q * (if keyeq lm (l, m) then C1 else C0))%C) (LM_range 0 L)).
  - apply csum_ext. intros lm _. unfold keyeq. cbn [fst snd]. destruct (_ && _)%bool; ring.
  - apply (csum_key (LM_range 0 L) (l, m) (fun lm => swsh 0 (fst lm) (snd lm) q)); [apply keys_nodup|]. apply LM_range_In. lia.
Qed.
Lemma norms : sqrt (3 / (2 * PI)) = sqrt 6 / sqrt (4 * PI) /\ sqrt (3 / PI) = 2 * sqrt 3 / sqrt (4 * PI).
Proof.
  assert (P := PI_RGT_0). split.
  - rewrite <- sqrt_div_alt by lra. f_equal. field. lra.
  - replace 2 with (sqrt (2 * 2)) at 1 by (apply sqrt_square; lra). rewrite <- sqrt_mult_alt by lra. rewrite <- sqrt_div_alt by lra. f_equal. field. lra.
Qed.
Theorem C70_four_vector : forall L ij, (1 <= L)%Z -> r_vector L ij = (1, mirror (at_cell L ij)).
Proof.
  intros L ij HL. unfold r_vector, charge_vector. rewrite !unit_value by lia. rewrite swsh_00, !swsh_1m by (apply node_unit || lia).
  fold (at_cell L ij). destruct (at_cell L ij) as [[x y] z]. cbv zeta. unfold Y0, Y1, mirror, v3scale.
  cbn [Z.eqb Pos.eqb re im RtoC Cscale Cadd Csub]. destruct norms as [-> ->].
  assert (P := PI_RGT_0). assert (S4 : 0 < sqrt (4 * PI)) by (apply sqrt_lt_R0; lra). assert (S6 : 0 < sqrt 6) by (apply sqrt_lt_R0; lra).
  assert (S3 : 0 < sqrt 3) by (apply sqrt_lt_R0; lra). assert (Q : 4 * PI = sqrt (4 * PI) * sqrt (4 * PI)) by (rewrite sqrt_sqrt; lra).
  set (s := sqrt (4 * PI)) in *. rewrite Q.
  apply f_equal2; [field; lra|apply f_equal2; [apply f_equal2|]; field; lra].
Qed.

(** ** Rest mass and conformal factor *)
Lemma momentum_ok : forall psi E P, (4 <= length psi)%nat -> carries_momentum psi E P -> momentum psi = Ok (E, P).
Proof.
  intros psi E [[x y] z] H4 H. unfold momentum. destruct (Nat.ltb_spec (length psi) 4); [lia|].
  replace (charge_vector (fun l m => nth (pos l m) psi C0)) with (charge_vector (mode_at psi)).
  2: { unfold charge_vector, mode_at. rewrite <- !pos_eq. reflexivity. }
  rewrite (C36_projection _ _ _ H). unfold v3scale. f_equal. apply f_equal2; [lra|]. apply f_equal2; [apply f_equal2|]; lra.
Qed.
Definition velocity (E : R) (P : vec3) : vec3 := v3scale (/ E) P.
Lemma velocity_slow : forall E P, norm3 P < E -> 0 < E /\ norm3 (velocity E P) = norm3 P / E /\ norm3 (velocity E P) < 1.
Proof.
  intros E P H. assert (N := norm3_nonneg P). assert (HE : 0 < E) by lra. split; [exact HE|].
  assert (Q : norm3 (velocity E P) = norm3 P / E).
  { destruct P as [[x y] z]. unfold velocity, v3scale, norm3, dotv. replace (_ + _) with ((x * x + y * y + z * z) / (E * E)) by (field; lra).
    rewrite sqrt_div_alt by nra. rewrite sqrt_square by lra. reflexivity. }
  split; [exact Q|]. rewrite Q. apply (Rmult_lt_reg_r E); [exact HE|]. unfold Rdiv. rewrite Rmult_assoc, Rinv_l by lra. lra.
Qed.
Lemma mirror_unit : forall n, unitv n -> unitv (mirror n).
Proof. intros [[x y] z]. unfold unitv, mirror, dotv. intros. lra. Qed.
Lemma cell_unit : forall L ij, unitv (at_cell L ij).
Proof. intros. unfold at_cell. apply direction_unit. apply node_unit. Qed.
(** The rest mass is that of the momentum.  The conformal factor is the boost factor of P / E, but in the direction mirrored in the
    plane y = 0. *)
Theorem C70_conformal_factor : forall psi L E P, (4 <= length psi)%nat -> (1 <= L)%Z -> carries_momentum psi E P -> norm3 P < E ->
  rest_mass_K psi L = Ok (sqrt (E ^ 2 - norm3 P ^ 2), map (fun ij => kfactor (velocity E P) (mirror (at_cell L ij))) (cells (2 * L + 1))).
Proof.
  intros psi L E P H4 HL HP Hv. unfold rest_mass_K. rewrite (momentum_ok psi E P H4 HP). cbn [rbind].
  destruct (Z.ltb_spec L 1); [lia|]. assert (DP : v3dot P P = norm3 P ^ 2) by (transitivity (dotv P P); [destruct P as [[x y] z]; reflexivity|rewrite <- norm3_sq; ring]).
  destruct (velocity_slow E P Hv) as (HE & NV & HV). assert (NN := norm3_nonneg P).
  f_equal. apply f_equal2; [unfold rest_mass; rewrite DP; reflexivity|].
  apply map_ext. intros ij. rewrite C70_four_vector by exact HL. unfold K_value, rest_mass. cbn [fst snd]. rewrite DP.
  assert (U := mirror_unit _ (cell_unit L ij)). set (n := mirror (at_cell L ij)) in *.
  assert (K := one_over_k_pos _ _ HV U). unfold kfactor, one_over_k, gamma in *. rewrite NV in *.
  assert (D : dotv (velocity E P) n = v3dot P n / E) by (destruct P as [[x y] z], n as [[a b] c]; unfold velocity, v3scale, dotv, v3dot; field; lra).
  rewrite D in *. assert (S : sqrt (E ^ 2 - norm3 P ^ 2) = E * sqrt (1 - (norm3 P / E) ^ 2)).
  { rewrite <- (sqrt_square E) at 2 by lra. rewrite <- sqrt_mult_alt by nra. f_equal. field. lra. }
  rewrite S. assert (B : 0 < 1 - (norm3 P / E) ^ 2).
  { rewrite <- NV. assert (M := norm3_nonneg (velocity E P)). nra. }
  assert (SB := sqrt_lt_R0 _ B). set (s := sqrt (1 - (norm3 P / E) ^ 2)) in *.
  assert (0 < 1 - v3dot P n / E).
  { assert (IS : 0 < 1 / s) by (apply Rdiv_lt_0_compat; lra). apply (Rmult_lt_reg_l (1 / s)); [exact IS|]. lra. }
  assert (E * (1 - v3dot P n / E) = E * 1 - v3dot P n) by (field; lra).
  assert (0 < E * 1 - v3dot P n) by nra. field. repeat split; lra.
Qed.
(** So it is the conformal factor of the boost to the rest frame when the momentum has no y component ... *)
Theorem C70_conformal_factor_in_plane : forall psi L E P, (4 <= length psi)%nat -> (1 <= L)%Z -> carries_momentum psi E P -> norm3 P < E ->
  snd (fst P) = 0 ->
  rest_mass_K psi L = Ok (sqrt (E ^ 2 - norm3 P ^ 2), map (fun ij => kfactor (velocity E P) (at_cell L ij)) (cells (2 * L + 1))).
Proof.
  intros psi L E [[x y] z] H4 HL HP Hv Hy. cbn in Hy. subst y. rewrite (C70_conformal_factor psi L E (x, 0, z)) by assumption. f_equal. f_equal.
  apply map_ext. intros ij. unfold kfactor, one_over_k. f_equal. f_equal. f_equal. destruct (at_cell L ij) as [[a b] c].
  unfold velocity, v3scale, mirror, dotv. ring.
Qed.
Lemma direction_spherical : forall theta phi, direction (from_spherical theta phi) = (sin theta * cos phi, sin theta * sin phi, cos theta).
Proof.
  intros theta phi. rewrite direction_formula by apply from_spherical_unit. unfold from_spherical. cbn [qw qx qy qz].
  set (a := theta / 2). set (b := phi / 2). replace theta with (2 * a) by (unfold a; field). replace phi with (2 * b) by (unfold b; field).
  rewrite !sin_2a, !cos_2a. assert (A := sin2_cos2 a). assert (B := sin2_cos2 b). unfold Rsqr in *.
  apply f_equal2; [apply f_equal2|]; try ring.
  transitivity (cos a * cos a * (sin b * sin b + cos b * cos b) - sin a * sin a * (sin b * sin b + cos b * cos b)); [ring|rewrite B; ring].
Qed.
(** ... and never is when it has one. *)
Lemma side_cell : forall L, (1 <= L)%Z -> In (L, 1%Z) (cells (2 * L + 1)) /\ 0 < snd (fst (at_cell L (L, 1%Z))).
Proof.
  intros L HL. split.
  - unfold cells. apply in_flat_map. exists L. split; [apply zrange_In; lia|]. apply in_map. apply zrange_In. lia.
  - unfold at_cell, node. rewrite direction_spherical. cbn [fst snd].
    assert (T : theta_at (2 * L + 1) L = PI / 2).
    { unfold theta_at. destruct (Z.leb_spec (2 * L + 1) 1); [lia|]. replace (2 * L + 1 - 1)%Z with (2 * L)%Z by ring. rewrite mult_IZR.
      field. apply not_0_IZR. lia. }
    rewrite T, sin_PI2, Rmult_1_l. unfold phi_at. rewrite Rmult_1_l. assert (P := PI_RGT_0).
    assert (2 < IZR (2 * L + 1)) by (apply IZR_lt; lia). apply sin_gt_0.
    + apply Rdiv_lt_0_compat; lra.
    + apply (Rmult_lt_reg_r (IZR (2 * L + 1))); [lra|]. unfold Rdiv. rewrite Rmult_assoc, Rinv_l by lra. nra.
Qed.
Theorem C70_conformal_factor_refuted : forall psi L E P, (4 <= length psi)%nat -> (1 <= L)%Z -> carries_momentum psi E P -> norm3 P < E ->
  snd (fst P) <> 0 -> forall M K, rest_mass_K psi L = Ok (M, K) -> K <> map (fun ij => kfactor (velocity E P) (at_cell L ij)) (cells (2 * L + 1)).
Proof.
  intros psi L E P H4 HL HP Hv Hy M K HK EQ. rewrite (C70_conformal_factor psi L E P) in HK by assumption.
  apply Ok_inj in HK. apply (f_equal snd) in HK. cbn [snd] in HK. rewrite EQ in HK. clear EQ K M.
  destruct (side_cell L HL) as [I Y]. destruct (velocity_slow E P Hv) as (HE & NV & HV).
  assert (A : forall f g, map f (cells (2 * L + 1)) = map g (cells (2 * L + 1)) -> f (L, 1%Z) = g (L, 1%Z) :> R).
  { intros f g. revert I. generalize (cells (2 * L + 1)). induction l as [|c l IH]; intros I Q; [destruct I|]. cbn [map] in Q.
    assert (Q1 := f_equal (hd 0) Q). assert (Q2 := f_equal (@tl R) Q). cbn [hd tl] in Q1, Q2.
    destruct I as [Ec|I]; [rewrite Ec in Q1; exact Q1|apply IH; assumption]. }
  apply A in HK. set (n := at_cell L (L, 1%Z)) in *. assert (U : unitv n) by apply cell_unit. assert (U' := mirror_unit n U).
  assert (K1 := one_over_k_pos _ _ HV U). assert (K2 := one_over_k_pos _ _ HV U'). unfold kfactor in HK.
  assert (Q : one_over_k (velocity E P) n = one_over_k (velocity E P) (mirror n)).
  { apply (f_equal Rinv) in HK. unfold Rdiv in HK. rewrite !Rmult_1_l, !Rinv_inv in HK. symmetry. exact HK. }
  unfold one_over_k in Q. assert (G := gamma_pos _ HV). apply Rmult_eq_reg_l in Q; [|lra].
  destruct P as [[x y] z], n as [[a b] c]. cbn in Hy, Y. unfold velocity, v3scale, mirror, dotv in Q.
  assert (/ E * y * b = 0) by lra. assert (N : / E <> 0) by (apply Rinv_neq_0_compat; lra).
  apply Rmult_integral in H. destruct H as [H|H]; [|lra]. apply Rmult_integral in H. destruct H; contradiction.
Qed.

(** ** Stationary systems at rest: a single pass suffices *)
Section Pass.
Variable spline : list R -> list R -> res (R -> R).
Variable map2salm : Z -> Z -> list C -> Z -> Z -> list C.
(** The spline through constant data is that constant. *)
Definition keeps_constants (t : list R) : Prop := forall c, exists f, spline t (map (fun _ => c) t) = Ok f /\ forall x, f x = c.
Definition exact_on (L : Z) : Prop := exact map2salm 0 (2 * L + 1) (2 * L + 1).

Lemma decomposed : forall L a, (0 <= L)%Z -> exact_on L ->
  map2salm (2 * L + 1) (2 * L + 1) (map (fun ij => field 0 L a (node (2 * L + 1) ij)) (cells (2 * L + 1))) 0 L = map (fun lm => a (fst lm) (snd lm)) (LM_range 0 L).
Proof.
  intros L a HL H. rewrite <- (map_map (node (2 * L + 1)) (field 0 L a)), <- grid_cells. rewrite (H L a L) by lia.
  apply map_ext_in. intros [l m] I. apply LM_range_In in I. cbn [fst snd Z.abs].
  destruct (Z.leb_spec 0 l); [|lia]. destruct (Z.leb_spec l L); [reflexivity|lia].
Qed.
Lemma scaled_at : forall value h L l m, (0 <= l <= L)%Z -> (- l <= m <= l)%Z -> Kwargs_Proofs.has_modes h L ->
  mode_at (scale_all value h L) l m = Cscale (value l) (mode_at h l m).
Proof.
  intros value h L l m Hl Hm H. unfold mode_at. replace (l * l + l + m)%Z with (LM l m) by (unfold LM; ring).
  destruct (C37_modes value h L l m C0) as [E _]; [lia|lia| |rewrite E; destruct (Z.leb_spec l L); [reflexivity|lia]].
  unfold Kwargs_Proofs.has_modes in H. unfold LM. nia.
Qed.
Lemma scaled_modes : forall value h L, Kwargs_Proofs.has_modes h L -> Kwargs_Proofs.has_modes (scale_all value h L) L.
Proof. intros. unfold Kwargs_Proofs.has_modes in *. rewrite scale_all_length. assumption. Qed.
Lemma field_zero : forall L q, field 0 L (fun _ _ => C0) q = C0.
Proof. intros. unfold field. apply csum_const0. intros. ring. Qed.
Lemma real_value : forall a L q, (0 <= L)%Z -> is_real a L -> RtoC (re (field 0 L (mode_at a) q)) = field 0 L (mode_at a) q.
Proof.
  intros a L q HL H. assert (Z : im (field 0 L (mode_at a) q) = 0) by (apply C68_real_function; [exact HL|exact H]).
  apply C_eq; cbn; [reflexivity|symmetry; exact Z].
Qed.
Lemma at_rest : forall psi L E, (4 <= length psi)%nat -> (1 <= L)%Z -> carries_momentum psi E (0, 0, 0) -> 0 < E ->
  rest_mass_K psi L = Ok (E, map (fun _ => 1) (cells (2 * L + 1))).
Proof.
  intros psi L E H4 HL HP HE. assert (N : norm3 (0, 0, 0) = 0) by (unfold norm3; replace (_ + _) with 0 by ring; apply sqrt_0).
  rewrite (C70_conformal_factor psi L E (0, 0, 0)) by (assumption || rewrite N; exact HE). rewrite N. f_equal. apply f_equal2.
  - replace (E ^ 2 - 0 ^ 2) with (E * E) by ring. apply sqrt_square. lra.
  - apply map_ext. intros ij. unfold kfactor, one_over_k, gamma. destruct (velocity_slow E (0, 0, 0)) as (_ & -> & _); [rewrite N; exact HE|].
    rewrite N. replace (1 - (0 / E) ^ 2) with 1 by (field; lra). rewrite sqrt_1. destruct (mirror _) as [[a b] c]. unfold velocity, v3scale, dotv. field. lra.
Qed.

Lemma field_minus : forall L a b q, field 0 L (fun l m => a l m - b l m)%C q = (field 0 L a q - field 0 L b q)%C.
Proof.
  intros L a b q. unfold field. transitivity (csum (fun lm => (a (fst lm) (snd lm) * swsh 0 (fst lm) (snd lm) q)%C) (LM_range 0 L)
    + (RtoC (-1)) * csum (fun lm => (b (fst lm) (snd lm) * swsh 0 (fst lm) (snd lm) q)%C) (LM_range 0 L))%C.
  - rewrite <- csum_scale, <- csum_add. apply csum_ext. intros lm _. set (x := a _ _). set (y := b _ _). set (z := swsh _ _ _ _). apply C_eq; cbn; ring.
  - set (x := csum _ _). set (y := csum _ _). apply C_eq; cbn; ring.
Qed.
Lemma map_fst_combine : forall A B D (h : A -> D) (l : list A) (l' : list B), length l = length l' -> map (fun x => h (fst x)) (combine l l') = map h l.
Proof. induction l as [|a l IH]; intros [|b l'] H; try discriminate; [reflexivity|]. cbn [combine map fst]. f_equal. apply IH. injection H as H. exact H. Qed.
Lemma cells_In : forall n i j, In (i, j) (cells n) <-> (0 <= i < n)%Z /\ (0 <= j < n)%Z.
Proof.
  intros n i j. unfold cells. rewrite in_flat_map. split.
  - intros (x & Hx & H). apply in_map_iff in H. destruct H as (y & E & Hy). assert (E1 := f_equal fst E). assert (E2 := f_equal snd E). cbn in E1, E2. subst x y.
    apply zrange_In in Hx, Hy. lia.
  - intros [Hi Hj]. exists i. split; [apply zrange_In; lia|]. apply in_map. apply zrange_In. lia.
Qed.

(** The real function with modes [a], on the grid *)
Definition on_grid (L : Z) (a : list C) : list R := map (fun ij => re (field 0 L (mode_at a) (node (2 * L + 1) ij))) (cells (2 * L + 1)).
Lemma on_grid_modes : forall L a, (0 <= L)%Z -> exact_on L -> Kwargs_Proofs.has_modes a L -> is_real a L ->
  map2salm (2 * L + 1) (2 * L + 1) (map RtoC (on_grid L a)) 0 L = a.
Proof.
  intros L a HL HE Ha Hr. unfold on_grid. rewrite map_map. transitivity (map (fun lm => mode_at a (fst lm) (snd lm)) (LM_range 0 L)).
  - rewrite <- (decomposed L (mode_at a) HL HE). f_equal. apply map_ext. intros ij. apply real_value; assumption.
  - symmetry. apply row_modes; assumption.
Qed.
(** Supertranslating the supermomentum of a stationary system at rest subtracts D alpha. *)
Theorem C70_supertranslated : forall t psi L E a, (1 <= L)%Z -> exact_on L -> keeps_constants t ->
  Kwargs_Proofs.has_modes psi L -> is_real psi L -> carries_momentum psi E (0, 0, 0) -> 0 < E ->
  Kwargs_Proofs.has_modes a L -> is_real a L ->
  moreschi spline map2salm t (map (fun _ => psi) t) L L (on_grid L a)
  = Ok (map (fun lm => (mode_at psi (fst lm) (snd lm) - Cscale (D_value (fst lm)) (mode_at a (fst lm) (snd lm)))%C) (LM_range 0 L)).
Proof.
  intros t psi L E a HL HX HS Hp Hr HM HE Ha Har. unfold moreschi.
  assert (H4 : (4 <= length psi)%nat) by (unfold Kwargs_Proofs.has_modes in Hp; nia).
  rewrite (each_ok _ _ _ (fun _ => (E, map (fun _ => 1) (cells (2 * L + 1))))).
  2: { intros row I. apply in_map_iff in I. destruct I as (? & <- & _). apply at_rest; assumption. }
  cbn [rbind]. rewrite !map_map. cbn [snd]. set (n := (2 * L + 1)%Z).
  rewrite (each_ok _ _ _ (fun x => (re (field 0 L (mode_at psi) (node n (fst x))), 1))).
  2: { intros [[i j] [k v]] I. cbn [fst]. apply in_combine_l in I as I1. apply in_combine_r in I. apply in_combine_l in I. apply in_seq in I.
    apply cells_In in I1. unfold interpolated. cbn [fst snd]. fold n. destruct (Z.leb_spec n i); [lia|]. destruct (Z.leb_spec n j); [lia|]. cbn [orb].
    rewrite !map_map. rewrite row_field by (assumption || lia).
    destruct (HS (re (field 0 L (mode_at psi) (node n (i, j))))) as (f & Ef & Vf). rewrite Ef. cbn [rbind].
    replace (map (fun _ : R => nth k (map (fun _ : Z * Z => 1) (cells n)) 0) t) with (map (fun _ : R => 1) t).
    2: { apply map_ext. intros _. symmetry. rewrite (nth_indep _ 0 1) by (rewrite map_length; lia). apply (map_nth (fun _ : Z * Z => 1) (cells n) (0%Z, 0%Z) k). }
    destruct (HS 1) as (g & Eg & Vg). rewrite Eg. cbn [rbind]. rewrite Vf, Vg. reflexivity. }
  cbn [rbind]. rewrite (map_fst_combine _ _ _ (fun ij => (re (field 0 L (mode_at psi) (node n ij)), 1))).
  2: { unfold on_grid. rewrite combine_length, seq_length, map_length. fold n. symmetry. apply Nat.min_id. }
  unfold n. rewrite on_grid_modes by (assumption || lia). rewrite salm2map_field by (lia || apply scaled_modes; assumption).
  rewrite combine_maps, map_map. f_equal.
  rewrite <- (decomposed L (fun l m => (mode_at psi l m - Cscale (D_value l) (mode_at a l m))%C)) by (assumption || lia). f_equal.
  apply map_ext. intros ij. rewrite field_minus. rewrite real_value by (assumption || lia).
  replace (field 0 L (mode_at (D_op a L)) (node (2 * L + 1) ij)) with (field 0 L (fun l m => Cscale (D_value l) (mode_at a l m)) (node (2 * L + 1) ij)).
  2: { apply field_ext. intros l m Hl Hm. symmetry. apply scaled_at; [cbn in Hl; lia|exact Hm|exact Ha]. }
  rewrite pow1, Rinv_1. set (x := field 0 L (mode_at psi) _). set (y := field 0 L _ _). apply C_eq; cbn; ring.
Qed.
(** The correction computed from a supermomentum at rest is the real function with D of it equal to the degrees from 2 on. *)
Theorem C70_correction : forall psi L E, (1 <= L)%Z -> exact_on L -> Kwargs_Proofs.has_modes psi L -> is_real psi L -> 0 < E ->
  exists a, Kwargs_Proofs.has_modes a L /\ is_real a L
    /\ alpha_perturbation map2salm L psi (map (fun _ => E) (cells (2 * L + 1))) (map (fun _ => 1) (cells (2 * L + 1))) = Ok (on_grid L a)
    /\ (forall l m, (0 <= l <= L)%Z -> (- l <= m <= l)%Z -> mode_at a l m = if (l <? 2)%Z then C0 else Cscale (4 / IZR ((l + 2) * (l + 1) * l * (l - 1))) (mode_at psi l m))
    /\ (forall l m, (0 <= l <= L)%Z -> (- l <= m <= l)%Z -> Cscale (D_value l) (mode_at a l m) = if (l <? 2)%Z then C0 else mode_at psi l m).
Proof.
  intros psi L E HL HX Hp Hr HE. set (n := (2 * L + 1)%Z).
  set (p1 := map (fun lm => (mode_at psi (fst lm) (snd lm) - (if (fst lm =? 0)%Z then RtoC (- E * sqrt (4 * PI)) else C0))%C) (LM_range 0 L)).
  assert (M1 : Kwargs_Proofs.has_modes p1 L) by (apply mapped_modes; lia).
  assert (V1 : forall l m, (0 <= l <= L)%Z -> (- l <= m <= l)%Z -> mode_at p1 l m = (mode_at psi l m - (if (l =? 0)%Z then RtoC (- E * sqrt (4 * PI)) else C0))%C)
    by (intros; unfold p1; rewrite mapped_at by assumption; reflexivity).
  set (a := Dinverse p1 L). assert (Ma : Kwargs_Proofs.has_modes a L) by (apply scaled_modes; exact M1).
  assert (Va : forall l m, (0 <= l <= L)%Z -> (- l <= m <= l)%Z -> mode_at a l m = if (l <? 2)%Z then C0 else Cscale (4 / IZR ((l + 2) * (l + 1) * l * (l - 1))) (mode_at psi l m)).
  { intros l m Hl Hm. unfold a, Dinverse. rewrite scaled_at by assumption. unfold Dinv_value. destruct (Z.ltb_spec l 2) as [B|B]; [apply C_eq; cbn; ring|].
    rewrite V1 by assumption. destruct (Z.eqb_spec l 0); [lia|]. unfold poly4. f_equal. set (x := mode_at psi l m). apply C_eq; cbn; ring. }
  assert (Ra : is_real a L).
  { intros l m Hl Hm. rewrite !Va by lia. destruct (Z.ltb_spec l 2); [apply C_eq; cbn; ring|]. rewrite (Hr l m) at 1 by assumption.
    set (x := mode_at psi l (- m)). apply C_eq; cbn; ring. }
  exists a. split; [exact Ma|]. split; [exact Ra|]. split; [|split; [exact Va|]].
  - unfold alpha_perturbation. cbv zeta. rewrite (salm2map_field psi) by (assumption || lia). rewrite combine_maps, combine_maps, map_map. fold n.
    assert (EQ : map2salm n n (map (fun x => (field 0 L (mode_at psi) (node n x) + RtoC (E * 1 ^ 3))%C) (cells n)) 0 L = p1).
    { unfold p1. rewrite <- (decomposed L (fun l m => (mode_at psi l m - (if (l =? 0)%Z then RtoC (- E * sqrt (4 * PI)) else C0))%C)) by (assumption || lia). fold n. f_equal.
      apply map_ext. intros ij. rewrite field_minus. set (x := field 0 L (mode_at psi) (node n ij)).
      replace (field 0 L (fun l m => if (l =? 0)%Z then RtoC (- E * sqrt (4 * PI)) else C0) (node n ij)) with (RtoC (- E)).
      - apply C_eq; cbn; ring.
      - unfold field. rewrite (ABDBalance_Proofs.csum_pick _ _ (LM_range 0 L) (0%Z, 0%Z)).
        + cbn [fst snd Z.eqb]. rewrite swsh_00. unfold Y0. assert (S : 0 < sqrt (4 * PI)) by (apply sqrt_lt_R0; pose proof PI_RGT_0; lra).
          apply C_eq; cbn; field; lra.
        + apply keys_nodup.
        + apply LM_range_In. lia.
        + intros [l m] I Ne. apply LM_range_In in I. cbn [fst snd]. destruct (Z.eqb_spec l 0) as [-> |]; [|ring]. exfalso. apply Ne. f_equal. lia. }
    rewrite EQ. fold a. rewrite salm2map_field by (assumption || lia). rewrite map_map. reflexivity.
  - intros l m Hl Hm. rewrite Va by assumption. unfold D_value. destruct (Z.ltb_spec l 2) as [B|B]; [apply C_eq; cbn; ring|].
    fold (poly4 l). assert (P := poly4_pos l B). set (x := mode_at psi l m). apply C_eq; cbn; field; lra.
Qed.
(** The correction vanishes exactly when there is nothing to correct. *)
Theorem C70_fixed_point : forall psi L E, (1 <= L)%Z -> exact_on L -> Kwargs_Proofs.has_modes psi L -> is_real psi L -> 0 < E ->
  (alpha_perturbation map2salm L psi (map (fun _ => E) (cells (2 * L + 1))) (map (fun _ => 1) (cells (2 * L + 1))) = Ok (map (fun _ => 0) (cells (2 * L + 1)))
   <-> forall l m, (2 <= l <= L)%Z -> (- l <= m <= l)%Z -> mode_at psi l m = C0).
Proof.
  intros psi L E HL HX Hp Hr HE. destruct (C70_correction psi L E HL HX Hp Hr HE) as (a & Ma & Ra & Eq & Va & Da). rewrite Eq.
  assert (Zg : on_grid L (map (fun _ => C0) (LM_range 0 L)) = map (fun _ => 0) (cells (2 * L + 1))).
  { unfold on_grid. apply map_ext. intros ij. rewrite (field_ext 0 L _ (fun _ _ => C0)); [rewrite field_zero; reflexivity|].
    intros l m Hl Hm. rewrite mapped_at by (cbn in Hl; lia). reflexivity. }
  assert (Zm : Kwargs_Proofs.has_modes (map (fun _ => C0) (LM_range 0 L)) L) by (apply mapped_modes; lia).
  assert (Zr : is_real (map (fun _ : Z * Z => C0) (LM_range 0 L)) L).
  { intros l m Hl Hm. rewrite !mapped_at by lia. apply C_eq; cbn; ring. }
  split.
  - intros H l m Hl Hm. apply Ok_inj in H. rewrite <- Zg in H. apply (f_equal (fun x => map2salm (2 * L + 1) (2 * L + 1) (map RtoC x) 0%Z L)) in H.
    rewrite !on_grid_modes in H by (assumption || lia). assert (Q := Da l m ltac:(lia) Hm). rewrite H, mapped_at in Q by lia.
    destruct (Z.ltb_spec l 2); [lia|]. rewrite <- Q. apply C_eq; cbn; ring.
  - intros H. f_equal. rewrite <- Zg. f_equal. apply (rows_equal _ _ L); [lia|exact Ma|exact Zm|]. intros l m Hl Hm. rewrite mapped_at, Va by assumption.
    destruct (Z.ltb_spec l 2); [reflexivity|]. rewrite H by lia. apply C_eq; cbn; ring.
Qed.
Lemma zero_grid : forall L, (0 <= L)%Z -> on_grid L (map (fun _ => C0) (LM_range 0 L)) = map (fun _ => 0) (cells (2 * L + 1)).
Proof.
  intros L HL. unfold on_grid. apply map_ext. intros ij. rewrite (field_ext 0 L _ (fun _ _ => C0)); [rewrite field_zero; reflexivity|].
  intros l m Hl Hm. rewrite mapped_at by (cbn in Hl; lia). reflexivity.
Qed.
Lemma momentum_low : forall psi psi' E P, (forall l m, (0 <= l <= 1)%Z -> (- l <= m <= l)%Z -> mode_at psi l m = mode_at psi' l m) ->
  carries_momentum psi E P -> carries_momentum psi' E P.
Proof.
  intros psi psi' E P H. unfold carries_momentum, has_parts, freal, fbar, fscale, fadd. cbn [Z.opp Z.add]. rewrite !H by lia. exact (fun x => x).
Qed.
Lemma vadd_zero : forall A (l : list A) f, vadd (map (fun _ => 0) l) (map f l) = map f l.
Proof. induction l as [|a l IH]; intros f; cbn; [reflexivity|]. rewrite IH, Rplus_0_l. reflexivity. Qed.
Lemma high_zero : forall L f, (1 <= L)%Z -> (forall l m, (2 <= l <= L)%Z -> f (l, m) = C0) -> norm_from_2 (map f (LM_range 0 L)) = (fun _ => Fin 0).
Proof.
  intros L f HL H. unfold norm_from_2. rewrite (LM_range_split 0 2 L) by lia. change (LM_range 0 (2 - 1)) with [(0, 0); (1, -1); (1, 0); (1, 1)]%Z.
  cbn [map app skipn]. replace (fold_right Rplus 0 (map (fun c => norm2 c) (map f (LM_range 2 L)))) with 0; [rewrite sqrt_0; reflexivity|].
  assert (G : forall l, (forall x, In x l -> f x = C0) -> 0 = fold_right Rplus 0 (map (fun c => norm2 c) (map f l))).
  { induction l as [|x l IH]; intros Hx; cbn [map fold_right]; [reflexivity|]. rewrite <- IH by (intros; apply Hx; right; assumption).
    rewrite Hx by (left; reflexivity). unfold norm2. cbn. ring. }
  apply G. intros [l m] I. apply LM_range_In in I. apply H. lia.
Qed.
(** A stationary system at rest reaches the superrest frame in one pass: the supertranslation returned is the solution of
    D alpha = degrees from 2 on of the supermomentum, the supermomentum transformed with it has no such degrees left, and the error reported is 0. *)
Theorem C70_stationary : forall t psi L E N tol, (1 <= L)%Z -> exact_on L -> keeps_constants t ->
  Kwargs_Proofs.has_modes psi L -> is_real psi L -> carries_momentum psi E (0, 0, 0) -> 0 < E -> (1 <= N)%Z -> xlt (Fin 0) tol = true ->
  exists a, Kwargs_Proofs.has_modes a L /\ is_real a L
    /\ supertranslation_to_superrest spline map2salm t (map (fun _ => psi) t) L L N tol = Ok (mkbms a q1 (0, 0, 0), [PInf; Fin 0])
    /\ (forall l m, (0 <= l <= L)%Z -> (- l <= m <= l)%Z -> mode_at a l m = if (l <? 2)%Z then C0 else Cscale (4 / IZR ((l + 2) * (l + 1) * l * (l - 1))) (mode_at psi l m))
    /\ exists psi', moreschi spline map2salm t (map (fun _ => psi) t) L L (on_grid L a) = Ok psi'
       /\ forall l m, (0 <= l <= L)%Z -> (- l <= m <= l)%Z -> mode_at psi' l m = if (l <? 2)%Z then mode_at psi l m else C0.
Proof.
  intros t psi L E N tol HL HX HS Hp Hr HM HE HN Ht.
  destruct (C70_correction psi L E HL HX Hp Hr HE) as (a & Ma & Ra & Eq & Va & Da). exists a. split; [exact Ma|]. split; [exact Ra|].
  assert (Zm : Kwargs_Proofs.has_modes (map (fun _ => C0) (LM_range 0 L)) L) by (apply mapped_modes; lia).
  assert (Zr : is_real (map (fun _ : Z * Z => C0) (LM_range 0 L)) L).
  { intros l m Hl Hm. rewrite !mapped_at by lia. apply C_eq; cbn; ring. }
  assert (M0 : moreschi spline map2salm t (map (fun _ => psi) t) L L (map (fun _ => 0) (cells (2 * L + 1))) = Ok psi).
  { rewrite <- zero_grid by lia. rewrite (C70_supertranslated t psi L E) by assumption. f_equal. apply (rows_equal _ _ L); [lia|apply mapped_modes; lia|exact Hp|].
    intros l m Hl Hm. rewrite mapped_at by assumption. cbn [fst snd]. rewrite mapped_at by assumption. apply C_eq; cbn; ring. }
  assert (M1 := C70_supertranslated t psi L E a HL HX HS Hp Hr HM HE Ma Ra).
  set (F := fun lm : Z * Z => (mode_at psi (fst lm) (snd lm) - Cscale (D_value (fst lm)) (mode_at a (fst lm) (snd lm)))%C) in *.
  assert (VF : forall l m, (0 <= l <= L)%Z -> (- l <= m <= l)%Z -> F (l, m) = if (l <? 2)%Z then mode_at psi l m else C0).
  { intros l m Hl Hm. unfold F. cbn [fst snd]. rewrite Da by assumption. destruct (l <? 2)%Z; apply C_eq; cbn; ring. }
  assert (MF : Kwargs_Proofs.has_modes (map F (LM_range 0 L)) L) by (apply mapped_modes; lia).
  assert (H4 : (4 <= length psi)%nat) by (unfold Kwargs_Proofs.has_modes in Hp; nia).
  assert (H4F : (4 <= length (map F (LM_range 0 L)))%nat) by (unfold Kwargs_Proofs.has_modes in MF; nia).
  assert (K0 : massK L psi = Ok (map (fun _ => E) (cells (2 * L + 1)), map (fun _ => 1) (cells (2 * L + 1)))).
  { unfold massK. rewrite (at_rest psi L E) by assumption. reflexivity. }
  assert (K1 : massK L (map F (LM_range 0 L)) = Ok (map (fun _ => E) (cells (2 * L + 1)), map (fun _ => 1) (cells (2 * L + 1)))).
  { unfold massK. rewrite (at_rest (map F (LM_range 0 L)) L E); [reflexivity|exact H4F|exact HL| |exact HE]. apply (momentum_low psi); [|exact HM].
    intros l m Hl Hm. rewrite mapped_at by lia. rewrite VF by lia. destruct (Z.ltb_spec l 2); [reflexivity|lia]. }
  assert (EF : norm_from_2 (map F (LM_range 0 L)) = (fun _ => Fin 0)).
  { rewrite (LM_range_split 0 2 L) by lia. rewrite map_app.
    assert (Zh : map F (LM_range 2 L) = map (fun _ => C0) (LM_range 2 L)).
    { apply map_ext_in. intros [l m] I. apply LM_range_In in I. rewrite VF by lia. destruct (Z.ltb_spec l 2); [lia|reflexivity]. }
    rewrite Zh. transitivity (norm_from_2 (map (fun lm => if (fst lm <? 2)%Z then F lm else C0) (LM_range 0 L))).
    - rewrite (LM_range_split 0 2 L) by lia. rewrite map_app. f_equal. f_equal; apply map_ext_in; intros [l m] I; apply LM_range_In in I; cbn [fst];
        destruct (Z.ltb_spec l 2); (reflexivity || lia).
    - apply high_zero; [exact HL|]. intros l m Hl. cbn [fst]. destruct (Z.ltb_spec l 2); [lia|reflexivity]. }
  assert (DT : drop_translation a = a).
  { assert (Ha := Ma). unfold Kwargs_Proofs.has_modes in Ha. clear - Ha Va HL.
    assert (A0 := Va 0%Z 0%Z ltac:(lia) ltac:(lia)). assert (A1 := Va 1%Z (-1)%Z ltac:(lia) ltac:(lia)). assert (A2 := Va 1%Z 0%Z ltac:(lia) ltac:(lia)). assert (A3 := Va 1%Z 1%Z ltac:(lia) ltac:(lia)).
    unfold mode_at in *. cbn in A0, A1, A2, A3. clear Va.
    destruct a as [|c0 [|c1 [|c2 [|c3 r]]]]; [exfalso; cbn in Ha; nia|exfalso; cbn in Ha; nia|exfalso; cbn in Ha; nia|exfalso; cbn in Ha; nia|].
    change (Z.to_nat 0) with 0%nat in A0. change (Pos.to_nat 1) with 1%nat in A1. change (Pos.to_nat 2) with 2%nat in A2. change (Pos.to_nat 3) with 3%nat in A3.
    cbn in A0, A1, A2, A3. subst. reflexivity. }
  split; [|split; [exact Va|]].
  - unfold supertranslation_to_superrest, supertranslation_solver, run. destruct (Z.to_nat N) as [|k] eqn:EN; [lia|]. cbn [solve].
    assert (XP : xlt PInf tol = false) by (destruct tol; reflexivity). rewrite XP. unfold super_body at 1. cbn [ss_alpha ss_psi ss_mk].
    rewrite M0. cbn [rbind]. unfold mass_for at 1. rewrite K0. cbn [rbind fst snd]. rewrite Eq. cbn [rbind].
    replace (vadd (map (fun _ => 0) (cells (2 * L + 1))) (on_grid L a)) with (on_grid L a) by (symmetry; apply vadd_zero). rewrite M1. cbn [rbind]. unfold mass_for at 1. rewrite K1. cbn [rbind fst snd pymin xmin1]. rewrite EF.
    cbn [xlt app ss_alpha].
    assert (SV : forall st b, solve (sstate (list R) (list C)) (list R) (super_body (list R) (list C) vadd (moreschi spline map2salm t (map (fun _ => psi) t) L L) (massK L) (alpha_perturbation map2salm L) None norm_from_2)
      (ss_alpha (list R) (list C)) k 1 tol (Fin 0) [PInf; Fin 0] st b = Ok (b, [PInf; Fin 0])).
    { intros st b. destruct k; cbn [solve]; [reflexivity|]. rewrite Ht. reflexivity. }
    rewrite SV. cbn [rbind]. rewrite on_grid_modes by (assumption || lia). rewrite DT. reflexivity.
  - exists (map F (LM_range 0 L)). split; [exact M1|]. intros l m Hl Hm. rewrite mapped_at by assumption. apply VF; assumption.
Qed.
End Pass.

(** ** Degrees of the data and of the grid must agree *)
Lemma swsh_20 : forall q, qnorm2 q = 1 -> swsh 0 2 0 q = RtoC (sqrt (5 / (4 * PI)) * ((3 * snd (direction q) ^ 2 - 1) / 2)).
Proof.
  intros q Hq. rewrite swsh_in by lia. rewrite direction_formula by exact Hq. unfold wigner_D. cbv zeta. change (Z.to_nat (2 * 2)) with 4%nat.
  change (Z.to_nat (2 + - 0)) with 2%nat. change (Z.to_nat (2 + 0)) with 2%nat. change (IZR (2 * 2 + 1)) with 5. change (sgn 0) with 1. rewrite Rmult_1_l.
  assert (W : wnorm 4 2 / wnorm 4 2 = 1).
  { apply Rinv_r. unfold wnorm. apply Rgt_not_eq, sqrt_lt_R0. cbn. lra. }
  rewrite W. cbn [seq csum]. unfold wterm. cbn [Nat.leb Nat.add andb Nat.sub bin INR pow Cpow snd].
  set (k := sqrt _). destruct q as [w x y z]. unfold qnorm2 in Hq. cbn [qw qx qy qz] in *. unfold part_a, part_b. cbn [qw qx qy qz].
  assert (S : w * w + z * z + (x * x + y * y) = 1) by lra. set (D := w * w + z * z - x * x - y * y).
  replace (3 * (D * (D * 1)) - 1) with (3 * (D * (D * 1)) - (w * w + z * z + (x * x + y * y)) * (w * w + z * z + (x * x + y * y))) by (rewrite S; ring).
  unfold D. apply C_eq; cbn; field.
Qed.
Lemma in_combine_ex : forall A B (l : list A) (l' : list B) x, length l = length l' -> In x l -> exists y, In (x, y) (combine l l').
Proof.
  induction l as [|a l IH]; intros [|b l'] x H I; try discriminate; [destruct I|]. destruct I as [-> |I]; [exists b; left; reflexivity|].
  destruct (IH l' x) as [y Hy]; [injection H as H; exact H|exact I|]. exists y. right. exact Hy.
Qed.
Section Sizes.
Variable spline : list R -> list R -> res (R -> R).
Variable map2salm : Z -> Z -> list C -> Z -> Z -> list C.
(** With ell_max larger than that of the data the loop runs off the grid. *)
Theorem C70_larger_refused : forall t rows hi L alpha, (0 <= hi < L)%Z -> (forall y, length y = length rows -> exists f, spline t y = Ok f) ->
  (forall row, In row rows -> (4 <= length row)%nat) -> length alpha = length (cells (2 * L + 1)) ->
  moreschi spline map2salm t rows hi L alpha = Err IndexError.
Proof.
  intros t rows hi L alpha HL HS HR HA. unfold moreschi.
  assert (M : exists mks, each (fun row => rest_mass_K row L) rows = Ok mks /\ length mks = length rows).
  { destruct (each_exists _ _ (fun row => rest_mass_K row L) (fun _ _ => True) rows) as (ys & E & F).
    - intros row I. specialize (HR row I). unfold rest_mass_K, momentum. destruct (Nat.ltb_spec (length row) 4); [lia|].
      destruct (charge_vector _) as [e p]. cbn [rbind]. destruct (Z.ltb_spec L 1); [lia|]. eexists. split; [reflexivity|constructor].
    - exists ys. split; [exact E|]. apply Forall2_len in F. symmetry. exact F. }
  destruct M as (mks & -> & LM'). cbn [rbind].
  assert (E : each (interpolated spline t rows (map snd mks) hi) (combine (cells (2 * L + 1)) (combine (seq 0 (length (cells (2 * L + 1)))) alpha)) = Err IndexError).
  { apply each_err.
    - intros [[i j] [k v]] _. unfold interpolated. cbn [fst snd]. destruct (_ || _)%bool; [right; reflexivity|left].
      destruct (HS (map (fun row => re (dotl row (SWSH 0 hi (node (2 * hi + 1) (i, j))))) rows)) as [f ->]; [apply map_length|]. cbn [rbind].
      destruct (HS (map (fun K => nth k K 0) (map snd mks))) as [g ->]; [rewrite !map_length; exact LM'|]. eexists. reflexivity.
    - destruct (in_combine_ex _ _ (cells (2 * L + 1)) (combine (seq 0 (length (cells (2 * L + 1)))) alpha) ((2 * hi + 1)%Z, 0%Z)) as [[k v] I].
      + rewrite combine_length, seq_length, HA. symmetry. apply Nat.min_id.
      + apply cells_In. lia.
      + exists ((2 * hi + 1)%Z, 0%Z, (k, v)). split; [exact I|]. unfold interpolated. cbn [fst snd]. rewrite Z.leb_refl. reflexivity. }
  rewrite E. reflexivity.
Qed.
(** With a smaller one the data are evaluated in the directions of their own grid and decomposed on the other: a quadrupole at rest acquires a dipole. *)
Definition quadrupole : list C := [constant_as_ell_0_mode (-1); C0; C0; C0; C0; C0; C1; C0; C0].
Ltac qmodes := unfold mode_at; repeat match goal with |- context[Z.to_nat ?x] => let y := eval vm_compute in (Z.to_nat x) in change (Z.to_nat x) with y end; cbn [nth quadrupole].
Theorem C70_smaller_refuted : forall t, exact_on map2salm 1 -> keeps_constants spline t ->
  Kwargs_Proofs.has_modes quadrupole 2 /\ is_real quadrupole 2 /\ carries_momentum quadrupole 1 (0, 0, 0)
  /\ exists psi', moreschi spline map2salm t (map (fun _ => quadrupole) t) 2 1 (on_grid 1 [C0; C0; C0; C0]) = Ok psi' /\ mode_at psi' 1 0 <> C0.
Proof.
  intros t HX HS. assert (Hq : Kwargs_Proofs.has_modes quadrupole 2) by reflexivity.
  assert (HM : carries_momentum quadrupole 1 (0, 0, 0)).
  { unfold carries_momentum, has_parts, freal, fbar, fscale, fadd, mode_at. cbn [Z.opp Z.add].
    change (Z.to_nat (0 * 0 + 0 + 0)) with 0%nat. change (Z.to_nat (1 * 1 + 1 + -1)) with 1%nat. change (Z.to_nat (1 * 1 + 1 + 0)) with 2%nat. change (Z.to_nat (1 * 1 + 1 + 1)) with 3%nat.
    cbn [nth quadrupole]. change (sgn 0) with 1. change (sgn (-1)) with (-1). change (sgn 1) with (-1).
    unfold constant_as_ell_0_mode, v3scale, vector_as_ell_1_modes. split; [apply C_eq; cbn; field|].
    apply f_equal2; [|apply f_equal2; [|apply f_equal2; [|reflexivity]]]; apply C_eq; cbn; ring. }
  split; [exact Hq|]. split; [|split; [exact HM|]].
  { intros l m Hl Hm. assert (l = 0 \/ l = 1 \/ l = 2)%Z as [-> |[-> | ->]] by lia.
    - assert (m = 0)%Z as -> by lia. qmodes. change (sgn 0) with 1. unfold constant_as_ell_0_mode. apply C_eq; cbn [re im Cscale Conj RtoC]; ring.
    - assert (m = -1 \/ m = 0 \/ m = 1)%Z as [-> |[-> | ->]] by lia; qmodes; apply C_eq; cbn [re im Cscale Conj C0]; ring.
    - assert (m = -2 \/ m = -1 \/ m = 0 \/ m = 1 \/ m = 2)%Z as [-> |[-> |[-> |[-> | ->]]]] by lia; qmodes; change (sgn 0) with 1; apply C_eq; cbn [re im Cscale Conj C0 C1]; ring. }
  unfold moreschi. rewrite (each_ok _ _ _ (fun _ => (1, map (fun _ => 1) (cells (2 * 1 + 1))))).
  2: { intros row I. apply in_map_iff in I. destruct I as (? & <- & _). apply at_rest; [cbn; lia|lia|exact HM|lra]. }
  cbn [rbind]. rewrite !map_map. cbn [snd]. set (n := (2 * 1 + 1)%Z). set (n' := (2 * 2 + 1)%Z).
  rewrite (each_ok _ _ _ (fun x => (re (field 0 2 (mode_at quadrupole) (node n' (fst x))), 1))).
  2: { intros [[i j] [k v]] I. cbn [fst]. apply in_combine_l in I as I1. apply in_combine_r in I. apply in_combine_l in I. apply in_seq in I.
    apply cells_In in I1. unfold interpolated. cbn [fst snd]. fold n'. destruct (Z.leb_spec n' i); [unfold n, n' in *; lia|]. destruct (Z.leb_spec n' j); [unfold n, n' in *; lia|]. cbn [orb].
    rewrite !map_map. rewrite row_field by (assumption || lia).
    destruct (HS (re (field 0 2 (mode_at quadrupole) (node n' (i, j))))) as (f & Ef & Vf). rewrite Ef. cbn [rbind].
    replace (map (fun _ : R => nth k (map (fun _ : Z * Z => 1) (cells n)) 0) t) with (map (fun _ : R => 1) t).
    2: { apply map_ext. intros _. symmetry. rewrite (nth_indep _ 0 1) by (rewrite map_length; lia). apply (map_nth (fun _ : Z * Z => 1) (cells n) (0%Z, 0%Z) k). }
    destruct (HS 1) as (g & Eg & Vg). rewrite Eg. cbn [rbind]. rewrite Vf, Vg. reflexivity. }
  cbn [rbind]. rewrite (map_fst_combine _ _ _ (fun ij => (re (field 0 2 (mode_at quadrupole) (node n' ij)), 1))).
  2: { unfold on_grid. rewrite combine_length, seq_length, map_length. fold n. symmetry. apply Nat.min_id. }
  assert (Zm : Kwargs_Proofs.has_modes [C0; C0; C0; C0] 1) by reflexivity.
  assert (Z0 : forall l m, mode_at [C0; C0; C0; C0] l m = C0) by (intros l m; unfold mode_at; destruct (Z.to_nat _) as [|[|[|[|[|]]]]]; reflexivity).
  assert (Zr : is_real [C0; C0; C0; C0] 1) by (intros l m _ _; rewrite !Z0; apply C_eq; cbn; ring).
  unfold n. rewrite on_grid_modes by (assumption || lia). rewrite salm2map_field by (lia || apply scaled_modes; assumption).
  rewrite combine_maps, map_map.
  set (k5 := sqrt (5 / (4 * PI))). set (c1 := k5 * 3 / 4). set (y1 := / 2 * sqrt (3 / PI)).
  assert (P := PI_RGT_0). assert (K5 : 0 < k5) by (apply sqrt_lt_R0, Rdiv_lt_0_compat; lra). assert (Y1p : 0 < y1) by (apply Rmult_lt_0_compat; [lra|apply sqrt_lt_R0, Rdiv_lt_0_compat; lra]).
  set (out := fun l m : Z => if (l =? 0)%Z then RtoC ((-1 + k5 / 4) * sqrt (4 * PI)) else if (m =? 0)%Z then RtoC (c1 / y1) else C0).
  assert (EV : map (fun x => let '(p, k, d) := (re (field 0 2 (mode_at quadrupole) (node n' x)), 1, field 0 1 (mode_at (D_op [C0; C0; C0; C0] 1)) (node (2 * 1 + 1) x)) in Cscale (/ k ^ 3) (RtoC p - d)%C) (cells (2 * 1 + 1))
             = map (fun ij => field 0 1 out (node (2 * 1 + 1) ij)) (cells (2 * 1 + 1))).
  { apply map_ext_in. intros [i j] I. apply cells_In in I.
    rewrite (field_ext 0 1 (mode_at (D_op [C0; C0; C0; C0] 1)) (fun _ _ => C0)), field_zero.
    2: { intros l m Hl Hm. unfold D_op. rewrite scaled_at by (exact Zm || cbn in Hl; lia). rewrite Z0. apply C_eq; cbn; ring. }
    set (q := node (2 * 1 + 1) (i, j)). set (q' := node n' (i, j)).
    assert (F1 : field 0 1 out q = (RtoC ((-1 + k5 / 4) * sqrt (4 * PI)) * Y0 + RtoC (c1 / y1) * Y1 0 (direction q))%C).
    { unfold field. change (LM_range 0 1) with [(0, 0); (1, -1); (1, 0); (1, 1)]%Z. cbn [csum fst snd]. unfold out. cbn [Z.eqb].
      rewrite swsh_00, (swsh_1m 0) by (apply node_unit || lia). ring. }
    assert (F2 : field 0 2 (mode_at quadrupole) q' = (constant_as_ell_0_mode (-1) * Y0 + RtoC (k5 * ((3 * snd (direction q') ^ 2 - 1) / 2)))%C).
    { unfold field. change (LM_range 0 2) with [(0, 0); (1, -1); (1, 0); (1, 1); (2, -2); (2, -1); (2, 0); (2, 1); (2, 2)]%Z. cbn [csum fst snd].
      rewrite swsh_00, swsh_20 by apply node_unit. fold k5. qmodes. ring. }
    rewrite F1, F2. unfold q, q', node. cbn [fst snd]. rewrite !direction_spherical. cbn [snd]. unfold Y0, Y1, constant_as_ell_0_mode. cbn [Z.eqb].
    assert (S : 0 < sqrt (4 * PI)) by (apply sqrt_lt_R0; lra). fold y1.
    assert (T : 3 * cos (theta_at n' i) ^ 2 = 3 / 2 * (1 + cos (theta_at (2 * 1 + 1) i))).
    { assert (T1 : theta_at n' i = IZR i * (PI / 4)) by reflexivity. assert (T2 : theta_at (2 * 1 + 1) i = 2 * (IZR i * (PI / 4))).
      { change (theta_at (2 * 1 + 1) i) with (IZR i * (PI / 2)). field. }
      rewrite T1, T2, cos_2a_cos. set (c := cos _). field. }
    rewrite T. unfold c1. apply C_eq; cbn; field; lra. }
  rewrite EV. eexists. split; [reflexivity|]. rewrite decomposed by (assumption || lia). rewrite mapped_at by lia. cbn [fst snd]. unfold out. cbn [Z.eqb].
  intros Q. apply (f_equal re) in Q. cbn in Q. assert (0 < c1 / y1) by (apply Rdiv_lt_0_compat; [unfold c1; lra|exact Y1p]). lra.
Qed.
End Sizes.

(** ** The fit to the centre-of-mass charge *)
Definition misfit (t y : list R) (s c : R) : R := fold_right Rplus 0 (map (fun p => (s * fst p + c - snd p) ^ 2) (combine t y)).
(** numpy.polyfit with deg=1 minimises the sum of squares. *)
Definition least_squares (polyfit : list R -> list R -> R * R) : Prop := forall t y, length y = length t -> (exists t1 t2, In t1 t /\ In t2 t /\ t1 <> t2) ->
  forall s c, misfit t y (fst (polyfit t y)) (snd (polyfit t y)) <= misfit t y s c.
Lemma misfit_line : forall t s c s' c', misfit t (map (fun x => s' * x + c') t) s c = fold_right Rplus 0 (map (fun x => (s * x + c - (s' * x + c')) ^ 2) t).
Proof. intros t s c s' c'. unfold misfit. induction t as [|x t IH]; cbn [map combine fold_right fst snd]; [reflexivity|]. rewrite IH. reflexivity. Qed.
Lemma squares_zero : forall A (f : A -> R) l, fold_right Rplus 0 (map (fun x => f x ^ 2) l) <= 0 -> forall x, In x l -> f x = 0.
Proof.
  intros A f l H. assert (N : forall l, 0 <= fold_right Rplus 0 (map (fun x => f x ^ 2) l)).
  { induction l0 as [|a l0 IH]; cbn [map fold_right]; [lra|]. assert (0 <= f a ^ 2) by apply pow2_ge_0. lra. }
  induction l as [|a l IH]; intros x I; [destruct I|]. cbn [map fold_right] in H. assert (0 <= f a ^ 2) by apply pow2_ge_0. assert (Nl := N l).
  destruct I as [<- |I]; [|apply IH; [lra|exact I]]. assert (Q : f a ^ 2 = 0) by lra. destruct (Req_dec (f a) 0) as [Z|Z]; [exact Z|exfalso].
  assert (0 < f a * f a) by (apply Rsqr_pos_lt; exact Z). cbn in Q. lra.
Qed.
Lemma fit_line : forall polyfit t s c, least_squares polyfit -> (exists t1 t2, In t1 t /\ In t2 t /\ t1 <> t2) ->
  polyfit t (map (fun x => s * x + c) t) = (s, c).
Proof.
  intros polyfit t s c H D. assert (Q := H t (map (fun x => s * x + c) t) (map_length _ _) D s c). destruct (polyfit t _) as [s' c'] eqn:E. cbn [fst snd] in Q.
  rewrite !misfit_line in Q. destruct D as (t1 & t2 & I1 & I2 & Ne).
  assert (Z : fold_right Rplus 0 (map (fun x => (s * x + c - (s * x + c)) ^ 2) t) = 0).
  { clear. induction t as [|x t IH]; cbn [map fold_right]; [reflexivity|]. rewrite IH. ring. }
  rewrite Z in Q. assert (A1 := squares_zero _ (fun x => s' * x + c' - (s * x + c)) t Q t1 I1). assert (A2 := squares_zero _ (fun x => s' * x + c' - (s * x + c)) t Q t2 I2). cbn in A1, A2.
  assert (B : (s' - s) * (t1 - t2) = 0) by lra. apply Rmult_integral in B. destruct B as [B|B]; [|lra]. assert (s' = s) by lra. subst s'. f_equal. lra.
Qed.
(** A centre-of-mass charge g + v t gives the boost with velocity v and the translation by g: the supertranslation function is -g.n *)
Theorem C70_com_fit : forall polyfit t g v, least_squares polyfit -> (exists t1 t2, In t1 t /\ In t2 t /\ t1 <> t2) ->
  let b := from_CoM_charge polyfit (map (fun x => v3add (v3scale x v) g) t) t in
  boost b = v /\ rot b = q1 /\ length (sup b) = 4%nat /\ forall n, alpha01 (sup b) n = RtoC (- dot3 g n).
Proof.
  intros polyfit t [[gx gy] gz] [[vx vy] vz] H D. cbv zeta. unfold from_CoM_charge. rewrite !map_map.
  assert (E : forall f : R -> R, forall s c, (forall x, f x = s * x + c) -> polyfit t (map f t) = (s, c)).
  { intros f s c Hf. rewrite (map_ext f (fun x => s * x + c) Hf). apply fit_line; assumption. }
  rewrite (E _ vx gx), (E _ vy gy), (E _ vz gz); try (intros x; cbn; ring).
  cbn [fst snd boost rot sup]. repeat split. intros [[a b] c]. unfold alpha01, mode_at. cbn [map vector_as_ell_1_modes].
  change (Z.to_nat (0 * 0 + 0 + 0)) with 0%nat. change (Z.to_nat (1 * 1 + 1 + -1)) with 1%nat. change (Z.to_nat (1 * 1 + 1 + 0)) with 2%nat. change (Z.to_nat (1 * 1 + 1 + 1)) with 3%nat.
  cbn [nth]. unfold Y0, Y1, dot3. cbn [Z.eqb Pos.eqb]. destruct sqrt_consts as (S1 & S2 & _).
  set (p := sqrt (2 * PI / 3)) in *. set (r := sqrt (3 / (2 * PI))) in *. set (w := sqrt 2) in *. set (u := sqrt (3 / PI)) in *.
  assert (N4 : sqrt (4 * PI) <> 0) by (apply Rgt_not_eq, sqrt_lt_R0; pose proof PI_RGT_0; lra).
  apply C_eq; cbn [re im Cadd Cmul Copp Cscale RtoC C0].
  - transitivity (- ((p * r) * (gx * a + gy * b) + (p * w * u) / 2 * gz * c)); [field; exact N4|]. rewrite S1, S2. field.
  - field. exact N4.
Qed.

(** ** Cases *)
(** Data moving in the x direction, and in the y direction *)
Definition moving (P : vec3) : list C := constant_as_ell_0_mode (-5) :: vector_as_ell_1_modes (v3scale (-3) P).
Lemma moving_carries : forall P, carries_momentum (moving P) 5 P.
Proof.
  intros [[x y] z]. unfold carries_momentum, has_parts, freal, fbar, fscale, fadd, mode_at, moving. cbn [Z.opp Z.add].
  change (Z.to_nat (0 * 0 + 0 + 0)) with 0%nat. change (Z.to_nat (1 * 1 + 1 + -1)) with 1%nat. change (Z.to_nat (1 * 1 + 1 + 0)) with 2%nat. change (Z.to_nat (1 * 1 + 1 + 1)) with 3%nat.
  cbn [v3scale vector_as_ell_1_modes nth]. change (sgn 0) with 1. change (sgn (-1)) with (-1). change (sgn 1) with (-1). unfold constant_as_ell_0_mode.
  split; [apply C_eq; cbn; field|]. apply f_equal2; [|apply f_equal2; [|apply f_equal2; [|reflexivity]]]; apply C_eq; cbn; field.
Qed.
Lemma norm3_3 : forall P, In P [(3, 0, 0); (0, 3, 0)] -> norm3 P = 3.
Proof. intros P [<- |[<- |[]]]; unfold norm3; [replace (_ + _) with (3 * 3) by ring|replace (_ + _) with (3 * 3) by ring]; apply sqrt_square; lra. Qed.
Example C70_case_moving :
  rest_mass_K (moving (3, 0, 0)) 1 = Ok (4, map (fun ij => kfactor (3 / 5, 0, 0) (at_cell 1 ij)) (cells 3))
  /\ (exists K, rest_mass_K (moving (0, 3, 0)) 1 = Ok (4, K) /\ K <> map (fun ij => kfactor (0, 3 / 5, 0) (at_cell 1 ij)) (cells 3)).
Proof.
  assert (N1 := norm3_3 (3, 0, 0) ltac:(left; reflexivity)). assert (N2 := norm3_3 (0, 3, 0) ltac:(right; left; reflexivity)).
  assert (S : sqrt (5 ^ 2 - 3 ^ 2) = 4) by (replace (5 ^ 2 - 3 ^ 2) with (4 * 4) by ring; apply sqrt_square; lra).
  assert (V1 : velocity 5 (3, 0, 0) = (3 / 5, 0, 0)) by (unfold velocity, v3scale; apply f_equal2; [apply f_equal2|]; field).
  assert (V2 : velocity 5 (0, 3, 0) = (0, 3 / 5, 0)) by (unfold velocity, v3scale; apply f_equal2; [apply f_equal2|]; field).
  split.
  - rewrite (C70_conformal_factor_in_plane _ 1 5 (3, 0, 0)); [rewrite N1, S, V1; reflexivity|cbn; lia|lia|apply moving_carries|rewrite N1; lra|reflexivity].
  - assert (E := C70_conformal_factor (moving (0, 3, 0)) 1 5 (0, 3, 0) ltac:(cbn; lia) ltac:(lia) (moving_carries _) ltac:(rewrite N2; lra)).
    eexists. split; [rewrite E, N2, S; reflexivity|]. rewrite <- V2.
    refine (C70_conformal_factor_refuted (moving (0, 3, 0)) 1 5 (0, 3, 0) _ _ (moving_carries _) _ _ _ _ E); [cbn; lia|lia|rewrite N2; lra|cbn; lra].
Qed.
(** A quadrupole at rest: one pass, with the supertranslation (4 / 24) Y20 *)
Example C70_case_stationary : exists spline map2salm a,
  supertranslation_to_superrest spline map2salm [0; 1; 2; 3] (map (fun _ => quadrupole) [0; 1; 2; 3]) 2 2 10 (Fin (/ 10 ^ 12)) = Ok (mkbms a q1 (0, 0, 0), [PInf; Fin 0])
  /\ mode_at a 2 0 = RtoC (1 / 6).
Proof.
  destruct (C68_inverse_exists 0 5 5) as [m2s HX]. destruct (C68_inverse_exists 0 3 3) as [m2s' HX'].
  set (sp := fun (_ y : list R) => @Ok (R -> R) (fun _ => hd 0 y)).
  assert (HS : keeps_constants sp [0; 1; 2; 3]) by (intros c; exists (fun _ => c); split; [reflexivity|intros; reflexivity]).
  destruct (C70_smaller_refuted sp m2s' [0; 1; 2; 3] HX' HS) as (Hm & Hr & Hc & _).
  destruct (C70_stationary sp m2s [0; 1; 2; 3] quadrupole 2 1 10 (Fin (/ 10 ^ 12)) ltac:(lia) HX HS Hm Hr Hc ltac:(lra) ltac:(lia)) as (a & _ & _ & E & Va & _).
  { unfold xlt. destruct (Rltb_spec 0 (/ 10 ^ 12)) as [|N]; [reflexivity|exfalso; apply N; apply Rinv_0_lt_compat; apply pow_lt; lra]. }
  exists sp, m2s, a. split; [exact E|]. rewrite Va by lia. cbn [Z.ltb Z.compare Pos.compare Pos.compare_cont].
  change (mode_at quadrupole 2 0) with C1. change (IZR ((2 + 2) * (2 + 1) * 2 * (2 - 1))) with 24. apply C_eq; cbn; field.
Qed.
