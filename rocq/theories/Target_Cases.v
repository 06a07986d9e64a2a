(** C85: concrete cases. *)
From Coq Require Import ZArith Reals List Bool String Lia Lra.
From Verif Require Import Common Cplx Quat Modes_Model Create_Model Ops_Model Times_Model Tables_Model Modal_Model Kwargs_Model Transform_Model Rotate_Model
  Modes_Proofs Modal_Proofs Rotate_Proofs Times_Proofs Kwargs_Proofs Validity_Proofs Transform_Proofs Wigner_Model Wigner_Proofs Sphere_Model Sphere_Proofs Harmonics_Proofs
  Pipeline_Model Pipeline_Proofs ABD_Model ABD_Proofs ABDBalance_Proofs ABDPointwise_Proofs Motion_Model Motion_Proofs Superrest_Model Superrest_Proofs Spin_Model Spin_Proofs Lorentz_Proofs BMS_Proofs
  Abdpipe_Model Abdpipe_Proofs Constraints_Model Constraints_Proofs Charges_Model Charges_Proofs Product_Proofs Bianchi_Proofs Bianchimodes_Proofs Averages_Proofs Nonradiative_Proofs Rest_Model Passes_Model Passes_Proofs
  Target_Model Target_Proofs.
Import ListNotations.
Open Scope R_scope.

(** ** The superrest frame *)
(** One round that finds a rotation with a boost and a translation ([sample]) *)
Definition ex_solver (name : string) (b : bmst) : res bmst := Ok (sample SRB 12).
Lemma sample_usable : forall e, e = 12%Z -> usable affine (sample SRB e).
Proof.
  intros e ->. destruct (C31_case SRB 12 (or_introl eq_refl)) as (G & A & _). split; [exact G|]. split; [exact A|reflexivity].
Qed.
Lemma affine_const : forall c, affine (fun _ => c).
Proof. intros c. exists c, (0, 0, 0). intros n _. destruct n as [[x y] z]. unfold dotv. ring. Qed.
Example C85_case_superrest : exists r e, superrest_transformation svd2 (fun _ f => f) ex_solver false (fun _ => Err ValueError) (fun _ => Ok (Fin 1, Fin 1, Fin 1)) 7 1 (mktols (Fin 0) (Fin 0) (Fin 0)) ["rotation"%string] = Ok (r, e) /\
  Forall (known false) ["rotation"%string] /\ (forall A, mdet A = C1 -> is_svd A (svd2 A)) /\ usable affine (sample SRB 12) /\
  (forall p, on_scri p -> meaning r p = let p' := meaning (sample SRB 12) (fst p - 7, snd p) in (fst p' + 7, snd p')) /\ exists p, on_scri p /\ meaning (sample SRB 12) p <> p.
Proof.
  assert (K : Forall (known false) ["rotation"%string]) by (constructor; [right; left; reflexivity|constructor]).
  assert (X : exists r e, superrest_transformation svd2 (fun _ f => f) ex_solver false (fun _ => Err ValueError) (fun _ => Ok (Fin 1, Fin 1, Fin 1)) 7 1 (mktols (Fin 0) (Fin 0) (Fin 0)) ["rotation"%string] = Ok (r, e)).
  { unfold superrest_transformation. destruct (time_only_spec affine affine_const 7) as (tt & Et & Nt & _). rewrite Et. cbn [rbind]. unfold map_to_superrest.
    destruct (after_ok svd2 svd2_ok (fun _ f => f) affine affine_ext affine_seen affine_add (fun _ f _ n _ => eq_refl) tt nothing (proj1 Nt) (proj1 (nothing_normal affine affine_const))) as (b0 & E0 & N0 & _). rewrite E0. cbn [rbind].
    change (Z.to_nat 1) with 1%nat. unfold outer. cbn [converged o_err]. unfold pass, apply_all, apply_one.
    change (String.eqb "rotation" "supertranslation") with false. change (String.eqb "rotation" "rotation") with true. unfold ex_solver. cbn [orb rbind o_bms].
    destruct (after_ok svd2 svd2_ok (fun _ f => f) affine affine_ext affine_seen affine_add (fun _ f _ n _ => eq_refl) (sample SRB 12) b0 (sample_usable 12 eq_refl) (proj1 N0)) as (b1 & E1 & N1 & _). rewrite E1. cbn [rbind final_error].
    unfold final_error. cbn [rbind o_bms o_err o_new map mean pymin]. cbn.
    destruct (inverse_ok svd2 svd2_ok (fun _ f => f) affine affine_ext affine_seen affine_opp (fun _ f _ n _ => eq_refl) tt (proj1 Nt) (proj2 Nt)) as (i & Ei & Ui & _). rewrite Ei. cbn [rbind].
    destruct (after_ok svd2 svd2_ok (fun _ f => f) affine affine_ext affine_seen affine_add (fun _ f _ n _ => eq_refl) i b1 Ui (proj1 N1)) as (r & Er & _). rewrite Er. cbn [rbind]. eexists. eexists. reflexivity. }
  destruct X as (r & e & E). exists r, e. split; [exact E|]. split; [exact K|]. split; [exact svd2_ok|]. split; [exact (sample_usable 12 eq_refl)|]. split; [|apply (C31_case SRB 12 (or_introl eq_refl))].
  destruct (C85_superrest svd2 svd2_ok (fun _ f => f) affine affine_ext affine_seen affine_add affine_opp (fun _ f _ n _ => eq_refl) affine_const ex_solver false (fun _ => Err ValueError) (fun _ => Ok (Fin 1, Fin 1, Fin 1))
    ltac:(intros name b n _ Q; injection Q as <-; exact (sample_usable 12 eq_refl)) ltac:(intros b e' n _ Q; discriminate) 7 1%Z _ _ r e K E) as (_ & b0 & ns & b & k & N0 & M0 & Sg & Kk & L & M).
  assert (k = 1%nat) by (cbn in Kk; lia). subst k. cbn in L. intros p Hp. rewrite (M p Hp).
  inversion Sg as [|b1 n b2 ns' c F Nb Mb Sg']; subst; [discriminate L|]. destruct ns' as [|n' ns']; [|discriminate L].
  assert (n = sample SRB 12). { destruct F as [(name & Q)|(e' & Q)]; [injection Q as <-; reflexivity|discriminate]. } subst n. reflexivity.
Qed.

(** ** Data mapped to their own frame *)
Definition ex_u : list R := [-3; -2; 0; 2; 3].
Definition ex_bb : bondi := mkbondi zmodes (fmuli (one_mode 1 1)) (fopp (one_mode 0 0)) zmodes zmodes zmodes.
Definition constant (bb : bondi) : adata := mkad (sampled_data 2 ex_u (fun _ => bb) InertialFrame) Sum.
Definition ex_a : adata := constant ex_bb.
Lemma ex_u_inc : Transform_Proofs.increasing ex_u.
Proof. repeat constructor; lra. Qed.
Lemma ex_u_rising : rising ex_u.
Proof.
  intros i j [H1 H2]. cbn in H2. destruct i as [|[|[|[|[|i]]]]], j as [|[|[|[|[|j]]]]]; try lia; cbn; lra.
Qed.
Lemma ex_series : series ex_a.
Proof. split; [cbn; lia|]. split; [cbn; lia|]. exact ex_u_rising. Qed.
Lemma ex_bb_upto : forall f, (f < 6)%nat -> upto 2 (bfield ex_bb f).
Proof.
  intros f Hf l m H. assert (A := one_upto 1 1 2 ltac:(lia) ltac:(lia) l m H). assert (B := one_upto 0 0 2 ltac:(lia) ltac:(lia) l m H).
  destruct f as [|[|[|[|[|[|f]]]]]]; try lia; try reflexivity.
  - change (fmuli (one_mode 1 1) l m = C0). unfold fmuli. rewrite A. cx.
  - change (fopp (one_mode 0 0) l m = C0). unfold fopp. rewrite B. cx.
Qed.
Lemma riemann_scale : forall c f t, riemann 0 (map (Rmult c) f) t = map (Rmult c) (riemann 0 f t).
Proof.
  assert (H : forall c f t acc, riemann (c * acc) (map (Rmult c) f) t = map (Rmult c) (riemann acc f t)).
  { induction f as [|x f IH]; intros [|u t] acc; cbn [map riemann]; try reflexivity. f_equal. rewrite <- IH. f_equal. ring. }
  intros c f t. rewrite <- H. f_equal. ring.
Qed.
Lemma ex_interp : forall t, ad_interpolate ex_dspl ex_a t = Ok (mkad (sampled_data 2 t (fun _ => ex_bb) InertialFrame) Sum).
Proof.
  intros t. destruct (sampled_data_ok 2 ex_u (fun _ => ex_bb) InertialFrame ltac:(lia)) as [O1 S1].
  apply (interpolate_samples ex_dspl ex_a (fun _ => ex_bb) t ex_dspl_derives ltac:(cbn; lia) ex_u_inc ltac:(cbn; lia) S1); [intros u f; apply ex_bb_upto|].
  intros f Hf. exists [bfield ex_bb f]. split; [cbn; lia|]. intros u l m. cbn. unfold fadd, fscale, zmodes. cx.
Qed.

(** The transformation that does nothing, written as map_to_abd_frame hands it on *)
Lemma ex_identity : forall map2salm b, (forall f, (f < 6)%nat -> exact map2salm (spin_of f) 11 11) -> b_rot b = q1 -> b_boost b = (0, 0, 0) ->
  transformed cubic_or_lookup map2salm (fun _ => repeat C0 4) ex_a b = Ok ex_a.
Proof.
  intros mm b HX Hr Hb. unfold transformed, transform_kwargs. rewrite Hb, Hr. cbn [q1 qw qx qy qz]. destruct (sampled_data_ok 2 ex_u (fun _ => ex_bb) InertialFrame ltac:(lia)) as [O1 S1].
  set (k := mkkw _ _ _ _ _ _ _ _). set (k0 := mkkw None None None None None None None None).
  assert (P : abd_process 2 k = abd_process 2 k0).
  { unfold abd_process, k, k0. cbn [k_super k_spacetime k_space k_time k_output_ell_max k_working_ell_max k_rotation k_boost read_super].
    assert (E : pad4 (repeat C0 4) = repeat C0 4) by reflexivity. rewrite E.
    assert (Ec : Kwargs_Model.complete (repeat C0 4) = true) by reflexivity. rewrite Ec.
    destruct (impose_reality_spec (repeat C0 4) 1 ltac:(lia) ltac:(reflexivity)) as (a0 & E0 & Hm & S). rewrite E0. cbn [rbind].
    assert (Z : forall l m, real_part (repeat C0 4) l m = C0).
    { intros l m. unfold real_part, mode_at. assert (N : forall i, nth i (repeat C0 4) C0 = C0) by (intros [|[|[|[|[|i]]]]]; reflexivity). rewrite !N. cx. }
    destruct a0 as [|x0 [|x1 [|x2 [|x3 [|x4 a0]]]]]; unfold Kwargs_Proofs.has_modes in Hm; cbn [List.length] in Hm; try lia.
    assert (X0 := S 0%Z 0%Z ltac:(lia) ltac:(lia)). assert (X1 := S 1%Z (-1)%Z ltac:(lia) ltac:(lia)). assert (X2 := S 1%Z 0%Z ltac:(lia) ltac:(lia)). assert (X3 := S 1%Z 1%Z ltac:(lia) ltac:(lia)).
    rewrite Z in X0, X1, X2, X3. change (x0 = C0) in X0. change (x1 = C0) in X1. change (x2 = C0) in X2. change (x3 = C0) in X3. rewrite X0, X1, X2, X3. reflexivity. }
  unfold ad_transform. change (bd_hi (ad_data ex_a)) with 2%Z. assert (T : abd_transform cubic_or_lookup mm (ad_data ex_a) k = abd_transform cubic_or_lookup mm (ad_data ex_a) k0).
  { unfold abd_transform. change (bd_hi (ad_data ex_a)) with 2%Z. rewrite P. reflexivity. }
  rewrite T. rewrite (C69_identity cubic_or_lookup cubic_or_lookup_passes mm (ad_data ex_a) k0 O1 ex_u_inc ltac:(cbn; lia)); try reflexivity; [| |exact HX].
  - repeat (split; [reflexivity|]). split; [|right; split; reflexivity]. unfold read_rotation. cbn [k0 k_rotation quat_of].
    assert (A : qabs (mkq 1 0 0 0) = 1). { unfold qabs, qnorm2. cbn [qw qx qy qz]. replace (1 * 1 + 0 * 0 + 0 * 0 + 0 * 0) with 1 by ring. apply sqrt_1. }
    rewrite A. destruct (Rltb_spec 1 (3 / 10 ^ 16)); [exfalso; lra|]. unfold qnormalized. rewrite A. cbn [qw qx qy qz]. f_equal. apply quat_eq; cbn; field.
  - intros f i l m Hf Hi Hv Hl. rewrite (S1 f i l m Hf Hi Hv : bmode (ad_data ex_a) f i l m = _). destruct f as [|[|[|[|[|[|f]]]]]]; try lia; try reflexivity.
    + cbn in Hl. change (fmuli (one_mode 1 1) l m = C0). unfold fmuli, one_mode. destruct (Z.eqb_spec l 1); [lia|]. cbn [andb]. cx.
    + destruct Hv. cbn in Hl. lia.
Qed.
Lemma constant_value : forall bb f u l m, (f < 6)%nat -> In (l, m) (LMs 2) -> value_at ex_dspl (constant bb) f u l m = bfield bb f l m.
Proof.
  intros bb f u l m Hf I. apply LMs_In in I. destruct (sampled_data_ok 2 ex_u (fun _ => bb) InertialFrame ltac:(lia)) as [O1 S1]. unfold value_at.
  set (c := bfield bb f l m). assert (E : map (fun j => ms_at (mts_of (constant bb) f) j l m) (seq 0 (List.length (bd_u (ad_data (constant bb))))) = map (cubic c C0 C0 C0) ex_u).
  { assert (V : forall j, (j < 5)%nat -> ms_at (mts_of (constant bb) f) j l m = c).
    { intros j Hj. etransitivity; [apply of_bmode|]. change (bd_hi (ad_data (constant bb))) with 2%Z. destruct (_ && _)%bool eqn:Q; [exact (S1 f j l m Hf Hj ltac:(split; cbn; lia))|].
      exfalso. rewrite !andb_false_iff, !Z.leb_gt in Q. lia. }
    change (map (fun j => ms_at (mts_of (constant bb) f) j l m) [0; 1; 2; 3; 4]%nat = map (cubic c C0 C0 C0) ex_u). unfold ex_u. cbn [map]. rewrite !V by lia. unfold cubic. repeat (apply f_equal2; [cx|]). reflexivity. }
  rewrite E. change (bd_u (ad_data (constant bb))) with ex_u. rewrite (proj1 (ex_dspl_derives ex_u c C0 C0 C0 ex_u_inc ltac:(cbn; lia) u)). unfold cubic. cx.
Qed.
Lemma ex_size : forall u, size 2 (value_at ex_dspl ex_a 1 u) = 1.
Proof.
  intros u. rewrite (size_ext 2 _ (bfield ex_bb 1)) by (intros l m I; apply constant_value; [lia|exact I]). unfold size. change (LMs 2) with [(0, 0); (1, -1); (1, 0); (1, 1); (2, -2); (2, -1); (2, 0); (2, 1); (2, 2)]%Z.
  cbn [rsum fst snd]. change (bfield ex_bb 1) with (fmuli (one_mode 1 1)). unfold fmuli, one_mode, norm2. cbn.  transitivity (sqrt 1); [f_equal; ring|apply sqrt_1].
Qed.
(** Data, and the same data: wherever the superrest frame is, nothing is left to do, and the error is zero. *)
Example C85_case_frame : exists map2salm b, (forall f, (f < 6)%nat -> exact map2salm (spin_of f) 11 11) /\
  map_to_abd_frame cubic_or_lookup map2salm product_table ex_dspl (riemann 0) svd2 (fun _ f => f) (fun _ => repeat C0 4) (fun a => Ok (a, sample SRB 12)) (fun _ _ _ _ => Err ValueError) false ex_a ex_a 0 2 1 = Ok (ex_a, b, Fin 0) /\
  normal affine (sample SRB 12) /\ (exists p, on_scri p /\ meaning (sample SRB 12) p <> p) /\ b_rot b = q1 /\ b_boost b = (0, 0, 0) /\ reference ex_dspl (riemann 0) ex_a [-2; 0; 2] 1 <> 0.
Proof.
  destruct (exact_exists 11) as [mm HX]. set (exd := fun (_ : Z) (f : vec3 -> R) (_ : affine f) (n : vec3) (_ : dotv n n = 1) => eq_refl (f n)).
  assert (Ns : normal affine (sample SRB 12)) by (split; [exact (sample_usable 12 eq_refl)|reflexivity]).
  assert (NN := nothing_normal affine affine_const).
  assert (W3 : window ex_u (0 - 3 / 2 * 2) (0 + 3 / 2 * 2) = Ok ex_u).
  { destruct (nearest_member ex_u (-3) ex_u_rising ltac:(cbn; tauto)) as (i & Ei & Li & Hi). destruct (nearest_member ex_u 3 ex_u_rising ltac:(cbn; tauto)) as (j & Ej & Lj & Hj).
    assert (i = 0%nat) by (destruct i as [|[|[|[|[|i]]]]]; cbn in Hi, Li; try lra; lia). assert (j = 4%nat) by (destruct j as [|[|[|[|[|j]]]]]; cbn in Hj, Lj; try lra; lia). subst i j.
    unfold window. replace (0 - 3 / 2 * 2) with (-3) by field. replace (0 + 3 / 2 * 2) with 3 by field. rewrite Ei, Ej. reflexivity. }
  assert (W2 : window ex_u (0 - 2) (0 + 2) = Ok [-2; 0; 2]).
  { destruct (nearest_member ex_u (-2) ex_u_rising ltac:(cbn; tauto)) as (i & Ei & Li & Hi). destruct (nearest_member ex_u 2 ex_u_rising ltac:(cbn; tauto)) as (j & Ej & Lj & Hj).
    assert (i = 1%nat) by (destruct i as [|[|[|[|[|i]]]]]; cbn in Hi, Li; try lra; lia). assert (j = 3%nat) by (destruct j as [|[|[|[|[|j]]]]]; cbn in Hj, Lj; try lra; lia). subst i j.
    unfold window. replace (0 - 2) with (-2) by field. replace (0 + 2) with 2 by field. rewrite Ei, Ej. reflexivity. }
  assert (W2r : rising [-2; 0; 2]) by (intros i j [H1 H2]; cbn in H2; destruct i as [|[|[|i]]], j as [|[|[|j]]]; try lia; cbn; lra).
  destruct (after_ok svd2 svd2_ok (fun _ f => f) affine affine_ext affine_seen affine_add exd nothing nothing (proj1 NN) (proj1 NN)) as (b0 & E0 & N0 & M0).
  assert (I0 : forall p, on_scri p -> meaning b0 p = p) by (intros p Hp; rewrite M0 by exact Hp; rewrite !(nothing_meaning) by (try exact Hp; rewrite nothing_meaning by exact Hp; exact Hp); reflexivity).
  destruct (identity_unique affine b0 N0 I0) as (R0 & V0 & _).
  destruct (inverse_ok svd2 svd2_ok (fun _ f => f) affine affine_ext affine_seen affine_opp exd (sample SRB 12) (proj1 Ns) (proj2 Ns)) as (i & Ei & Ui & Mi).
  destruct (mul_ok svd2 svd2_ok (fun _ f => f) affine affine_ext affine_seen affine_add exd (sample SRB 12) b0 (proj1 Ns) (proj1 N0)) as (c1 & F1 & N1 & M1).
  destruct (mul_ok svd2 svd2_ok (fun _ f => f) affine affine_ext affine_seen affine_add exd nothing c1 (proj1 NN) (proj1 N1)) as (c2 & F2 & N2 & M2).
  destruct (after_ok svd2 svd2_ok (fun _ f => f) affine affine_ext affine_seen affine_add exd i c2 Ui (proj1 N2)) as (b & F3 & N3 & M3).
  assert (Ib : forall p, on_scri p -> meaning b p = p).
  { intros p Hp. rewrite M3, M2 by exact Hp. rewrite (nothing_meaning (meaning c1 p)) by (apply meaning_scri; [apply N1|exact Hp]). rewrite M1, I0 by exact Hp. apply Mi. exact Hp. }
  destruct (identity_unique affine b N3 Ib) as (Rb & Vb & _).
  assert (EE : rel_err_between_abds ex_dspl (riemann 0) ex_a ex_a (0 - 2) (0 + 2) = Ok (Fin 0)).
  { apply (C85_error_same ex_dspl (riemann 0) riemann_scale ex_a ex_a _ _ [-2; 0; 2] ex_series ex_series eq_refl W2 W2r ltac:(cbn; lia)). reflexivity. }
  exists mm, b. split; [exact HX|]. split.
  - unfold map_to_abd_frame, start. cbn [rbind]. rewrite E0. cbn [rbind]. change (bd_u (ad_data ex_a)) with ex_u. rewrite W3. cbn [rbind]. rewrite ex_interp. cbn [rbind]. change (mkad (sampled_data 2 ex_u (fun _ => ex_bb) InertialFrame) Sum) with ex_a.
    unfold map_to_abd. change (Z.to_nat 1) with 1%nat. unfold abd_loop, one_round. rewrite (ex_identity mm b0 HX R0 V0). cbn [rbind]. rewrite Ei. cbn [rbind]. rewrite F1. cbn [rbind]. rewrite F2. cbn [rbind]. rewrite F3. cbn [rbind].
    rewrite (ex_identity mm b HX Rb Vb). cbn [rbind]. rewrite EE. cbn [rbind pymin xlt xmin1].
    rewrite (ex_identity mm b HX Rb Vb). reflexivity.
  - split; [exact Ns|]. split; [apply (C31_case SRB 12 (or_introl eq_refl))|]. split; [exact Rb|]. split; [exact Vb|].
    unfold reference, over. cbn [map riemann last]. change (bd_hi (ad_data ex_a)) with 2%Z. rewrite !ex_size. lra.
Qed.

(** ** The error of data and twice the data: a third, or a sixth the other way round *)
Definition ex_bb2 : bondi := mkbondi zmodes (fscale 2 (fmuli (one_mode 1 1))) (fscale 2 (fopp (one_mode 0 0))) zmodes zmodes zmodes.
Lemma ex_size2 : forall u, size 2 (value_at ex_dspl ex_a 2 u) = 1.
Proof.
  intros u. rewrite (size_ext 2 _ (bfield ex_bb 2)) by (intros l m I; apply constant_value; [lia|exact I]). unfold size. change (LMs 2) with [(0, 0); (1, -1); (1, 0); (1, 1); (2, -2); (2, -1); (2, 0); (2, 1); (2, 2)]%Z.
  cbn [rsum fst snd]. change (bfield ex_bb 2) with (fopp (one_mode 0 0)). unfold fopp, one_mode, norm2. cbn. transitivity (sqrt 1); [f_equal; ring|apply sqrt_1].
Qed.
Lemma ex_size0 : forall f u, (f < 6)%nat -> f <> 1%nat -> f <> 2%nat -> size 2 (value_at ex_dspl ex_a f u) = 0.
Proof.
  intros f u Hf H1 H2. rewrite (size_ext 2 _ zmodes).
  - unfold size. change (LMs 2) with [(0, 0); (1, -1); (1, 0); (1, 1); (2, -2); (2, -1); (2, 0); (2, 1); (2, 2)]%Z. cbn [rsum fst snd]. unfold zmodes, norm2. cbn. transitivity (sqrt 0); [f_equal; ring|apply sqrt_0].
  - intros l m I. etransitivity; [apply constant_value; [exact Hf|exact I]|]. destruct f as [|[|[|[|[|[|f]]]]]]; try lia; reflexivity.
Qed.
Example C85_case_error : rel_err_between_abds ex_dspl (riemann 0) ex_a (constant ex_bb2) (-2) 2 = Ok (Fin (/ 3)) /\ rel_err_between_abds ex_dspl (riemann 0) (constant ex_bb2) ex_a (-2) 2 = Ok (Fin (/ 6)).
Proof.
  assert (W2 : window ex_u (-2) 2 = Ok [-2; 0; 2]).
  { destruct (nearest_member ex_u (-2) ex_u_rising ltac:(cbn; tauto)) as (i & Ei & Li & Hi). destruct (nearest_member ex_u 2 ex_u_rising ltac:(cbn; tauto)) as (j & Ej & Lj & Hj).
    assert (i = 1%nat) by (destruct i as [|[|[|[|[|i]]]]]; cbn in Hi, Li; try lra; lia). assert (j = 3%nat) by (destruct j as [|[|[|[|[|j]]]]]; cbn in Hj, Lj; try lra; lia). subst i j.
    unfold window. rewrite Ei, Ej. reflexivity. }
  assert (W2r : rising [-2; 0; 2]) by (intros i j [H1 H2]; cbn in H2; destruct i as [|[|[|i]]], j as [|[|[|j]]]; try lia; cbn; lra).
  assert (HV : forall f u l m, (f < 6)%nat -> In u [-2; 0; 2] -> In (l, m) (LMs (bd_hi (ad_data ex_a))) -> value_at ex_dspl (constant ex_bb2) f u l m = (RtoC 2 * value_at ex_dspl ex_a f u l m)%C).
  { intros f u l m Hf _ I. change (bd_hi (ad_data ex_a)) with 2%Z in I. unfold ex_a. rewrite !constant_value by assumption.
    destruct f as [|[|[|[|[|[|f]]]]]]; try lia; cbn [bfield ex_bb ex_bb2]; unfold zmodes, fscale; cx. }
  assert (RR : forall f, In f [1; 2]%nat <-> (f < 6)%nat /\ reference ex_dspl (riemann 0) ex_a [-2; 0; 2] f <> 0).
  { intros f. unfold reference, over. cbn [map riemann last]. change (bd_hi (ad_data ex_a)) with 2%Z. split.
    - intros [<-|[<-|[]]]; (split; [lia|]); [rewrite !ex_size|rewrite !ex_size2]; lra.
    - intros [Hf N]. destruct (Nat.eq_dec f 1) as [->|N1]; [left; reflexivity|]. destruct (Nat.eq_dec f 2) as [->|N2]; [right; left; reflexivity|]. exfalso. apply N. rewrite !ex_size0 by assumption. ring. }
  assert (S2 : series (constant ex_bb2)) by (split; [cbn; lia|split; [cbn; lia|exact ex_u_rising]]).
  assert (ND : NoDup [1; 2]%nat) by (repeat constructor; cbn; lia).
  assert (R2 : forall f, (f < 6)%nat -> reference ex_dspl (riemann 0) (constant ex_bb2) [-2; 0; 2] f = 2 * reference ex_dspl (riemann 0) ex_a [-2; 0; 2] f).
  { intros f Hf. transitivity (Rabs 2 * reference ex_dspl (riemann 0) ex_a [-2; 0; 2] f); [|rewrite Rabs_right by lra; reflexivity]. apply (over_scale (riemann 0) riemann_scale). intros u Iu. apply size_scale. intros l m I. apply HV; assumption. }
  split.
  - rewrite (C85_error_multiple ex_dspl (riemann 0) riemann_scale ex_a (constant ex_bb2) (-2) 2 [-2; 0; 2] 1 [1; 2]%nat ex_series S2 eq_refl W2 W2r ltac:(cbn; lia)); [|exact HV|exact ND|exact RR].
    do 2 f_equal. rewrite Rabs_R1. cbn. field.
  - rewrite (C85_error_multiple ex_dspl (riemann 0) riemann_scale (constant ex_bb2) ex_a (-2) 2 [-2; 0; 2] (- (1 / 2)) [1; 2]%nat S2 ex_series eq_refl W2 W2r ltac:(cbn; lia)); [| |exact ND|].
    + do 2 f_equal. rewrite Rabs_Ropp, Rabs_right by lra. cbn. field.
    + intros f u l m Hf Iu I. rewrite (HV f u l m Hf Iu I). apply C_eq; cbn; field.
    + intros f. rewrite RR. split; intros [A B]; split; try exact A; rewrite R2 in * by exact A; lra.
Qed.

(** ** Data that are late by one, their energy decreasing *)
Definition ex_losing (t : R) : bondi := mkbondi zmodes zmodes (fscale t (one_mode 0 0)) zmodes zmodes zmodes.
Definition ex_target : adata := mkad (sampled_data 2 ex_u ex_losing InertialFrame) Sum.
Definition ex_late : adata := mkad (sampled_data 2 (map (fun t => t + 1) ex_u) (fun t => ex_losing (t - 1)) InertialFrame) Sum.
Lemma losing_energies : forall u B, Transform_Proofs.increasing u -> (4 <= List.length u)%nat -> (forall t, B t = ex_losing t \/ B t = ex_losing (t - 1)) ->
  energies product_table ex_dspl (mkad (sampled_data 2 u B InertialFrame) Sum) = Ok (map (fun t => - (re (b_psi2 (B t) 0%Z 0%Z) / sqrt (4 * PI))) u).
Proof.
  intros u B Hi H4 HB. set (a := mkad _ Sum). destruct (sampled_data_ok 2 u B InertialFrame ltac:(lia)) as [O1 S1].
  assert (Hc : forall i j l m, (i < List.length u)%nat -> (j < List.length u)%nat -> ms_at (sigma a) i l m = ms_at (sigma a) j l m).
  { intros i j l m Hn Hm. unfold sigma. rewrite !of_bmode. destruct (_ && _)%bool eqn:Q; [|reflexivity]. rewrite !andb_true_iff, !Z.leb_le in Q. change (bd_hi (ad_data a)) with 2%Z in Q.
    etransitivity; [exact (S1 5%nat i l m ltac:(lia) Hn ltac:(split; cbn; lia))|]. symmetry. etransitivity; [exact (S1 5%nat j l m ltac:(lia) Hm ltac:(split; cbn; lia))|].
    cbn [bfield]. destruct (HB (nth i (bd_u (sampled_data 2 u B InertialFrame)) 0)) as [E1|E1], (HB (nth j (bd_u (sampled_data 2 u B InertialFrame)) 0)) as [E2|E2]; rewrite E1, E2; reflexivity. }
  destruct (still_dot ex_dspl a ex_dspl_derives Hi H4 Hc) as (d & Ed & Zd). unfold energies, ad_four_momentum. rewrite Ed. cbn [rbind]. f_equal. unfold at_times. rewrite map_map.
  apply nth_ext with (d := 0) (d' := 0); [rewrite !map_length, seq_length; reflexivity|]. intros k Hk. rewrite map_length, seq_length in Hk. change (List.length (bd_u (ad_data a))) with (List.length u) in *.
  set (g := fun i => fst _). rewrite (nth_indep _ 0 (g 0%nat)) by (rewrite map_length, seq_length; exact Hk). rewrite (map_nth g), seq_nth by exact Hk. cbn [Nat.add].
  set (h := fun t => - (_ / _)). rewrite (nth_indep (map h u) 0 (h 0)) by (rewrite map_length; exact Hk). rewrite (map_nth h). unfold g, h, four_momentum_at. rewrite momentum_static by apply Zd. cbn [fst charge_vector]. do 3 f_equal.
  change (b_psi2 (bondi_of a k)) with (ms_at (psi2 a) k). unfold psi2. rewrite of_bmode. cbn [Z.leb Z.compare andb Z.opp ad_data a sampled_data bd_hi].
  exact (S1 2%nat k 0%Z 0%Z ltac:(lia) Hk ltac:(split; cbn; lia)).
Qed.
Example C85_case_start : exists b0, start product_table ex_dspl svd2 (fun _ f => f) true ex_late ex_target 2 = Ok b0 /\ forall p, on_scri p -> meaning b0 p = (fst p - 1, snd p).
Proof.
  set (E := map (fun t => - (t / sqrt (4 * PI))) ex_u).
  assert (E1 : energies product_table ex_dspl ex_target = Ok E).
  { unfold ex_target. rewrite losing_energies; [|exact ex_u_inc|cbn; lia|intros t; left; reflexivity]. f_equal. apply map_ext. intros t. cbn. do 2 f_equal. ring. }
  assert (E2 : energies product_table ex_dspl ex_late = Ok E).
  { unfold ex_late. rewrite losing_energies; [| |cbn; lia|intros t; right; reflexivity].
    - f_equal. unfold E. rewrite map_map. apply map_ext. intros t. cbn. do 2 f_equal. ring.
    - cbn. repeat constructor; lra. }
  assert (P : 0 < sqrt (4 * PI)) by (apply sqrt_lt_R0; assert (Q := PI_RGT_0); lra). assert (Pi : 0 < / sqrt (4 * PI)) by (apply Rinv_0_lt_compat; exact P).
  apply (C85_start_delayed svd2 svd2_ok (fun _ f => f) affine affine_ext affine_seen affine_add (fun _ f _ n _ => eq_refl) affine_const product_table ex_dspl ex_late ex_target 2 1 E E2 E1); [reflexivity|reflexivity| | |cbn; tauto].
  - intros i j [H1 H2]. cbn in H2. set (s := / sqrt (4 * PI)) in *. destruct i as [|[|[|[|[|i]]]]], j as [|[|[|[|[|j]]]]]; try lia; cbn; unfold Rdiv; fold s; lra.
  - exact ex_u_rising.
Qed.
