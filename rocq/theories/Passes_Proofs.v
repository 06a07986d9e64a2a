(** * C80: the rotation pass on whole data *)
From Coq Require Import Reals ZArith List Bool Lia Lra.
From Verif Require Import Common Cplx Quat Modes_Model Create_Model Times_Model Tables_Model Modal_Model Kwargs_Model Transform_Model Rotate_Model
  Modes_Proofs Modal_Proofs Rotate_Proofs Times_Proofs Kwargs_Proofs Validity_Proofs Transform_Proofs Wigner_Model Wigner_Proofs Sphere_Model Sphere_Proofs Harmonics_Proofs
  Pipeline_Model Pipeline_Proofs ABD_Model ABD_Proofs ABDBalance_Proofs ABDPointwise_Proofs Zturn_Model Zturn_Proofs Motion_Model Motion_Proofs Superrest_Model Superrest_Proofs Spin_Model Spin_Proofs Lorentz_Proofs BMS_Proofs
  Abdpipe_Model Abdpipe_Proofs Constraints_Model Constraints_Proofs Charges_Model Charges_Proofs Product_Proofs Gridmul_Model Gridmul_Proofs Eth_Proofs Bianchi_Proofs Bianchimodes_Proofs Averages_Proofs Nonradiative_Proofs Rest_Model Rest_Proofs Passes_Model.
Import ListNotations.
Open Scope R_scope.

(** ** The product of two rotations *)
(** Division of floats: only 0/0 is not a number, and the sign of an infinite quotient is that of the numerator. *)
Theorem C80_division : forall x y, (y <> 0 -> xdiv x y = Fin (x / y)) /\ (0 < x -> xdiv x 0 = PInf) /\ (x < 0 -> xdiv x 0 = NInf) /\ xdiv 0 0 = NaN.
Proof.
  intros x y. unfold xdiv. split; [intros H; destruct (Req_EM_T y 0); [contradiction|reflexivity]|].
  destruct (Req_EM_T 0 0) as [_|N]; [|contradiction]. split; [|split].
  - intros H. destruct (Req_EM_T x 0); [lra|]. destruct (Rltb_spec 0 x); [reflexivity|contradiction].
  - intros H. destruct (Req_EM_T x 0); [lra|]. destruct (Rltb_spec 0 x); [lra|reflexivity].
  - destruct (Req_EM_T 0 0); [reflexivity|contradiction].
Qed.

Section Product.
Ltac orf := split; [reflexivity|intros; reflexivity].
Variable svd : mat -> mat * (R * R) * mat.
Hypothesis svd_ok : forall A, mdet A = C1 -> is_svd A (svd A).
Variable proj : Z -> (vec3 -> R) -> vec3 -> R.
Variable value : list C -> vec3 -> R.
Variable stored : supertr -> list C.
Lemma good_q1 : good_rotor q1.
Proof. split; [unfold qnorm2, q1; cbn; ring|]. intros E. apply (f_equal qw) in E. cbn in E. lra. Qed.
Lemma compose_rotations : forall a b, good_rotor (rot a) -> good_rotor (rot b) -> boost a = (0, 0, 0) -> boost b = (0, 0, 0) -> good_rotor (qmul (rot b) (rot a)) ->
  exists c, compose svd proj value stored SRB a b = Ok c /\ good_rotor (rot c) /\ (rot c = qmul (rot b) (rot a) \/ rot c = qopp (qmul (rot b) (rot a))).
Proof using svd_ok.
  intros [sa qa va] [sb qb vb]. cbn [rot boost]. intros Ga Gb -> -> Gp. unfold compose, as_bmst, bms_mul. cbn [sup rot boost b_sup b_rot b_boost b_order b_ell].
  assert (Z1 : norm3 (0, 0, 0) < 1) by exact zero_lt_1.
  assert (RO : forall S q v, reorder svd proj (mkb (mks S 12) q v SRB 12) SRB = Ok (mkb (mks S 12) q v SRB 12)) by (intros; reflexivity).
  rewrite !RO. cbn [rbind b_sup b_rot b_boost b_order b_ell s_fn]. change (Z.max 12 12) with 12%Z. unfold l_mul.
  rewrite (l2s qa (0, 0, 0) SRB 12 true), (l2s qb (0, 0, 0) SRB 12 true) by (try assumption; orf). cbn [rbind].
  destruct (s2l svd svd_ok (mmul (lmat true qb (0, 0, 0)) (lmat true qa (0, 0, 0))) [CR; CB] true) as (q & v & -> & G & V & Sg);
    [rewrite mdet_mul, !det_lmat by assumption; ring|orf|].
  unfold transform_supertranslation, l_inverse. rewrite (l2s qb (0, 0, 0) SRB 12 true) by (try assumption; orf). cbn [rbind mklorentz l_rot l_boost l_ell].
  destruct (lmat_unique true (qmul qb qa) (0, 0, 0) q v Gp Z1 G V) as [-> Hq].
  { assert (E : lmat true (qmul qb qa) (0, 0, 0) = mmul (lmat true qb (0, 0, 0)) (lmat true qa (0, 0, 0))) by (cbn [lmat]; rewrite bmat_0, !mmul_1_l; apply rmat_mul).
    rewrite E. exact Sg. }
  eexists. split; [reflexivity|]. cbn [rot]. split; assumption.
Qed.
End Product.

(** ** Directions *)
Lemma scalev_v3 : forall x v, scalev x v = v3scale x v.
Proof. intros x [[a b] c]. reflexivity. Qed.
Lemma rotv_qopp : forall q v, rotv (qconj (qopp q)) v = rotv (qconj q) v.
Proof. intros [a b c d] [[x y] z]. unfold rotv, qconj, qopp, qmul, qvec. cbn [qw qx qy qz]. apply (f_equal2 pair); [apply (f_equal2 pair)|]; ring. Qed.
Lemma rotv_norm : forall q v, qnorm2 q = 1 -> norm3 (rotv q v) = norm3 v.
Proof. intros q v H. rewrite !norm3_dot, rotv_dot, H. f_equal. ring. Qed.
Lemma hat_rotv : forall q v, qnorm2 q = 1 -> hat (rotv q v) = rotv q (hat v).
Proof. intros q v H. unfold hat. rewrite !scalev_v3, rotv_norm, rotv_scale by exact H. reflexivity. Qed.
Lemma rotv_back : forall q v, qnorm2 q = 1 -> rotv q (rotv (qconj q) v) = v.
Proof.
  intros q v H. destruct q as [a b c d], v as [[x y] z]. unfold qnorm2 in H. cbn in H. unfold rotv, qconj, qmul, qvec. cbn [qw qx qy qz].
  apply (f_equal2 pair); [apply (f_equal2 pair)|]; [transitivity (x * (a * a + b * b + c * c + d * d) ^ 2)|transitivity (y * (a * a + b * b + c * c + d * d) ^ 2)|transitivity (z * (a * a + b * b + c * c + d * d) ^ 2)]; try ring; rewrite H; ring.
Qed.
Lemma norm3_pos : forall v, v <> (0, 0, 0) -> 0 < norm3 v.
Proof.
  intros [[x y] z] H. unfold norm3. apply sqrt_lt_R0. destruct (Req_dec x 0) as [-> |X]; [|assert (0 < x * x) by (apply Rsqr_pos_lt; exact X); nra].
  destruct (Req_dec y 0) as [-> |Y]; [|assert (0 < y * y) by (apply Rsqr_pos_lt; exact Y); nra]. destruct (Req_dec z 0) as [-> |Z]; [congruence|assert (0 < z * z) by (apply Rsqr_pos_lt; exact Z); nra].
Qed.
Lemma norm3_hat : forall v, v <> (0, 0, 0) -> norm3 (hat v) = 1.
Proof.
  intros v H. assert (P := norm3_pos v H). assert (D : v3dot v v = norm3 v * norm3 v) by (rewrite norm3_dot, sqrt_sqrt; [reflexivity|destruct v as [[x y] z]; unfold v3dot; nra]).
  rewrite norm3_dot. unfold hat. set (n := norm3 v) in *. assert (E : v3dot (scalev (/ n) v) (scalev (/ n) v) = / n * / n * v3dot v v) by (destruct v as [[x y] z]; unfold scalev, v3dot; ring).
  rewrite E, D. transitivity (sqrt 1); [f_equal; field; lra|apply sqrt_1].
Qed.
Lemma hat_hat : forall v, v <> (0, 0, 0) -> hat (hat v) = hat v.
Proof. intros v H. unfold hat at 1. rewrite norm3_hat by exact H. destruct (hat v) as [[x y] z]. unfold scalev. apply (f_equal2 pair); [apply (f_equal2 pair)|]; field. Qed.
Lemma hat_scale : forall v, v <> (0, 0, 0) -> v = v3scale (norm3 v) (hat v).
Proof. intros v H. assert (P := norm3_pos v H). unfold hat. set (n := norm3 v) in *. destruct v as [[x y] z]. unfold scalev, v3scale. apply (f_equal2 pair); [apply (f_equal2 pair)|]; field; lra. Qed.
Lemma hat_nonzero : forall v, v <> (0, 0, 0) -> hat v <> (0, 0, 0).
Proof. intros v H E. assert (Q := norm3_hat v H). rewrite E in Q. unfold norm3 in Q. rewrite !Rmult_0_l, !Rplus_0_l, sqrt_0 in Q. lra. Qed.
Lemma qvec_vecq : forall v, qvec (vecq v) = v.
Proof. intros [[x y] z]. reflexivity. Qed.
Lemma rotv_vecq : forall q v, rotv q v = qvec (qmul (qmul q (vecq v)) (qconj q)).
Proof. intros q [[x y] z]. reflexivity. Qed.
(** The rotor found turns the z axis to the direction of the spin *)
Lemma spin_rotor_turns : forall v, v <> (0, 0, 0) -> hat v <> (0, 0, -1) ->
  good_rotor (spin_rotor (hat v)) /\ rotv (qconj (spin_rotor (hat v))) (hat v) = (0, 0, 1) /\ rotv (spin_rotor (hat v)) (0, 0, 1) = hat v.
Proof.
  intros v H Hz. destruct (C39_rotor (hat v) (hat_nonzero v H)) as (U & T1 & T2 & W & _); [fold (hat (hat v)); rewrite hat_hat by exact H; exact Hz|].
  fold (hat (hat v)) in T1, T2. rewrite hat_hat in T1, T2 by exact H. split; [split; [exact U|intros E; apply (f_equal qw) in E; cbn in E; rewrite E in W; lra]|]. split.
  - rewrite rotv_vecq, qconj_involutive. etransitivity; [exact (f_equal qvec T2)|]. reflexivity.
  - rewrite rotv_vecq. etransitivity; [exact (f_equal qvec T1)|]. apply qvec_vecq.
Qed.
Lemma spin_rotor_z : spin_rotor (0, 0, 1) = q1.
Proof.
  unfold spin_rotor. assert (A : qabs (mkq 0 0 0 1) = 1) by (unfold qabs, qnorm2; cbn [qw qx qy qz]; transitivity (sqrt 1); [f_equal; ring|apply sqrt_1]).
  unfold qnormalized at 2. rewrite A. assert (E : qsub q1 (qmul (qscale (/ 1) (mkq 0 0 0 1)) qk) = mkq 2 0 0 0) by (apply quat_eq; cbn; field).
  rewrite E. assert (A2 : qabs (mkq 2 0 0 0) = 2) by (unfold qabs, qnorm2; cbn [qw qx qy qz]; transitivity (sqrt (2 * 2)); [f_equal; ring|apply sqrt_square; lra]).
  unfold qnormalized. rewrite A2. apply quat_eq; cbn; field.
Qed.

(** ** The pass *)
(** The first of the times closest to zero *)
Definition nearest_zero (t : list R) (i : nat) : Prop :=
  (i < length t)%nat /\ (forall j, (j < length t)%nat -> Rabs (nth i t 0) <= Rabs (nth j t 0)) /\ (forall j, (j < i)%nat -> Rabs (nth i t 0) < Rabs (nth j t 0)).
Lemma argmin_nearest : forall t i, nearest_zero t i -> Motion_Model.argmin (map Rabs t) = Ok i.
Proof.
  intros t i (Hi & H1 & H2). assert (E : exists j, Motion_Model.argmin (map Rabs t) = Ok j) by (destruct t; [cbn in Hi; lia|eexists; reflexivity]).
  destruct E as [j E]. rewrite E. f_equal. apply Motion_Proofs.argmin_spec in E as (A & B & D). rewrite map_length in A, B.
  assert (M : forall k, nth k (map Rabs t) 0 = Rabs (nth k t 0)) by (intros k; rewrite <- Rabs_R0 at 1; apply map_nth).
  destruct (Nat.lt_trichotomy i j) as [L|[L|L]]; [|symmetry; exact L|].
  - specialize (D i L). rewrite !M in D. specialize (H1 j A). lra.
  - specialize (H2 j L). specialize (B i Hi). rewrite !M in B. lra.
Qed.
Lemma rotation_kwargs_only : forall q, qnorm2 q = 1 -> rotation_only (rotation_kwargs q) q 0.
Proof.
  intros q H. repeat (split; [reflexivity|]). split; [|right; split; reflexivity]. cbn [rotation_kwargs k_rotation]. unfold read_rotation. cbn [quat_of].
  assert (E : mkq (qw q) (qx q) (qy q) (qz q) = q) by (destruct q; reflexivity). rewrite E. assert (A : qabs q = 1) by (unfold qabs; rewrite H; apply sqrt_1). rewrite A.
  destruct (Rltb_spec 1 (3 / 10 ^ 16)) as [L|L]; [exfalso; lra|]. f_equal. unfold qnormalized. rewrite A. destruct q as [a b c d]. apply quat_eq; cbn; field.
Qed.
Section Rotation.
Variable spline : list R -> list C -> res (R -> C).
Variable map2salm : Z -> Z -> list C -> Z -> Z -> list C.
Variable dspl : nat -> list R -> list C -> R -> C.
Variable integral : list R -> list R -> list R.
Variable svd : mat -> mat * (R * R) * mat.
Variable proj : Z -> (vec3 -> R) -> vec3 -> R.
Variable value : list C -> vec3 -> R.
Variable stored : supertr -> list C.
Variable a : adata.
Let b := ad_data a.
Let n := (2 * (2 * bd_hi b + 1) + 1)%Z.
Hypothesis HS : Abdpipe_Proofs.passes spline.
Hypothesis HD : linear_spline dspl.
Hypothesis Hb : data_ok b.
Hypothesis Hi : Transform_Proofs.increasing (bd_u b).
Hypothesis H2 : (2 <= length (bd_u b))%nat.
Hypothesis HL : (1 <= bd_hi b)%Z.
Hypothesis HX : forall f, (f < 6)%nat -> exact map2salm (spin_of f) n n.
Hypothesis svd_ok : forall A, mdet A = C1 -> is_svd A (svd A).
Variable S : list vec3.
Hypothesis ES : ad_dimensionless_spin product_table dspl a = Ok S.
Hypothesis NS : forall v, In v S -> v <> (0, 0, 0).
Variable i : nat.
Hypothesis Hn : nearest_zero (bd_u b) i.
Let s := nth i S (0, 0, 0).
Hypothesis Hs : hat s <> (0, 0, -1).

Lemma rotated_ok : forall r, qnorm2 (rot r) = 1 ->
  exists a', ad_transform spline map2salm a (rotation_kwargs (rot r)) = Ok a' /\ rotated spline map2salm product_table dspl a r = Ok a' /\
    bd_u (ad_data a') = bd_u b /\ ad_dimensionless_spin product_table dspl a' = Ok (map (rotv (qconj (rot r))) S) /\ length S = length (bd_u b).
Proof using HS HD Hb Hi H2 HL HX ES.
  intros r Hr. destruct (C78_rotation spline map2salm dspl a (rotation_kwargs (rot r)) (rot r) 0 HS HD Hb Hi H2 HL (rotation_kwargs_only _ Hr)) as
    (a' & P & M & J & G & N & S' & Et & Eu & _ & LP & EP & _ & _ & _ & EJ & _ & _ & _ & EN & _ & ES1 & ES2 & _).
  { cbn [rotation_kwargs k_output_ell_max k_working_ell_max dflt]. fold b. clear -HL b. lia. }
  { exact HX. }
  assert (X : S' = S) by congruence. subst S'. exists a'. split; [exact Et|]. split; [unfold rotated, spin_directions; rewrite Et; cbn [rbind]; rewrite ES2; reflexivity|].
  split; [rewrite Eu; fold b; rewrite <- (map_id (bd_u b)) at 2; apply map_ext; intros; ring|]. split; [exact ES2|].
  assert (Q := ES). unfold ad_dimensionless_spin in Q. rewrite EN, EJ, EP in Q. cbn [rbind] in Q. injection Q as Q. rewrite <- Q. rewrite map_length, !combine_length.
  assert (LN : length N = length (bd_u b)). { unfold ad_boost_charge in EN. destruct (sigma_bar_dot dspl a); cbn [rbind] in EN; [|discriminate]. injection EN as <-. unfold at_times. rewrite map_length, seq_length. reflexivity. }
  assert (LJ : length J = length (bd_u b)). { unfold ad_angular_momentum in EJ. injection EJ as <-. unfold at_times. rewrite map_length, seq_length. reflexivity. }
  rewrite LN, LJ, LP. fold b. rewrite !Nat.min_id. reflexivity.
Qed.
Lemma s_in : In s S.
Proof using HS HD Hb Hi H2 HL HX ES Hn.
  destruct (rotated_ok identity) as (a' & _ & _ & _ & _ & LS); [cbn; unfold qnorm2, q1; cbn; ring|]. apply nth_In. rewrite LS. apply Hn.
Qed.
(** What the pass measures once the spin nearest to time zero lies along z: the mean distance of the directions from that one *)
Let e := average integral (map (fun v => norm3 (v3add (hat v) (v3scale (-1) (hat s)))) S) (bd_u b).
(** The data turned by a rotor taking z to the direction of the spin *)
Definition turned_by (a' : adata) (q : quat) : Prop :=
  bd_u (ad_data a') = bd_u b /\ ad_dimensionless_spin product_table dspl a' = Ok (map (rotv (qconj q)) S) /\ qnorm2 q = 1 /\ rotv (qconj q) (hat s) = (0, 0, 1).
Lemma directions_turned : forall a' q, turned_by a' q -> spin_directions product_table dspl a' = Ok (map (fun v => rotv (qconj q) (hat v)) S).
Proof using.
  intros a' q (_ & E & U & _). unfold spin_directions. rewrite E. cbn [rbind]. rewrite map_map. f_equal. apply map_ext. intros v. apply hat_rotv. rewrite qnorm2_conj. exact U.
Qed.
Lemma error_turned : forall a' q, turned_by a' q -> spin_error product_table dspl integral a' = e.
Proof using.
  intros a' q T. unfold spin_error. rewrite (directions_turned _ _ T). destruct T as (Eu & _ & U & Z). unfold e. rewrite Eu, map_map. f_equal. apply map_ext. intros v. unfold from_z.
  rewrite <- (rotv_norm (qconj q) (v3add (hat v) (v3scale (-1) (hat s)))) by (rewrite qnorm2_conj; exact U). rewrite rotv_add, rotv_scale, Z. f_equal. unfold v3scale. f_equal. apply (f_equal2 pair); [apply (f_equal2 pair)|]; ring.
Qed.
Lemma align_turned : forall a' q, turned_by a' q -> spin_align product_table dspl a' = Ok (Superrest_Model.mkbms (repeat C0 169) q1 (0, 0, 0)).
Proof using HS HD Hb Hi H2 HL HX ES Hn.
  intros a' q T. unfold spin_align. rewrite (directions_turned _ _ T). destruct T as (Eu & _ & U & Z). cbn [rbind]. unfold rotation_from_spin_charge. rewrite Eu, (argmin_nearest _ _ Hn). cbn [rbind].
  destruct (rotated_ok identity) as (a1 & _ & _ & _ & _ & LS); [cbn; unfold qnorm2, q1; cbn; ring|]. assert (Li : (i < length S)%nat) by (rewrite LS; apply Hn).
  rewrite nth_error_map, (nth_error_nth' S (0, 0, 0) Li). cbn [option_map rbind]. fold s. rewrite Z, spin_rotor_z. reflexivity.
Qed.
Lemma align_first : spin_align product_table dspl a = Ok (Superrest_Model.mkbms (repeat C0 169) (spin_rotor (hat s)) (0, 0, 0)).
Proof using HS HD Hb Hi H2 HL HX ES Hn.
  unfold spin_align, spin_directions. rewrite ES. cbn [rbind]. unfold rotation_from_spin_charge. fold b. rewrite (argmin_nearest _ _ Hn). cbn [rbind].
  destruct (rotated_ok identity) as (a1 & _ & _ & _ & _ & LS); [cbn; unfold qnorm2, q1; cbn; ring|]. assert (Li : (i < length S)%nat) by (rewrite LS; apply Hn).
  rewrite nth_error_map, (nth_error_nth' S (0, 0, 0) Li). reflexivity.
Qed.
Let q0 := spin_rotor (hat s).
Let com := compose svd proj value stored SRB.
Let body := rot_body com adata a (rotated spline map2salm product_table dspl a) (spin_align product_table dspl) (spin_error product_table dspl integral).
Definition arrived (st : bms * adata) : Prop :=
  good_rotor (rot (fst st)) /\ (rot (fst st) = q0 \/ rot (fst st) = qopp q0) /\ boost (fst st) = (0, 0, 0) /\ (forall k, nth k (sup (fst st)) C0 = C0) /\
  ad_transform spline map2salm a (rotation_kwargs (rot (fst st))) = Ok (snd st) /\ turned_by (snd st) (rot (fst st)).
Lemma pm_turned : forall q, q = q0 \/ q = qopp q0 -> rotv (qconj q) (hat s) = (0, 0, 1).
Proof using HS HD Hb Hi H2 HL HX ES NS Hn Hs.
  intros q [-> | ->]; [|rewrite rotv_qopp]; apply (proj1 (proj2 (spin_rotor_turns s (NS s s_in) Hs))).
Qed.
Lemma arrive : forall c, good_rotor (rot c) -> (rot c = q0 \/ rot c = qopp q0) ->
  exists st, (let b' := rot_strip c in let? d' := rotated spline map2salm product_table dspl a (Superrest_Model.mkbms (repeat C0 169) (rot b') (0, 0, 0)) in
              Ok ((b', d'), spin_error product_table dspl integral d')) = Ok (st, e) /\ arrived st.
Proof using HS HD Hb Hi H2 HL HX ES NS Hn Hs.
  intros c G Q. destruct (rotated_ok (Superrest_Model.mkbms (repeat C0 169) (rot c) (0, 0, 0)) (proj1 G)) as (a' & Et & Er & Eu & E & _). cbn [rot] in *. cbn zeta. cbn [rot_strip rot].
  rewrite Er. cbn [rbind]. assert (T : turned_by a' (rot c)) by (split; [exact Eu|split; [exact E|split; [apply G|apply pm_turned; exact Q]]]).
  rewrite (error_turned _ _ T). exists (rot_strip c, a'). split; [reflexivity|]. cbn [fst snd arrived rot_strip rot boost sup]. unfold arrived. cbn [fst snd rot boost sup rot_strip].
  split; [exact G|]. split; [exact Q|]. split; [reflexivity|]. split; [intros k; apply nth_zeros|]. split; [exact Et|exact T].
Qed.
Lemma body_first : exists st, body 0 (identity, a) = Ok (st, e) /\ arrived st.
Proof using HS HD Hb Hi H2 HL HX ES NS Hn Hs svd_ok.
  unfold body, rot_body. rewrite align_first. cbn [rbind]. destruct (spin_rotor_turns s (NS s s_in) Hs) as (G & _ & _). fold q0 in G.
  destruct (compose_rotations svd svd_ok proj value stored (Superrest_Model.mkbms (repeat C0 169) q0 (0, 0, 0)) identity) as (c & Ec & Gc & Q); cbn [rot boost identity];
    [exact G|exact good_q1|reflexivity|reflexivity|rewrite qmul_1_l; exact G|]. fold com in Ec. cbn [rot identity] in Q. rewrite qmul_1_l in Q.
  fold q0. rewrite Ec. cbn [rbind]. apply arrive; assumption.
Qed.
Lemma body_next : forall k st, arrived st -> exists st', body (Datatypes.S k) st = Ok (st', e) /\ arrived st'.
Proof using HS HD Hb Hi H2 HL HX ES NS Hn Hs svd_ok.
  intros k [r d] (G & Q & B & Z & Et & T). cbn [fst snd] in *. unfold body, rot_body. rewrite (align_turned _ _ T). cbn [rbind].
  destruct (compose_rotations svd svd_ok proj value stored (Superrest_Model.mkbms (repeat C0 169) q1 (0, 0, 0)) r) as (c & Ec & Gc & Qc); cbn [rot boost];
    [exact good_q1|exact G|reflexivity|exact B|rewrite qmul_1_r; exact G|]. fold com in Ec. cbn [rot] in Qc. rewrite qmul_1_r in Qc.
  rewrite Ec. cbn [rbind]. apply arrive; [exact Gc|]. destruct Qc as [-> | ->]; [exact Q|]. destruct Q as [-> | ->]; [right; reflexivity|left]. destruct q0. unfold qopp. cbn. f_equal; ring.
Qed.
Lemma xlt_irrefl : forall x, xlt x x = false.
Proof. intros [x| | |]; cbn; try reflexivity. destruct (Rltb_spec x x); [lra|reflexivity]. Qed.
Lemma pymin_repeat : forall x k, xlt x PInf = true -> pymin (PInf :: repeat x (Datatypes.S k)) = Ok x.
Proof.
  intros x k H. cbn [repeat pymin xmin1]. rewrite H. f_equal. induction k as [|k IH]; [reflexivity|]. cbn [repeat xmin1]. rewrite xlt_irrefl. exact IH.
Qed.
Lemma solve_stays : forall tol m k st best, xlt e PInf = true -> arrived st ->
  solve (bms * adata) bms body fst m (Datatypes.S k) tol e (PInf :: repeat e (Datatypes.S k)) st best = Ok (best, PInf :: repeat e (Datatypes.S k + if xlt e tol then 0 else m)).
Proof using HS HD Hb Hi H2 HL HX ES NS Hn Hs svd_ok.
  intros tol m. induction m as [|m IH]; intros k st best Fe A; cbn [solve]; [destruct (xlt e tol); rewrite Nat.add_0_r; reflexivity|]. destruct (xlt e tol) eqn:Q; [rewrite Nat.add_0_r; reflexivity|].
  destruct (body_next k st A) as (st' & E & A'). rewrite E. cbn [rbind]. rewrite (pymin_repeat e k Fe). cbn [rbind]. rewrite xlt_irrefl.
  assert (R1 : (PInf :: repeat e (Datatypes.S k)) ++ [e] = PInf :: repeat e (Datatypes.S (Datatypes.S k))).
  { cbn [app]. apply (f_equal (cons PInf)). change (repeat e (Datatypes.S (Datatypes.S k))) with (e :: repeat e (Datatypes.S k)). symmetry. apply repeat_cons. }
  rewrite R1.
  rewrite IH by assumption. rewrite ?Q. apply f_equal, (f_equal (pair best)), (f_equal (cons PInf)), (f_equal (repeat e)). clear. lia.
Qed.
Lemma e_finite : exists x, e = Fin x /\ x = last (integral (map (fun v => norm3 (v3add (hat v) (v3scale (-1) (hat s)))) S) (bd_u b)) 0 / (last (bd_u b) 0 - nth 0 (bd_u b) 0).
Proof using Hi H2 Hn.
  unfold e, average, xdiv. destruct (Req_EM_T _ 0) as [Z|Z]; [exfalso|eexists; split; reflexivity].
  assert (P : exists x y l, bd_u b = x :: y :: l) by (destruct (bd_u b) as [|x [|y l]]; [cbn in H2; lia|cbn in H2; lia|eauto]). destruct P as (x & y & l & P). assert (Q := Hi). rewrite P in Q, Z.
  assert (I : In (last (x :: y :: l) 0) (y :: l)). { change (last (x :: y :: l) 0) with (last (y :: l) 0). clear. revert y. induction l as [|z l IH]; intros y; [left; reflexivity|right; apply IH]. }
  assert (L := increasing_lt _ _ Q _ I). cbn [nth] in Z. lra.
Qed.
Lemma pass_result : forall N tol, (1 <= N)%Z -> exists r a' x,
  rotation_pass spline map2salm product_table dspl integral svd proj value stored a N tol = Ok (r, PInf :: repeat (Fin x) (if xlt (Fin x) tol then 1 else Z.to_nat N)) /\
  x = last (integral (map (fun v => norm3 (v3add (hat v) (v3scale (-1) (hat s)))) S) (bd_u b)) 0 / (last (bd_u b) 0 - nth 0 (bd_u b) 0) /\ arrived (r, a').
Proof using HS HD Hb Hi H2 HL HX ES NS Hn Hs svd_ok.
  intros N tol HN. destruct e_finite as (x & Ex & Vx). assert (Fe : xlt e PInf = true) by (rewrite Ex; reflexivity). unfold rotation_pass, rot_solver, run. fold com. fold body.
  assert (EN : exists m, Z.to_nat N = Datatypes.S m) by (exists (Z.to_nat N - 1)%nat; clear -HN; lia). destruct EN as [m EN]. rewrite EN. cbn [solve].
  destruct body_first as ([r a'] & E & A). exists r, a', x. split; [|split; [exact Vx|exact A]].
  replace (xlt PInf tol) with false by (destruct tol; reflexivity). rewrite E. cbn [rbind pymin xmin1]. rewrite Fe. change ([PInf] ++ [e]) with (PInf :: repeat e 1). rewrite solve_stays by assumption. cbn [fst]. rewrite <- Ex.
  apply f_equal, (f_equal (pair r)), (f_equal (cons PInf)), (f_equal (repeat e)). destruct (xlt e tol); reflexivity.
Qed.
End Rotation.
Theorem C80_rotation : forall spline map2salm dspl integral svd proj value stored a S i N tol, let b := ad_data a in let n := (2 * (2 * bd_hi b + 1) + 1)%Z in let s := nth i S (0, 0, 0) in
  Abdpipe_Proofs.passes spline -> linear_spline dspl -> data_ok b -> Transform_Proofs.increasing (bd_u b) -> (2 <= length (bd_u b))%nat -> (1 <= bd_hi b)%Z ->
  (forall f, (f < 6)%nat -> exact map2salm (spin_of f) n n) -> (forall A, mdet A = C1 -> is_svd A (svd A)) ->
  ad_dimensionless_spin product_table dspl a = Ok S -> (forall v, In v S -> v <> (0, 0, 0)) -> nearest_zero (bd_u b) i -> hat s <> (0, 0, -1) -> (1 <= N)%Z ->
  exists r a' x, rotation_pass spline map2salm product_table dspl integral svd proj value stored a N tol = Ok (r, PInf :: repeat (Fin x) (if xlt (Fin x) tol then 1 else Z.to_nat N)) /\
    x = last (integral (map (fun v => norm3 (v3add (hat v) (v3scale (-1) (hat s)))) S) (bd_u b)) 0 / (last (bd_u b) 0 - nth 0 (bd_u b) 0) /\
    boost r = (0, 0, 0) /\ (forall k, nth k (sup r) C0 = C0) /\ qnorm2 (rot r) = 1 /\ rotv (rot r) (0, 0, 1) = hat s /\ qz (rot r) = 0 /\
    ad_transform spline map2salm a (rotation_kwargs (rot r)) = Ok a' /\ bd_u (ad_data a') = bd_u b /\
    exists S', ad_dimensionless_spin product_table dspl a' = Ok S' /\ S' = map (rotv (qconj (rot r))) S /\ nth i S' (0, 0, 0) = (0, 0, norm3 s).
Proof.
  intros spline map2salm dspl integral svd proj value stored a S i N tol b n s HS HD Hb Hi H2 HL HX Hsvd ES NS Hn Hs HN.
  destruct (pass_result spline map2salm dspl integral svd proj value stored a HS HD Hb Hi H2 HL HX Hsvd S ES NS i Hn Hs N tol HN) as (r & a' & x & E & Vx & G & Q & B & Z & Et & Eu & E' & U & T).
  cbn [fst snd] in *. fold s in Q, T, Vx. fold b in Eu, Vx. exists r, a', x. split; [exact E|]. split; [exact Vx|]. split; [exact B|]. split; [exact Z|]. split; [exact U|].
  assert (LS := rotated_ok spline map2salm dspl a HS HD Hb Hi H2 HL HX S ES identity ltac:(cbn; unfold qnorm2, q1; cbn; ring)). destruct LS as (_ & _ & _ & _ & _ & LS).
  assert (Li : (i < length S)%nat) by (unfold vec3 in *; rewrite LS; apply Hn). assert (Is : In s S) by (apply nth_In; exact Li). assert (Ns := NS s Is).
  split; [rewrite <- T; apply rotv_back; exact U|]. split.
  { destruct (C39_rotor (hat s) (hat_nonzero s Ns)) as (_ & _ & _ & _ & Q0 & _); [fold (hat (hat s)); rewrite hat_hat by exact Ns; exact Hs|]. destruct Q as [-> | ->]; [exact Q0|change (- qz (spin_rotor (hat s)) = 0); lra]. }
  split; [exact Et|]. split; [exact Eu|]. eexists. split; [exact E'|]. split; [reflexivity|].
  assert (ZZ : rotv (qconj (rot r)) (0, 0, 0) = (0, 0, 0)) by (unfold rotv, qvec; cbn; apply (f_equal2 pair); [apply (f_equal2 pair)|]; ring).
  assert (Ei : nth i (map (rotv (qconj (rot r))) S) (0, 0, 0) = rotv (qconj (rot r)) s) by (rewrite <- ZZ at 1; apply map_nth).
  etransitivity; [exact Ei|]. etransitivity; [exact (f_equal (rotv (qconj (rot r))) (hat_scale s Ns))|]. rewrite rotv_scale. etransitivity; [exact (f_equal (v3scale (norm3 s)) T)|]. unfold v3scale. apply (f_equal2 pair); [apply (f_equal2 pair)|]; ring.
Qed.

(** When the spin keeps its direction one pass is enough: the whole spin ends up along z. *)
Theorem C80_rotation_fixed_direction : forall spline map2salm dspl integral svd proj value stored a S u N tol, let b := ad_data a in let n := (2 * (2 * bd_hi b + 1) + 1)%Z in
  Abdpipe_Proofs.passes spline -> linear_spline dspl -> data_ok b -> Transform_Proofs.increasing (bd_u b) -> (2 <= length (bd_u b))%nat -> (1 <= bd_hi b)%Z ->
  (forall f, (f < 6)%nat -> exact map2salm (spin_of f) n n) -> (forall A, mdet A = C1 -> is_svd A (svd A)) ->
  (forall t, last (integral (map (fun _ => 0) t) t) 0 = 0) ->
  ad_dimensionless_spin product_table dspl a = Ok S -> (forall v, In v S -> v <> (0, 0, 0) /\ hat v = u) -> u <> (0, 0, -1) -> (1 <= N)%Z -> xlt (Fin 0) tol = true ->
  exists r a', rotation_pass spline map2salm product_table dspl integral svd proj value stored a N tol = Ok (r, [PInf; Fin 0]) /\ rotv (rot r) (0, 0, 1) = u /\
    ad_transform spline map2salm a (rotation_kwargs (rot r)) = Ok a' /\ ad_dimensionless_spin product_table dspl a' = Ok (map (fun v => (0, 0, norm3 v)) S).
Proof.
  intros spline map2salm dspl integral svd proj value stored a S u N tol b n HS HD Hb Hi H2 HL HX Hsvd HI ES NS Hu HN Ht.
  assert (Hn : exists i, nearest_zero (bd_u b) i).
  { assert (E : exists j, Motion_Model.argmin (map Rabs (bd_u b)) = Ok j) by (destruct (bd_u b); [cbn in H2; lia|eexists; reflexivity]). destruct E as [j E]. exists j.
    apply Motion_Proofs.argmin_spec in E as (A & B & D). rewrite map_length in A, B. assert (M : forall k, nth k (map Rabs (bd_u b)) 0 = Rabs (nth k (bd_u b) 0)) by (intros k; rewrite <- Rabs_R0 at 1; apply map_nth).
    split; [exact A|]. split; intros k Hk; [specialize (B k Hk)|specialize (D k Hk)]; rewrite !M in *; assumption. }
  destruct Hn as [i Hn]. destruct (rotated_ok spline map2salm dspl a HS HD Hb Hi H2 HL HX S ES identity ltac:(cbn; unfold qnorm2, q1; cbn; ring)) as (_ & _ & _ & _ & _ & LS).
  assert (Li : (i < length S)%nat) by (unfold vec3 in *; rewrite LS; apply Hn). assert (Is : In (nth i S (0, 0, 0)) S) by (apply nth_In; exact Li). destruct (NS _ Is) as [Ns Es].
  destruct (C80_rotation spline map2salm dspl integral svd proj value stored a S i N tol HS HD Hb Hi H2 HL HX Hsvd ES (fun v I => proj1 (NS v I)) Hn) as
    (r & a' & x & E & Vx & B & Z & U & T & _ & Et & Eu & S' & E' & ES' & _); [exact (fun Q => Hu (eq_trans (eq_sym Es) Q))|exact HN|].
  assert (X0 : x = 0).
  { rewrite Vx. assert (M : map (fun v => norm3 (v3add (hat v) (v3scale (-1) (hat (nth i S (0, 0, 0)))))) S = map (fun _ => 0) (bd_u (ad_data a))).
    { assert (M1 : map (fun v => norm3 (v3add (hat v) (v3scale (-1) (hat (nth i S (0, 0, 0)))))) S = map (fun _ => 0) S).
      { apply map_ext_in. intros v I. destruct (NS v I) as [_ Ev]. etransitivity; [exact (f_equal2 (fun p q => norm3 (v3add p (v3scale (-1) q))) Ev Es)|]. rewrite norm3_dot. transitivity (sqrt 0); [f_equal|apply sqrt_0]. destruct u as [[p q] w]. unfold v3add, v3scale, v3dot. ring. }
      rewrite M1. clear -LS. revert LS. generalize (bd_u (ad_data a)). intros t. revert t. induction S as [|v S IH]; intros [|x t] H; try discriminate H; [reflexivity|]. cbn [map]. f_equal. apply IH. injection H as H. exact H. }
    etransitivity; [exact (f_equal (fun l => last (integral l (bd_u (ad_data a))) 0 / (last (bd_u (ad_data a)) 0 - nth 0 (bd_u (ad_data a)) 0)) M)|]. cbv beta. rewrite HI. unfold Rdiv. ring. }
  rewrite X0 in E. rewrite Ht in E. exists r, a'. split; [exact E|]. split; [exact (eq_trans T Es)|]. split; [exact Et|]. rewrite E', ES'. f_equal. apply map_ext_in. intros v I. destruct (NS v I) as [Nv Ev].
  rewrite (hat_scale v Nv) at 1. rewrite rotv_scale, Ev. rewrite <- (eq_trans T Es). assert (RB : rotv (qconj (rot r)) (rotv (rot r) (0, 0, 1)) = (0, 0, 1)).
  { rewrite <- (qconj_involutive (rot r)) at 2. apply rotv_back. rewrite qnorm2_conj. exact U. }
  rewrite RB. unfold v3scale. apply (f_equal2 pair); [apply (f_equal2 pair)|]; ring.
Qed.

(** ** The fit of the centre of mass *)
(** For data without radiation the fit finds the velocity [P / E] and the position [N / E] at time zero. *)
Theorem C80_com_fit : forall dspl polyfit a B sd sdd sddd, let b := ad_data a in let L := bd_hi b in let c := length (bd_u b) in
  derives dspl -> Transform_Proofs.increasing (bd_u b) -> (4 <= c)%nat -> (1 <= L)%Z -> bondi_solution L B sd sdd sddd -> samples b B -> (forall u l m, sd u l m = C0) ->
  least_squares polyfit ->
  exists E P N, ad_four_momentum product_table dspl a = Ok (repeat (E, P) c) /\ ad_boost_charge product_table dspl a = Ok (repeat N c) /\
    com_position product_table dspl a = Ok (map (fun t => v3add (v3scale t (v3scale (/ E) P)) (v3scale (/ E) N)) (bd_u b)) /\
    exists r, com_fit product_table dspl polyfit a = Ok r /\ boost r = v3scale (/ E) P /\ rot r = q1 /\ length (sup r) = 4%nat /\ forall n, alpha01 (sup r) n = RtoC (- dot3 (v3scale (/ E) N) n).
Proof.
  intros dspl polyfit a B sd sdd sddd b L c HD Hi H4 HL HB HSa Hsd HP.
  destruct (old_object a B sd sdd sddd HB HSa Hsd) as (O1 & O2 & O5 & Oc). destruct (still _ _ _ _ _ HB Hsd) as [_ _ _ _ _ SR].
  assert (U1 : upto L (b_psi1 (B 0))) by (apply (bs_upto _ _ _ _ _ HB 0 1%nat); lia). assert (Hq1 : qnorm2 q1 = 1) by (unfold qnorm2, q1; cbn; ring).
  assert (HZf : forall q, qnorm2 q = 1 -> field 0 0 (high fzero) q = C0) by (intros q _; unfold field; apply csum_const0; intros [l m] _; unfold high, fzero; cbn [fst]; destruct (l <? 2)%Z; ring).
  destruct (object_momentum dspl a L (B 0) q1 HD Hi H4 HL HL Hq1 O2 Oc) as [M1 _].
  destruct (object_translation dspl a L 0 (B 0) fzero 0 (0, 0, 0) q1 HD Hi H4 HL HL Hq1 U1 SR O1 O2 O5 Oc (fun i => of_up a 1 i) HZf) as (_ & M3 & _). fold b c in M1, M3.
  match type of M1 with _ = Ok (repeat (?e, ?p) _) => set (E := e) in *; set (P := p) in * end. match type of M3 with _ = Ok (repeat ?v _) => set (N := v) in * end. clearbody E P N.
  exists E, P, N. split; [exact M1|]. split; [exact M3|].
  assert (EG : ad_CoM_charge product_table a = Ok (map (fun t => v3add N (v3scale t P)) (bd_u b))).
  { unfold ad_CoM_charge. f_equal. unfold ad_boost_charge in M3. unfold ad_four_momentum in M1. destruct (sigma_bar_dot dspl a) as [d|]; cbn [rbind] in M1, M3; [|discriminate]. injection M1 as M1. injection M3 as M3.
    assert (AT : forall A (f : nat -> A) v, at_times a f = repeat v c -> forall i, (i < c)%nat -> f i = v).
    { intros A f v H i Hc. assert (Q : nth i (at_times a f) v = f i).
      { unfold at_times. rewrite (nth_indep _ v (f 0%nat)) by (rewrite map_length, seq_length; exact Hc). rewrite map_nth, seq_nth by exact Hc. reflexivity. }
      rewrite <- Q, H. apply nth_repeat. }
    unfold at_times. fold b. apply (nth_ext _ _ (0, 0, 0) (v3add N (v3scale 0 P))); rewrite !map_length, seq_length; [reflexivity|]. intros i Hc.
    rewrite (nth_indep _ (0, 0, 0) (bondi_CoM_charge product_table (bd_hi b) (bondi_of a 0))) by (rewrite map_length, seq_length; exact Hc).
    rewrite (map_nth (fun i => bondi_CoM_charge product_table (bd_hi b) (bondi_of a i))), seq_nth by exact Hc. rewrite (map_nth (fun t => v3add N (v3scale t P))). cbn [Nat.add].
    rewrite (C36_center_of_mass product_table _ _ (ms_at d i) (time_at a i) 1%Z). assert (Q3 := AT _ _ _ M3 i Hc). assert (Q1 := AT _ _ _ M1 i Hc). unfold four_momentum_at in Q1. fold b in Q1, Q3. etransitivity; [exact (f_equal2 v3add Q3 (f_equal (fun x => v3scale (time_at a i) (snd x)) Q1))|]. reflexivity. }
  assert (EC : com_position product_table dspl a = Ok (map (fun t => v3add (v3scale t (v3scale (/ E) P)) (v3scale (/ E) N)) (bd_u b))).
  { unfold com_position. rewrite EG. cbn [rbind]. rewrite M1. cbn [rbind]. f_equal. unfold c. clear. induction (bd_u b) as [|t l IH]; [reflexivity|]. cbn [map length repeat combine fst snd]. rewrite IH. f_equal.
    destruct N as [[x y] z], P as [[u v] w]. unfold v3add, v3scale, scalev. apply (f_equal2 pair); [apply (f_equal2 pair)|]; ring. }
  split; [exact EC|]. destruct (C70_com_fit polyfit (bd_u b) (v3scale (/ E) N) (v3scale (/ E) P) HP) as (F1 & F2 & F3 & F4).
  { destruct (bd_u b) as [|x [|y l]] eqn:Q; [cbn in *; lia|cbn in *; lia|]. exists x, y. split; [left; reflexivity|]. split; [right; left; reflexivity|]. assert (X : x < y) by (apply (increasing_lt (y :: l)); [|left; reflexivity]; first [exact Hi|rewrite <- Q; exact Hi]). clear - X. lra. }
  unfold com_fit. rewrite EC. cbn [rbind]. fold b. eexists. split; [reflexivity|]. split; [exact F1|]. split; [exact F2|]. split; [exact F3|exact F4].
Qed.

(** ** Cases *)
(** Integration by the left end of each interval *)
Fixpoint riemann (acc : R) (f t : list R) : list R :=
  match f, t with x :: f', u :: t' => acc :: riemann (acc + x * (match t' with v :: _ => v - u | [] => 0 end)) f' t' | _, _ => [] end.
Lemma riemann_zero : forall t, last (riemann 0 (map (fun _ => 0) t) t) 0 = 0.
Proof.
  intros t. assert (H : forall t acc, acc = 0 -> forall y, In y (riemann acc (map (fun _ => 0) t) t) -> y = 0).
  { clear. induction t as [|u t IH]; intros acc Ha y I; [destruct I|]. cbn [map riemann] in I. destruct I as [<-|I]; [exact Ha|]. apply (IH (acc + 0 * match t with v :: _ => v - u | [] => 0 end)); [rewrite Ha; ring|exact I]. }
  assert (L : forall l, (forall y, In y l -> y = 0) -> last l 0 = 0).
  { clear. induction l as [|x l IH]; intros H; [reflexivity|]. destruct l as [|y l]; [apply H; left; reflexivity|]. change (last (x :: y :: l) 0) with (last (y :: l) 0). apply IH. intros z I. apply H. right. exact I. }
  apply L. apply H. reflexivity.
Qed.
(** Spin along x at rest: after one pass along z *)
Example C80_case_rotation : exists map2salm r a' c, c <> 0 /\ (forall f, (f < 6)%nat -> exact map2salm (spin_of f) 11 11) /\ ad_dimensionless_spin product_table ex_dspl ex_spinning = Ok (repeat (c, 0, 0) 4) /\
  rotation_pass cubic_or_lookup map2salm product_table ex_dspl (riemann 0) svd2 (fun _ f => f) (fun _ _ => 0) (fun _ => repeat C0 169) ex_spinning 10 (Fin (/ 10 ^ 12)) = Ok (r, [PInf; Fin 0]) /\
  rotv (rot r) (0, 0, 1) = (c / Rabs c, 0, 0) /\ ad_transform cubic_or_lookup map2salm ex_spinning (rotation_kwargs (rot r)) = Ok a' /\ ad_dimensionless_spin product_table ex_dspl a' = Ok (repeat (0, 0, Rabs c) 4).
Proof.
  destruct (exact_exists 11) as [mm HX]. set (bb := mkbondi zmodes (fmuli (one_mode 1 1)) (fopp (one_mode 0 0)) zmodes zmodes zmodes).
  destruct (sampled_data_ok 2 [0; 1; 2; 3] (fun _ => bb) InertialFrame ltac:(lia)) as [O1 S1].
  destruct C78_case_rotation as (m0 & a0 & J & _ & _ & _ & _ & _ & _ & _ & NJ & EJ & _).
  assert (O2 : forall i q, (i < length (bd_u (ad_data ex_spinning)))%nat -> qnorm2 q = 1 -> field 0 2 (ms_at (psi2 ex_spinning) i) q = field 0 2 (b_psi2 bb) (qmul q1 q)).
  { intros i q Hn Hq. rewrite q1_mul. unfold psi2. etransitivity; [exact (of_samples ex_spinning (fun _ => bb) 2 i 0 q S1 ltac:(lia) Hn)|]. reflexivity. }
  assert (Oc : forall i j l m, (i < length (bd_u (ad_data ex_spinning)))%nat -> (j < length (bd_u (ad_data ex_spinning)))%nat -> ms_at (sigma ex_spinning) i l m = ms_at (sigma ex_spinning) j l m).
  { intros i j l m Hn Hm. unfold sigma. rewrite !of_bmode. destruct (_ && _)%bool eqn:Q; [|reflexivity]. rewrite !andb_true_iff, !Z.leb_le in Q. change (bd_hi (ad_data ex_spinning)) with 2%Z in Q.
    etransitivity; [exact (S1 5%nat i l m ltac:(lia) Hn ltac:(split; cbn; lia))|]. symmetry. exact (S1 5%nat j l m ltac:(lia) Hm ltac:(split; cbn; lia)). }
  assert (Hq1 : qnorm2 q1 = 1) by (unfold qnorm2, q1; cbn; ring).
  destruct (object_momentum ex_dspl ex_spinning 2 bb q1 ex_dspl_derives ex_times ltac:(cbn; lia) ltac:(lia) ltac:(cbn; lia) Hq1 O2 Oc) as [M1 _]. rewrite turn_one in M1. change (length (bd_u (ad_data ex_spinning))) with 4%nat in M1.
  set (e := 1 / sqrt (4 * PI)). assert (Pe : 0 < e) by (apply Rdiv_lt_0_compat; [lra|apply sqrt_lt_R0; pose proof PI_RGT_0; lra]).
  assert (M2 : ad_four_momentum product_table ex_dspl ex_spinning = Ok (repeat (e, (0, 0, 0)) 4)).
  { refine (eq_trans M1 _). f_equal. f_equal. unfold charge_vector, bb, b_psi2, fopp, one_mode, v3scale. cbn. unfold e. apply (f_equal2 pair); [unfold Rdiv; ring|]. apply (f_equal2 pair); [apply (f_equal2 pair)|]; unfold Rdiv; ring. }
  set (c := / e ^ 2 * J). assert (Nc : c <> 0) by (apply Rmult_integral_contrapositive_currified; [apply Rinv_neq_0_compat, pow_nonzero; lra|exact NJ]).
  assert (EN : exists N0 N1 N2 N3, ad_boost_charge product_table ex_dspl ex_spinning = Ok [N0; N1; N2; N3]).
  { unfold ad_four_momentum in M2. unfold ad_boost_charge. destruct (sigma_bar_dot ex_dspl ex_spinning) as [d|]; cbn [rbind] in *; [|discriminate]. do 4 eexists. reflexivity. }
  destruct EN as (N0 & N1 & N2 & N3 & EN).
  assert (SP : forall N, dimensionless_spin N (J, 0, 0) e (0, 0, 0) = (c, 0, 0)).
  { intros [[x y] z]. unfold dimensionless_spin. assert (V0 : v3scale (/ e) (0, 0, 0) = (0, 0, 0)) by (unfold v3scale; apply (f_equal2 pair); [apply (f_equal2 pair)|]; ring). rewrite V0.
    assert (Z0 : norm3 (0, 0, 0) = 0) by (unfold norm3; transitivity (sqrt 0); [f_equal; ring|apply sqrt_0]). rewrite Z0. destruct (Req_EM_T 0 0) as [_|Q]; [|contradiction].
    assert (G1 : 1 / sqrt (1 - 0 ^ 2) = 1). { replace (1 - 0 ^ 2) with 1 by ring. rewrite sqrt_1. field. }
    rewrite G1. unfold c, v3dot, v3cross, v3add, v3scale. replace (e ^ 2 - (0 * 0 + 0 * 0 + 0 * 0)) with (e ^ 2) by ring. apply (f_equal2 pair); [apply (f_equal2 pair)|]; ring. }
  assert (ES : ad_dimensionless_spin product_table ex_dspl ex_spinning = Ok (repeat (c, 0, 0) 4)).
  { unfold ad_dimensionless_spin. rewrite EN. cbn [rbind]. rewrite EJ. cbn [rbind]. rewrite M2. cbn [rbind repeat combine map]. rewrite !SP. reflexivity. }
  assert (Ac : norm3 (c, 0, 0) = Rabs c). { unfold norm3. replace (c * c + 0 * 0 + 0 * 0) with (Rsqr c) by (unfold Rsqr; ring). apply sqrt_Rsqr_abs. }
  assert (Rc : Rabs c <> 0) by (apply Rabs_no_R0; exact Nc).
  assert (Hc : hat (c, 0, 0) = (c / Rabs c, 0, 0)) by (unfold hat; rewrite Ac; unfold scalev; apply (f_equal2 pair); [apply (f_equal2 pair)|]; field; exact Rc).
  destruct (C80_rotation_fixed_direction cubic_or_lookup mm ex_dspl (riemann 0) svd2 (fun _ f => f) (fun _ _ => 0) (fun _ => repeat C0 169) ex_spinning (repeat (c, 0, 0) 4) (c / Rabs c, 0, 0) 10 (Fin (/ 10 ^ 12))
    cubic_or_lookup_passes ex_dspl_linear O1 ex_times ltac:(cbn; lia) ltac:(cbn; lia) HX svd2_ok riemann_zero ES) as (r & a' & E & T & Et & ES').
  - intros v I. apply repeat_spec in I. subst v. split; [intros Q; injection Q as Q; exact (Nc Q)|exact Hc].
  - intros Q. injection Q as _ Q. lra.
  - lia.
  - cbn [xlt]. destruct (Rltb_spec 0 (/ 10 ^ 12)) as [|Q]; [reflexivity|exfalso; apply Q; apply Rinv_0_lt_compat, pow_lt; lra].
  - exists mm, r, a', c. split; [exact Nc|]. split; [exact HX|]. split; [exact ES|]. split; [exact E|]. split; [exact T|]. split; [exact Et|]. rewrite ES'. cbn [repeat map]. rewrite Ac. reflexivity.
Qed.
(** The line of least squares by the normal equations: the sums over pairs of n, t, y, t t, t y, y y *)
Definition sums (f : R * R -> R) (p : list (R * R)) : R := fold_right Rplus 0 (map f p).
Definition normal_fit (t y : list R) : R * R :=
  let p := combine t y in let n := sums (fun _ => 1) p in let St := sums fst p in let Sy := sums snd p in let D := n * sums (fun q => fst q * fst q) p - St * St in
  let s := (n * sums (fun q => fst q * snd q) p - St * Sy) / D in (s, (Sy - s * St) / n).
Lemma misfit_sums : forall t y s c, let p := combine t y in
  misfit t y s c = s * s * sums (fun q => fst q * fst q) p + 2 * (s * c * sums fst p) + c * c * sums (fun _ => 1) p - 2 * s * sums (fun q => fst q * snd q) p - 2 * c * sums snd p + sums (fun q => snd q * snd q) p.
Proof.
  intros t y s c p. unfold misfit. fold p. clearbody p. clear. unfold sums. induction p as [|[x z] p IH]; cbn [map fold_right fst snd]; [ring|]. rewrite IH. ring.
Qed.
Lemma normal_fit_least : least_squares normal_fit.
Proof.
  intros t y HL (t1 & t2 & I1 & I2 & Ne) s c. rewrite !misfit_sums. unfold normal_fit. cbn [fst snd]. set (p := combine t y). set (n := sums (fun _ => 1) p). set (St := sums fst p). set (Sy := sums snd p).
  set (Stt := sums (fun q => fst q * fst q) p). set (Sty := sums (fun q => fst q * snd q) p). set (Syy := sums (fun q => snd q * snd q) p).
  assert (MP : map fst p = t). { unfold p. clear - HL. revert y HL. induction t as [|x t IH]; intros [|z y] HL; try discriminate; [reflexivity|]. cbn [combine map fst]. rewrite IH; [reflexivity|cbn in HL; lia]. }
  assert (Pn : 0 < n). { unfold n, sums. rewrite <- MP in I1. destruct p as [|q p']; [destruct I1|]. cbn [map fold_right]. clear. assert (0 <= fold_right Rplus 0 (map (fun _ : R * R => 1) p')) by (induction p'; cbn [map fold_right]; lra). lra. }
  assert (Q : fold_right Rplus 0 (map (fun q => (fst q - St / n) ^ 2) p) = Stt - St * St / n).
  { transitivity (Stt - 2 * (St / n) * St + n * (St / n) ^ 2); [|field; lra]. unfold Stt, n. generalize (St / sums (fun _ => 1) p). intros m. unfold St, sums. clear. induction p as [|q p IH]; cbn [map fold_right]; [ring|]. rewrite IH. ring. }
  assert (PD : 0 < n * Stt - St * St).
  { destruct (Rle_or_lt (n * Stt - St * St) 0) as [B|B]; [exfalso|exact B].
    assert (B' : Stt - St * St / n <= 0). { replace (Stt - St * St / n) with ((n * Stt - St * St) * / n) by (field; lra). assert (0 < / n) by (apply Rinv_0_lt_compat; exact Pn). nra. }
    rewrite <- Q in B'. assert (Z := squares_zero _ (fun q => fst q - St / n) p B'). rewrite <- MP in I1, I2. apply in_map_iff in I1. apply in_map_iff in I2. destruct I1 as (q1' & E1 & J1). destruct I2 as (q2' & E2 & J2).
    assert (Z1 := Z _ J1). assert (Z2 := Z _ J2). cbn in Z1, Z2. apply Ne. lra. }
  clearbody n St Sy Stt Sty Syy. clear - Pn PD. set (D := n * Stt - St * St) in *. set (s0 := (n * Sty - St * Sy) / D). set (c0 := (Sy - s0 * St) / n).
  assert (E1 : n * c0 + s0 * St = Sy) by (unfold c0; field; lra). assert (E2 : s0 * Stt + c0 * St = Sty).
  { unfold c0, s0. assert (D <> 0) by lra. apply (Rmult_eq_reg_l (D * n)); [|apply Rmult_integral_contrapositive_currified; lra]. transitivity (n * (n * Sty - St * Sy) * Stt + D * Sy * St - (n * Sty - St * Sy) * St * St); [field; split; lra|]. unfold D. ring. }
  set (a := s - s0). set (b := c - c0).
  assert (X : 0 <= a * a * Stt + 2 * (a * b * St) + b * b * n).
  { replace (a * a * Stt + 2 * (a * b * St) + b * b * n) with (n * (b + a * (St / n)) ^ 2 + (a ^ 2) * (D * / n)) by (unfold D; field; lra). assert (0 < / n) by (apply Rinv_0_lt_compat; exact Pn). assert (0 <= (b + a * (St / n)) ^ 2) by apply pow2_ge_0. assert (0 <= a ^ 2) by apply pow2_ge_0. apply Rplus_le_le_0_compat; apply Rmult_le_pos; try lra. apply Rmult_le_pos; lra. }
  rewrite <- E1, <- E2. replace s with (s0 + a) by (unfold a; ring). replace c with (c0 + b) by (unfold b; ring). clearbody s0 c0 a b. nra.
Qed.
(** The moving mass *)
Example C80_case_com : exists e w N r, 0 < w /\ w < e /\ ad_four_momentum product_table ex_dspl ex_moving = Ok (repeat (e, (0, 0, w)) 6) /\ ad_boost_charge product_table ex_dspl ex_moving = Ok (repeat N 6) /\
  least_squares normal_fit /\ com_fit product_table ex_dspl normal_fit ex_moving = Ok r /\ boost r = (0, 0, w / e) /\ rot r = q1.
Proof.
  destruct ex_M_solution as [HB HP]. destruct (sampled_data_ok 2 [0; 1; 2; 3; 4; 5] ex_M InertialFrame ltac:(lia)) as [O1 S1].
  destruct (C80_com_fit ex_dspl normal_fit ex_moving ex_M _ _ _ ex_dspl_derives ex_six ltac:(cbn; lia) ltac:(cbn; lia) HB S1 (fun _ _ _ => eq_refl) normal_fit_least) as (E & P & N & M1 & M3 & _ & r & Er & Eb & Eq & _).
  destruct ex_moving_momentum as (e & w & P1 & P2 & P3 & Q). change (length (bd_u (ad_data ex_moving))) with 6%nat in M1, M3. assert (EPe : E = e /\ P = (0, 0, w)) by (rewrite Q in M1; injection M1 as <- <-; split; reflexivity). destruct EPe as [-> ->].
  exists e, w, N, r. split; [exact P2|]. split; [exact P3|]. split; [exact Q|]. split; [exact M3|]. split; [exact normal_fit_least|]. split; [exact Er|]. split; [|exact Eq].
  refine (eq_trans Eb _). unfold v3scale, Rdiv. apply (f_equal2 pair); [apply (f_equal2 pair)|]; ring.
Qed.
