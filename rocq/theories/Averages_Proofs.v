(** * C79: charges as averages over the sphere, and what supertranslations do to them when there is no radiation *)
From Coq Require Import Reals ZArith List Bool Lia Lra.
From Verif Require Import Common Cplx Quat Modes_Model Create_Model Times_Model Tables_Model Modal_Model Kwargs_Model Transform_Model Rotate_Model
  Modes_Proofs Modal_Proofs Rotate_Proofs Times_Proofs Kwargs_Proofs Transform_Proofs Wigner_Model Wigner_Proofs Sphere_Model Sphere_Proofs Harmonics_Proofs
  Pipeline_Model Pipeline_Proofs ABD_Model ABD_Proofs ABDBalance_Proofs ABDPointwise_Proofs Zturn_Model Zturn_Proofs Product_Proofs Gridmul_Model Gridmul_Proofs
  Abdpipe_Model Abdpipe_Proofs Eth_Proofs Bianchi_Proofs Bianchimodes_Proofs Constraints_Model Constraints_Proofs Charges_Model Charges_Proofs.
Import ListNotations.
Open Scope R_scope.

(** ** Averages *)
Lemma root_pos : 0 < sqrt (4 * PI).
Proof. apply sqrt_lt_R0. pose proof PI_RGT_0. lra. Qed.
(** Functions of a rotor with finitely many modes of spin weight [s] *)
Definition band (s : Z) (F : quat -> C) : Prop := exists L f, (0 <= L)%Z /\ forall q, qnorm2 q = 1 -> F q = field s L f q.
(** The average over the sphere of a function with finitely many modes of spin weight 0: its (0,0) mode, in units of that of the constant 1 *)
Definition averages (F : quat -> C) (z : C) : Prop := exists L f, (0 <= L)%Z /\ (forall q, qnorm2 q = 1 -> F q = field 0 L f q) /\ f 0%Z 0%Z = Cscale (sqrt (4 * PI)) z.
Lemma band_widen : forall s F L, band s F -> (0 <= L)%Z -> exists M f, (L <= M)%Z /\ (forall l m, (M < l)%Z -> f l m = C0) /\ forall q, qnorm2 q = 1 -> F q = field s M f q.
Proof.
  intros s F L (K & f & HK & E) HL. set (g := fun l m => if (l <=? K)%Z then f l m else C0). exists (Z.max K L), g. split; [lia|].
  assert (G : forall l m, (K < l)%Z -> g l m = C0) by (intros l m H; unfold g; destruct (Z.leb_spec l K); [lia|reflexivity]).
  split; [intros; apply G; lia|]. intros q Hq. rewrite (E q Hq). rewrite <- (field_grow s K (Z.max K L) g) by (lia || exact G). apply Gridmul_Proofs.field_ext. intros l m Hl Hm. unfold g. destruct (Z.leb_spec l K); [reflexivity|lia].
Qed.
Lemma av_band : forall F z, averages F z -> band 0 F.
Proof. intros F z (L & f & H & E & _). exists L, f. split; assumption. Qed.
Lemma av_field : forall L f, (0 <= L)%Z -> averages (field 0 L f) (Cscale (/ sqrt (4 * PI)) (f 0%Z 0%Z)).
Proof. intros L f HL. exists L, f. split; [exact HL|]. split; [reflexivity|]. pose proof root_pos. apply C_eq; cbn; field; lra. Qed.
Lemma band_av : forall F, band 0 F -> exists z, averages F z.
Proof. intros F (L & f & H & E). eexists. exists L, f. split; [exact H|]. split; [exact E|]. instantiate (1 := Cscale (/ sqrt (4 * PI)) (f 0%Z 0%Z)). pose proof root_pos. apply C_eq; cbn; field; lra. Qed.
Lemma av_unique : forall F G z w, (forall q, qnorm2 q = 1 -> F q = G q) -> averages F z -> averages G w -> z = w.
Proof.
  intros F G z w H (L & f & HL & E & Z1) (M & g & HM & E' & Z2).
  set (f' := fun l m => if (l <=? L)%Z then f l m else C0). set (g' := fun l m => if (l <=? M)%Z then g l m else C0).
  assert (U : f' 0%Z 0%Z = g' 0%Z 0%Z).
  { apply (field_unique 0 (Z.max L M)); try lia. intros q Hq. rewrite <- (field_grow 0 L (Z.max L M) f'), <- (field_grow 0 M (Z.max L M) g'); try lia.
    - transitivity (F q); [rewrite (E q Hq)|rewrite (H q Hq), (E' q Hq)]; apply Gridmul_Proofs.field_ext; intros l m Hl Hm; unfold f', g'; [destruct (Z.leb_spec l L)|destruct (Z.leb_spec l M)]; reflexivity || lia.
    - intros l m Hl. unfold g'. destruct (Z.leb_spec l M); [lia|reflexivity].
    - intros l m Hl. unfold f'. destruct (Z.leb_spec l L); [lia|reflexivity]. }
  unfold f', g' in U. destruct (Z.leb_spec 0 L), (Z.leb_spec 0 M); try lia. rewrite Z1, Z2 in U. pose proof root_pos as P.
  assert (U1 := f_equal re U). assert (U2 := f_equal im U). cbn in U1, U2. apply C_eq; apply (Rmult_eq_reg_l (sqrt (4 * PI))); lra.
Qed.
Lemma av_ext : forall F G z, (forall q, qnorm2 q = 1 -> F q = G q) -> averages F z -> averages G z.
Proof. intros F G z H (L & f & HL & E & Z). exists L, f. split; [exact HL|]. split; [|exact Z]. intros q Hq. rewrite <- H by exact Hq. apply E. exact Hq. Qed.
Lemma band_ext : forall s F G, (forall q, qnorm2 q = 1 -> F q = G q) -> band s F -> band s G.
Proof. intros s F G H (L & f & HL & E). exists L, f. split; [exact HL|]. intros q Hq. rewrite <- H by exact Hq. apply E. exact Hq. Qed.
Lemma band_field : forall s L f, (0 <= L)%Z -> band s (field s L f).
Proof. intros s L f HL. exists L, f. split; [exact HL|reflexivity]. Qed.
Lemma band_mul : forall s1 s2 F G, band s1 F -> band s2 G -> band (s1 + s2) (fun q => F q * G q)%C.
Proof.
  intros s1 s2 F G (L & f & HL & E) (M & g & HM & E'). exists (L + M)%Z, (times s1 L s2 M f g). split; [lia|]. intros q Hq. rewrite (E q Hq), (E' q Hq). apply (proj1 (C72_fields s1 L f s2 M g HL HM) q Hq).
Qed.
Lemma band_add : forall s F G, band s F -> band s G -> band s (fun q => F q + G q)%C.
Proof.
  intros s F G HF HG. destruct HF as (L & f & HL & E). destruct (band_widen s G L HG HL) as (M & g & HM & Z0 & E'). destruct (band_widen s F M (ex_intro _ L (ex_intro _ f (conj HL E))) ltac:(lia)) as (N & h & HN & Z1 & E2).
  exists N, (fadd h g). split; [lia|]. intros q Hq. rewrite (E2 q Hq), (E' q Hq), field_fadd. rewrite (field_grow s M N g) by (lia || exact Z0). reflexivity.
Qed.
Lemma field_cmul : forall s L c f q, field s L (fun l m => (c * f l m)%C) q = (c * field s L f q)%C.
Proof. intros s L c f q. unfold field. rewrite <- csum_scale. apply csum_ext. intros; ring. Qed.
Lemma band_cmul : forall s c F, band s F -> band s (fun q => c * F q)%C.
Proof. intros s c F (L & f & HL & E). exists L, (fun l m => (c * f l m)%C). split; [exact HL|]. intros q Hq. rewrite field_cmul, (E q Hq). reflexivity. Qed.
Lemma field_conj : forall s L f q, (0 <= L)%Z -> field (- s) L (fbar s f) q = Conj (field s L f q).
Proof. intros s L f q HL. apply C68_conjugate_fields; [exact HL|]. intros; reflexivity. Qed.
Lemma band_conj : forall s F, band s F -> band (- s) (fun q => Conj (F q)).
Proof. intros s F (L & f & HL & E). exists L, (fbar s f). split; [exact HL|]. intros q Hq. rewrite field_conj by exact HL. rewrite (E q Hq). reflexivity. Qed.
Lemma av_add : forall F G z w, averages F z -> averages G w -> averages (fun q => F q + G q)%C (z + w)%C.
Proof.
  intros F G z w HF HG. destruct HF as (L & f & HL & E & Z1), HG as (M & g & HM & E' & Z2).
  set (f' := fun l m => if (l <=? L)%Z then f l m else C0). set (g' := fun l m => if (l <=? M)%Z then g l m else C0).
  exists (Z.max L M), (fadd f' g'). split; [lia|]. split.
  - intros q Hq. rewrite field_fadd, (E q Hq), (E' q Hq). f_equal.
    + rewrite <- (field_grow 0 L (Z.max L M) f') by (lia || (intros l m Hl; unfold f'; destruct (Z.leb_spec l L); [lia|reflexivity])).
      apply Gridmul_Proofs.field_ext. intros l m Hl Hm. unfold f'. destruct (Z.leb_spec l L); [reflexivity|lia].
    + rewrite <- (field_grow 0 M (Z.max L M) g') by (lia || (intros l m Hl; unfold g'; destruct (Z.leb_spec l M); [lia|reflexivity])).
      apply Gridmul_Proofs.field_ext. intros l m Hl Hm. unfold g'. destruct (Z.leb_spec l M); [reflexivity|lia].
  - unfold fadd, f', g'. destruct (Z.leb_spec 0 L), (Z.leb_spec 0 M); try lia. rewrite Z1, Z2. cx.
Qed.
Lemma av_cmul : forall c F z, averages F z -> averages (fun q => c * F q)%C (c * z)%C.
Proof. intros c F z (L & f & HL & E & Z1). exists L, (fun l m => (c * f l m)%C). split; [exact HL|]. split; [intros q Hq; rewrite field_cmul, (E q Hq); reflexivity|]. rewrite Z1. cx. Qed.
Lemma av_conj : forall F z, averages F z -> averages (fun q => Conj (F q)) (Conj z).
Proof.
  intros F z (L & f & HL & E & Z1). exists L, (fbar 0 f). split; [exact HL|]. split; [intros q Hq; rewrite (E q Hq); symmetry; apply (field_conj 0 L f q HL)|].
  unfold fbar. cbn [Z.opp Z.add]. change (sgn 0) with 1. rewrite Z1. cx.
Qed.
(** Real functions have real averages. *)
Lemma av_real : forall F z, averages F z -> (forall q, qnorm2 q = 1 -> im (F q) = 0) -> im z = 0.
Proof.
  intros F z H HR. assert (E : z = Conj z).
  { apply (av_unique F (fun q => Conj (F q))); [|exact H|apply av_conj; exact H]. intros q Hq. apply C_eq; [reflexivity|]. cbn. rewrite (HR q Hq). ring. }
  apply (f_equal im) in E. cbn in E. lra.
Qed.
(** Integration by parts: the average of eth of a function of spin weight -1 is zero. *)
Lemma av_parts : forall s F G dF dG, band s F -> band (-1 - s) G -> (forall q, qnorm2 q = 1 -> ethG F q (dF q)) -> (forall q, qnorm2 q = 1 -> ethG G q (dG q)) ->
  averages (fun q => dF q * G q + F q * dG q)%C C0.
Proof.
  intros s F G dF dG HF HG H1 H2. destruct (band_mul s (-1 - s) F G HF HG) as (L & h & HL & E). replace (s + (-1 - s))%Z with (-1)%Z in E by ring.
  exists L, (eth_GHP (-1) h). split; [exact HL|]. split.
  - intros q Hq. apply (eg_unique (fun r => F r * G r)%C q); [apply eg_mul; auto|]. apply (eg_ext (field (-1) L h)); [exact Hq|intros r Hr; symmetry; apply E; exact Hr|]. exact (eg_field (-1) L h q).
  - unfold eth_GHP, eth, ladder, fscale. cbn. apply C_eq; cbn; ring.
Qed.

(** ** The functions v.n *)
Definition nv (v : vec3) : modes := fun l m => if (l =? 1)%Z then (if (m =? -1)%Z then nth 0 (vector_as_ell_1_modes v) C0 else if (m =? 0)%Z then nth 1 (vector_as_ell_1_modes v) C0
  else if (m =? 1)%Z then nth 2 (vector_as_ell_1_modes v) C0 else C0) else C0.
Definition real_modes_to (L : Z) (f : modes) : Prop := forall l m, (0 <= l <= L)%Z -> (- l <= m <= l)%Z -> fbar 0 f l m = f l m.
Lemma real_value : forall L f q, (0 <= L)%Z -> real_modes_to L f -> Conj (field 0 L f q) = field 0 L f q.
Proof. intros L f q HL H. rewrite <- (field_conj 0 L f q HL). change (- 0)%Z with 0%Z. apply Gridmul_Proofs.field_ext. exact H. Qed.
Lemma nv_real : forall v, real_modes_to 1 (nv v).
Proof.
  intros [[x y] z] l m Hl Hm. unfold fbar, nv. assert (C : (l = 0 \/ (l = 1 /\ (m = -1 \/ m = 0 \/ m = 1)))%Z) by lia. destruct C as [-> |[-> [-> |[-> | ->]]]]; cbn [Z.eqb Pos.eqb Z.add Z.opp nth vector_as_ell_1_modes].
  - apply C_eq; cbn; ring.
  - change (sgn (-1)) with (-1). apply C_eq; cbn; ring.
  - change (sgn 0) with 1. apply C_eq; cbn; ring.
  - change (sgn 1) with (-1). apply C_eq; cbn; ring.
Qed.
Lemma nv_value : forall v q, qnorm2 q = 1 -> field 0 1 (nv v) q = RtoC (v3dot v (direction q)).
Proof.
  intros v q Hq. assert (R1 : forall m, (- 1 <= m <= 1)%Z -> freal (nv v) 1%Z m = nv v 1%Z m).
  { intros m Hm. unfold freal, fscale, fadd. rewrite (nv_real v 1%Z m) by lia. apply C_eq; cbn; field. }
  assert (R0 : freal (nv v) 0%Z 0%Z = C0) by (unfold freal, fscale, fadd, fbar, nv; cbn [Z.eqb]; apply C_eq; cbn; ring).
  assert (P : has_parts (nv v) 0 v).
  { split; [rewrite R0; unfold constant_as_ell_0_mode; apply C_eq; cbn; ring|]. rewrite !R1 by lia. destruct v as [[x y] z]. reflexivity. }
  rewrite <- (Rplus_0_l (v3dot v (direction q))). rewrite <- (parts_field (nv v) 0 v q P Hq). apply Gridmul_Proofs.field_ext. intros l m Hl Hm.
  assert (C : (l = 0 \/ l = 1)%Z) by lia. destruct C as [-> | ->]; [replace m with 0%Z by lia; rewrite R0; reflexivity|symmetry; apply R1; lia].
Qed.
(** eth of v.n, with v in the frame at the point *)
Definition en (v : vec3) (q : quat) : C := let '(x, y, z) := rotv (qconj q) v in Cscale (/ sqrt 2) (mkC (- x) (- y)).
Lemma rot_directions : forall t, direction (rot_x t) = (0, - (2 * (cos (t / 2) * sin (t / 2))), cos (t / 2) * cos (t / 2) - sin (t / 2) * sin (t / 2)) /\
  direction (rot_y t) = (2 * (cos (t / 2) * sin (t / 2)), 0, cos (t / 2) * cos (t / 2) - sin (t / 2) * sin (t / 2)).
Proof.
  intros t. destruct (rot_unit t) as [A B]. rewrite !direction_formula by assumption. unfold rot_x, rot_y. cbn [qw qx qy qz]. split; (apply (f_equal2 pair); [apply (f_equal2 pair)|]); ring.
Qed.
Lemma lim_eq : forall f x l l', derivable_pt_lim f x l -> l = l' -> derivable_pt_lim f x l'.
Proof. intros; subst; assumption. Qed.
Lemma nv_eth : forall v q, qnorm2 q = 1 -> ethG (fun r => RtoC (v3dot v (direction r))) q (en v q).
Proof.
  intros v q Hq. unfold en. destruct (rotv (qconj q) v) as [[x y] z] eqn:W. exists (mkC (- x) (- y)). split; [|reflexivity].
  exists (RtoC (- y)), (RtoC x). destruct half_angle as [DC DS].
  assert (C00 : cos (0 / 2) = 1) by (replace (0 / 2) with 0 by field; apply cos_0). assert (S00 : sin (0 / 2) = 0) by (replace (0 / 2) with 0 by field; apply sin_0).
  assert (DCS : derivable_pt_lim (fun t => cos (t / 2) * sin (t / 2)) 0 (/ 2)).
  { assert (E : 0 * sin (0 / 2) + cos (0 / 2) * / 2 = / 2) by (rewrite C00, S00; field). refine (lim_eq _ _ _ _ _ E). apply (derivable_pt_lim_mult (fun t => cos (t / 2)) (fun t => sin (t / 2))); assumption. }
  assert (DD : derivable_pt_lim (fun t => cos (t / 2) * cos (t / 2) - sin (t / 2) * sin (t / 2)) 0 0).
  { assert (E : (0 * cos (0 / 2) + cos (0 / 2) * 0) - (/ 2 * sin (0 / 2) + sin (0 / 2) * / 2) = 0) by (rewrite S00; field). refine (lim_eq _ _ _ _ _ E).
    apply (derivable_pt_lim_minus (fun t => cos (t / 2) * cos (t / 2)) (fun t => sin (t / 2) * sin (t / 2)));
      [apply (derivable_pt_lim_mult (fun t => cos (t / 2)) (fun t => cos (t / 2)))|apply (derivable_pt_lim_mult (fun t => sin (t / 2)) (fun t => sin (t / 2)))]; assumption. }
  split; [|split].
  - apply (hd_ext (fun t => RtoC (- (2 * y) * (cos (t / 2) * sin (t / 2)) + z * (cos (t / 2) * cos (t / 2) - sin (t / 2) * sin (t / 2))))).
    + intros t. destruct (rot_unit t) as [A B]. rewrite direction_mul by assumption. rewrite rotv_adjoint, W, (proj1 (rot_directions t)). unfold v3dot. f_equal. ring.
    + split; cbn; [|apply derivable_pt_lim_const]. apply (lim_eq _ _ (- (2 * y) * / 2 + z * 0)); [|field].
      apply (derivable_pt_lim_plus (fun t => - (2 * y) * (cos (t / 2) * sin (t / 2))) (fun t => z * (cos (t / 2) * cos (t / 2) - sin (t / 2) * sin (t / 2))));
        apply (derivable_pt_lim_scal (fun t => _)); assumption.
  - apply (hd_ext (fun t => RtoC ((2 * x) * (cos (t / 2) * sin (t / 2)) + z * (cos (t / 2) * cos (t / 2) - sin (t / 2) * sin (t / 2))))).
    + intros t. destruct (rot_unit t) as [A B]. rewrite direction_mul by assumption. rewrite rotv_adjoint, W, (proj2 (rot_directions t)). unfold v3dot. f_equal. ring.
    + split; cbn; [|apply derivable_pt_lim_const]. apply (lim_eq _ _ (2 * x * / 2 + z * 0)); [|field].
      apply (derivable_pt_lim_plus (fun t => 2 * x * (cos (t / 2) * sin (t / 2))) (fun t => z * (cos (t / 2) * cos (t / 2) - sin (t / 2) * sin (t / 2))));
        apply (derivable_pt_lim_scal (fun t => _)); assumption.
  - apply C_eq; cbn; ring.
Qed.
Lemma en_field : forall v q, qnorm2 q = 1 -> field 1 1 (eth_GHP 0 (nv v)) q = en v q.
Proof.
  intros v q Hq. apply (eg_unique (fun r => RtoC (v3dot v (direction r))) q); [|apply nv_eth; exact Hq].
  apply (eg_ext (field 0 1 (nv v))); [exact Hq|intros r Hr; apply nv_value; exact Hr|]. exact (eg_field 0 1 (nv v) q).
Qed.
(** The products of two of them *)
Lemma en_product : forall a v q, qnorm2 q = 1 -> let n := direction q in
  (en a q * Conj (en v q))%C = Cscale (/ 2) (mkC (v3dot a v - v3dot a n * v3dot v n) (- v3dot (v3cross a v) n)).
Proof.
  intros a v q Hq n. assert (Hc : qnorm2 (qconj q) = 1) by (rewrite qnorm2_conj; exact Hq).
  assert (D : forall w, v3dot w n = let '(_, _, z) := rotv (qconj q) w in z).
  { intros w. unfold n. replace q with (qmul q q1) by (destruct q; apply quat_eq; cbn; ring). rewrite direction_mul by (exact Hq || (unfold qnorm2; cbn; ring)).
    replace (qmul q q1) with q by (destruct q; apply quat_eq; cbn; ring). rewrite rotv_adjoint. rewrite direction_formula by (unfold qnorm2; cbn; ring). destruct (rotv (qconj q) w) as [[? ?] ?]. unfold v3dot. cbn. ring. }
  assert (DA := rotv_dot (qconj q) a v). rewrite Hc in DA. assert (CR := rotv_cross (qconj q) a v). rewrite Hc in CR. rewrite !D. unfold en.
  replace (rotv (qconj q) (v3cross a v)) with (v3cross (rotv (qconj q) a) (rotv (qconj q) v)) by (rewrite CR; destruct (rotv (qconj q) (v3cross a v)) as [[? ?] ?]; unfold v3scale; apply (f_equal2 pair); [apply (f_equal2 pair)|]; ring).
  replace (v3dot a v) with (v3dot (rotv (qconj q) a) (rotv (qconj q) v)) by (rewrite DA; ring).
  destruct (rotv (qconj q) a) as [[x y] z], (rotv (qconj q) v) as [[x' y'] z']. unfold v3dot, v3cross.
  assert (N2 : / sqrt 2 * / sqrt 2 = / 2) by (rewrite <- Rinv_mult, sqrt_sqrt by lra; reflexivity). set (k := / sqrt 2) in *.
  apply C_eq; cbn.
  - replace (k * - x * (k * - x') - k * - y * - (k * - y')) with (k * k * (x * x' + y * y')) by ring. rewrite N2. ring.
  - replace (k * - x * - (k * - y') + k * - y * (k * - x')) with (k * k * (y * x' - x * y')) by ring. rewrite N2. ring.
Qed.

(** ** Charges as averages *)
Lemma av_times : forall s L f M g, (0 <= L)%Z -> (0 <= M)%Z -> averages (fun q => field s L f q * field (- s) M g q)%C (Cscale (/ sqrt (4 * PI)) (times s L (- s) M f g 0%Z 0%Z)).
Proof.
  intros s L f M g HL HM. exists (L + M)%Z, (times s L (- s) M f g). split; [lia|]. split.
  - intros q Hq. rewrite (proj1 (C72_fields s L f (- s) M g HL HM) q Hq). replace (s + - s)%Z with 0%Z by ring. reflexivity.
  - pose proof root_pos. apply C_eq; cbn; field; lra.
Qed.
Lemma pairing : forall s L X y, (Z.abs s <= 1)%Z -> (1 <= L)%Z -> y 0%Z 0%Z = C0 ->
  averages (fun q => field s L X q * field (- s) 1 y q)%C
    (Cscale (/ (4 * PI)) (Cscale (sgn (s + -1)) (X 1%Z (-1)%Z * y 1%Z 1%Z) + Cscale (sgn (s + 0)) (X 1%Z 0%Z * y 1%Z 0%Z) + Cscale (sgn (s + 1)) (X 1%Z 1%Z * y 1%Z (-1)%Z)))%C.
Proof.
  intros s L X y Hs HL Hy. set (X1 := fun l m => if (l =? 1)%Z then X l m else C0). set (X2 := fun l m => if (l =? 1)%Z then C0 else X l m).
  assert (KM : forall m, (- 1 <= m <= 1)%Z -> product_table s 1 m (- s) 1 (- m) 0 = sgn (s + m) / sqrt (4 * PI)).
  { intros m Hm. rewrite C72_mean. destruct (Z.leb_spec (Z.abs s) 1), (Z.leb_spec (Z.abs m) 1); try lia. reflexivity. }
  assert (K0 : forall l1 l2 m1 m2, l1 <> l2 -> (m1 + m2 = 0)%Z -> product_table s l1 m1 (- s) l2 m2 0 = 0).
  { intros l1 l2 m1 m2 N E. replace m2 with (- m1)%Z by lia. rewrite C72_mean. destruct (Z.eqb_spec l1 l2); [contradiction|reflexivity]. }
  apply (av_ext (fun q => field s 1 X1 q * field (- s) 1 y q + field s L X2 q * field (- s) 1 y q)%C).
  { intros q Hq. assert (E : field s L X q = (field s L X1 q + field s L X2 q)%C).
    { rewrite <- field_fadd. apply Gridmul_Proofs.field_ext. intros l m Hl Hm. unfold fadd, X1, X2. destruct (l =? 1)%Z; cx. }
    rewrite E, <- (field_grow s 1 L X1) by (lia || (intros l m Hl; unfold X1; destruct (Z.eqb_spec l 1); [lia|reflexivity])). ring. }
  replace (Cscale (/ (4 * PI)) _) with (Cscale (/ sqrt (4 * PI)) (times s 1 (- s) 1 X1 y 0%Z 0%Z) + Cscale (/ sqrt (4 * PI)) (times s L (- s) 1 X2 y 0%Z 0%Z))%C; [apply av_add; apply av_times; lia|].
  assert (T2 : times s L (- s) 1 X2 y 0%Z 0%Z = C0).
  { unfold times. apply csum_const0. intros [l1 m1] _. apply csum_const0. intros [l2 m2] I. cbn [fst snd]. destruct (Z.eqb_spec (m1 + m2) 0) as [E|]; [|reflexivity].
    assert (l2 = 0 \/ l2 = 1)%Z by (apply LM_range_In in I; lia). destruct (Z.eqb_spec l2 0) as [-> |N2]; [replace m2 with 0%Z by (apply LM_range_In in I; lia); rewrite Hy; cx|].
    unfold X2. destruct (Z.eqb_spec l1 1) as [-> |N1]; [cx|]. rewrite K0 by (lia || congruence). cx. }
  assert (T1 : times s 1 (- s) 1 X1 y 0%Z 0%Z = Cscale (/ sqrt (4 * PI)) (Cscale (sgn (s + -1)) (X 1%Z (-1)%Z * y 1%Z 1%Z) + Cscale (sgn (s + 0)) (X 1%Z 0%Z * y 1%Z 0%Z) + Cscale (sgn (s + 1)) (X 1%Z 1%Z * y 1%Z (-1)%Z))%C).
  { unfold times. change (LM_range 0 1) with [(0, 0); (1, -1); (1, 0); (1, 1)]%Z. cbn [csum fst snd Z.add Z.eqb Z.pos_sub Pos.eqb Pos.add]. rewrite Hy. unfold X1. cbn [Z.eqb Pos.eqb].
    assert (A1 := KM (-1)%Z ltac:(lia)). assert (A2 := KM 0%Z ltac:(lia)). assert (A3 := KM 1%Z ltac:(lia)). change (- (-1))%Z with 1%Z in A1. change (- (0))%Z with 0%Z in A2. change (- (1))%Z with (-1)%Z in A3.
    rewrite A1, A2, A3. unfold Rdiv. cx. }
  rewrite T1, T2. assert (R2 : / (4 * PI) = / sqrt (4 * PI) * / sqrt (4 * PI)) by (rewrite <- Rinv_mult, sqrt_sqrt by (pose proof PI_RGT_0; lra); reflexivity). rewrite R2. cx.
Qed.
Lemma conj_eth : forall L c q, (0 <= L)%Z -> real_modes_to L c -> Conj (field 1 L (eth_GHP 0 c) q) = field (-1) L (ethbar_GHP 0 c) q.
Proof.
  intros L c q HL H. rewrite <- (field_conj 1 L _ q HL). apply Gridmul_Proofs.field_ext. intros l m Hl Hm. change 1%Z with (0 + 1)%Z. rewrite fbar_eth. change (- 0)%Z with 0%Z. apply ethbar_at. apply H; assumption.
Qed.
Lemma ethbar_ell1 : forall f m, ethbar_GHP 0 f 1%Z m = (- f 1%Z m)%C.
Proof.
  intros f m. unfold ethbar_GHP, ethbar, fscale. cbn [Z.abs Z.sub Z.opp Z.add Z.max Z.compare Z.ltb Pos.compare Pos.compare_cont]. change (IZR ((1 + 0) * (1 - 0 + 1))) with 2.
  pose proof (sqrt_lt_R0 2 ltac:(lra)). apply C_eq; cbn; field; lra.
Qed.
Lemma nv_constants : sqrt (2 * PI / 3) * / (4 * PI) = / sqrt 6 * / sqrt (4 * PI) /\ sqrt 2 * sqrt (2 * PI / 3) * / (4 * PI) = / sqrt 3 * / sqrt (4 * PI).
Proof.
  assert (P := PI_RGT_0). destruct sqrt_consts3 as [E1 E2]. pose proof root_pos as RP. assert (R2 : 4 * PI = sqrt (4 * PI) * sqrt (4 * PI)) by (rewrite sqrt_sqrt; lra).
  assert (N6 : sqrt 6 <> 0) by (apply Rgt_not_eq, sqrt_lt_R0; lra). assert (N3 : sqrt 3 <> 0) by (apply Rgt_not_eq, sqrt_lt_R0; lra). set (w := sqrt (4 * PI)) in *. split.
  - rewrite E1, R2. field. lra.
  - rewrite E1, R2. rewrite <- E2. field. lra.
Qed.
(** The vector charge of an aspect of spin weight 1, along [v], is the average of its product with ethbar (v.n). *)
Theorem C79_charge_1 : forall L X v, (1 <= L)%Z -> exists z, averages (fun q => field 1 L X q * Conj (en v q))%C z /\ v3dot v (snd (charge_vector X)) = re z.
Proof.
  intros L X v HL. assert (A := pairing 1 L X (ethbar_GHP 0 (nv v)) ltac:(lia) HL ltac:(unfold ethbar_GHP, ethbar, fscale; cbn; cx)). eexists. split.
  - apply (av_ext (fun q => field 1 L X q * field (-1) 1 (ethbar_GHP 0 (nv v)) q)%C); [|exact A]. intros q Hq. rewrite <- conj_eth by (lia || apply nv_real). rewrite en_field by exact Hq. reflexivity.
  - rewrite !ethbar_ell1. change (sgn (1 + -1)) with 1. change (sgn (1 + 0)) with (-1). change (sgn (1 + 1)) with 1. destruct v as [[x y] z]. unfold nv, charge_vector, v3dot. cbn [Z.eqb Pos.eqb nth vector_as_ell_1_modes snd].
    destruct nv_constants as [E1 E2]. set (k := sqrt (2 * PI / 3)) in *. set (r := sqrt 2) in *. set (i4 := / (4 * PI)) in *. unfold Rdiv. set (w := / sqrt (4 * PI)) in *. set (s6 := / sqrt 6) in *. set (s3 := / sqrt 3) in *.
    destruct (X 1%Z (-1)%Z) as [a1 b1], (X 1%Z 0%Z) as [a2 b2], (X 1%Z 1%Z) as [a3 b3]. cbn.
    replace (x * ((a1 - a3) * s6 * w) + y * ((b1 + b3) * s6 * w) + z * (a2 * s3 * w)) with (x * (a1 - a3) * (s6 * w) + y * (b1 + b3) * (s6 * w) + z * a2 * (s3 * w)) by ring. rewrite <- E1, <- E2.
    ring.
Qed.
(** The same for spin weight 0, with v.n itself *)
Theorem C79_charge_0 : forall L f v, (1 <= L)%Z -> exists z, averages (fun q => field 0 L f q * RtoC (v3dot v (direction q)))%C z /\ v3dot v (snd (charge_vector f)) = re z /\
  ((forall m, (- 1 <= m <= 1)%Z -> fbar 0 f 1%Z m = f 1%Z m) -> im z = 0).
Proof.
  intros L f v HL. assert (A := pairing 0 L f (nv v) ltac:(lia) HL ltac:(reflexivity)). eexists. split; [|split].
  - apply (av_ext (fun q => field 0 L f q * field 0 1 (nv v) q)%C); [|exact A]. intros q Hq. rewrite nv_value by exact Hq. reflexivity.
  - change (sgn (0 + -1)) with (-1). change (sgn (0 + 0)) with 1. change (sgn (0 + 1)) with (-1). destruct v as [[x y] z]. unfold nv, charge_vector, v3dot. cbn [Z.eqb Pos.eqb nth vector_as_ell_1_modes snd].
    destruct nv_constants as [E1 E2]. set (k := sqrt (2 * PI / 3)) in *. set (r := sqrt 2) in *. set (i4 := / (4 * PI)) in *. unfold Rdiv. set (w := / sqrt (4 * PI)) in *. set (s6 := / sqrt 6) in *. set (s3 := / sqrt 3) in *.
    destruct (f 1%Z (-1)%Z) as [a1 b1], (f 1%Z 0%Z) as [a2 b2], (f 1%Z 1%Z) as [a3 b3]. cbn.
    replace (x * ((a1 - a3) * s6 * w) + y * ((b1 + b3) * s6 * w) + z * (a2 * s3 * w)) with (x * (a1 - a3) * (s6 * w) + y * (b1 + b3) * (s6 * w) + z * a2 * (s3 * w)) by ring. rewrite <- E1, <- E2. ring.
  - intros H. assert (H1 := H (-1)%Z ltac:(lia)). assert (H2 := H 0%Z ltac:(lia)). clear H. unfold fbar in H1, H2. cbn [Z.opp Z.add] in H1, H2. change (sgn (-1)) with (-1) in H1. change (sgn 0) with 1 in H2.
    change (sgn (0 + -1)) with (-1). change (sgn (0 + 0)) with 1. change (sgn (0 + 1)) with (-1). destruct v as [[x y] z]. unfold nv. cbn [Z.eqb Pos.eqb nth vector_as_ell_1_modes].
    destruct (f 1%Z (-1)%Z) as [a1 b1], (f 1%Z 0%Z) as [a2 b2], (f 1%Z 1%Z) as [a3 b3].
    assert (I1 := f_equal re H1). assert (I2 := f_equal im H1). assert (I3 := f_equal im H2). cbn in I1, I2, I3. cbn. replace a1 with (- a3) by lra. replace b1 with b3 by lra. replace b2 with 0 by lra. ring.
Qed.
Lemma charge_energy : forall L f, (0 <= L)%Z -> exists z, averages (field 0 L f) z /\ fst (charge_vector f) = re z /\ (fbar 0 f 0%Z 0%Z = f 0%Z 0%Z -> im z = 0).
Proof.
  intros L f HL. eexists. split; [apply av_field; exact HL|]. split.
  - unfold charge_vector. cbn. unfold Rdiv. ring.
  - intros H. unfold fbar in H. apply (f_equal im) in H. cbn in H. change (sgn 0) with 1 in H. cbn. replace (im (f 0%Z 0%Z)) with 0 by lra. ring.
Qed.

(** ** Derivatives of real functions *)
Lemma eg_conj_en : forall v q, qnorm2 q = 1 -> ethG (fun r => Conj (en v r)) q (- RtoC (v3dot v (direction q)))%C.
Proof.
  intros v q Hq. apply (eg_ext (field (-1) 1 (ethbar_GHP 0 (nv v)))); [exact Hq| |].
  - intros r Hr. rewrite <- conj_eth by (lia || apply nv_real). rewrite en_field by exact Hr. reflexivity.
  - eapply eg_eq; [exact (eg_field (-1) 1 (ethbar_GHP 0 (nv v)) q)|]. change (-1 + 1)%Z with 0%Z. rewrite <- nv_value by exact Hq. rewrite <- field_fopp. apply Gridmul_Proofs.field_ext. intros l m Hl Hm.
    unfold fopp. assert (l = 0 \/ l = 1)%Z as [-> | ->] by lia; [unfold eth_GHP, eth, ladder, fscale, nv; cbn; cx|].
    unfold eth_GHP, fscale, eth, ladder. cbn [Z.abs Z.sub Z.opp Z.add Z.max Z.compare Z.ltb Pos.compare Pos.compare_cont Z.pos_sub]. rewrite ethbar_ell1. change (IZR ((1 - -1) * (1 + 0))) with 2.
    pose proof (sqrt_lt_R0 2 ltac:(lra)). apply C_eq; cbn; field; lra.
Qed.
Lemma eg_en : forall v q, qnorm2 q = 1 -> ethG (en v) q C0.
Proof.
  intros v q Hq. apply (eg_ext (field 1 1 (eth_GHP 0 (nv v)))); [exact Hq|intros r Hr; apply en_field; exact Hr|].
  eapply eg_eq; [exact (eg_field 1 1 (eth_GHP 0 (nv v)) q)|]. change (1 + 1)%Z with 2%Z. unfold field. apply csum_const0. intros [l m] I. apply LM_range_In in I. cbn [fst snd].
  assert (E : eth_GHP 1 (eth_GHP 0 (nv v)) l m = C0); [|rewrite E; ring]. unfold eth_GHP at 1, eth, ladder, fscale. destruct (Z.ltb_spec l (Z.max (Z.abs 1) (Z.abs (1 + 1)))); [cx|lia].
Qed.
Lemma band_en : forall v, band 1 (en v).
Proof. intros v. apply (band_ext 1 (field 1 1 (eth_GHP 0 (nv v)))); [intros; apply en_field; assumption|apply band_field; lia]. Qed.
Lemma band_nv : forall v, band 0 (fun q => RtoC (v3dot v (direction q))).
Proof. intros v. apply (band_ext 0 (field 0 1 (nv v))); [intros; apply nv_value; assumption|apply band_field; lia]. Qed.
Lemma band_const : forall c, band 0 (fun _ => c).
Proof.
  intros c. exists 0%Z, (fun _ _ => Cscale (sqrt (4 * PI)) c). split; [lia|]. intros q Hq. unfold field. change (LM_range 0 0) with [(0, 0)%Z]. cbn [csum fst snd]. rewrite swsh_00. unfold Y0.
  pose proof root_pos. apply C_eq; cbn; field; lra.
Qed.
Definition lapm (f : modes) : modes := fun l m => Cscale (- IZR (l * (l + 1)) / 2) (f l m).
Lemma root2 : / sqrt 2 * / sqrt 2 = / 2.
Proof. rewrite <- Rinv_mult, sqrt_sqrt by lra. reflexivity. Qed.
Lemma eth_up : forall s f l m, (Z.max (Z.abs s) (Z.abs (s + 1)) <= l)%Z -> eth_GHP s f l m = Cscale (/ sqrt 2 * sqrt (IZR ((l - s) * (l + s + 1)))) (f l m).
Proof. intros s f l m H. unfold eth_GHP, fscale, eth, ladder. destruct (Z.ltb_spec l (Z.max (Z.abs s) (Z.abs (s + 1)))); [lia|]. rewrite Z.add_assoc. cx. Qed.
Lemma ethbar_up : forall s f l m, (Z.max (Z.abs s) (Z.abs (s - 1)) <= l)%Z -> ethbar_GHP s f l m = Cscale (- (/ sqrt 2 * sqrt (IZR ((l + s) * (l - s + 1))))) (f l m).
Proof. intros s f l m H. unfold ethbar_GHP, fscale, ethbar. destruct (Z.ltb_spec l (Z.max (Z.abs s) (Z.abs (s - 1)))); [lia|]. cx. Qed.
Lemma eth_low : forall s f l m, (l < Z.max (Z.abs s) (Z.abs (s + 1)))%Z -> eth_GHP s f l m = C0.
Proof. intros s f l m H. unfold eth_GHP, fscale, eth, ladder. destruct (Z.ltb_spec l (Z.max (Z.abs s) (Z.abs (s + 1)))); [cx|lia]. Qed.
Lemma ethbar_low : forall s f l m, (l < Z.max (Z.abs s) (Z.abs (s - 1)))%Z -> ethbar_GHP s f l m = C0.
Proof. intros s f l m H. unfold ethbar_GHP, fscale, ethbar. destruct (Z.ltb_spec l (Z.max (Z.abs s) (Z.abs (s - 1)))); [cx|lia]. Qed.
Section RealFunction.
Variable L : Z.
Hypothesis HL : (0 <= L)%Z.
Definition val0 (f : modes) (q : quat) : C := field 0 L f q.
Definition val1 (f : modes) (q : quat) : C := field 1 L (eth_GHP 0 f) q.
Definition val2 (f : modes) (q : quat) : C := field 2 L (eth_GHP 1 (eth_GHP 0 f)) q.
Lemma lapm_real : forall f, real_modes_to L f -> real_modes_to L (lapm f).
Proof. intros f H l m Hl Hm. unfold lapm, fbar. rewrite <- (H l m) by assumption. unfold fbar. apply C_eq; cbn; ring. Qed.
Lemma add_real : forall f g, real_modes_to L f -> real_modes_to L g -> real_modes_to L (fadd f g).
Proof. intros f g H K l m Hl Hm. rewrite fbar_add, (H l m), (K l m) by assumption. reflexivity. Qed.
Lemma eV : forall f q, ethG (val0 f) q (val1 f q).
Proof. intros f q. exact (eg_field 0 L f q). Qed.
Lemma eE : forall f q, ethG (val1 f) q (val2 f q).
Proof. intros f q. exact (eg_field 1 L (eth_GHP 0 f) q). Qed.
Lemma eEb : forall f q, qnorm2 q = 1 -> real_modes_to L f -> ethG (fun r => Conj (val1 f r)) q (val0 (lapm f) q).
Proof.
  intros f q Hq H. apply (eg_ext (field (-1) L (ethbar_GHP 0 f))); [exact Hq|intros r Hr; symmetry; apply conj_eth; assumption|].
  eapply eg_eq; [exact (eg_field (-1) L (ethbar_GHP 0 f) q)|]. change (-1 + 1)%Z with 0%Z. apply Gridmul_Proofs.field_ext. intros l m Hl Hm.
  unfold lapm. destruct (Z.lt_ge_cases l 1) as [A|A].
  - rewrite eth_low by lia. replace l with 0%Z by lia. cbn [Z.mul]. apply C_eq; cbn; unfold Rdiv; ring.
  - rewrite eth_up, ethbar_up by lia. assert (P : 0 <= IZR (l * (l + 1))) by (apply IZR_le; nia).
    replace ((l - -1) * (l + -1 + 1))%Z with (l * (l + 1))%Z by ring. replace ((l + 0) * (l - 0 + 1))%Z with (l * (l + 1))%Z by ring. assert (S := sqrt_def _ P). rewrite <- S at 3. set (r := sqrt (IZR _)) in *. pose proof root2 as R2. set (k := / sqrt 2) in *.
    destruct (f l m) as [x y]. apply C_eq; cbn.
    + transitivity (k * k * - (r * r) * x); [ring|]. rewrite R2. field.
    + transitivity (k * k * - (r * r) * y); [ring|]. rewrite R2. field.
Qed.
Lemma conj_W : forall f q, real_modes_to L f -> Conj (val2 f q) = field (-2) L (ethbar_GHP (-1) (ethbar_GHP 0 f)) q.
Proof.
  intros f q H. unfold val2. rewrite <- (field_conj 2 L _ q HL). apply Gridmul_Proofs.field_ext. intros l m Hl Hm. change 2%Z with (1 + 1)%Z. rewrite fbar_eth. change (- (1))%Z with (-1)%Z.
  apply ethbar_at. change 1%Z with (0 + 1)%Z. rewrite fbar_eth. apply ethbar_at. apply H; assumption.
Qed.
Lemma eWb : forall f q, qnorm2 q = 1 -> real_modes_to L f -> ethG (fun r => Conj (val2 f r)) q (Conj (val1 (fadd (lapm f) f) q)).
Proof.
  intros f q Hq H. unfold val1. rewrite conj_eth by (exact HL || (apply add_real; [apply lapm_real; exact H|exact H])).
  apply (eg_ext (field (-2) L (ethbar_GHP (-1) (ethbar_GHP 0 f)))); [exact Hq|intros r Hr; symmetry; apply conj_W; assumption|].
  eapply eg_eq; [exact (eg_field (-2) L (ethbar_GHP (-1) (ethbar_GHP 0 f)) q)|]. change (-2 + 1)%Z with (-1)%Z. apply Gridmul_Proofs.field_ext. intros l m Hl Hm.
  destruct (Z.lt_ge_cases l 1) as [A|A]; [rewrite eth_low, ethbar_low by lia; reflexivity|]. unfold fadd at 1, lapm. destruct (Z.lt_ge_cases l 2) as [B|B].
  - rewrite eth_low by lia. replace l with 1%Z by lia. rewrite ethbar_ell1. unfold fadd. destruct (f 1%Z m). apply C_eq; cbn; field.
  - rewrite eth_up, !ethbar_up by lia. unfold fadd. assert (P : 0 <= IZR ((l + 2) * (l - 1))) by (apply IZR_le; nia).
    replace ((l - -2) * (l + -2 + 1))%Z with ((l + 2) * (l - 1))%Z by ring. replace ((l + -1) * (l - -1 + 1))%Z with ((l + 2) * (l - 1))%Z by ring.
    assert (S := sqrt_def _ P). set (r := sqrt (IZR ((l + 2) * (l - 1)))) in *. pose proof root2 as R2. set (k := / sqrt 2) in *. set (t := sqrt (IZR ((l + 0) * (l - 0 + 1)))).
    assert (LL : - IZR (l * (l + 1)) / 2 + 1 = - (k * k * (r * r))). { rewrite S, R2. unfold Zminus. rewrite !mult_IZR, !plus_IZR. cbn. field. }
    set (u := - IZR (l * (l + 1)) / 2) in *. destruct (f l m) as [x y]. apply C_eq; cbn.
    + transitivity (- (k * t) * ((u + 1) * x)); [rewrite LL; ring|ring].
    + transitivity (- (k * t) * ((u + 1) * y)); [rewrite LL; ring|ring].
Qed.
Lemma cV : forall f q, real_modes_to L f -> Conj (val0 f q) = val0 f q.
Proof. intros f q H. apply real_value; assumption. Qed.
Lemma bV : forall f, band 0 (val0 f).
Proof. intros f. apply band_field. exact HL. Qed.
Lemma bE : forall f, band 1 (val1 f).
Proof. intros f. apply band_field. exact HL. Qed.
Lemma bW : forall f, band 2 (val2 f).
Proof. intros f. apply band_field. exact HL. Qed.
End RealFunction.

(** ** The generator of rotations about [v] on real functions, and what it does not see *)
Section Generator.
Variable L : Z.
Hypothesis HL : (0 <= L)%Z.
Variable v : vec3.
Let e := en v.
Let n (q : quat) : C := RtoC (v3dot v (direction q)).
Local Notation V := (val0 L).
Local Notation E := (val1 L).
Local Notation W := (val2 L).
Definition gen (f : modes) (q : quat) : C := (val1 L f q * Conj (en v q) - Conj (val1 L f q) * en v q)%C.
Lemma bEb : forall f, band (-1) (fun q => Conj (E f q)).
Proof. intros f. apply (band_conj 1). apply bE. exact HL. Qed.
Lemma beb : band (-1) (fun q => Conj (e q)).
Proof. apply (band_conj 1). apply band_en. Qed.
Lemma band_sub : forall s F G, band s F -> band s G -> band s (fun q => F q - G q)%C.
Proof. intros s F G HF HG. apply (band_ext s (fun q => F q + (- C1) * G q)%C); [intros; ring|]. apply band_add; [exact HF|apply band_cmul; exact HG]. Qed.
Lemma band_gen : forall f, band 0 (gen f).
Proof. intros f. unfold gen. apply band_sub; [apply (band_mul 1 (-1)); [apply bE; exact HL|apply beb]|apply (band_mul (-1) 1); [apply bEb|apply band_en]]. Qed.
Lemma gen_imaginary : forall f q, Conj (gen f q) = (- gen f q)%C.
Proof. intros f q. unfold gen. rewrite Conj_sub, !Conj_mul, !Conj_involutive. ring. Qed.
Lemma nR : forall q, Conj (n q) = n q.
Proof. intros q. apply Conj_RtoC. Qed.
(** eth and eth ethbar of it *)
Lemma eg_sub : forall F G q d k, ethG F q d -> ethG G q k -> ethG (fun r => F r - G r)%C q (d - k)%C.
Proof. intros F G q d k A B. eapply eg_eq; [apply (eg_add F (fun r => - G r)%C); [exact A|apply eg_opp; exact B]|ring]. Qed.
Definition dgen (f : modes) (q : quat) : C := (W f q * Conj (e q) - n q * E f q - V (lapm f) q * e q)%C.
Lemma eg_gen : forall f q, qnorm2 q = 1 -> real_modes_to L f -> ethG (gen f) q (dgen f q).
Proof.
  intros f q Hq H. eapply eg_eq; [apply eg_sub; apply eg_mul; [apply eE|apply eg_conj_en; exact Hq|apply eEb; assumption|apply eg_en; exact Hq]|]. unfold dgen, n, e. ring.
Qed.
Lemma eg_dgen : forall f q, qnorm2 q = 1 -> real_modes_to L f -> ethG (fun r => Conj (dgen f r)) q (- gen (lapm f) q)%C.
Proof.
  intros f q Hq H. apply (eg_ext (fun r => Conj (W f r) * e r - n r * Conj (E f r) - V (lapm f) r * Conj (e r))%C); [exact Hq| |].
  { intros r Hr. unfold dgen. rewrite !Conj_sub, !Conj_mul, Conj_involutive, nR, cV by (assumption || apply lapm_real; assumption). reflexivity. }
  eapply eg_eq.
  - apply eg_sub; [apply eg_sub|]; apply eg_mul; [apply eWb; assumption|apply eg_en; exact Hq|apply nv_eth; exact Hq|apply eEb; assumption|apply eV|apply eg_conj_en; exact Hq].
  - unfold gen, n, e. assert (A : val1 L (fadd (lapm f) f) q = (val1 L (lapm f) q + val1 L f q)%C).
    { unfold val1. rewrite <- field_fadd. apply Gridmul_Proofs.field_ext. intros l m Hl Hm. unfold eth_GHP, fadd, eth, ladder, fscale. destruct (l <? _)%Z; cx. }
    rewrite A, Conj_add. ring.
Qed.
Lemma band_dgen : forall f, real_modes_to L f -> band 1 (dgen f).
Proof.
  intros f H. unfold dgen. apply band_sub; [apply band_sub|]; [apply (band_mul 2 (-1)); [apply bW; exact HL|apply beb]|apply (band_mul 0 1); [apply band_nv|apply bE; exact HL]|apply (band_mul 0 1); [apply bV; exact HL|apply band_en]].
Qed.
(** Antisymmetric *)
Lemma gen_anti : forall f g z w, real_modes_to L f -> real_modes_to L g -> averages (fun q => V f q * gen g q)%C z -> averages (fun q => V g q * gen f q)%C w -> (z + w)%C = C0.
Proof.
  intros f g z w Hf Hg Az Aw.
  assert (X : averages (fun q => (E f q * V g q + V f q * E g q) * Conj (e q) + (V f q * V g q) * (- n q))%C C0).
  { apply (av_parts 0 (fun q => V f q * V g q)%C (fun q => Conj (e q)) (fun q => E f q * V g q + V f q * E g q)%C (fun q => - n q)%C).
    - apply (band_mul 0 0); apply bV; exact HL.
    - apply beb.
    - intros q Hq. apply eg_mul; apply eV.
    - intros q Hq. apply eg_conj_en. exact Hq. }
  assert (Y := av_add _ _ _ _ X (av_cmul (- C1)%C _ _ (av_conj _ _ X))).
  assert (Y0 : (C0 + - C1 * Conj C0)%C = C0) by (cbn; cx).
  rewrite Y0 in Y. refine (av_unique _ _ _ _ _ (av_add _ _ _ _ Az Aw) Y).
  intros q Hq. cbv beta. unfold gen. rewrite Conj_add, !Conj_mul, Conj_add, !Conj_mul, Conj_opp, nR, Conj_involutive, !cV by assumption. unfold e. ring.
Qed.
Lemma gen_add : forall f g q, gen (fadd f g) q = (gen f q + gen g q)%C.
Proof.
  intros f g q. unfold gen. assert (A : val1 L (fadd f g) q = (val1 L f q + val1 L g q)%C).
  { unfold val1. rewrite <- field_fadd. apply Gridmul_Proofs.field_ext. intros l m Hl Hm. unfold eth_GHP, fadd, eth, ladder, fscale. destruct (l <? _)%Z; cx. }
  rewrite A, Conj_add. ring.
Qed.
Lemma val0_add : forall f g q, V (fadd f g) q = (V f q + V g q)%C.
Proof. intros. apply field_fadd. Qed.
(** The pairing, and the symmetry of the Laplacian in it *)
Definition pair_is (f g : modes) (z : C) : Prop := averages (fun q => V f q * gen g q)%C z.
Lemma pair_ex : forall f g, exists z, pair_is f g z.
Proof. intros f g. apply band_av. apply (band_mul 0 0); [apply bV; exact HL|apply band_gen]. Qed.
Lemma pair_conj : forall f g z, real_modes_to L f -> pair_is f g z -> Conj z = (- z)%C.
Proof.
  intros f g z Hf H. refine (eq_trans _ (_ : - C1 * z = - z)%C); [|ring].
  apply (av_unique (fun q => Conj (V f q * gen g q))%C (fun q => - C1 * (V f q * gen g q))%C); [|apply av_conj; exact H|apply av_cmul; exact H].
  intros q Hq. rewrite Conj_mul, gen_imaginary, cV by assumption. ring.
Qed.
Lemma pair_lap : forall f g z w, real_modes_to L f -> real_modes_to L g -> pair_is f (lapm g) z -> pair_is (lapm f) g w -> z = w.
Proof.
  intros f g z w Hf Hg Hz Hw.
  assert (X1 : averages (fun q => E f q * Conj (dgen g q) + V f q * (- gen (lapm g) q))%C C0).
  { apply (av_parts 0 (V f) (fun q => Conj (dgen g q)) (E f) (fun q => - gen (lapm g) q)%C); [apply bV; exact HL|apply (band_conj 1); apply band_dgen; exact Hg|intros; apply eV|intros; apply eg_dgen; assumption]. }
  assert (X2 : averages (fun q => V (lapm f) q * gen g q + Conj (E f q) * dgen g q)%C C0).
  { apply (av_parts (-1) (fun q => Conj (E f q)) (gen g) (V (lapm f)) (dgen g)); [apply bEb|apply band_gen|intros; apply eEb; assumption|intros; apply eg_gen; assumption]. }
  assert (A1 := av_conj _ _ (av_add _ _ _ _ X1 Hz)).
  assert (A2 := av_add _ _ _ _ X2 (av_cmul (- C1)%C _ _ Hw)). cbv beta in A1, A2.
  assert (K : (Conj (C0 + z) = C0 + - C1 * w)%C).
  { refine (av_unique _ _ _ _ _ A1 A2). intros q Hq. cbv beta. rewrite !Conj_add, !Conj_mul, Conj_involutive, Conj_opp, !gen_imaginary, cV by assumption. ring. }
  rewrite Conj_add, (pair_conj f (lapm g) z Hf Hz) in K. apply (f_equal Copp) in K. replace z with (- (Conj C0 + - z))%C by (cbn; cx). rewrite K. cx.
Qed.
Lemma twice_zero : forall z : C, (z + z)%C = C0 -> z = C0.
Proof. intros z H. apply (f_equal re) in H as A. apply (f_equal im) in H as B. cbn in A, B. apply C_eq; cbn; lra. Qed.
Lemma pair_self : forall f z, real_modes_to L f -> pair_is f f z -> z = C0.
Proof. intros f z Hf H. apply twice_zero. apply (gen_anti f f); assumption. Qed.
Lemma pair_self_lap : forall f z, real_modes_to L f -> pair_is f (lapm f) z -> z = C0.
Proof.
  intros f z Hf H. destruct (pair_ex (lapm f) f) as (w & Hw). assert (z = w) by (apply (pair_lap f f); assumption). subst w.
  apply twice_zero. apply (gen_anti f (lapm f)); try assumption. apply lapm_real; assumption.
Qed.
Lemma pair_add_r : forall f g h z w, pair_is f g z -> pair_is f h w -> pair_is f (fadd g h) (z + w)%C.
Proof. intros f g h z w A B. refine (av_ext _ _ _ _ (av_add _ _ _ _ A B)). intros q Hq. cbv beta. rewrite gen_add. ring. Qed.
(** For a real [c], with [k = (Laplacian + 1) c], neither of these has an imaginary part on average *)
Lemma quadratic : forall c z, real_modes_to L c ->
  averages (fun q => W c q * Conj (E (fadd (lapm c) c) q) * Conj (e q))%C z -> im z = 0.
Proof.
  intros c z Hc H. set (k := fadd (lapm c) c) in *. assert (Hl : real_modes_to L (lapm c)) by (apply lapm_real; assumption). assert (Hk : real_modes_to L k) by (apply add_real; assumption).
  assert (Hlk : real_modes_to L (lapm k)) by (apply lapm_real; assumption).
  (* the two pairings that vanish *)
  assert (P1 : pair_is c k C0).
  { destruct (pair_ex c (lapm c)) as (a & A), (pair_ex c c) as (b & B). pose proof (pair_add_r _ _ _ _ _ A B) as S. rewrite (pair_self_lap c a Hc A), (pair_self c b Hc B) in S. replace (C0 + C0)%C with C0 in S by cx. exact S. }
  assert (P2 : pair_is (lapm k) c C0).
  { destruct (pair_ex (lapm c) (lapm c)) as (a & A), (pair_ex (lapm c) c) as (b & B). pose proof (pair_add_r _ _ _ _ _ A B) as S. fold k in S.
    rewrite (pair_self (lapm c) a Hl A) in S.
    assert (b = C0). { destruct (pair_ex c (lapm c)) as (b' & B'). rewrite <- (pair_lap c c b' b Hc Hc B' B). exact (pair_self_lap c b' Hc B'). }
    subst b. replace (C0 + C0)%C with C0 in S by cx.
    destruct (pair_ex c (lapm k)) as (d & D). assert (d = C0) by (apply (pair_lap c k); assumption). subst d.
    destruct (pair_ex (lapm k) c) as (x & Xx). assert (K := gen_anti (lapm k) c x C0 Hlk Hc Xx D). replace C0 with x by (rewrite <- K; cx). exact Xx. }
  (* move the derivative off W *)
  assert (X1 : averages (fun q => W c q * (Conj (E k q) * Conj (e q)) + E c q * (V (lapm k) q * Conj (e q) + Conj (E k q) * (- n q)))%C C0).
  { apply (av_parts 1 (E c) (fun q => Conj (E k q) * Conj (e q))%C (W c) (fun q => V (lapm k) q * Conj (e q) + Conj (E k q) * (- n q))%C).
    - apply bE; exact HL.
    - apply (band_mul (-1) (-1)); [apply bEb|apply beb].
    - intros q Hq. apply eE.
    - intros q Hq. apply eg_mul; [apply eEb; assumption|apply eg_conj_en; exact Hq]. }
  assert (X2 : averages (fun q => (E c q * n q + V c q * e q) * Conj (E k q) + (V c q * n q) * V (lapm k) q)%C C0).
  { apply (av_parts 0 (fun q => V c q * n q)%C (fun q => Conj (E k q)) (fun q => E c q * n q + V c q * e q)%C (V (lapm k))).
    - apply (band_mul 0 0); [apply bV; exact HL|apply band_nv].
    - apply bEb.
    - intros q Hq. apply eg_mul; [apply eV|apply nv_eth; exact Hq].
    - intros q Hq. apply eEb; assumption. }
  assert (Y1 := av_add _ _ _ _ H (av_cmul (- C1)%C _ _ X1)). assert (Y2 := av_add _ _ _ _ Y1 (av_cmul (- C1)%C _ _ X2)). cbv beta in Y2.
  assert (Y3 := av_add _ _ _ _ (av_add _ _ _ _ Y2 (av_cmul (- C1)%C _ _ (av_conj _ _ Y2))) P2). assert (Y4 := av_add _ _ _ _ Y3 (av_cmul (- C1)%C _ _ P1)). cbv beta in Y4.
  match type of Y4 with averages _ ?w => assert (K : w = C0) end.
  { refine (av_unique _ (fun _ => C0) _ _ _ Y4 _).
    - intros q Hq. cbv beta. unfold gen. assert (K1 : Conj C1 = C1) by (cbn; cx). repeat (rewrite Conj_add || rewrite Conj_mul || rewrite Conj_opp || rewrite Conj_involutive || rewrite nR || rewrite K1 || rewrite cV by assumption). fold e. ring.
    - assert (Z0 := av_cmul C0 _ _ H). replace (C0 * z)%C with C0 in Z0 by ring. refine (av_ext _ _ _ _ Z0). intros q Hq. cbv beta. ring. }
  apply (f_equal im) in K. cbn in K. lra.
Qed.
End Generator.

(** ** Turning the sphere *)
Lemma av_turn : forall p F z, qnorm2 p = 1 -> averages F z -> averages (fun q => F (qmul p q)) z.
Proof.
  intros p F z Hp (L & f & HL & E & Z0). exists L, (turn wigner_D p f). split; [exact HL|]. split.
  - intros q Hq. rewrite E by (rewrite qnorm2_mul, Hp, Hq; ring). symmetry. apply C68_field_rotation. exact HL.
  - rewrite <- Z0. unfold turn. change (ms_of 0) with [0%Z]. cbn [csum]. rewrite D_000. ring.
Qed.
Lemma en_turn : forall p v q, qnorm2 p = 1 -> en v q = en (rotv p v) (qmul p q).
Proof.
  intros p v q Hp. unfold en. assert (E : rotv (qconj (qmul p q)) (rotv p v) = rotv (qconj q) v); [|rewrite E; reflexivity].
  rewrite qconj_mul. assert (E1 : forall r w, rotv (qmul r (qconj p)) (rotv p w) = v3scale (qnorm2 p * qnorm2 p) (rotv r w)).
  { clear. intros [rw rx ry rz] [[x y] z]. destruct p as [pw px py pz]. unfold rotv, qvec, v3scale, qnorm2. cbn. apply (f_equal2 pair); [apply (f_equal2 pair)|]; ring. }
  rewrite E1, Hp. destruct (rotv (qconj q) v) as [[x y] z]. unfold v3scale. apply (f_equal2 pair); [apply (f_equal2 pair)|]; ring.
Qed.
Lemma nv_turn : forall p v q, qnorm2 p = 1 -> qnorm2 q = 1 -> v3dot v (direction q) = v3dot (rotv p v) (direction (qmul p q)).
Proof. intros p v q Hp Hq. rewrite direction_mul by assumption. rewrite rotv_dot, Hp. ring. Qed.
Lemma av_unturn : forall p F G z, qnorm2 p = 1 -> (forall q, qnorm2 q = 1 -> G q = F (qmul p q)) -> band 0 F -> averages G z -> averages F z.
Proof.
  intros p F G z Hp H HF HG. destruct (band_av F HF) as (w & Hw). replace z with w; [exact Hw|].
  apply (av_unique (fun q => F (qmul p q)) G); [intros q Hq; symmetry; apply H; exact Hq|apply av_turn; assumption|exact HG].
Qed.
(** ** What a translation and a supertranslation add to the average of the aspect *)
Section Change.
Variable L : Z.
Hypothesis HL : (1 <= L)%Z.
Variables (g : modes) (v : vec3).
Local Notation G := (field 0 L g).
Local Notation EG := (field 1 L (eth_GHP 0 g)).
Local Notation eb := (fun q => Conj (en v q)).
Lemma translation_change : forall a0 a, (forall l m, (0 <= l <= 1)%Z -> (- l <= m <= l)%Z -> fbar 0 g l m = g l m) ->
  averages (fun q => (RtoC (a0 + v3dot a (direction q)) * EG q + Cscale 3 (en a q * G q)) * eb q)%C
    (mkC (a0 * v3dot v (snd (charge_vector g)) + fst (charge_vector g) * v3dot a v) (- v3dot (v3cross a v) (snd (charge_vector g)))).
Proof.
  intros a0 a HR. destruct (C79_charge_0 L g v HL) as (z1 & A1 & R1 & I1). destruct (C79_charge_0 L g (v3cross a v) HL) as (z2 & A2 & R2 & I2). destruct (charge_energy L g ltac:(lia)) as (z3 & A3 & R3 & I3).
  specialize (I1 (fun m H => HR 1%Z m ltac:(lia) H)). specialize (I2 (fun m H => HR 1%Z m ltac:(lia) H)). specialize (I3 (HR 0%Z 0%Z ltac:(lia) ltac:(lia))).
  set (A := fun q => RtoC (a0 + v3dot a (direction q))).
  assert (BA : band 0 A).
  { apply (band_ext 0 (fun q => RtoC a0 + RtoC (v3dot a (direction q)))%C); [intros; unfold A; cx|]. apply band_add; [apply band_const|apply band_nv]. }
  assert (DA : forall q, qnorm2 q = 1 -> ethG A q (en a q)).
  { intros q Hq. apply (eg_ext (fun q => C1 * RtoC (v3dot a (direction q)) + RtoC a0)%C); [exact Hq|intros; unfold A; cx|].
    destruct (nv_eth a q Hq) as (x & (dx & dy & X & Y & EE) & E). exists x. split; [|exact E]. exists dx, dy. split; [|split; [|exact EE]].
    - apply (hd_ext (fun t => RtoC (v3dot a (direction (qmul q (rot_x t)))) + RtoC a0)%C); [intros; cx|]. replace dx with (dx + C0)%C by ring. apply hd_add; [exact X|apply hd_const].
    - apply (hd_ext (fun t => RtoC (v3dot a (direction (qmul q (rot_y t)))) + RtoC a0)%C); [intros; cx|]. replace dy with (dy + C0)%C by ring. apply hd_add; [exact Y|apply hd_const]. }
  assert (X : averages (fun q => (en a q * G q + A q * EG q) * eb q + (A q * G q) * (- RtoC (v3dot v (direction q))))%C C0).
  { apply (av_parts 0 (fun q => A q * G q)%C eb (fun q => en a q * G q + A q * EG q)%C (fun q => - RtoC (v3dot v (direction q)))%C).
    - apply (band_mul 0 0); [exact BA|apply band_field; lia].
    - apply (band_conj 1), band_en.
    - intros q Hq. apply eg_mul; [apply DA; exact Hq|apply (eg_field 0 L g q)].
    - intros q Hq. apply eg_conj_en. exact Hq. }
  assert (Y := av_add _ _ _ _ (av_add _ _ _ _ (av_add _ _ _ _ X (av_cmul (RtoC a0) _ _ A1)) (av_cmul (RtoC (v3dot a v)) _ _ A3)) (av_cmul (- Ci)%C _ _ A2)). cbv beta in Y.
  replace (mkC _ _) with (C0 + RtoC a0 * z1 + RtoC (v3dot a v) * z3 + - Ci * z2)%C.
  - refine (av_ext _ _ _ _ Y). intros q Hq. cbv beta. fold (A q). pose proof (en_product a v q Hq) as EP. cbv zeta in EP.
    transitivity ((en a q * G q + A q * EG q) * Conj (en v q) + G q * Cscale 2 (en a q * Conj (en v q)))%C; [|cx]. rewrite EP. unfold A. cx.
  - rewrite R1, R2, R3. generalize (v3dot a v). intros t. apply C_eq; cbn; rewrite I1, I2, I3; ring.
Qed.
Lemma super_change : forall M c z, (0 <= M)%Z -> real_modes_to M c -> real_modes_to L g ->
  averages (fun q => (field 0 M c q * EG q + field 1 M (eth_GHP 0 c) q * G q) * eb q)%C z -> im z = 0.
Proof.
  intros M c z HM Hc Hg H.
  assert (X : averages (fun q => (field 1 M (eth_GHP 0 c) q * G q + field 0 M c q * EG q) * eb q + (field 0 M c q * G q) * (- RtoC (v3dot v (direction q))))%C C0).
  { apply (av_parts 0 (fun q => field 0 M c q * G q)%C eb (fun q => field 1 M (eth_GHP 0 c) q * G q + field 0 M c q * EG q)%C (fun q => - RtoC (v3dot v (direction q)))%C).
    - apply (band_mul 0 0); apply band_field; lia.
    - apply (band_conj 1), band_en.
    - intros q Hq. apply eg_mul; [apply (eg_field 0 M c q)|apply (eg_field 0 L g q)].
    - intros q Hq. apply eg_conj_en. exact Hq. }
  assert (Y := av_add _ _ _ _ H (av_cmul (- C1)%C _ _ X)). cbv beta in Y. apply av_real in Y.
  - cbn in Y. lra.
  - intros q Hq. set (x := field 0 M c q). set (y := G q). assert (Cx : Conj x = x) by (apply real_value; [exact HM|exact Hc]). assert (Cy : Conj y = y) by (apply real_value; [lia|exact Hg]).
    apply (f_equal im) in Cx. apply (f_equal im) in Cy. cbn in Cx, Cy. set (w := field 1 M (eth_GHP 0 c) q). set (t := EG q). set (e := Conj (en v q)).
    replace ((x * t + w * y) * e + - C1 * ((w * y + x * t) * e + x * y * - RtoC (v3dot v (direction q))))%C with (x * y * RtoC (v3dot v (direction q)))%C by ring.
    cbn. replace (im x) with 0 by lra. replace (im y) with 0 by lra. ring.
Qed.
End Change.
