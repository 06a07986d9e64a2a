(** * C79: what translations and supertranslations do to the charges of data without radiation *)
From Coq Require Import Reals ZArith List Bool Lia Lra.
From Verif Require Import Common Cplx Quat Modes_Model Create_Model Times_Model Tables_Model Modal_Model Kwargs_Model Transform_Model Rotate_Model
  Modes_Proofs Modal_Proofs Rotate_Proofs Times_Proofs Kwargs_Proofs Validity_Proofs Transform_Proofs Wigner_Model Wigner_Proofs Sphere_Model Sphere_Proofs Harmonics_Proofs
  Pipeline_Model Pipeline_Proofs ABD_Model ABD_Proofs ABDBalance_Proofs ABDPointwise_Proofs Zturn_Model Zturn_Proofs Product_Proofs Gridmul_Model Gridmul_Proofs
  Abdpipe_Model Abdpipe_Proofs Eth_Proofs Bianchi_Proofs Bianchimodes_Proofs Constraints_Model Constraints_Proofs Charges_Model Charges_Proofs Averages_Proofs.
Import ListNotations.
Open Scope R_scope.

(** ** The charges of one time from the fields *)
Lemma v3_by_dots : forall x y : vec3, (forall v, v3dot v x = v3dot v y) -> x = y.
Proof.
  intros [[a b] c] [[d e] f] H. assert (H1 := H (1, 0, 0)). assert (H2 := H (0, 1, 0)). assert (H3 := H (0, 0, 1)). unfold v3dot in H1, H2, H3.
  apply (f_equal2 pair); [apply (f_equal2 pair)|]; lra.
Qed.
Lemma v3dot_add_r : forall u v w, v3dot u (v3add v w) = v3dot u v + v3dot u w.
Proof. intros [[? ?] ?] [[? ?] ?] [[? ?] ?]. unfold v3dot, v3add. ring. Qed.
Lemma v3dot_scale_r : forall u x v, v3dot u (v3scale x v) = x * v3dot u v.
Proof. intros [[? ?] ?] x [[? ?] ?]. unfold v3dot, v3scale. ring. Qed.
Lemma v3dot_comm : forall u v, v3dot u v = v3dot v u.
Proof. intros [[? ?] ?] [[? ?] ?]. unfold v3dot. ring. Qed.
Lemma rotv_adjoint' : forall p v n, v3dot (rotv p v) n = v3dot v (rotv (qconj p) n).
Proof. intros p v n. rewrite (rotv_adjoint (qconj p)). rewrite qconj_involutive. reflexivity. Qed.
Definition Sd (L : Z) (S : modes) (q : quat) : C := field (-1) L (eth_GHP (-2) (fbar 2 S)) q.
Lemma eg_Sd : forall L S q, (0 <= L)%Z -> qnorm2 q = 1 -> ethG (fun r => Conj (field 2 L S r)) q (Sd L S q).
Proof.
  intros L S q HL Hq. apply (eg_ext (field (-2) L (fbar 2 S))); [exact Hq|intros r Hr; apply (field_conj 2 L S r HL)|]. exact (eg_field (-2) L (fbar 2 S) q).
Qed.
Definition angF (L : Z) (b : bondi) (q : quat) : C := (field 1 L (b_psi1 b) q + field 2 L (b_sigma b) q * Sd L (b_sigma b) q)%C.
Lemma ang_field : forall L b q, (0 <= L)%Z -> upto L (b_psi1 b) -> qnorm2 q = 1 -> field 1 (L + L) (full_ang L b) q = angF L b q.
Proof.
  intros L b q HL H1 Hq. unfold full_ang. rewrite field_fadd. unfold angF, Sd. rewrite <- (field_grow 1 L (L + L) (b_psi1 b)) by (lia || (intros l m Hl; apply H1; lia)).
  rewrite (proj1 (C72_fields 2 L (b_sigma b) (-1) L (eth_GHP (-2) (fbar 2 (b_sigma b))) HL HL) q Hq). reflexivity.
Qed.
Lemma band_angF : forall L b, (0 <= L)%Z -> band 1 (angF L b).
Proof. intros L b HL. apply band_add; [apply band_field; exact HL|]. apply (band_mul 2 (-1)); apply band_field; exact HL. Qed.
Lemma angular_average : forall L b v z, (1 <= L)%Z -> upto L (b_psi1 b) -> averages (fun q => angF L b q * Conj (en v q))%C z ->
  v3dot v (snd (charge_vector (full_ang L b))) = re z /\ v3dot v (bondi_angular_momentum product_table L b) = - im z.
Proof.
  intros L b v z HL H1 H. split.
  - destruct (C79_charge_1 (L + L) (full_ang L b) v ltac:(lia)) as (w & A & E). rewrite E. f_equal. apply (av_unique _ _ _ _ (fun q Hq => f_equal (fun x => x * Conj (en v q))%C (ang_field L b q ltac:(lia) H1 Hq)) A H).
  - rewrite angular_full. destruct (C79_charge_1 (L + L) (fmuli (full_ang L b)) v ltac:(lia)) as (w & A & E). rewrite E.
    assert (W : w = (Ci * z)%C).
    { refine (av_unique _ _ _ _ _ A (av_cmul Ci _ _ H)). intros q Hq. cbv beta. rewrite <- (ang_field L b q ltac:(lia) H1 Hq).
      assert (FM : field 1 (L + L) (fmuli (full_ang L b)) q = (Ci * field 1 (L + L) (full_ang L b) q)%C) by (apply field_cmul). rewrite FM. ring. }
    rewrite W. cbn. ring.
Qed.
Lemma sq_average : forall L b v z, (1 <= L)%Z -> averages (fun q => field 2 L (b_sigma b) q * Conj (field 2 L (b_sigma b) q) * RtoC (v3dot v (direction q)))%C z ->
  v3dot v (snd (charge_vector (full_sq L b))) = re z.
Proof.
  intros L b v z HL H. destruct (C79_charge_0 (L + L) (full_sq L b) v ltac:(lia)) as (w & A & E & _). rewrite E. f_equal. refine (av_unique _ _ _ _ _ A H). intros q Hq. cbv beta. f_equal.
  unfold full_sq. rewrite <- (field_conj 2 L (b_sigma b) q ltac:(lia)). symmetry. apply (proj1 (C72_fields 2 L (b_sigma b) (-2) L (fbar 2 (b_sigma b)) ltac:(lia) ltac:(lia)) q Hq).
Qed.
Lemma com_parts : forall L b, bondi_CoM_charge product_table L b = v3scale (-1) (v3add (snd (charge_vector (full_ang L b))) (v3scale (1 / 2) (snd (charge_vector (full_sq L b))))).
Proof.
  intros L b. rewrite com_full. rewrite charge_opp. cbn [snd]. rewrite charge_add. cbn [snd]. rewrite charge_scale. cbn [snd]. 
  assert (E : snd (charge_vector (fscale (1 / 2) (eth_GHP 0 (full_sq L b)))) = v3scale (1 / 2) (snd (charge_vector (full_sq L b)))) by (rewrite charge_scale; cbn [snd]; rewrite charge_eth; reflexivity).
  rewrite ?E, ?charge_eth. reflexivity.
Qed.
Lemma momentum_static : forall L b d k, (forall l m, d l m = C0) -> bondi_four_momentum product_table L b d k = (- fst (charge_vector (b_psi2 b)), v3scale (-1) (snd (charge_vector (b_psi2 b)))).
Proof.
  intros L b d k H. rewrite momentum_full, charge_opp. rewrite (charge_ext (full_mass L b d) (b_psi2 b)); [reflexivity|]. intros l m _. unfold full_mass, fadd.
  assert (Z0 : times 2 L (-2) L (b_sigma b) d l m = C0); [|rewrite Z0; cx]. unfold times. apply csum_const0. intros p _. apply csum_const0. intros q _. rewrite H. destruct (_ =? _)%Z; [cx|reflexivity].
Qed.

(** ** One time after another frame: a translation and a rotation *)
Section Translated.
Variables L M : Z.
Variables b b' : bondi.
Variable p : quat.
Variables (a0 : R) (a : vec3).
Hypothesis HL : (1 <= L)%Z.
Hypothesis HM : (1 <= M)%Z.
Hypothesis Hp : qnorm2 p = 1.
Hypothesis U : upto L (b_psi1 b).
Hypothesis U' : upto M (b_psi1 b').
Let g := b_psi2 b.
Hypothesis HR : forall l m, (0 <= l <= 1)%Z -> (- l <= m <= l)%Z -> fbar 0 g l m = g l m.
Hypothesis H2 : forall q, qnorm2 q = 1 -> field 0 M (b_psi2 b') q = field 0 L g (qmul p q).
Let E := - fst (charge_vector g).
Let P := v3scale (-1) (snd (charge_vector g)).
Let turn3 := rotv (qconj p).
Lemma unit_mul : forall q, qnorm2 q = 1 -> qnorm2 (qmul p q) = 1.
Proof. intros q Hq. rewrite qnorm2_mul, Hp, Hq. ring. Qed.
Lemma translated_momentum : charge_vector (b_psi2 b') = (fst (charge_vector g), turn3 (snd (charge_vector g))).
Proof.
  destruct (charge_energy M (b_psi2 b') ltac:(lia)) as (z & A & R1 & _). destruct (charge_energy L g ltac:(lia)) as (w & B & R2 & _).
  assert (Z1 : z = w) by (apply (av_unique (field 0 M (b_psi2 b')) (fun q => field 0 L g (qmul p q))); [exact H2|exact A|apply av_turn; assumption]).
  rewrite (surjective_pairing (charge_vector (b_psi2 b'))), R1, R2, Z1. f_equal. apply v3_by_dots. intros v.
  destruct (C79_charge_0 M (b_psi2 b') v HM) as (z1 & A1 & -> & _). unfold turn3. rewrite <- (rotv_adjoint' p v). destruct (C79_charge_0 L g (rotv p v) HL) as (w1 & B1 & -> & _).
  f_equal. refine (av_unique _ _ _ _ _ A1 (av_turn p _ _ Hp B1)). intros q Hq. cbv beta. rewrite (nv_turn p v q Hp Hq), (H2 q Hq). reflexivity.
Qed.
Section Plain.
Hypothesis H1 : forall q, qnorm2 q = 1 -> let r := qmul p q in
  field 1 M (b_psi1 b') q = (field 1 L (b_psi1 b) r + (RtoC (a0 + v3dot a (direction r)) * field 1 L (eth_GHP 0 g) r + Cscale 3 (en a r * field 0 L g r)))%C.
Hypothesis HS : forall q, qnorm2 q = 1 -> field 2 M (b_sigma b') q = field 2 L (b_sigma b) (qmul p q).
Lemma translated_Sd : forall q, qnorm2 q = 1 -> Sd M (b_sigma b') q = Sd L (b_sigma b) (qmul p q).
Proof.
  intros q Hq. apply (eg_unique (fun r => Conj (field 2 M (b_sigma b') r)) q); [apply eg_Sd; [lia|exact Hq]|].
  apply (eg_ext (fun r => Conj (field 2 L (b_sigma b) (qmul p r)))); [exact Hq|intros r Hr; rewrite HS by exact Hr; reflexivity|].
  apply (eg_left p (fun r => Conj (field 2 L (b_sigma b) r))). apply eg_Sd; [lia|apply unit_mul; exact Hq].
Qed.
Lemma translated_ang : forall v z, averages (fun q => angF L b q * Conj (en (rotv p v) q))%C z ->
  averages (fun q => angF M b' q * Conj (en v q))%C (z + mkC (a0 * v3dot (rotv p v) (snd (charge_vector g)) + fst (charge_vector g) * v3dot a (rotv p v)) (- v3dot (v3cross a (rotv p v)) (snd (charge_vector g))))%C.
Proof.
  intros v z H. refine (av_ext _ _ _ _ (av_turn p _ _ Hp (av_add _ _ _ _ H (translation_change L HL g (rotv p v) a0 a HR)))). intros q Hq. cbv beta.
  rewrite (en_turn p v q Hp). unfold angF. rewrite (H1 q Hq), (HS q Hq), (translated_Sd q Hq). cbv zeta. ring.
Qed.
Lemma translated_sq : snd (charge_vector (full_sq M b')) = turn3 (snd (charge_vector (full_sq L b))).
Proof.
  apply v3_by_dots. intros v. unfold turn3. rewrite <- rotv_adjoint'.
  destruct (band_av (fun q => field 2 L (b_sigma b) q * Conj (field 2 L (b_sigma b) q) * RtoC (v3dot (rotv p v) (direction q)))%C) as (z & A).
  { apply (band_mul 0 0); [|apply band_nv]. apply (band_mul 2 (-2)); [apply band_field; lia|apply (band_conj 2), band_field; lia]. }
  rewrite (sq_average L b (rotv p v) z HL A). apply sq_average; [exact HM|]. refine (av_ext _ _ _ _ (av_turn p _ _ Hp A)). intros q Hq. cbv beta. rewrite (HS q Hq), (nv_turn p v q Hp Hq). reflexivity.
Qed.
Theorem translated : bondi_angular_momentum product_table M b' = turn3 (v3add (bondi_angular_momentum product_table L b) (v3cross a P)) /\
  bondi_CoM_charge product_table M b' = turn3 (v3add (v3add (bondi_CoM_charge product_table L b) (v3scale E a)) (v3scale a0 P)).
Proof.
  assert (X : forall v, exists z, averages (fun q => angF L b q * Conj (en (rotv p v) q))%C z).
  { intros v. apply band_av. apply (band_mul 1 (-1)); [apply band_angF; lia|apply (band_conj 1), band_en]. }
  split; apply v3_by_dots; intros v; destruct (X v) as (z & A); pose proof (translated_ang v z A) as A'; destruct (angular_average L b _ z HL U A) as [R1 J1]; destruct (angular_average M b' v _ HM U' A') as [R2 J2];
    unfold turn3; rewrite <- rotv_adjoint'.
  - rewrite J2. cbn [re im Cadd]. rewrite v3dot_add_r, J1. unfold P. generalize (snd (charge_vector g)) (rotv p v) a. clear. intros [[? ?] ?] [[? ?] ?] [[? ?] ?]. unfold v3dot, v3cross, v3scale. ring.
  - rewrite !com_parts. rewrite v3dot_scale_r, v3dot_add_r, v3dot_scale_r. rewrite R2. rewrite translated_sq. unfold turn3. rewrite <- rotv_adjoint'. cbn [re Cadd].
    rewrite !v3dot_add_r, !v3dot_scale_r, v3dot_add_r, v3dot_scale_r, R1. unfold P, E. rewrite v3dot_scale_r, (v3dot_comm a). ring.
Qed.
End Plain.
End Translated.

(** ** The CWWY angular momentum when the shear has a real potential *)
Definition potential_of (L : Z) (S c : modes) : Prop := real_modes_to L c /\ forall l m, (2 <= l <= L)%Z -> (- l <= m <= l)%Z -> S l m = eth_GHP 1 (eth_GHP 0 c) l m.
Lemma four_roots : forall l, (2 <= l)%Z -> / sqrt 2 * / sqrt 2 * (/ sqrt 2 * / sqrt 2) * (sqrt (IZR (l * (l + 1))) * sqrt (IZR (l * (l + 1))) * (sqrt (IZR ((l - 1) * (l + 2))) * sqrt (IZR ((l - 1) * (l + 2))))) = poly4 l / 4.
Proof.
  intros l H. rewrite !sqrt_sqrt by (apply IZR_le; nia). rewrite root2. unfold poly4. rewrite <- !mult_IZR. unfold Rdiv. replace (l * (l + 1) * ((l - 1) * (l + 2)))%Z with ((l - 1) * l * (l + 1) * (l + 2))%Z by ring.
  rewrite ?mult_IZR. field.
Qed.
Lemma poly4_pos : forall l, (2 <= l)%Z -> 0 < poly4 l.
Proof. intros l H. unfold poly4. rewrite <- ?mult_IZR. apply IZR_lt. nia. Qed.
Lemma eth_local : forall s f g l m, f l m = g l m -> eth_GHP s f l m = eth_GHP s g l m.
Proof. intros s f g l m H. unfold eth_GHP, fscale, eth, ladder. destruct (_ <? _)%Z; [reflexivity|]. rewrite H. reflexivity. Qed.
Lemma ethbar_local : forall s f g l m, f l m = g l m -> ethbar_GHP s f l m = ethbar_GHP s g l m.
Proof. intros s f g l m H. unfold ethbar_GHP, fscale, ethbar. destruct (_ <? _)%Z; [reflexivity|]. rewrite H. reflexivity. Qed.
Lemma potential_value : forall L S c l m, potential_of L S c -> (2 <= l <= L)%Z -> (- l <= m <= l)%Z -> cwwy_potential S l m = Cscale 2 (c l m).
Proof.
  intros L S c l m [HR H] Hl Hm. unfold cwwy_potential, fadd, Dinv_value. destruct (Z.ltb_spec l 2); [lia|].
  assert (E1 : ethbar_GHP 1 (ethbar_GHP 2 S) l m = Cscale (poly4 l / 4) (c l m)).
  { rewrite (ethbar_local 1 _ (ethbar_GHP 2 (eth_GHP 1 (eth_GHP 0 c)))) by (apply ethbar_local, H; assumption). rewrite !ethbar_up, !eth_up by lia. rewrite <- (four_roots l) by lia.
    replace ((l + 1) * (l - 1 + 1))%Z with (l * (l + 1))%Z by ring. replace ((l + 2) * (l - 2 + 1))%Z with ((l - 1) * (l + 2))%Z by ring. replace ((l - 1) * (l + 1 + 1))%Z with ((l - 1) * (l + 2))%Z by ring. replace ((l - 0) * (l + 0 + 1))%Z with (l * (l + 1))%Z by ring.
    set (x := sqrt (IZR (l * (l + 1)))). set (y := sqrt (IZR ((l - 1) * (l + 2)))). cx. }
  assert (E2 : eth_GHP (-1) (eth_GHP (-2) (fbar 2 S)) l m = Cscale (poly4 l / 4) (c l m)).
  { assert (B : fbar 2 S l m = ethbar_GHP (-1) (ethbar_GHP 0 c) l m).
    { transitivity (fbar 2 (eth_GHP 1 (eth_GHP 0 c)) l m); [unfold fbar; rewrite (H l (- m)%Z) by lia; reflexivity|].
      change 2%Z with (1 + 1)%Z. rewrite fbar_eth. change (- (1))%Z with (-1)%Z. apply ethbar_local. change 1%Z with (0 + 1)%Z. rewrite fbar_eth. apply ethbar_local. apply HR; lia. }
    rewrite (eth_local (-1) _ (eth_GHP (-2) (ethbar_GHP (-1) (ethbar_GHP 0 c)))) by (apply eth_local, B). rewrite !eth_up, !ethbar_up by lia. rewrite <- (four_roots l) by lia.
    replace ((l - -1) * (l + -1 + 1))%Z with (l * (l + 1))%Z by ring. replace ((l - -2) * (l + -2 + 1))%Z with ((l - 1) * (l + 2))%Z by ring. replace ((l + -1) * (l - -1 + 1))%Z with ((l - 1) * (l + 2))%Z by ring. replace ((l + 0) * (l - 0 + 1))%Z with (l * (l + 1))%Z by ring.
    set (x := sqrt (IZR (l * (l + 1)))). set (y := sqrt (IZR ((l - 1) * (l + 2)))). cx. }
  rewrite E1, E2. pose proof (poly4_pos l ltac:(lia)). apply C_eq; cbn; field; lra.
Qed.
Definition high (c : modes) : modes := fun l m => if (l <? 2)%Z then C0 else c l m.
Lemma potential_field : forall L S c q, potential_of L S c -> field 0 L (cwwy_potential S) q = Cscale 2 (field 0 L (high c) q).
Proof.
  intros L S c q H. rewrite <- field_fscale. apply Gridmul_Proofs.field_ext. intros l m Hl Hm. unfold fscale, high. destruct (Z.ltb_spec l 2) as [A|A].
  - unfold cwwy_potential, Dinv_value. destruct (Z.ltb_spec l 2); [cx|lia].
  - apply (potential_value L); [exact H|lia|exact Hm].
Qed.
Lemma high_real : forall L c, real_modes_to L c -> real_modes_to L (high c).
Proof. intros L c H l m Hl Hm. unfold fbar, high. destruct (l <? 2)%Z; [cx|]. apply H; assumption. Qed.
Lemma high_eth2 : forall L c q, field 2 L (eth_GHP 1 (eth_GHP 0 (high c))) q = field 2 L (eth_GHP 1 (eth_GHP 0 c)) q.
Proof. intros L c q. apply field_valid. intros l m Hl Hm. apply eth_local, eth_local. unfold high. destruct (Z.ltb_spec l 2); [lia|reflexivity]. Qed.
Lemma shear_field : forall L S c q, potential_of L S c -> field 2 L S q = val2 L (high c) q.
Proof. intros L S c q [_ H]. unfold val2. rewrite high_eth2. apply field_valid. intros l m Hl Hm. apply H; lia. Qed.
(** The average of sigma eth conj(sigma) is no part of it. *)
Lemma quadratic_part : forall L S c v z, (0 <= L)%Z -> potential_of L S c -> averages (fun q => field 2 L S q * Sd L S q * Conj (en v q))%C z -> im z = 0.
Proof.
  intros L S c v z HL H A. apply (quadratic L HL v (high c)); [apply high_real, H|]. refine (av_ext _ _ _ _ A). intros q Hq. cbv beta. f_equal. rewrite (shear_field L S c q H). f_equal.
  apply (eg_unique (fun r => Conj (field 2 L S r)) q); [apply eg_Sd; assumption|].
  apply (eg_ext (fun r => Conj (val2 L (high c) r))); [exact Hq|intros r Hr; rewrite (shear_field L S c r H); reflexivity|]. apply eWb; [exact HL|exact Hq|apply high_real, H].
Qed.
Lemma cwwy_average : forall L b d v c z, (1 <= L)%Z -> upto L (b_psi1 b) -> (forall l m, d l m = C0) -> real_modes_to L (b_psi2 b) -> potential_of L (b_sigma b) c ->
  averages (fun q => (field 1 L (b_psi1 b) q - Cscale 2 (field 0 L (high c) q * field 1 L (eth_GHP 0 (b_psi2 b)) q)) * Conj (en v q))%C z ->
  v3dot v (snd (charge_vector (cwwy_aspect product_table L b d))) = - im z.
Proof.
  intros L b d v c z HL HU Hd HR HP H. set (m := eth_GHP 0 (mass_aspect product_table L b d L (TCall Z.max))).
  set (F := fmuli (fadd (full_ang L b) (times 0 L 1 L (cwwy_potential (b_sigma b)) m))).
  assert (EF : charge_vector (cwwy_aspect product_table L b d) = charge_vector F) by reflexivity. rewrite EF.
  assert (FM : forall q, field 1 L m q = (- field 1 L (eth_GHP 0 (b_psi2 b)) q)%C).
  { intros q. rewrite <- field_fopp. apply Gridmul_Proofs.field_ext. intros l n Hl Hn. unfold m, fopp at 1. transitivity (eth_GHP 0 (fopp (b_psi2 b)) l n).
    - apply eth_local. unfold mass_aspect, fopp, freal, fscale, fadd. f_equal.
      assert (Z0 : forall l n, multiply product_table L (Z.max L L) 2 (-2) (b_sigma b) d l n = C0).
      { intros l' n'. unfold multiply. destruct (_ <=? _)%Z; [|reflexivity]. apply csum_const0. intros p _. apply csum_const0. intros p' _. rewrite Hd. destruct (_ =? _)%Z; [cx|reflexivity]. }
      rewrite Z0. assert (Q : fbar 0 (fun l n => b_psi2 b l n + multiply product_table L (Z.max L L) 2 (-2) (b_sigma b) d l n)%C l n = b_psi2 b l n).
      { rewrite <- (HR l n Hl Hn). unfold fbar. rewrite Z0. f_equal. f_equal. ring. }
      rewrite Q. apply C_eq; cbn; field.
    - unfold eth_GHP, fopp, fscale, eth, ladder. destruct (_ <? _)%Z; cx. }
  assert (FF : forall q, qnorm2 q = 1 -> field 1 (L + L) F q = (Ci * (angF L b q - field 0 L (cwwy_potential (b_sigma b)) q * field 1 L (eth_GHP 0 (b_psi2 b)) q))%C).
  { intros q Hq. unfold F, fmuli. rewrite field_cmul, field_fadd, (ang_field L b q ltac:(lia) HU Hq). 
    assert (T : field 1 (L + L) (times 0 L 1 L (cwwy_potential (b_sigma b)) m) q = (field 0 L (cwwy_potential (b_sigma b)) q * field 1 L m q)%C) by (symmetry; exact (proj1 (C72_fields 0 L (cwwy_potential (b_sigma b)) 1 L m ltac:(lia) ltac:(lia)) q Hq)).
    rewrite T, FM. ring. }
  destruct (C79_charge_1 (L + L) F v ltac:(lia)) as (w & A & ->).
  destruct (band_av (fun q => field 2 L (b_sigma b) q * Sd L (b_sigma b) q * Conj (en v q))%C) as (s & As).
  { apply (band_mul 1 (-1)); [apply (band_mul 2 (-1)); apply band_field; lia|apply (band_conj 1), band_en]. }
  assert (W : w = (Ci * (z + s))%C).
  { refine (av_unique _ _ _ _ _ A (av_cmul Ci _ _ (av_add _ _ _ _ H As))). intros q Hq. cbv beta. rewrite (FF q Hq). unfold angF. rewrite (potential_field L _ c q HP). cx. }
  rewrite W. pose proof (quadratic_part L _ c v s ltac:(lia) HP As). cbn. lra.
Qed.

(** ** A supertranslation and a rotation *)
Section Supertranslated.
Variables L M La : Z.
Variables b b' : bondi.
Variables d d' : modes.
Variable p : quat.
Variables (A c c' : modes) (a0 : R) (a : vec3).
Hypothesis HL : (1 <= L)%Z.
Hypothesis HM : (1 <= M)%Z.
Hypothesis HLa : (0 <= La)%Z.
Hypothesis Hp : qnorm2 p = 1.
Hypothesis U : upto L (b_psi1 b).
Hypothesis U' : upto M (b_psi1 b').
Hypothesis Hd : forall l m, d l m = C0.
Hypothesis Hd' : forall l m, d' l m = C0.
Let g := b_psi2 b.
Hypothesis HR : real_modes_to L g.
Hypothesis HR' : real_modes_to M (b_psi2 b').
Hypothesis HA : real_modes_to La A.
Hypothesis HP : potential_of L (b_sigma b) c.
Hypothesis HP' : potential_of M (b_sigma b') c'.
Hypothesis Hc : forall q, qnorm2 q = 1 -> field 0 M (high c') q = (field 0 L (high c) (qmul p q) - field 0 La (high A) (qmul p q))%C.
Hypothesis H2 : forall q, qnorm2 q = 1 -> field 0 M (b_psi2 b') q = field 0 L g (qmul p q).
Hypothesis H1 : forall q, qnorm2 q = 1 -> let r := qmul p q in
  field 1 M (b_psi1 b') q = (field 1 L (b_psi1 b) r + ((RtoC (a0 + v3dot a (direction r)) + field 0 La (high A) r) * field 1 L (eth_GHP 0 g) r + Cscale 3 ((en a r + field 1 La (eth_GHP 0 (high A)) r) * field 0 L g r)))%C.
Let P := v3scale (-1) (snd (charge_vector g)).
Theorem supertranslated : snd (charge_vector (cwwy_aspect product_table M b' d')) = rotv (qconj p) (v3add (snd (charge_vector (cwwy_aspect product_table L b d))) (v3cross a P)).
Proof.
  assert (E2 : forall q, qnorm2 q = 1 -> field 1 M (eth_GHP 0 (b_psi2 b')) q = field 1 L (eth_GHP 0 g) (qmul p q)).
  { intros q Hq. apply (eg_unique (field 0 M (b_psi2 b')) q); [exact (eg_field 0 M (b_psi2 b') q)|]. apply (eg_ext (fun r => field 0 L g (qmul p r))); [exact Hq|intros r Hr; symmetry; apply H2; exact Hr|].
    apply (eg_left p (field 0 L g)). exact (eg_field 0 L g (qmul p q)). }
  apply v3_by_dots. intros v. rewrite <- rotv_adjoint'. set (w := rotv p v).
  assert (BB : band (-1) (fun q => Conj (en w q))) by (apply (band_conj 1), band_en).
  destruct (band_av (fun q => (field 1 L (b_psi1 b) q - Cscale 2 (field 0 L (high c) q * field 1 L (eth_GHP 0 g) q)) * Conj (en w q))%C) as (z & Az).
  { apply (band_mul 1 (-1)); [|exact BB]. apply band_sub; [apply band_field; lia|]. apply (band_ext 1 (fun q => RtoC 2 * (field 0 L (high c) q * field 1 L (eth_GHP 0 g) q))%C); [intros; cx|]. apply band_cmul, (band_mul 0 1); apply band_field; lia. }
  assert (T1 := translation_change L HL g w a0 a (fun l m Hl Hm => HR l m ltac:(lia) Hm)). cbv beta in T1.
  destruct (band_av (fun q => (field 0 La (high A) q * field 1 L (eth_GHP 0 g) q + field 1 La (eth_GHP 0 (high A)) q * field 0 L g q) * Conj (en w q))%C) as (y & Ay).
  { apply (band_mul 1 (-1)); [|exact BB]. apply band_add; [apply (band_mul 0 1)|apply (band_mul 1 0)]; apply band_field; lia. }
  pose proof (super_change L HL g w La (high A) y HLa (high_real _ _ HA) HR Ay) as Iy.
  assert (Y := av_turn p _ _ Hp (av_add _ _ _ _ (av_add _ _ _ _ Az T1) (av_cmul (RtoC 3) _ _ Ay))). cbv beta in Y.
  rewrite v3dot_add_r, (cwwy_average L b d w c z HL U Hd HR HP Az).
  match type of Y with averages _ ?x => rewrite (cwwy_average M b' d' v c' x HM U' Hd' HR' HP') end.
  - unfold P. cbn [re im Cadd Cmul RtoC]. rewrite Iy. generalize (snd (charge_vector g)) w. clear. intros [[? ?] ?] [[? ?] ?]. destruct a as [[? ?] ?]. unfold v3dot, v3cross, v3scale. ring.
  - refine (av_ext _ _ _ _ Y). intros q Hq. cbv beta. unfold w. rewrite <- (en_turn p v q Hp). rewrite (H1 q Hq), (Hc q Hq), (E2 q Hq). cbv zeta. cx.
Qed.
End Supertranslated.

(** ** Data without radiation: the shear does not change in time *)
Lemma hd_still : forall f, (forall u, has_derivative f u C0) -> forall u w, f u = f w.
Proof.
  intros f H u w. apply C_eq; [apply (constant_of_rate (fun x => re (f x)))|apply (constant_of_rate (fun x => im (f x)))]; intros x; apply (H x).
Qed.
Record still_solution (L : Z) (B : R -> bondi) : Prop := {
  ss_3 : forall u l m, b_psi3 (B u) l m = C0;
  ss_4 : forall u l m, b_psi4 (B u) l m = C0;
  ss_2 : forall u l m, b_psi2 (B u) l m = b_psi2 (B 0) l m;
  ss_s : forall u l m, b_sigma (B u) l m = b_sigma (B 0) l m;
  ss_1 : forall u l m, b_psi1 (B u) l m = (b_psi1 (B 0) l m + Cscale u (eth_GHP 0 (b_psi2 (B 0)) l m))%C;
  ss_real : forall l m, (0 <= l <= 1)%Z -> (- l <= m <= l)%Z -> fbar 0 (b_psi2 (B 0)) l m = b_psi2 (B 0) l m }.
Lemma eth_nil : forall s f l m, f l m = C0 -> eth_GHP s f l m = C0.
Proof. intros s f l m H. unfold eth_GHP, fscale, eth, ladder. destruct (_ <? _)%Z; [cx|]. rewrite H. cx. Qed.
Lemma mul_nil : forall L Lo s t f g l m, (forall l m, g l m = C0) -> multiply product_table L Lo s t f g l m = C0.
Proof. intros L Lo s t f g l m H. unfold multiply. destruct (_ <=? _)%Z; [|reflexivity]. apply csum_const0. intros p _. apply csum_const0. intros p' _. rewrite H. destruct (_ =? _)%Z; [cx|reflexivity]. Qed.
Lemma fimag_real : forall f l m, fimag f l m = C0 -> fbar 0 f l m = f l m.
Proof. intros f l m H. unfold fimag in H. assert (A := f_equal re H). assert (B := f_equal im H). cbn in A, B. apply C_eq; cbn; lra. Qed.
Lemma still : forall L B sd sdd sddd, bondi_solution L B sd sdd sddd -> (forall u l m, sd u l m = C0) -> still_solution L B.
Proof.
  intros L B sd sdd sddd HB H0.
  assert (HDD : forall u l m, sdd u l m = C0).
  { intros u l m. apply (hd_unique (fun x => sd x l m) u); [apply (bs_ddot _ _ _ _ _ HB)|]. apply (hd_ext (fun _ => C0)); [intros; symmetry; apply H0|apply hd_const]. }
  assert (B0 : forall u l m, fbar 2 (sd u) l m = C0) by (intros u l m; unfold fbar; rewrite H0; cx).
  assert (P3 : forall u l m, b_psi3 (B u) l m = C0) by (intros u l m; rewrite (bs_3 _ _ _ _ _ HB), eth_nil by apply B0; cx).
  assert (P4 : forall u l m, b_psi4 (B u) l m = C0) by (intros u l m; rewrite (bs_4 _ _ _ _ _ HB); unfold fbar; rewrite HDD; cx).
  assert (P2 : forall u l m, b_psi2 (B u) l m = b_psi2 (B 0) l m).
  { intros u l m. apply (hd_still (fun x => b_psi2 (B x) l m)). intros w. assert (D := bs_2 _ _ _ _ _ HB w l m). rewrite eth_nil, mul_nil in D by (apply P3 || apply P4). replace (C0 + C0)%C with C0 in D by cx. exact D. }
  constructor; [exact P3|exact P4|exact P2| | |].
  - intros u l m. apply (hd_still (fun x => b_sigma (B x) l m)). intros w. rewrite <- (H0 w l m). apply (bs_dot _ _ _ _ _ HB).
  - intros u l m. set (e := eth_GHP 0 (b_psi2 (B 0)) l m).
    assert (C : forall w, has_derivative (fun x => b_psi1 (B x) l m + Cscale x (- e))%C w C0).
    { intros w. replace C0 with (e + - e)%C by ring. apply hd_add.
      - assert (D := bs_1 _ _ _ _ _ HB w l m). rewrite mul_nil in D by apply P3. replace e with (eth_GHP 0 (b_psi2 (B w)) l m + Cscale 2 C0)%C; [exact D|]. unfold e. rewrite (eth_local 0 _ _ l m (P2 w l m)). cx.
      - clearbody e. split; cbn; [assert (X := derivable_pt_lim_scal id (- re e) w 1 (derivable_pt_lim_id w))|assert (X := derivable_pt_lim_scal id (- im e) w 1 (derivable_pt_lim_id w))];
          rewrite Rmult_1_r in X; refine (derivable_pt_lim_ext _ _ _ _ _ X); intros y; unfold mult_real_fct, id; ring. }
    assert (K := hd_still _ C u 0). cbv beta in K. apply (f_equal (fun z => z + Cscale u e)%C) in K. transitivity (b_psi1 (B u) l m + Cscale u (- e) + Cscale u e)%C; [cx|]. rewrite K. cx.
  - intros l m Hl Hm. apply fimag_real. rewrite (bs_im _ _ _ _ _ HB). 
    assert (Z0 : forall n, fadd (eth_GHP (-1) (eth_GHP (-2) (fbar 2 (b_sigma (B 0))))) (multiply product_table L (2 * L) 2 (-2) (b_sigma (B 0)) (fbar 2 (sd 0))) l n = C0).
    { intros n. unfold fadd. rewrite mul_nil by apply B0. rewrite (eth_nil (-1)); [cx|]. apply eth_low. lia. }
    unfold fimag, fbar. rewrite !Z0. cx.
Qed.
Lemma electric : forall L B sd sdd sddd, bondi_solution L B sd sdd sddd -> (forall u l m, sd u l m = C0) -> (forall l m, fimag (b_psi2 (B 0)) l m = C0) ->
  exists c, potential_of L (b_sigma (B 0)) c.
Proof.
  intros L B sd sdd sddd HB H0 HI. set (S := b_sigma (B 0)). set (h := eth_GHP (-1) (eth_GHP (-2) (fbar 2 S))).
  assert (B0 : forall l m, fbar 2 (sd 0) l m = C0) by (intros l m; unfold fbar; rewrite H0; cx).
  assert (HH : forall l m, fbar 0 h l m = h l m).
  { intros l m. apply fimag_real. assert (E := bs_im _ _ _ _ _ HB 0 l m). rewrite HI in E. fold S in E.
    assert (X : forall l m, fadd (eth_GHP (-1) (eth_GHP (-2) (fbar 2 S))) (multiply product_table L (2 * L) 2 (-2) S (fbar 2 (sd 0))) l m = h l m) by (intros; unfold fadd; rewrite mul_nil by apply B0; unfold h; cx).
    assert (Y : fimag (fadd (eth_GHP (-1) (eth_GHP (-2) (fbar 2 S))) (multiply product_table L (2 * L) 2 (-2) S (fbar 2 (sd 0)))) l m = fimag h l m) by (unfold fimag, fbar; rewrite !X; reflexivity).
    rewrite Y in E. apply (f_equal Copp) in E. replace (- C0)%C with C0 in E by cx. rewrite E. cx. }
  exists (fun l m => Cscale (Dinv_value l) (h l m)). split.
  - intros l m Hl Hm. unfold fbar. rewrite <- (HH l m). unfold fbar. cx.
  - intros l m Hl Hm. rewrite !eth_up by lia.
    assert (EB : h l m = ethbar_GHP 1 (ethbar_GHP 2 S) l m).
    { rewrite <- HH. unfold h. change 0%Z with (-1 + 1)%Z at 1. rewrite fbar_eth. change (- (-1))%Z with 1%Z. apply ethbar_local. change (-1)%Z with (-2 + 1)%Z at 1. rewrite fbar_eth. change (- (-2))%Z with 2%Z. apply ethbar_local.
      change (-2)%Z with (- (2))%Z. apply fbar_fbar. }
    rewrite EB, !ethbar_up by lia. unfold Dinv_value. destruct (Z.ltb_spec l 2); [lia|].
    replace ((l + 1) * (l - 1 + 1))%Z with (l * (l + 1))%Z by ring. replace ((l + 2) * (l - 2 + 1))%Z with ((l - 1) * (l + 2))%Z by ring. replace ((l - 1) * (l + 1 + 1))%Z with ((l - 1) * (l + 2))%Z by ring. replace ((l - 0) * (l + 0 + 1))%Z with (l * (l + 1))%Z by ring.
    pose proof (poly4_pos l ltac:(lia)) as PP. pose proof (four_roots l ltac:(lia)) as FR. set (x := sqrt (IZR (l * (l + 1)))) in *. set (y := sqrt (IZR ((l - 1) * (l + 2)))) in *. set (k := / sqrt 2) in *.
    assert (Q : k * k * (k * k) * (x * x * (y * y)) * (4 / poly4 l) = 1) by (rewrite FR; field; lra). destruct (S l m) as [sx sy]. apply C_eq; cbn.
    + transitivity (k * k * (k * k) * (x * x * (y * y)) * (4 / poly4 l) * sx); [rewrite Q; ring|ring].
    + transitivity (k * k * (k * k) * (x * x * (y * y)) * (4 / poly4 l) * sy); [rewrite Q; ring|ring].
Qed.
(** ** Real supertranslations: time translation, space translation and the rest *)
Lemma alpha_value : forall A La a0 a q, (1 <= La)%Z -> real_modes_to La A -> has_parts A a0 a -> qnorm2 q = 1 ->
  field 0 La A q = (RtoC (a0 + v3dot a (direction q)) + field 0 La (high A) q)%C.
Proof.
  intros A La a0 a q HLa HR HP Hq. set (low := fun l m => if (l <? 2)%Z then A l m else C0).
  assert (E : field 0 La A q = (field 0 La low q + field 0 La (high A) q)%C).
  { rewrite <- field_fadd. apply Gridmul_Proofs.field_ext. intros l m Hl Hm. unfold fadd, low, high. destruct (l <? 2)%Z; cx. }
  rewrite E. f_equal. rewrite <- (field_grow 0 1 La low) by (lia || (intros l m Hl; unfold low; destruct (Z.ltb_spec l 2); [lia|reflexivity])).
  rewrite <- (parts_field A a0 a q HP Hq). apply Gridmul_Proofs.field_ext. intros l m Hl Hm. unfold low, freal, fscale, fadd. destruct (Z.ltb_spec l 2); [|lia]. rewrite (HR l m) by lia. apply C_eq; cbn; field.
Qed.
Lemma eg_translation : forall a0 a q, qnorm2 q = 1 -> ethG (fun r => RtoC (a0 + v3dot a (direction r))) q (en a q).
Proof.
  intros a0 a q Hq. destruct (nv_eth a q Hq) as (x & (dx & dy & X & Y & EE) & E). exists x. split; [|exact E]. exists dx, dy. split; [|split; [|exact EE]].
  - apply (hd_ext (fun t => RtoC (v3dot a (direction (qmul q (rot_x t)))) + RtoC a0)%C); [intros; cx|]. replace dx with (dx + C0)%C by ring. apply hd_add; [exact X|apply hd_const].
  - apply (hd_ext (fun t => RtoC (v3dot a (direction (qmul q (rot_y t)))) + RtoC a0)%C); [intros; cx|]. replace dy with (dy + C0)%C by ring. apply hd_add; [exact Y|apply hd_const].
Qed.
Lemma alpha_eth : forall A La a0 a q, (1 <= La)%Z -> real_modes_to La A -> has_parts A a0 a -> qnorm2 q = 1 ->
  field 1 La (eth_GHP 0 A) q = (en a q + field 1 La (eth_GHP 0 (high A)) q)%C.
Proof.
  intros A La a0 a q HLa HR HP Hq. apply (eg_unique (field 0 La A) q); [exact (eg_field 0 La A q)|].
  apply (eg_ext (fun r => RtoC (a0 + v3dot a (direction r)) + field 0 La (high A) r)%C); [exact Hq|intros r Hr; symmetry; apply alpha_value; assumption|].
  apply eg_add; [apply eg_translation; exact Hq|exact (eg_field 0 La (high A) q)].
Qed.
Lemma real_from_values : forall M f, (0 <= M)%Z -> (forall q, qnorm2 q = 1 -> Conj (field 0 M f q) = field 0 M f q) -> real_modes_to M f.
Proof.
  intros M f HM H l m Hl Hm. apply (field_unique 0 M (fbar 0 f) f HM); [|lia|exact Hm]. intros q Hq. rewrite <- (H q Hq). exact (field_conj 0 M f q HM).
Qed.
(** ** All times of an object *)
Lemma map_repeat : forall (A B : Type) (f : A -> B) c l, (forall x, In x l -> f x = c) -> map f l = repeat c (length l).
Proof. intros A B f c l H. induction l as [|x l IH]; [reflexivity|]. cbn. rewrite H by (left; reflexivity). f_equal. apply IH. intros y I. apply H. right. exact I. Qed.
Lemma at_times_repeat : forall (A : Type) a (f : nat -> A) c, (forall i, (i < length (bd_u (ad_data a)))%nat -> f i = c) -> at_times a f = repeat c (length (bd_u (ad_data a))).
Proof. intros A a f c H. unfold at_times. rewrite (map_repeat _ _ f c); [rewrite seq_length; reflexivity|]. intros i I. apply in_seq in I. apply H. lia. Qed.
Lemma still_dot : forall dspl a, derives dspl -> increasing (bd_u (ad_data a)) -> (4 <= length (bd_u (ad_data a)))%nat ->
  (forall i j l m, (i < length (bd_u (ad_data a)))%nat -> (j < length (bd_u (ad_data a)))%nat -> ms_at (sigma a) i l m = ms_at (sigma a) j l m) ->
  exists d, sigma_bar_dot dspl a = Ok d /\ forall i l m, ms_at d i l m = C0.
Proof.
  intros dspl a HD Hi H4 HS. exists (der dspl 1 (mts_bar (sigma a))). split.
  - apply der_ok; [lia|]. cbn [mts_bar ms_u sigma mts_of]. unfold timesb. apply andb_true_iff. split; [apply Nat.leb_le; lia|apply increasingb_iff; exact Hi].
  - intros i l m. unfold der. cbn [ms_at mts_bar ms_u]. change (ms_u (sigma a)) with (bd_u (ad_data a)). set (u := bd_u (ad_data a)) in *. set (c := fbar (ms_s (sigma a)) (ms_at (sigma a) 0%nat) l m).
    assert (E : map (fun j => fbar (ms_s (sigma a)) (ms_at (sigma a) j) l m) (seq 0 (length u)) = map (cubic c C0 C0 C0) u).
    { rewrite (map_repeat _ _ _ c) by (intros j I; apply in_seq in I; unfold c, fbar; rewrite (HS j 0%nat) by lia; reflexivity). rewrite seq_length. symmetry. apply map_repeat. intros x _. unfold cubic. cx. }
    rewrite E. destruct (HD u c C0 C0 C0 Hi H4 (nth i u 0)) as (_ & H & _). refine (hd_unique _ _ _ _ H _). apply (hd_ext (fun _ => c)); [intros; unfold cubic; cx|apply hd_const].
Qed.
Section Object.
Variable dspl : nat -> list R -> list C -> R -> C.
Variable a : adata.
Variables L La : Z.
Variable b0 : bondi.
Variable A : modes.
Variables (a0 : R) (x : vec3) (p : quat).
Let u := bd_u (ad_data a).
Let n := length u.
Let M := bd_hi (ad_data a).
Let g := b_psi2 b0.
Let E := - fst (charge_vector g).
Let P := v3scale (-1) (snd (charge_vector g)).
Let turn3 := rotv (qconj p).
Local Notation K := product_table.
Hypothesis HD : derives dspl.
Hypothesis Hi : increasing u.
Hypothesis H4 : (4 <= n)%nat.
Hypothesis HL : (1 <= L)%Z.
Hypothesis HM : (1 <= M)%Z.
Hypothesis HLa : (0 <= La)%Z.
Hypothesis Hp : qnorm2 p = 1.
Hypothesis U1 : upto L (b_psi1 b0).
Hypothesis HR : forall l m, (0 <= l <= 1)%Z -> (- l <= m <= l)%Z -> fbar 0 g l m = g l m.
Hypothesis HA : real_modes_to La A.
Hypothesis h1 : forall i q, (i < n)%nat -> qnorm2 q = 1 -> let r := qmul p q in field 1 M (ms_at (psi1 a) i) q =
  (field 1 L (b_psi1 b0) r + ((RtoC (time_at a i + a0 + v3dot x (direction r)) + field 0 La (high A) r) * field 1 L (eth_GHP 0 g) r + Cscale 3 ((en x r + field 1 La (eth_GHP 0 (high A)) r) * field 0 L g r)))%C.
Hypothesis h2 : forall i q, (i < n)%nat -> qnorm2 q = 1 -> field 0 M (ms_at (psi2 a) i) q = field 0 L g (qmul p q).
Hypothesis h5 : forall i q, (i < n)%nat -> qnorm2 q = 1 -> field 2 M (ms_at (sigma a) i) q = (field 2 L (b_sigma b0) (qmul p q) - field 2 La (eth_GHP 1 (eth_GHP 0 A)) (qmul p q))%C.
Hypothesis hc : forall i j l m, (i < n)%nat -> (j < n)%nat -> ms_at (sigma a) i l m = ms_at (sigma a) j l m.
Lemma object_momentum : ad_four_momentum K dspl a = Ok (repeat (E, turn3 P) n) /\ ad_rest_mass K dspl a = Ok (repeat (sqrt (E ^ 2 - v3dot P P)) n).
Proof.
  destruct (still_dot dspl a HD Hi H4 hc) as (d & Ed & Zd).
  assert (EP : forall i, (i < n)%nat -> four_momentum_at K a d i = (E, turn3 P)).
  { intros i Hn. unfold four_momentum_at. rewrite momentum_static by apply Zd. change (b_psi2 (bondi_of a i)) with (ms_at (psi2 a) i).
    assert (T := translated_momentum L M b0 (bondi_of a i) p HL HM Hp (fun q Hq => h2 i q Hn Hq)). change (b_psi2 (bondi_of a i)) with (ms_at (psi2 a) i) in T. fold g in T. rewrite T. cbn [fst snd]. unfold E, P, turn3. rewrite rotv_scale. reflexivity. }
  unfold ad_four_momentum, ad_rest_mass. rewrite Ed. cbn [rbind]. split; f_equal; apply at_times_repeat; intros i Hn; [apply EP; exact Hn|].
  unfold bondi_rest_mass. fold (four_momentum_at K a d i). rewrite (EP i Hn). assert (D := rotv_dot (qconj p) P P). rewrite qnorm2_conj, Hp in D. fold turn3 in D. destruct (turn3 P) as [[x1 x2] x3]. f_equal. rewrite <- (Rmult_1_l (v3dot P P)). rewrite <- (Rmult_1_l 1) at 1. rewrite <- D. unfold v3dot. ring.
Qed.
Hypothesis UM : forall i, upto M (ms_at (psi1 a) i).
Let J := bondi_angular_momentum K L b0.
Let N := bondi_CoM_charge K L b0.
Lemma object_translation : (forall q, qnorm2 q = 1 -> field 0 La (high A) q = C0) ->
  ad_angular_momentum K a = Ok (repeat (turn3 (v3add J (v3cross x P))) n) /\
  ad_boost_charge K dspl a = Ok (repeat (turn3 (v3add (v3add N (v3scale E x)) (v3scale a0 P))) n) /\
  ad_dimensionless_spin K dspl a = Ok (repeat (dimensionless_spin (turn3 (v3add (v3add N (v3scale E x)) (v3scale a0 P))) (turn3 (v3add J (v3cross x P))) E (turn3 P)) n).
Proof.
  intros HZ. destruct (still_dot dspl a HD Hi H4 hc) as (d & Ed & Zd).
  assert (EZ : forall q, qnorm2 q = 1 -> field 1 La (eth_GHP 0 (high A)) q = C0).
  { intros q Hq. apply (eg_unique (field 0 La (high A)) q); [exact (eg_field 0 La (high A) q)|]. apply (eg_ext (fun r => C0 * field 0 La (high A) r)%C); [exact Hq|intros r Hr; rewrite HZ by exact Hr; ring|].
    eapply eg_eq; [apply eg_times; exact (eg_field 0 La (high A) q)|ring]. }
  assert (WZ : forall q, qnorm2 q = 1 -> field 2 La (eth_GHP 1 (eth_GHP 0 A)) q = C0).
  { intros q Hq. rewrite <- high_eth2. apply (eg_unique (field 1 La (eth_GHP 0 (high A))) q); [exact (eg_field 1 La (eth_GHP 0 (high A)) q)|]. apply (eg_ext (fun r => C0 * field 0 La (high A) r)%C); [exact Hq|intros r Hr; rewrite EZ by exact Hr; ring|].
    eapply eg_eq; [apply eg_times; exact (eg_field 0 La (high A) q)|ring]. }
  assert (T : forall i, (i < n)%nat -> bondi_angular_momentum K M (bondi_of a i) = turn3 (v3add J (v3cross x P)) /\
    bondi_CoM_charge K M (bondi_of a i) = turn3 (v3add (v3add N (v3scale E x)) (v3scale (time_at a i + a0) P))).
  { intros i Hn. apply (translated L M b0 (bondi_of a i) p (time_at a i + a0) x HL HM Hp U1 (UM i) HR).
    - intros q Hq. cbv zeta. change (b_psi1 (bondi_of a i)) with (ms_at (psi1 a) i). rewrite (h1 i q Hn Hq). cbv zeta. assert (Uq : qnorm2 (qmul p q) = 1) by (rewrite qnorm2_mul, Hp, Hq; ring). rewrite HZ, EZ by exact Uq. fold g. cx.
    - intros q Hq. change (b_sigma (bondi_of a i)) with (ms_at (sigma a) i). rewrite (h5 i q Hn Hq). rewrite WZ by (rewrite qnorm2_mul, Hp, Hq; ring). ring. }
  assert (EP : forall i, (i < n)%nat -> four_momentum_at K a d i = (E, turn3 P)).
  { intros i Hn. unfold four_momentum_at. rewrite momentum_static by apply Zd. change (b_psi2 (bondi_of a i)) with (ms_at (psi2 a) i).
    assert (T2 := translated_momentum L M b0 (bondi_of a i) p HL HM Hp (fun q Hq => h2 i q Hn Hq)). change (b_psi2 (bondi_of a i)) with (ms_at (psi2 a) i) in T2. fold g in T2. rewrite T2. cbn [fst snd]. unfold E, P, turn3. rewrite rotv_scale. reflexivity. }
  assert (BN : forall i, (i < n)%nat -> bondi_boost_charge K (bd_hi (ad_data a)) (bondi_of a i) (ms_at d i) (time_at a i) = turn3 (v3add (v3add N (v3scale E x)) (v3scale a0 P))).
  { intros i Hn. assert (C := C36_center_of_mass K (bd_hi (ad_data a)) (bondi_of a i) (ms_at d i) (time_at a i) 1%Z). fold (four_momentum_at K a d i) in C. rewrite (EP i Hn) in C. cbn [fst snd] in C. fold M in C. rewrite (proj2 (T i Hn)) in C. fold M.
    set (bc := bondi_boost_charge K M (bondi_of a i) (ms_at d i) (time_at a i)) in *. clearbody bc. unfold turn3 in *. rewrite v3_turn in C. rewrite v3_turn. set (w := rotv (qconj p) (v3add N (v3scale E x))) in *. set (w' := rotv (qconj p) P) in *. clearbody w w'.
    destruct bc as [[c1 c2] c3], w as [[w1 w2] w3], w' as [[k1 k2] k3]. unfold v3add, v3scale in *. injection C as C1 C2 C3. apply (f_equal2 pair); [apply (f_equal2 pair)|]; lra. }
  assert (LJ : ad_angular_momentum K a = Ok (repeat (turn3 (v3add J (v3cross x P))) n)) by (unfold ad_angular_momentum; f_equal; apply at_times_repeat; intros i Hn; apply (T i Hn)).
  assert (LN : ad_boost_charge K dspl a = Ok (repeat (turn3 (v3add (v3add N (v3scale E x)) (v3scale a0 P))) n)) by (unfold ad_boost_charge; rewrite Ed; cbn [rbind]; f_equal; apply at_times_repeat; exact BN).
  split; [exact LJ|]. split; [exact LN|]. unfold ad_dimensionless_spin. rewrite LJ, LN, (proj1 object_momentum). cbn [rbind]. f_equal. clear. induction n as [|k IH]; [reflexivity|]. cbn [repeat combine map]. rewrite IH. reflexivity.
Qed.
Lemma high_sub : forall f h l m, high (fadd f (fopp h)) l m = (high f l m - high h l m)%C.
Proof. intros f h l m. unfold high, fadd, fopp. destruct (l <? 2)%Z; ring. Qed.
Lemma object_cwwy : forall c, (L <= M)%Z -> (La <= M)%Z -> upto La A -> upto L c -> real_modes_to L g -> potential_of L (b_sigma b0) c ->
  ad_CWWY_angular_momentum K dspl a = Ok (repeat (turn3 (v3add (snd (charge_vector (cwwy_aspect K L b0 zmodes))) (v3cross x P))) n).
Proof.
  intros c HLM HLaM UA Uc HRg HP. destruct (still_dot dspl a HD Hi H4 hc) as (d & Ed & Zd). unfold ad_CWWY_angular_momentum. rewrite Ed. cbn [rbind]. f_equal. apply at_times_repeat. intros i Hn.
  set (f := fadd (high c) (fopp (high A))). set (c' := turn wigner_D p f).
  assert (Uq : forall q, qnorm2 q = 1 -> qnorm2 (qmul p q) = 1) by (intros q Hq; rewrite qnorm2_mul, Hp, Hq; ring).
  assert (GH : forall k h s q, (0 <= k <= M)%Z -> upto k h -> field s k (high h) q = field s M (high h) q).
  { intros k h s q Hk Hh. apply field_grow; [lia|]. intros l m Hl. unfold high. destruct (l <? 2)%Z; [reflexivity|]. apply Hh. lia. }
  assert (V : forall q, field 0 M c' q = (field 0 L (high c) (qmul p q) - field 0 La (high A) (qmul p q))%C).
  { intros q. unfold c'. rewrite C68_field_rotation by lia. unfold f. rewrite field_fadd, field_fopp. rewrite (GH L c) by (lia || exact Uc). rewrite (GH La A) by (lia || exact UA). ring. }
  assert (HC : forall l m, (0 <= l <= M)%Z -> (- l <= m <= l)%Z -> high c' l m = c' l m).
  { intros l m Hl Hm. unfold high. destruct (Z.ltb_spec l 2) as [B|B]; [|reflexivity]. symmetry. unfold c'. apply turn_zero. intros k _. unfold f, fadd, fopp, high. destruct (Z.ltb_spec l 2); [ring|lia]. }
  assert (FH : forall q, field 0 M (high c') q = field 0 M c' q) by (intros q; apply Gridmul_Proofs.field_ext; exact HC).
  assert (RC : real_modes_to M c').
  { apply real_from_values; [lia|]. intros q Hq. rewrite V, Conj_sub, !real_value by (lia || (apply high_real; assumption) || (apply high_real, HP)). reflexivity. }
  assert (PC : potential_of M (ms_at (sigma a) i) c').
  { split; [exact RC|]. intros l m Hl Hm. apply (field_unique 2 M (ms_at (sigma a) i) (eth_GHP 1 (eth_GHP 0 c')) ltac:(lia)); [|lia|exact Hm]. intros q Hq. rewrite (h5 i q Hn Hq).
    rewrite <- (high_eth2 La A). rewrite (shear_field L (b_sigma b0) c _ HP). unfold val2.
    assert (D1 : forall r, qnorm2 r = 1 -> field 1 M (eth_GHP 0 c') r = (field 1 L (eth_GHP 0 (high c)) (qmul p r) - field 1 La (eth_GHP 0 (high A)) (qmul p r))%C).
    { intros r Hr. apply (eg_unique (field 0 M c') r); [exact (eg_field 0 M c' r)|]. apply (eg_ext (fun r => field 0 L (high c) (qmul p r) - field 0 La (high A) (qmul p r))%C); [exact Hr|intros; symmetry; apply V|].
      apply eg_sub; [apply (eg_left p (field 0 L (high c))); exact (eg_field 0 L (high c) (qmul p r))|apply (eg_left p (field 0 La (high A))); exact (eg_field 0 La (high A) (qmul p r))]. }
    symmetry. apply (eg_unique (field 1 M (eth_GHP 0 c')) q); [exact (eg_field 1 M (eth_GHP 0 c') q)|].
    apply (eg_ext (fun r => field 1 L (eth_GHP 0 (high c)) (qmul p r) - field 1 La (eth_GHP 0 (high A)) (qmul p r))%C); [exact Hq|intros; symmetry; apply D1; assumption|].
    apply eg_sub; [apply (eg_left p (field 1 L (eth_GHP 0 (high c)))); exact (eg_field 1 L (eth_GHP 0 (high c)) (qmul p q))|apply (eg_left p (field 1 La (eth_GHP 0 (high A)))); exact (eg_field 1 La (eth_GHP 0 (high A)) (qmul p q))]. }
  apply (supertranslated L M La b0 (bondi_of a i) zmodes (ms_at d i) p A c c' (time_at a i + a0) x HL HM HLa Hp U1 (UM i)).
  - intros; reflexivity.
  - apply Zd.
  - exact HRg.
  - apply real_from_values; [lia|]. intros q Hq. change (b_psi2 (bondi_of a i)) with (ms_at (psi2 a) i). rewrite (h2 i q Hn Hq). apply real_value; [lia|exact HRg].
  - exact HA.
  - exact HP.
  - exact PC.
  - intros q Hq. rewrite FH. apply V.
  - exact (fun q Hq => h2 i q Hn Hq).
  - exact (fun q Hq => h1 i q Hn Hq).
Qed.
End Object.

(** ** Transformations of the whole object *)
Lemma q1_mul : forall q, qmul q1 q = q.
Proof. intros [w x y z]. unfold q1, qmul. cbn. apply quat_eq; cbn; ring. Qed.
Lemma of_samples : forall a B f i s q, samples (ad_data a) B -> (f < 6)%nat -> (i < length (bd_u (ad_data a)))%nat ->
  field s (bd_hi (ad_data a)) (ms_at (mts_of a f) i) q = field s (bd_hi (ad_data a)) (bfield (B (time_at a i)) f) q.
Proof.
  intros a B f i s q HS Hf Hi. apply Gridmul_Proofs.field_ext. intros l m Hl Hm. rewrite of_bmode. destruct (Z.leb_spec 0 l), (Z.leb_spec l (bd_hi (ad_data a))), (Z.leb_spec (- l) m), (Z.leb_spec m l); try lia. cbn [andb].
  apply HS; [exact Hf|exact Hi|split; lia].
Qed.
Lemma real_mode_at : forall al La, is_real al La -> real_modes_to La (mode_at al).
Proof. intros al La H l m Hl Hm. unfold fbar. rewrite (H l m Hl Hm). cbn [Z.add]. reflexivity. Qed.
Lemma flat_still : forall L B al La u q, still_solution L B -> is_real al La -> (0 <= La)%Z ->
  flat al La L B 1 u q = (field 1 L (b_psi1 (B 0)) q + (RtoC u + field 0 La (mode_at al) q) * field 1 L (eth_GHP 0 (b_psi2 (B 0))) q + Cscale 3 (field 1 La (eth_GHP 0 (mode_at al)) q * field 0 L (b_psi2 (B 0)) q))%C /\
  flat al La L B 2 u q = field 0 L (b_psi2 (B 0)) q /\ flat al La L B 5 u q = (field 2 L (b_sigma (B 0)) q - field 2 La (eth_GHP 1 (eth_GHP 0 (mode_at al))) q)%C.
Proof.
  intros L B al La u q [S3 S4 S2 Ss S1 _] HR HLa. unfold flat, val, ealph, walph. set (t := u + alph al La q). cbn [spin_of spins nth bfield].
  assert (Z3 : field (-1) L (b_psi3 (B t)) q = C0) by (unfold field; apply csum_const0; intros; rewrite S3; ring). assert (Z4 : field (-2) L (b_psi4 (B t)) q = C0) by (unfold field; apply csum_const0; intros; rewrite S4; ring).
  assert (V2 : field 0 L (b_psi2 (B t)) q = field 0 L (b_psi2 (B 0)) q) by (apply Gridmul_Proofs.field_ext; intros; apply S2). assert (V5 : field 2 L (b_sigma (B t)) q = field 2 L (b_sigma (B 0)) q) by (apply Gridmul_Proofs.field_ext; intros; apply Ss).
  assert (V1 : field 1 L (b_psi1 (B t)) q = (field 1 L (b_psi1 (B 0)) q + (RtoC u + field 0 La (mode_at al) q) * field 1 L (eth_GHP 0 (b_psi2 (B 0))) q)%C).
  { transitivity (field 1 L (fadd (b_psi1 (B 0)) (fscale t (eth_GHP 0 (b_psi2 (B 0))))) q); [apply Gridmul_Proofs.field_ext; intros; apply S1|]. rewrite field_fadd, field_fscale. rewrite (alph_field al La HLa HR q). unfold t. cx. }
  change (nth 3 spins 0%Z) with (-1)%Z. change (nth 4 spins 0%Z) with (-2)%Z. change (nth 1 spins 0%Z) with 1%Z. change (nth 2 spins 0%Z) with 0%Z. change (nth 5 spins 0%Z) with 2%Z.
  cbn [bfield]. rewrite Z3, Z4, V1, V2, V5. split; [cx|]. split; [cx|reflexivity].
Qed.
Lemma clip_in : forall K f l m, (0 <= l <= K)%Z -> (- l <= m <= l)%Z -> clip 0 K f l m = f l m.
Proof. intros K f l m Hl Hm. unfold clip. destruct (Z.leb_spec (Z.abs 0) l), (Z.leb_spec l K), (Z.leb_spec (- l) m), (Z.leb_spec m l); try lia. reflexivity. Qed.
Section Whole.
Variable spline : list R -> list C -> res (R -> C).
Variable map2salm : Z -> Z -> list C -> Z -> Z -> list C.
Variable dspl : nat -> list R -> list C -> R -> C.
Variable a : adata.
Variable k : Kwargs_Model.kwargs.
Variable p : Kwargs_Model.processed.
Variable B : R -> bondi.
Variables sd sdd sddd : R -> modes.
Variables (t0 : R) (x : vec3).
Let b := ad_data a.
Let L := bd_hi b.
Let La := ell_max_of (p_super p).
Let nn := (2 * p_working p + 1)%Z.
Hypothesis HD : derives dspl.
Hypothesis HS : passes spline.
Hypothesis HCu : cubics spline.
Hypothesis Hb : data_ok b.
Hypothesis Hi : increasing (bd_u b).
Hypothesis H4 : (4 <= length (bd_u b))%nat.
Hypothesis HL : (1 <= L)%Z.
Hypothesis Hp : abd_process L k = Ok p.
Hypothesis Hv : p_boost p = (0, 0, 0).
Hypothesis HB : bondi_solution L B sd sdd sddd.
Hypothesis HP : forall f, (f < 6)%nat -> polynomial 3 (fun t => bfield (B t) f).
Hypothesis HSa : samples b B.
Hypothesis Hsd : forall u l m, sd u l m = C0.
Hypothesis Ho : (L + 7 * La <= p_output p <= p_working p)%Z.
Hypothesis HX : forall f, (f < 6)%nat -> exact map2salm (spin_of f) nn nn.
Hypothesis Hx : has_parts (mode_at (p_super p)) t0 x.
Let A := clip 0 La (mode_at (p_super p)).
Let r1 := p_rotation p.
Let b0 := B 0.
Let g := b_psi2 b0.
Lemma super_facts : (1 <= La)%Z /\ is_real (p_super p) La /\ qnorm2 r1 = 1.
Proof using Hp. clear -Hp.
  destruct (C28_real _ _ _ Hp) as (L' & HL' & Hm & HR). destruct (real_modes_id _ L' ltac:(lia) Hm HR) as [_ EL]. assert (E : La = L') by exact EL. rewrite E. split; [exact HL'|]. split; [exact HR|]. apply (C28_parameters _ _ _ Hp).
Qed.
Lemma A_facts : real_modes_to La A /\ has_parts A t0 x /\ upto La A.
Proof using Hp Hx. clear -Hp Hx nn r1 b0 g A.
  destruct super_facts as (H1 & HR & _). split; [|split].
  - intros l m Hl Hm. unfold fbar, A. rewrite !clip_in by lia. exact (real_mode_at _ _ HR l m Hl Hm).
  - destruct Hx as [X0 X1]. unfold has_parts. rewrite <- X0, <- X1. unfold freal, fscale, fadd, fbar, A. rewrite !clip_in by lia. split; reflexivity.
  - apply (clean_upto 0), clip_clean.
Qed.
Lemma old_object : let a1 := a in let n := length (bd_u (ad_data a1)) in
  (forall i q, (i < n)%nat -> qnorm2 q = 1 -> let r := qmul q1 q in field 1 L (ms_at (psi1 a1) i) q =
    (field 1 L (b_psi1 b0) r + ((RtoC (time_at a1 i + 0 + v3dot (0, 0, 0) (direction r)) + field 0 0 (high fzero) r) * field 1 L (eth_GHP 0 g) r + Cscale 3 ((en (0, 0, 0) r + field 1 0 (eth_GHP 0 (high fzero)) r) * field 0 L g r)))%C) /\
  (forall i q, (i < n)%nat -> qnorm2 q = 1 -> field 0 L (ms_at (psi2 a1) i) q = field 0 L g (qmul q1 q)) /\
  (forall i q, (i < n)%nat -> qnorm2 q = 1 -> field 2 L (ms_at (sigma a1) i) q = (field 2 L (b_sigma b0) (qmul q1 q) - field 2 0 (eth_GHP 1 (eth_GHP 0 fzero)) (qmul q1 q))%C) /\
  (forall i j l m, (i < n)%nat -> (j < n)%nat -> ms_at (sigma a1) i l m = ms_at (sigma a1) j l m).
Proof using HB HSa Hsd. clear -HB HSa Hsd.
  destruct (still _ _ _ _ _ HB Hsd) as [S3 S4 S2 Ss S1 SR]. cbv zeta.
  assert (Z0 : forall s f q, (forall l m, f l m = C0) -> field s 0 f q = C0) by (intros s f q H; unfold field; apply csum_const0; intros; rewrite H; ring).
  assert (EN : forall q, en (0, 0, 0) q = C0) by (intros [w y z t]; unfold en, rotv, qvec; cbn; apply C_eq; cbn; ring).
  assert (ZH : forall l m, high fzero l m = C0) by (intros l m; unfold high; destruct (l <? 2)%Z; reflexivity).
  split; [|split; [|split]].
  - intros i q Hn Hq. rewrite q1_mul, EN, (Z0 0%Z) by exact ZH. rewrite (Z0 1%Z) by (intros; apply eth_nil, ZH).
    unfold psi1. etransitivity; [exact (of_samples a B 1 i 1 q HSa ltac:(lia) Hn)|]. cbn [bfield]. fold b L.
    transitivity (field 1 L (fadd (b_psi1 b0) (fscale (time_at a i) (eth_GHP 0 g))) q); [apply Gridmul_Proofs.field_ext; intros; apply S1|]. rewrite field_fadd, field_fscale.
    assert (D0 : v3dot (0, 0, 0) (direction q) = 0) by (destruct (direction q) as [[? ?] ?]; unfold v3dot; ring). rewrite D0. cx.
  - intros i q Hn Hq. rewrite q1_mul. unfold psi2. etransitivity; [exact (of_samples a B 2 i 0 q HSa ltac:(lia) Hn)|]. cbn [bfield]. apply Gridmul_Proofs.field_ext. intros; apply S2.
  - intros i q Hn Hq. rewrite q1_mul. rewrite (Z0 2%Z) by (intros; apply eth_nil, eth_nil; reflexivity). unfold sigma. etransitivity; [exact (of_samples a B 5 i 2 q HSa ltac:(lia) Hn)|]. cbn [bfield]. fold b L.
    transitivity (field 2 L (b_sigma b0) q); [apply Gridmul_Proofs.field_ext; intros; apply Ss|ring].
  - intros i j l m Hn Hm. unfold sigma. rewrite !of_bmode. destruct (_ && _)%bool eqn:Q; [|reflexivity]. rewrite !andb_true_iff, !Z.leb_le in Q.
    assert (V0 : valid 0 (bd_hi b) l m) by (unfold b; split; lia). unfold b in V0. assert (X1 := HSa 5%nat i l m ltac:(lia) Hn V0). assert (X2 := HSa 5%nat j l m ltac:(lia) Hm V0). unfold b in X1, X2. rewrite X1, X2. cbn [bfield]. etransitivity; [|symmetry]; apply Ss.
Qed.
Lemma new_object : exists a1, ad_transform spline map2salm a k = Ok a1 /\ bd_hi (ad_data a1) = p_output p /\ increasing (bd_u (ad_data a1)) /\ let n := length (bd_u (ad_data a1)) in let M := bd_hi (ad_data a1) in
  (forall i q, (i < n)%nat -> qnorm2 q = 1 -> let r := qmul r1 q in field 1 M (ms_at (psi1 a1) i) q =
    (field 1 L (b_psi1 b0) r + ((RtoC (time_at a1 i + t0 + v3dot x (direction r)) + field 0 La (high A) r) * field 1 L (eth_GHP 0 g) r + Cscale 3 ((en x r + field 1 La (eth_GHP 0 (high A)) r) * field 0 L g r)))%C) /\
  (forall i q, (i < n)%nat -> qnorm2 q = 1 -> field 0 M (ms_at (psi2 a1) i) q = field 0 L g (qmul r1 q)) /\
  (forall i q, (i < n)%nat -> qnorm2 q = 1 -> field 2 M (ms_at (sigma a1) i) q = (field 2 L (b_sigma b0) (qmul r1 q) - field 2 La (eth_GHP 1 (eth_GHP 0 A)) (qmul r1 q))%C) /\
  (forall i j l m, (i < n)%nat -> (j < n)%nat -> ms_at (sigma a1) i l m = ms_at (sigma a1) j l m).
Proof using HS HCu Hb Hi H4 Hp Hv HB HP HSa Hsd Ho HX Hx. clear -HS HCu Hb Hi H4 Hp Hv HB HP HSa Hsd Ho HX Hx nn r1 b0 g A.
  destruct super_facts as (H1 & HR & Hr). destruct A_facts as (RA & PA & UA).
  destruct (C76_pipeline spline map2salm b k p B sd sdd sddd HS HCu Hb Hi H4 Hp Hv HB HP HSa Ho HX) as (b' & B' & sd' & sdd' & sddd' & E & Eh & Ok' & HB' & HS' & HF & ET & HP' & HC').
  exists (mkad b' Sum). split; [unfold ad_transform; fold b; rewrite E; reflexivity|]. cbn [ad_data]. split; [exact Eh|]. split.
  { refine (C29_increasing _ _ _ _ _ _ Hi ET). unfold norm3. cbn. replace (0 * 0 + 0 * 0 + 0 * 0) with 0 by ring. rewrite sqrt_0. lra. }
  cbv zeta. set (a1 := mkad b' Sum). set (al := p_super p) in *.
  assert (Uq : forall q, qnorm2 q = 1 -> qnorm2 (qmul r1 q) = 1) by (intros q Hq; rewrite qnorm2_mul, Hr, Hq; ring).
  assert (F0 : forall q, field 0 La (mode_at al) q = field 0 La A q) by (intros q; symmetry; apply field_clip).
  assert (F1 : forall q, field 1 La (eth_GHP 0 (mode_at al)) q = field 1 La (eth_GHP 0 A) q) by (intros q; apply Gridmul_Proofs.field_ext; intros l m Hl Hm; apply eth_local; symmetry; apply clip_in; assumption).
  assert (F2 : forall q, field 2 La (eth_GHP 1 (eth_GHP 0 (mode_at al))) q = field 2 La (eth_GHP 1 (eth_GHP 0 A)) q) by (intros q; apply Gridmul_Proofs.field_ext; intros l m Hl Hm; apply eth_local, eth_local; symmetry; apply clip_in; assumption).
  assert (FV : forall f u q, (f < 6)%nat -> qnorm2 q = 1 -> field (spin_of f) (p_output p) (bfield (B' u) f) q = flat al La L B f u (qmul r1 q)).
  { intros f u q Hf Hq. rewrite (HF f u q Hf Hq). apply moved_flat. exact Hf. }
  pose proof (still _ _ _ _ _ HB Hsd) as ST.
  split; [|split; [|split]].
  - intros i q Hn Hq. unfold psi1. etransitivity; [exact (of_samples a1 B' 1 i 1 q HS' ltac:(lia) Hn)|]. change (bd_hi (ad_data a1)) with (bd_hi b'). rewrite Eh. etransitivity; [exact (FV 1%nat (time_at a1 i) q ltac:(lia) Hq)|].
    destruct (flat_still L B al La (time_at a1 i) (qmul r1 q) ST HR ltac:(lia)) as (-> & _ & _). rewrite F0, F1. rewrite (alpha_value A La t0 x) by (assumption || (apply Uq; exact Hq)). rewrite (alpha_eth A La t0 x) by (assumption || (apply Uq; exact Hq)).
    fold b0 g. replace (time_at a1 i + t0 + v3dot x (direction (qmul r1 q))) with (time_at a1 i + (t0 + v3dot x (direction (qmul r1 q)))) by ring. fold b0 g. rewrite !RtoC_add. cx.
  - intros i q Hn Hq. unfold psi2. etransitivity; [exact (of_samples a1 B' 2 i 0 q HS' ltac:(lia) Hn)|]. change (bd_hi (ad_data a1)) with (bd_hi b'). rewrite Eh. etransitivity; [exact (FV 2%nat (time_at a1 i) q ltac:(lia) Hq)|].
    destruct (flat_still L B al La (time_at a1 i) (qmul r1 q) ST HR ltac:(lia)) as (_ & -> & _). reflexivity.
  - intros i q Hn Hq. unfold sigma. etransitivity; [exact (of_samples a1 B' 5 i 2 q HS' ltac:(lia) Hn)|]. change (bd_hi (ad_data a1)) with (bd_hi b'). rewrite Eh. etransitivity; [exact (FV 5%nat (time_at a1 i) q ltac:(lia) Hq)|].
    destruct (flat_still L B al La (time_at a1 i) (qmul r1 q) ST HR ltac:(lia)) as (_ & _ & ->). rewrite F2. reflexivity.
  - intros i j l m Hn Hm. unfold sigma. rewrite !of_bmode. destruct (_ && _)%bool eqn:Q; [|reflexivity]. rewrite !andb_true_iff, !Z.leb_le in Q. cbn [ad_data a1] in *.
    assert (V0 : valid 0 (bd_hi b') l m) by (split; lia). rewrite (HS' 5%nat i l m ltac:(lia) Hn V0), (HS' 5%nat j l m ltac:(lia) Hm V0).
    apply (clean_eq 2 (p_output p)); [lia|apply (HC' 5%nat); lia|apply (HC' 5%nat); lia|]. intros q Hq. etransitivity; [exact (FV 5%nat (nth i (bd_u b') 0) q ltac:(lia) Hq)|]. etransitivity; [|symmetry; exact (FV 5%nat (nth j (bd_u b') 0) q ltac:(lia) Hq)].
    destruct (flat_still L B al La (nth i (bd_u b') 0) (qmul r1 q) ST HR ltac:(lia)) as (_ & _ & ->). destruct (flat_still L B al La (nth j (bd_u b') 0) (qmul r1 q) ST HR ltac:(lia)) as (_ & _ & ->). reflexivity.
Qed.
End Whole.
Lemma of_up : forall a f i, upto (bd_hi (ad_data a)) (ms_at (mts_of a f) i).
Proof.
  intros a f i l m H. rewrite of_bmode. destruct (Z.leb_spec 0 l), (Z.leb_spec l (bd_hi (ad_data a))), (Z.leb_spec (- l) m), (Z.leb_spec m l); cbn [andb]; try reflexivity. lia.
Qed.
Lemma turn_one : forall v, rotv (qconj q1) v = v.
Proof. intros [[x y] z]. unfold rotv, qconj, q1, qvec. cbn. apply (f_equal2 pair); [apply (f_equal2 pair)|]; ring. Qed.
Lemma v3_zero : forall v w c, v3add v (v3cross (0, 0, 0) w) = v /\ v3add (v3add v (v3scale c (0, 0, 0))) (v3scale 0 w) = v.
Proof. intros [[x y] z] [[x' y'] z'] c. unfold v3add, v3cross, v3scale. split; apply (f_equal2 pair); [apply (f_equal2 pair)| |apply (f_equal2 pair)|]; ring. Qed.
Lemma v3_zero' : forall v w, v3add v (v3scale 0 w) = v.
Proof. intros [[x y] z] [[x' y'] z']. unfold v3add, v3scale. apply (f_equal2 pair); [apply (f_equal2 pair)|]; ring. Qed.
(** Stationary data: the news vanishes.  The charges are the same at every time and any supertranslation [alpha] whose constant and [l = 1] parts are [t0] and [x] leaves energy and momentum
    alone; a translation ([alpha] without [l >= 2]) adds [x * P] to the angular momentum and [E x + t0 P] to the boost charge.  The spin does not change. *)
Theorem C79_translation : forall spline map2salm dspl a k p B sd sdd sddd t0 x, let b := ad_data a in let L := bd_hi b in let La := ell_max_of (p_super p) in let n := (2 * p_working p + 1)%Z in
  let K := product_table in let turn3 := rotv (qconj (p_rotation p)) in
  derives dspl -> passes spline -> cubics spline -> data_ok b -> increasing (bd_u b) -> (4 <= length (bd_u b))%nat -> (1 <= L)%Z -> abd_process L k = Ok p -> p_boost p = (0, 0, 0) ->
  bondi_solution L B sd sdd sddd -> (forall f, (f < 6)%nat -> polynomial 3 (fun t => bfield (B t) f)) -> samples b B -> (forall u l m, sd u l m = C0) ->
  (L + 7 * La <= p_output p <= p_working p)%Z -> (forall f, (f < 6)%nat -> exact map2salm (spin_of f) n n) ->
  has_parts (mode_at (p_super p)) t0 x -> (forall l m, (2 <= l <= La)%Z -> (- l <= m <= l)%Z -> mode_at (p_super p) l m = C0) ->
  exists a' E P J N S, ad_transform spline map2salm a k = Ok a' /\ let c := length (bd_u b) in let c' := length (bd_u (ad_data a')) in
    ad_four_momentum K dspl a = Ok (repeat (E, P) c) /\ ad_angular_momentum K a = Ok (repeat J c) /\ ad_boost_charge K dspl a = Ok (repeat N c) /\ ad_dimensionless_spin K dspl a = Ok (repeat S c) /\
    ((4 <= c')%nat ->
      ad_four_momentum K dspl a' = Ok (repeat (E, turn3 P) c') /\
      ad_angular_momentum K a' = Ok (repeat (turn3 (v3add J (v3cross x P))) c') /\
      ad_boost_charge K dspl a' = Ok (repeat (turn3 (v3add (v3add N (v3scale E x)) (v3scale t0 P))) c') /\
      (0 < E -> v3dot P P < E ^ 2 -> ad_dimensionless_spin K dspl a' = Ok (repeat (turn3 S) c'))).
Proof.
  intros spline map2salm dspl a k p B sd sdd sddd t0 x b L La n K turn3 HD HS HCu Hb Hi H4 HL Hp Hv HB HP HSa Hsd Ho HX Hx HZ.
  destruct (super_facts a k p Hp) as (H1 & HR & Hr). fold b L in H1, HR. destruct (A_facts a k p t0 x Hp Hx) as (RA & PA & UA). fold La in H1, HR, RA, PA, UA.
  destruct (old_object a B sd sdd sddd HB HSa Hsd) as (O1 & O2 & O5 & Oc).
  destruct (new_object spline map2salm a k p B sd sdd sddd t0 x HS HCu Hb Hi H4 Hp Hv HB HP HSa Hsd Ho HX Hx) as (a' & Et & Eh & Hi' & N1 & N2 & N5 & Nc).
  destruct (still _ _ _ _ _ HB Hsd) as [_ _ _ _ _ SR]. assert (U1 : upto L (b_psi1 (B 0))) by (apply (bs_upto _ _ _ _ _ HB 0 1%nat); lia).
  assert (RZ : real_modes_to 0 fzero) by (intros l m Hl Hm; unfold fbar, fzero; cx).
  assert (HZf : forall q, qnorm2 q = 1 -> field 0 0 (high fzero) q = C0) by (intros q _; unfold field; apply csum_const0; intros [l m] _; unfold high, fzero; cbn [fst]; destruct (l <? 2)%Z; ring).
  assert (Hq1 : qnorm2 q1 = 1) by (unfold qnorm2, q1; cbn; ring).
  destruct (object_momentum dspl a L (B 0) q1 HD Hi H4 HL HL Hq1 O2 Oc) as [M1 _].
  destruct (object_translation dspl a L 0 (B 0) fzero 0 (0, 0, 0) q1 HD Hi H4 HL HL Hq1 U1 SR O1 O2 O5 Oc (fun i => of_up a 1 i) HZf) as (M2 & M3 & M4).
  rewrite turn_one in M1. rewrite turn_one in M2. rewrite turn_one in M3. rewrite !(turn_one (v3add _ _)), (turn_one (v3scale _ _)) in M4. rewrite (proj1 (v3_zero _ _ 0)) in M2, M4. rewrite (proj2 (v3_zero _ _ _)) in M3, M4.
  do 6 eexists. split; [exact Et|]. cbv zeta. split; [exact M1|]. split; [exact M2|]. split; [exact M3|]. split; [exact M4|]. intros H4'.
  assert (HM' : (1 <= bd_hi (ad_data a'))%Z) by lia.
  assert (HZA : forall q, qnorm2 q = 1 -> field 0 La (high (clip 0 La (mode_at (p_super p)))) q = C0).
  { intros q _. unfold field. apply csum_const0. intros [l m] I. apply LM_range_In in I. cbn [fst snd]. unfold high. destruct (Z.ltb_spec l 2); [ring|]. rewrite clip_in by lia. rewrite HZ by lia. ring. }
  destruct (object_momentum dspl a' L (B 0) (p_rotation p) HD Hi' H4' HL HM' Hr N2 Nc) as [M1' _].
  destruct (object_translation dspl a' L La (B 0) _ t0 x (p_rotation p) HD Hi' H4' HL HM' Hr U1 SR N1 N2 N5 Nc (fun i => of_up a' 1 i) HZA) as (M2' & M3' & M4').
  split; [exact M1'|]. split; [exact M2'|]. split; [exact M3'|]. intros HE HPE. refine (eq_trans M4' _). f_equal. f_equal.
  set (E := - fst (charge_vector (b_psi2 (B 0)))) in *. set (P := v3scale (-1) (snd (charge_vector (b_psi2 (B 0))))) in *. clearbody E P.
  rewrite (spin_turn (qconj (p_rotation p)) _ _ E P t0) by (rewrite qnorm2_conj; exact Hr). unfold turn3. f_equal.
  etransitivity; [|exact (C56_translation _ _ E P x 0 HE HPE)]. f_equal. rewrite Ropp_0. symmetry. exact (v3_zero' _ P).
Qed.
(** Any real supertranslation.  With real [psi2] the angular momentum of Chen, Wang, Wang and Yau changes under the translation part only. *)
Theorem C79_supertranslation : forall spline map2salm dspl a k p B sd sdd sddd t0 x, let b := ad_data a in let L := bd_hi b in let La := ell_max_of (p_super p) in let n := (2 * p_working p + 1)%Z in
  let K := product_table in let turn3 := rotv (qconj (p_rotation p)) in
  derives dspl -> passes spline -> cubics spline -> data_ok b -> increasing (bd_u b) -> (4 <= length (bd_u b))%nat -> (1 <= L)%Z -> abd_process L k = Ok p -> p_boost p = (0, 0, 0) ->
  bondi_solution L B sd sdd sddd -> (forall f, (f < 6)%nat -> polynomial 3 (fun t => bfield (B t) f)) -> samples b B -> (forall u l m, sd u l m = C0) ->
  (L + 7 * La <= p_output p <= p_working p)%Z -> (forall f, (f < 6)%nat -> exact map2salm (spin_of f) n n) -> has_parts (mode_at (p_super p)) t0 x ->
  exists a' E P m, ad_transform spline map2salm a k = Ok a' /\ let c := length (bd_u b) in let c' := length (bd_u (ad_data a')) in
    ad_four_momentum K dspl a = Ok (repeat (E, P) c) /\ ad_rest_mass K dspl a = Ok (repeat m c) /\
    ((4 <= c')%nat -> ad_four_momentum K dspl a' = Ok (repeat (E, turn3 P) c') /\ ad_rest_mass K dspl a' = Ok (repeat m c') /\
      ((forall l m, fimag (b_psi2 (B 0)) l m = C0) -> exists W, ad_CWWY_angular_momentum K dspl a = Ok (repeat W c) /\
        ad_CWWY_angular_momentum K dspl a' = Ok (repeat (turn3 (v3add W (v3cross x P))) c'))).
Proof.
  intros spline map2salm dspl a k p B sd sdd sddd t0 x b L La n K turn3 HD HS HCu Hb Hi H4 HL Hp Hv HB HP HSa Hsd Ho HX Hx.
  destruct (super_facts a k p Hp) as (H1 & HR & Hr). fold b L in H1, HR. destruct (A_facts a k p t0 x Hp Hx) as (RA & PA & UA). fold La in H1, HR, RA, PA, UA.
  destruct (old_object a B sd sdd sddd HB HSa Hsd) as (O1 & O2 & O5 & Oc).
  destruct (new_object spline map2salm a k p B sd sdd sddd t0 x HS HCu Hb Hi H4 Hp Hv HB HP HSa Hsd Ho HX Hx) as (a' & Et & Eh & Hi' & N1 & N2 & N5 & Nc).
  assert (U1 : upto L (b_psi1 (B 0))) by (apply (bs_upto _ _ _ _ _ HB 0 1%nat); lia).
  assert (RZ : real_modes_to 0 fzero) by (intros l m Hl Hm; unfold fbar, fzero; cx).
  assert (Hq1 : qnorm2 q1 = 1) by (unfold qnorm2, q1; cbn; ring).
  destruct (object_momentum dspl a L (B 0) q1 HD Hi H4 HL HL Hq1 O2 Oc) as [M1 M2]. rewrite turn_one in M1.
  do 4 eexists. split; [exact Et|]. cbv zeta. split; [exact M1|]. split; [exact M2|]. intros H4'. assert (HM' : (1 <= bd_hi (ad_data a'))%Z) by lia.
  destruct (object_momentum dspl a' L (B 0) (p_rotation p) HD Hi' H4' HL HM' Hr N2 Nc) as [M1' M2']. split; [exact M1'|]. split; [exact M2'|]. intros HI.
  destruct (electric _ _ _ _ _ HB Hsd HI) as (c & RC & PC).
  assert (HC : potential_of L (b_sigma (B 0)) (clip 0 L c)).
  { split; [intros l m Hl Hm; unfold fbar; rewrite !clip_in by lia; exact (RC l m Hl Hm)|]. intros l m Hl Hm. rewrite (PC l m Hl Hm). apply eth_local, eth_local. symmetry. apply clip_in; lia. }
  assert (UC : upto L (clip 0 L c)) by (apply (clean_upto 0), clip_clean).
  assert (RG : real_modes_to L (b_psi2 (B 0))) by (intros l m _ _; apply fimag_real, HI).
  exists (snd (charge_vector (cwwy_aspect K L (B 0) zmodes))). split.
  - refine (eq_trans (object_cwwy dspl a L 0 (B 0) fzero 0 (0, 0, 0) q1 HD Hi H4 HL HL ltac:(lia) Hq1 U1 RZ O1 O2 O5 Oc (fun i => of_up a 1 i) _ (Z.le_refl L) (Z.le_trans _ 1 _ Z.le_0_1 HL) _ UC RG HC) _); [intros l m _; reflexivity|].
    rewrite turn_one, (proj1 (v3_zero _ _ 0)). reflexivity.
  - refine (object_cwwy dspl a' L La (B 0) _ t0 x (p_rotation p) HD Hi' H4' HL HM' ltac:(lia) Hr U1 RA N1 N2 N5 Nc (fun i => of_up a' 1 i) _ ltac:(rewrite Eh; clearbody La; unfold L in *; lia) ltac:(rewrite Eh; lia) UA UC RG HC).
Qed.
(** A time and a space translation given as keyword arguments; [space_translation = v] moves by [-v] *)
Theorem C79_keywords : forall e k p t v, abd_process e k = Ok p -> winning_time k = Some t -> winning_space k = Some v -> has_parts (mode_at (p_super p)) t (vneg v).
Proof.
  intros e k p t v H Wt Ws. destruct (C28_precedence _ _ _ H) as (L & HL & _ & _ & T & X). rewrite Wt in T. rewrite Ws in X. destruct (C28_real _ _ _ H) as (L' & HL' & _ & HR).
  assert (FR : forall l m, (0 <= l <= 1)%Z -> (- l <= m <= l)%Z -> freal (mode_at (p_super p)) l m = mode_at (p_super p) l m).
  { intros l m Hl Hm. unfold freal, fscale, fadd. rewrite (real_mode_at _ _ HR l m ltac:(lia) Hm). generalize (mode_at (p_super p) l m). intros z. apply C_eq; cbn; field. }
  split; [rewrite FR by lia; exact T|]. rewrite !FR by lia. rewrite !X by lia. destruct v as [[vx vy] vz]. reflexivity.
Qed.
Lemma dot_bound : forall x n, v3dot n n = 1 -> - norm3 x <= v3dot x n <= norm3 x.
Proof.
  intros x n Hn. assert (H : Rabs (v3dot x n) <= norm3 x).
  { unfold Rabs. rewrite norm3_dot. assert (S := sqrt_pos (v3dot x x)). assert (Q : v3dot x n * v3dot x n <= v3dot x x).
    { destruct x as [[a b] c], n as [[d e] f]. unfold v3dot in *. replace (a * a + b * b + c * c) with ((a * a + b * b + c * c) * (d * d + e * e + f * f)) by (rewrite Hn; ring).
      assert (S1 := Rle_0_sqr (a * e - b * d)). assert (S2 := Rle_0_sqr (b * f - c * e)). assert (S3 := Rle_0_sqr (c * d - a * f)).
      assert (I : (a * a + b * b + c * c) * (d * d + e * e + f * f) = (a * d + b * e + c * f) * (a * d + b * e + c * f) + (Rsqr (a * e - b * d) + Rsqr (b * f - c * e) + Rsqr (c * d - a * f))) by (unfold Rsqr; ring). lra. }
    assert (SS : sqrt (v3dot x x) * sqrt (v3dot x x) = v3dot x x) by (apply sqrt_sqrt; destruct x as [[a b] c]; unfold v3dot; nra).
    destruct (Rcase_abs (v3dot x n)); nra. }
  unfold Rabs in H. destruct (Rcase_abs (v3dot x n)); split; lra.
Qed.
(** The times at which the translated data are given: all that are at least [norm3 x] away from both ends, shifted by [t0] *)
Theorem C79_translation_times : forall spline map2salm a k p B sd sdd sddd t0 x a', let b := ad_data a in let L := bd_hi b in let La := ell_max_of (p_super p) in let n := (2 * p_working p + 1)%Z in
  passes spline -> cubics spline -> data_ok b -> increasing (bd_u b) -> (4 <= length (bd_u b))%nat -> abd_process L k = Ok p -> p_boost p = (0, 0, 0) ->
  bondi_solution L B sd sdd sddd -> (forall f, (f < 6)%nat -> polynomial 3 (fun t => bfield (B t) f)) -> samples b B ->
  (L + 7 * La <= p_output p <= p_working p)%Z -> (forall f, (f < 6)%nat -> exact map2salm (spin_of f) n n) ->
  has_parts (mode_at (p_super p)) t0 x -> (forall l m, (2 <= l <= La)%Z -> (- l <= m <= l)%Z -> mode_at (p_super p) l m = C0) ->
  ad_transform spline map2salm a k = Ok a' ->
  (forall t, In t (bd_u (ad_data a')) -> In (t + t0) (bd_u b)) /\
  (forall t, In t (bd_u b) -> nth 0 (bd_u b) 0 + norm3 x <= t <= last (bd_u b) 0 - norm3 x -> In (t - t0) (bd_u (ad_data a'))).
Proof.
  intros spline map2salm a k p B sd sdd sddd t0 x a' b L La n HS HCu Hb Hi H4 Hp Hv HB HP HSa Ho HX Hx HZ Ea.
  destruct (super_facts a k p Hp) as (H1 & HR & Hr). fold b L in H1, HR. fold La in H1, HR.
  destruct (C76_pipeline spline map2salm b k p B sd sdd sddd HS HCu Hb Hi H4 Hp Hv HB HP HSa Ho HX) as (b' & B' & sd' & sdd' & sddd' & E & _ & _ & _ & _ & _ & ET & _).
  unfold ad_transform in Ea. fold b in Ea. rewrite E in Ea. injection Ea as <-. cbn [ad_data].
  assert (FR : freal (mode_at (p_super p)) 0%Z 0%Z = mode_at (p_super p) 0%Z 0%Z).
  { unfold freal, fscale, fadd. rewrite (real_mode_at _ _ HR 0%Z 0%Z ltac:(lia) ltac:(lia)). generalize (mode_at (p_super p) 0%Z 0%Z). intros z. apply C_eq; cbn; field. }
  destruct Hx as [X0 X1]. assert (A0 : nth 0 (p_super p) C0 = constant_as_ell_0_mode t0) by (rewrite <- X0, FR; reflexivity).
  assert (T0 : re (constant_from_ell_0_mode (constant_as_ell_0_mode t0)) = t0).
  { unfold constant_from_ell_0_mode, constant_as_ell_0_mode, Cscale, RtoC. cbn. destruct sqrt_consts as (_ & _ & S). set (s := sqrt (4 * PI)) in *. replace (/ s * (t0 * s)) with (t0 * (s * / s)) by ring. rewrite S. ring. }
  assert (Nz : norm3 (0, 0, 0) = 0) by (unfold norm3; replace (0 * 0 + 0 * 0 + 0 * 0) with 0 by ring; apply sqrt_0).
  assert (G1 : gamma (0, 0, 0) = 1) by (unfold gamma; rewrite Nz; replace (1 - 0 ^ 2) with 1 by ring; rewrite sqrt_1; field).
  assert (K1 : forall r, kfactor (0, 0, 0) r = 1) by (intros [[y z] w]; unfold kfactor, one_over_k; rewrite G1; unfold dotv; field).
  assert (AL : forall q, qnorm2 q = 1 -> d_alpha (direction_of (p_super p) La (0, 0, 0) q) = t0 + v3dot x (direction q)).
  { intros q Hq. cbn [direction_of d_alpha]. rewrite (alpha_value _ La t0 x q H1 (real_mode_at _ _ HR) (conj X0 X1) Hq).
    assert (Z0 : field 0 La (high (mode_at (p_super p))) q = C0).
    { unfold field. apply csum_const0. intros [l m] I. apply LM_range_In in I. cbn [fst snd]. unfold high. destruct (Z.ltb_spec l 2); [ring|]. rewrite HZ by lia. ring. }
    rewrite Z0. cbn. ring. }
  rewrite A0 in ET. unfold new_slices in ET. destruct (bd_u b) as [|u0 us] eqn:Eu; [discriminate ET|]. cbv zeta in ET. rewrite T0, G1 in ET.
  fold La in ET. fold n in ET. set (dirs := map (fun q => direction_of (p_super p) La (0, 0, 0) (qmul (p_rotation p) q)) (grid_points n n)) in ET. destruct (np_max _) as [lo|] eqn:Elo; [|discriminate ET]. destruct (np_min _) as [hi|] eqn:Ehi; [|discriminate ET]. cbn [rbind] in ET. apply Ok_inj in ET.
  split.
  - intros t I. rewrite <- ET in I. apply filter_In in I. destruct I as [I _]. apply in_map_iff in I. destruct I as (y & <- & I). replace ((y - t0) / 1 + t0) with y by field. exact I.
  - intros t I [B1 B2]. rewrite <- ET. apply filter_In. split; [apply in_map_iff; exists t; split; [field|exact I]|]. apply andb_true_iff. cbn [nth] in B1.
    assert (DB : forall d, In d dirs -> t0 - norm3 x <= d_alpha d <= t0 + norm3 x).
    { intros d Id. unfold dirs in Id. apply in_map_iff in Id. destruct Id as (q & <- & Iq). assert (Uq : qnorm2 (qmul (p_rotation p) q) = 1) by (rewrite qnorm2_mul, Hr, (grid_points_unit _ _ _ Iq); ring).
      rewrite AL by exact Uq. assert (D := dot_bound x (direction (qmul (p_rotation p) q))). assert (U := direction_unit _ Uq). unfold unitv in U. destruct (direction (qmul (p_rotation p) q)) as [[y z] w]. cbn in U. specialize (D ltac:(unfold v3dot; lra)). lra. }
    split; [destruct (Rleb_spec lo (t - t0)) as [Q|Q]; [reflexivity|]|destruct (Rleb_spec (t - t0) hi) as [Q|Q]; [reflexivity|]]; exfalso.
    + assert (W : lo <= t - t0); [|lra]. apply (np_max_le _ _ _ Elo). intros y Iy. apply in_map_iff in Iy. destruct Iy as (d & <- & Id). rewrite K1. specialize (DB d Id). lra.
    + assert (W : t - t0 <= hi); [|lra]. apply (np_min_ge _ _ _ Ehi). intros y Iy. apply in_map_iff in Iy. destruct Iy as (d & <- & Id). rewrite K1. specialize (DB d Id). lra.
Qed.
(** Every real supertranslation has such parts. *)
Theorem C79_parts : forall al La, (1 <= La)%Z -> is_real al La -> exists t0 x, has_parts (mode_at al) t0 x.
Proof.
  intros al La HLa HR. assert (PP := PI_RGT_0). assert (S1 : sqrt (4 * PI) <> 0) by (apply Rgt_not_eq, sqrt_lt_R0; lra). assert (S2 : sqrt (2 * PI / 3) <> 0) by (apply Rgt_not_eq, sqrt_lt_R0; lra). assert (S3 : sqrt 2 <> 0) by (apply Rgt_not_eq, sqrt_lt_R0; lra).
  assert (FR : forall l m, (0 <= l <= 1)%Z -> (- l <= m <= l)%Z -> freal (mode_at al) l m = mode_at al l m).
  { intros l m Hl Hm. unfold freal, fscale, fadd. rewrite (real_mode_at _ _ HR l m ltac:(lia) Hm). generalize (mode_at al l m). intros z. apply C_eq; cbn; field. }
  assert (R0 := HR 0%Z 0%Z ltac:(lia) ltac:(lia)). assert (R1 := HR 1%Z 0%Z ltac:(lia) ltac:(lia)). assert (R2 := HR 1%Z 1%Z ltac:(lia) ltac:(lia)). cbn [Z.opp] in R0, R1, R2.
  exists (re (mode_at al 0 0) / sqrt (4 * PI)), (re (mode_at al 1 (-1)) / sqrt (2 * PI / 3), im (mode_at al 1 (-1)) / sqrt (2 * PI / 3), re (mode_at al 1 0) / (sqrt (2 * PI / 3) * sqrt 2)).
  unfold has_parts. rewrite !FR by lia. rewrite R2. destruct (mode_at al 0 0) as [a b], (mode_at al 1 0) as [c d], (mode_at al 1 (-1)) as [e f]. unfold sgn in *. cbn [Z.even] in *.
  assert (b = 0) by (apply (f_equal im) in R0; cbn in R0; lra). assert (d = 0) by (apply (f_equal im) in R1; cbn in R1; lra). subst b d. clear R0 R1 R2.
  split; [unfold constant_as_ell_0_mode; apply C_eq; cbn; field; assumption|]. unfold vector_as_ell_1_modes. apply (f_equal2 cons); [|apply (f_equal2 cons); [|apply (f_equal2 cons); [|reflexivity]]]; apply C_eq; cbn; field; repeat split; assumption.
Qed.

(** *** Cases: a moving mass, translated and supertranslated *)
Definition ex_g : modes := fopp (fadd (one_mode 0 0) (fscale (/ 2) (one_mode 1 0))).
Definition ex_M (u : R) : bondi := mkbondi zmodes (fscale u (eth_GHP 0 ex_g)) ex_g zmodes zmodes zmodes.
Definition ex_moving : adata := mkad (sampled_data 2 [0; 1; 2; 3; 4; 5] ex_M InertialFrame) Sum.
Lemma ex_g_low : forall l m, (2 <= l)%Z -> ex_g l m = C0.
Proof. intros l m H. unfold ex_g, fopp, fadd, fscale, one_mode. destruct (Z.eqb_spec l 0), (Z.eqb_spec l 1); try lia. cbn [andb]. cx. Qed.
Lemma ex_g_real : forall l m, fbar 0 ex_g l m = ex_g l m.
Proof.
  intros l m. unfold fbar, ex_g, fopp, fadd, fscale, one_mode. cbn [Z.add]. destruct (Z.eqb_spec m 0) as [->|N].
  - cbn [Z.opp Z.eqb]. unfold sgn. cbn [Z.even Z.add]. destruct (l =? 0)%Z, (l =? 1)%Z; cbn [andb]; apply C_eq; cbn; field.
  - destruct (Z.eqb_spec (- m) 0); [lia|]. rewrite !andb_false_r. cx.
Qed.
Lemma ex_M_solution : bondi_solution 2 ex_M (fun _ => zmodes) (fun _ => zmodes) (fun _ => zmodes) /\ forall f, (f < 6)%nat -> polynomial 3 (fun t => bfield (ex_M t) f).
Proof.
  assert (U0 : upto 2 zmodes) by (intros l m _; reflexivity). assert (UG : upto 2 ex_g) by (unfold ex_g; apply upto_opp, upto_add; [apply one_upto; lia|apply upto_scale, one_upto; lia]).
  assert (E0 : forall s f l m, (forall x y, f x y = C0) -> eth_GHP s f l m = C0) by (intros s f l m H; apply eth_nil, H).
  assert (EB : forall s l m, fbar s zmodes l m = C0) by (intros; unfold fbar, zmodes; cx).
  assert (EE : forall u l m, eth_GHP 1 (fscale u (eth_GHP 0 ex_g)) l m = C0).
  { intros u l m. destruct (Z.lt_ge_cases l 2) as [H|H].
    - unfold eth_GHP at 1, eth, ladder, fscale. destruct (Z.ltb_spec l (Z.max (Z.abs 1) (Z.abs (1 + 1)))); [cx|lia].
    - apply eth_nil. unfold fscale. rewrite eth_nil by (apply ex_g_low; exact H). cx. }
  split.
  - constructor; try (intros u l m; exact (hd_const C0 u)).
    + intros u f Hf. destruct f as [|[|[|[|[|[|f]]]]]]; [..|lia]; cbn [bfield nth ex_M b_psi0 b_psi1 b_psi2 b_psi3 b_psi4 b_sigma]; up_solve.
    + intros u l m. cbn [ex_M b_psi0 b_psi1 b_psi2 b_sigma]. rewrite multiply_zmodes, EE. eapply hd_eq; [exact (hd_const C0 u)|cx].
    + intros u l m. cbn [ex_M b_psi1 b_psi2 b_psi3 b_sigma]. rewrite multiply_zmodes. unfold fscale. generalize (eth_GHP 0 ex_g l m). intros w. eapply hd_eq; [exact (hd_scale (fun _ => w) u C0 (hd_const w u))|cx].
    + intros u l m. cbn [ex_M b_psi2 b_psi3 b_psi4 b_sigma]. rewrite multiply_zmodes, E0 by reflexivity. eapply hd_eq; [exact (hd_const (ex_g l m) u)|cx].
    + intros u l m. cbn [ex_M b_psi3]. rewrite E0 by (intros; apply EB). unfold zmodes. cx.
    + intros u l m. cbn [ex_M b_psi4]. unfold fbar, zmodes. cx.
    + intros u l m. cbn [ex_M b_psi2 b_sigma]. assert (Q : fimag ex_g l m = C0). { unfold fimag, fscale, fmuli, fsub, fadd. rewrite ex_g_real. cx. }
      rewrite Q. unfold fimag, fscale, fmuli, fsub, fadd, fbar. rewrite !multiply_zmodes. rewrite !E0 by (intros; apply E0; intros; apply EB). cx.
  - intros f Hf. destruct f as [|[|[|[|[|[|f]]]]]]; [..|lia].
    + exists []. split; [cbn; lia|]. reflexivity.
    + exists [zmodes; eth_GHP 0 ex_g]. split; [cbn; lia|]. intros t l m. cbn [bfield nth peval ex_M b_psi1]. unfold fadd, fscale, zmodes. cx.
    + exists [ex_g]. split; [cbn; lia|]. intros t l m. cbn [bfield nth peval ex_M b_psi2]. unfold fadd, fscale. cx.
    + exists []. split; [cbn; lia|]. reflexivity.
    + exists []. split; [cbn; lia|]. reflexivity.
    + exists []. split; [cbn; lia|]. reflexivity.
Qed.
Lemma ex_six : increasing [0; 1; 2; 3; 4; 5].
Proof. repeat constructor; lra. Qed.
Lemma exact_exists : forall n, exists mm, forall f, (f < 6)%nat -> exact mm (spin_of f) n n.
Proof.
  intros n. destruct (C68_inverse_exists 2 n n) as [m1 X1]. destruct (C68_inverse_exists 1 n n) as [m2 X2]. destruct (C68_inverse_exists 0 n n) as [m3 X3].
  destruct (C68_inverse_exists (-1) n n) as [m4 X4]. destruct (C68_inverse_exists (-2) n n) as [m5 X5].
  exists (fun nt np vals s L => if (s =? 2)%Z then m1 nt np vals s L else if (s =? 1)%Z then m2 nt np vals s L else if (s =? 0)%Z then m3 nt np vals s L
             else if (s =? -1)%Z then m4 nt np vals s L else m5 nt np vals s L).
  intros f Hf. destruct f as [|[|[|[|[|[|f]]]]]]; try lia; intros L a lmax; [apply X1|apply X2|apply X3|apply X4|apply X5|apply X1].
Qed.
(** The momentum of the moving mass *)
Lemma ex_moving_momentum : exists e w, 0 < e /\ 0 < w /\ w < e /\ ad_four_momentum product_table ex_dspl ex_moving = Ok (repeat (e, (0, 0, w)) 6).
Proof.
  destruct ex_M_solution as [HB HP]. destruct (sampled_data_ok 2 [0; 1; 2; 3; 4; 5] ex_M InertialFrame ltac:(lia)) as [O1 S1].
  destruct (old_object ex_moving ex_M _ _ _ HB S1 (fun _ _ _ => eq_refl)) as (_ & O2 & _ & Oc).
  destruct (object_momentum ex_dspl ex_moving 2 (ex_M 0) q1 ex_dspl_derives ex_six ltac:(cbn; lia) ltac:(lia) ltac:(cbn; lia) ltac:(unfold qnorm2, q1; cbn; ring) O2 Oc) as [M1 _].
  rewrite turn_one in M1. do 2 eexists. split; [|split; [|split; [|refine (eq_trans M1 _); f_equal; change (length (bd_u (ad_data ex_moving))) with 6%nat; f_equal; f_equal; cbn [ex_M b_psi2]; unfold charge_vector, ex_g, fopp, fadd, fscale, one_mode, v3scale; cbn; apply (f_equal2 pair); [apply (f_equal2 pair)|]; [unfold Rdiv; ring|unfold Rdiv; ring|reflexivity]]]].
  all: cbn [ex_M b_psi2]; unfold charge_vector, ex_g, fopp, fadd, fscale, one_mode; cbn; assert (S4 : 0 < / sqrt (4 * PI)) by (apply Rinv_0_lt_compat, sqrt_lt_R0; pose proof PI_RGT_0; lra); assert (S3 : 1 < sqrt 3) by (rewrite <- sqrt_1 at 1; apply sqrt_lt_1; lra);
    assert (S5 : 0 < / sqrt 3) by (apply Rinv_0_lt_compat; lra); assert (S6 : / sqrt 3 < 1) by (rewrite <- Rinv_1; apply Rinv_lt_contravar; lra); unfold Rdiv; nra.
Qed.
Definition ex_kt : Kwargs_Model.kwargs := mkkw None (Some [2; 1; 0; 0]) None None (Some 9%Z) (Some 9%Z) None None.
Lemma ex_kt_process : exists q a, abd_process 2 ex_kt = Ok (mkproc q (0, 0, 0) a 9 9) /\ length a = 4%nat /\ q = q1.
Proof.
  assert (A : qabs (mkq 1 0 0 0) = 1). { unfold qabs, qnorm2. cbn [qw qx qy qz]. replace (1 * 1 + 0 * 0 + 0 * 0 + 0 * 0) with 1 by ring. apply sqrt_1. }
  assert (RR : exists q, read_rotation None = Ok q).
  { unfold read_rotation. cbn [quat_of]. rewrite A. destruct (Rltb_spec 1 (3 / 10 ^ 16)); [exfalso; lra|]. eexists. reflexivity. }
  assert (RB : read_boost None = Ok (0, 0, 0)).
  { unfold read_boost. cbn [vec3_of]. assert (N : norm3 (0, 0, 0) = 0) by (unfold norm3; replace (0 * 0 + 0 * 0 + 0 * 0) with 0 by ring; apply sqrt_0). rewrite N. destruct (Rleb_spec 1 0); [exfalso; lra|reflexivity]. }
  destruct RR as [q RR].
  assert (EO : exists a s, override ex_kt [C0; C0; C0; C0] = Ok (a, s) /\ length a = 4%nat).
  { unfold override. cbn [get nth_error rbind]. destruct (vector_from_ell_1_modes [C0; C0; C0]) as [[vx vy] vz]. do 2 eexists. split; [reflexivity|reflexivity]. }
  destruct EO as (a & s & EO & La). exists q, a.
  assert (EP : abd_process 2 ex_kt = Ok (mkproc q (0, 0, 0) a 9 9)).
  { unfold abd_process, read_super. cbn [ex_kt k_super rbind]. match goal with |- rbind (override _ ?l) _ = _ => change l with [C0; C0; C0; C0] end. fold ex_kt. rewrite EO. cbn [rbind ex_kt k_working_ell_max k_output_ell_max k_rotation k_boost dflt].
    change (9 <? 2)%Z with false. cbv iota. rewrite RR. cbn [rbind]. rewrite RB. reflexivity. }
  split; [exact EP|]. split; [exact La|]. destruct (C28_parameters _ _ _ EP) as (_ & _ & _ & HR & _). exact (HR eq_refl).
Qed.
(** Translated by (2, 1, 0, 0): the angular momentum of the moving mass changes by [x * P], the boost charge by [E x + t P], the spin not at all. *)
Example C79_case_translation : exists map2salm a' e w J N S, (forall f, (f < 6)%nat -> exact map2salm (spin_of f) 19 19) /\ ad_transform cubic_or_lookup map2salm ex_moving ex_kt = Ok a' /\
  0 < e /\ 0 < w /\ w < e /\ ad_four_momentum product_table ex_dspl ex_moving = Ok (repeat (e, (0, 0, w)) 6) /\ ad_angular_momentum product_table ex_moving = Ok (repeat J 6) /\
  ad_boost_charge product_table ex_dspl ex_moving = Ok (repeat N 6) /\ ad_dimensionless_spin product_table ex_dspl ex_moving = Ok (repeat S 6) /\
  let c := length (bd_u (ad_data a')) in (4 <= c)%nat /\ ad_four_momentum product_table ex_dspl a' = Ok (repeat (e, (0, 0, w)) c) /\
    ad_angular_momentum product_table a' = Ok (repeat (v3add J (0, w, 0)) c) /\ ad_boost_charge product_table ex_dspl a' = Ok (repeat (v3add N (- e, 0, 2 * w)) c) /\
    ad_dimensionless_spin product_table ex_dspl a' = Ok (repeat S c).
Proof.
  destruct (exact_exists 19) as [mm HX]. destruct ex_M_solution as [HB HP]. destruct (sampled_data_ok 2 [0; 1; 2; 3; 4; 5] ex_M InertialFrame ltac:(lia)) as [O1 S1].
  destruct ex_kt_process as (q & al & EP & Lal & ->). assert (PA := C79_keywords 2 ex_kt _ 2 (1, 0, 0) EP eq_refl eq_refl).
  assert (EL : ell_max_of al = 1%Z) by (unfold ell_max_of; rewrite Lal; reflexivity).
  assert (HO : (2 + 7 * ell_max_of al <= 9 <= 9)%Z) by (rewrite EL; lia).
  assert (HZ : forall l m, (2 <= l <= ell_max_of al)%Z -> (- l <= m <= l)%Z -> mode_at al l m = C0) by (intros l m Hl; rewrite EL in Hl; lia).
  destruct (C79_translation cubic_or_lookup mm ex_dspl ex_moving ex_kt _ ex_M _ _ _ 2 (vneg (1, 0, 0)) ex_dspl_derives cubic_or_lookup_passes cubic_or_lookup_cubics O1 ex_six ltac:(cbn; lia) ltac:(cbn; lia) EP eq_refl HB HP S1 (fun _ _ _ => eq_refl) HO HX PA HZ)
    as (a' & E & P & J & N & S & Et & M1 & M2 & M3 & M4 & C).
  destruct (C79_translation_times cubic_or_lookup mm ex_moving ex_kt _ ex_M _ _ _ 2 (vneg (1, 0, 0)) a' cubic_or_lookup_passes cubic_or_lookup_cubics O1 ex_six ltac:(cbn; lia) EP eq_refl HB HP S1 HO HX PA HZ Et) as [_ KT].
  destruct ex_moving_momentum as (e & w & P1 & P2 & P3 & Q). change (length (bd_u (ad_data ex_moving))) with 6%nat in M1, M2, M3, M4. assert (EPe : E = e /\ P = (0, 0, w)) by (rewrite Q in M1; injection M1 as <- <-; split; reflexivity). destruct EPe as [-> ->].
  assert (N1 : norm3 (vneg (1, 0, 0)) = 1). { unfold norm3, vneg. transitivity (sqrt 1); [f_equal; ring|apply sqrt_1]. }
  assert (C4 : (4 <= length (bd_u (ad_data a')))%nat).
  { change 4%nat with (length (map (fun t => t - 2) [1; 2; 3; 4])). apply NoDup_incl_length.
    - repeat constructor; cbn; lra.
    - intros y I. apply in_map_iff in I. destruct I as (t & <- & I). apply KT; rewrite ?N1; cbn [ex_moving ad_data sampled_data bd_u]; cbn [In nth last] in *; [tauto|]. destruct I as [<-|[<-|[<-|[<-|[]]]]]; lra. }
  destruct (C C4) as (M1' & M2' & M3' & M4'). clear C. cbn [p_rotation] in *. rewrite turn_one in M1'. rewrite turn_one in M2'. rewrite turn_one in M3'.
  exists mm, a', e, w, J, N, S. split; [exact HX|]. split; [exact Et|]. split; [exact P1|]. split; [exact P2|]. split; [exact P3|]. split; [exact Q|]. split; [exact M2|]. split; [exact M3|]. split; [exact M4|].
  cbv zeta. split; [exact C4|]. split; [exact M1'|]. split; [|split].
  - refine (eq_trans M2' _). f_equal. f_equal. destruct J as [[j1 j2] j3]. unfold vneg, v3add, v3cross. apply (f_equal2 pair); [apply (f_equal2 pair)|]; ring.
  - refine (eq_trans M3' _). f_equal. f_equal. destruct N as [[j1 j2] j3]. unfold vneg, v3add, v3scale. apply (f_equal2 pair); [apply (f_equal2 pair)|]; ring.
  - rewrite turn_one in M4'. apply M4'; [exact P1|]. unfold v3dot. nra.
Qed.
(** Supertranslated by an l = 2 function: same momentum and mass *)
Example C79_case_supertranslation : exists map2salm a' e w m t0 x, (forall f, (f < 6)%nat -> exact map2salm (spin_of f) 33 33) /\ ad_transform cubic_or_lookup map2salm ex_moving ex_kB = Ok a' /\
  has_parts (mode_at ex_a) t0 x /\ mode_at ex_a 2 0 = C1 /\ 0 < e /\ 0 < w /\ (forall l m, fimag (b_psi2 (ex_M 0)) l m = C0) /\
  ad_four_momentum product_table ex_dspl ex_moving = Ok (repeat (e, (0, 0, w)) 6) /\ ad_rest_mass product_table ex_dspl ex_moving = Ok (repeat m 6) /\
  let c := length (bd_u (ad_data a')) in (4 <= c)%nat -> ad_four_momentum product_table ex_dspl a' = Ok (repeat (e, (0, 0, w)) c) /\ ad_rest_mass product_table ex_dspl a' = Ok (repeat m c) /\
    exists W, ad_CWWY_angular_momentum product_table ex_dspl ex_moving = Ok (repeat W 6) /\ ad_CWWY_angular_momentum product_table ex_dspl a' = Ok (repeat (v3add W (v3cross x (0, 0, w))) c).
Proof.
  destruct (exact_exists 33) as [mm HX]. destruct ex_M_solution as [HB HP]. destruct (sampled_data_ok 2 [0; 1; 2; 3; 4; 5] ex_M InertialFrame ltac:(lia)) as [O1 S1].
  destruct ex_kB_process as (p & EP & ES & EB & EO & EW). destruct (C28_parameters _ _ _ EP) as (_ & _ & _ & HR & _). specialize (HR eq_refl).
  destruct (C79_parts ex_a 2 ltac:(lia) ex_a_real) as (t0 & x & HA). assert (PA : has_parts (mode_at (p_super p)) t0 x) by (rewrite ES; exact HA).
  assert (HI : forall l m, fimag (b_psi2 (ex_M 0)) l m = C0) by (intros l m; cbn [ex_M b_psi2]; unfold fimag, fscale, fmuli, fsub, fadd; rewrite ex_g_real; cx).
  destruct (C79_supertranslation cubic_or_lookup mm ex_dspl ex_moving ex_kB p ex_M _ _ _ t0 x ex_dspl_derives cubic_or_lookup_passes cubic_or_lookup_cubics O1 ex_six ltac:(cbn; lia) ltac:(cbn; lia) EP EB HB HP S1 (fun _ _ _ => eq_refl)) as (a' & E & P & m & Et & M1 & M2 & C).
  - rewrite ES, EO, EW. change (ell_max_of ex_a) with 2%Z. cbn. lia.
  - rewrite EW. exact HX.
  - exact PA.
  - destruct ex_moving_momentum as (e & w & P1 & P2 & P3 & Q). change (length (bd_u (ad_data ex_moving))) with 6%nat in M1, M2, C. assert (EPe : E = e /\ P = (0, 0, w)) by (rewrite Q in M1; injection M1 as <- <-; split; reflexivity). destruct EPe as [-> ->].
    exists mm, a', e, w, m, t0, x. split; [exact HX|]. split; [exact Et|]. split; [exact HA|]. split; [reflexivity|]. split; [exact P1|]. split; [exact P2|]. split; [exact HI|]. split; [exact Q|]. split; [exact M2|].
    cbv zeta. intros C4. destruct (C C4) as (M1' & M2' & CW). rewrite HR in M1', CW. rewrite turn_one in M1'. split; [exact M1'|]. split; [exact M2'|]. destruct (CW HI) as (W & W1 & W2). exists W. split; [exact W1|]. rewrite turn_one in W2. exact W2.
Qed.
