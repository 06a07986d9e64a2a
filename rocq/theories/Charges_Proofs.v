(** * C78: the charges of asymptotic Bondi data under transformations *)
From Coq Require Import Reals ZArith List Bool Lia Lra.
From Verif Require Import Common Cplx Quat Modes_Model Create_Model Times_Model Tables_Model Modal_Model Kwargs_Model Transform_Model Rotate_Model
  Modes_Proofs Modal_Proofs Rotate_Proofs Times_Proofs Kwargs_Proofs Transform_Proofs Wigner_Model Wigner_Proofs Sphere_Model Sphere_Proofs Harmonics_Proofs
  Pipeline_Model Pipeline_Proofs ABD_Model ABD_Proofs ABDBalance_Proofs ABDPointwise_Proofs Zturn_Model Zturn_Proofs Product_Proofs Gridmul_Model Gridmul_Proofs
  Abdpipe_Model Abdpipe_Proofs Eth_Proofs Bianchi_Proofs Bianchimodes_Proofs Constraints_Model Constraints_Proofs Charges_Model.
Import ListNotations.
Open Scope R_scope.

(** ** Modes of a rotated function *)
(** [f'], with modes up to [L'], are the modes of the function with modes [f] (up to [L]) as seen from the frame turned by [q]. *)
Definition turned (q : quat) (s L : Z) (f : modes) (L' : Z) (f' : modes) : Prop :=
  upto L f /\ upto L' f' /\ forall l m, (Z.abs s <= l)%Z -> (- l <= m <= l)%Z -> f' l m = turn wigner_D q f l m.
Lemma turn_linear : forall q x f g l m, turn wigner_D q (fun l m => (x * f l m + g l m)%C) l m = (x * turn wigner_D q f l m + turn wigner_D q g l m)%C.
Proof. intros q x f g l m. unfold turn. rewrite <- csum_scale, <- csum_add. apply csum_ext. intros; ring. Qed.
Lemma turn_zero : forall q f l m, (forall k, (- l <= k <= l)%Z -> f l k = C0) -> turn wigner_D q f l m = C0.
Proof. intros q f l m H. unfold turn. apply csum_const0. intros k I. apply zrange_In in I. rewrite H by lia. ring. Qed.
Lemma turned_field : forall q s L f L' f' r, (0 <= L)%Z -> (0 <= L')%Z -> turned q s L f L' f' -> field s L' f' r = field s L f (qmul q r).
Proof.
  intros q s L f L' f' r HL HL' (Hf & Hf' & H). set (M := Z.max L L').
  rewrite (field_grow s L' M f') by (try (unfold M; lia); intros l m B; apply Hf'; lia). rewrite (field_grow s L M f) by (try (unfold M; lia); intros l m B; apply Hf; lia).
  rewrite <- C68_field_rotation by (unfold M; lia). apply Pipeline_Proofs.field_ext. intros l m Hl Hm. apply H; lia.
Qed.
Lemma turned_of_field : forall q s L f L' f', (0 <= L)%Z -> (0 <= L')%Z -> upto L f -> upto L' f' -> (forall r, qnorm2 r = 1 -> field s L' f' r = field s L f (qmul q r)) -> turned q s L f L' f'.
Proof.
  intros q s L f L' f' HL HL' Hf Hf' H. split; [exact Hf|]. split; [exact Hf'|]. intros l m Hl Hm. set (M := Z.max l (Z.max L L')).
  apply (field_unique s M f' (turn wigner_D q f)); [unfold M; lia| |unfold M; lia|exact Hm]. intros r Hr. rewrite C68_field_rotation by (unfold M; lia).
  rewrite <- (field_grow s L' M f') by (try (unfold M; lia); intros; apply Hf'; lia). rewrite <- (field_grow s L M f) by (try (unfold M; lia); intros; apply Hf; lia). apply H, Hr.
Qed.
Lemma turned_linear : forall q s x L f L' f' g g', turned q s L f L' f' -> turned q s L g L' g' ->
  turned q s L (fun l m => (x * f l m + g l m)%C) L' (fun l m => (x * f' l m + g' l m)%C).
Proof.
  intros q s x L f L' f' g g' (A & A' & E) (B & B' & F). split; [|split].
  - intros l m O. rewrite A, B by exact O. ring.
  - intros l m O. rewrite A', B' by exact O. ring.
  - intros l m Hl Hm. rewrite turn_linear, E, F by assumption. reflexivity.
Qed.
Lemma turned_ext : forall q s L f g L' f' g', (forall l m, f l m = g l m) -> (forall l m, f' l m = g' l m) -> turned q s L f L' f' -> turned q s L g L' g'.
Proof.
  intros q s L f g L' f' g' H H' (A & A' & E). split; [|split].
  - intros l m O. rewrite <- H. apply A, O.
  - intros l m O. rewrite <- H'. apply A', O.
  - intros l m Hl Hm. rewrite <- H', E by assumption. apply turn_ext. intros; apply H.
Qed.
Lemma turned_grow : forall q s L f L' f' M M', (L <= M)%Z -> (L' <= M')%Z -> turned q s L f L' f' -> turned q s M f M' f'.
Proof. intros q s L f L' f' M M' H H' (A & A' & E). split; [|split; [|exact E]]; intros l m O; [apply A|apply A']; lia. Qed.
Lemma turned_fzero : forall q s L L', turned q s L fzero L' fzero.
Proof. intros q s L L'. split; [|split]; [intros l m _; reflexivity..|]. intros l m _ _. rewrite turn_zero; reflexivity. Qed.
Lemma turned_cmul : forall q s x L f L' f', turned q s L f L' f' -> turned q s L (fun l m => (x * f l m)%C) L' (fun l m => (x * f' l m)%C).
Proof.
  intros q s x L f L' f' H. apply (turned_ext _ _ _ (fun l m => (x * f l m + fzero l m)%C) _ _ (fun l m => (x * f' l m + fzero l m)%C)); [intros; unfold fzero; ring..|].
  apply turned_linear; [exact H|apply turned_fzero].
Qed.
Lemma turned_add : forall q s L f L' f' g g', turned q s L f L' f' -> turned q s L g L' g' -> turned q s L (fadd f g) L' (fadd f' g').
Proof.
  intros q s L f L' f' g g' A B. apply (turned_ext _ _ _ (fun l m => (C1 * f l m + g l m)%C) _ _ (fun l m => (C1 * f' l m + g' l m)%C)); [intros; unfold fadd; ring..|]. apply turned_linear; assumption.
Qed.
Lemma turned_scale : forall q s x L f L' f', turned q s L f L' f' -> turned q s L (fscale x f) L' (fscale x f').
Proof. intros q s x L f L' f' H. eapply turned_ext; [| |apply (turned_cmul _ _ (RtoC x)), H]; intros; unfold fscale; rewrite Cscale_mul; reflexivity. Qed.
Lemma turned_opp : forall q s L f L' f', turned q s L f L' f' -> turned q s L (fopp f) L' (fopp f').
Proof. intros q s L f L' f' H. eapply turned_ext; [| |apply (turned_cmul _ _ (- C1)%C), H]; intros; unfold fopp; ring. Qed.
Lemma turned_muli : forall q s L f L' f', turned q s L f L' f' -> turned q s L (fmuli f) L' (fmuli f').
Proof. intros q s L f L' f' H. eapply turned_ext; [| |apply (turned_cmul _ _ Ci), H]; intros; reflexivity. Qed.
Lemma turned_bar : forall q s L f L' f', (0 <= L)%Z -> (0 <= L')%Z -> turned q s L f L' f' -> turned q (- s) L (fbar s f) L' (fbar s f').
Proof.
  intros q s L f L' f' HL HL' H. apply turned_of_field; [exact HL|exact HL'|apply upto_bar, H|apply upto_bar, H|]. intros r Hr.
  rewrite (C68_conjugate_fields s L' f' (fbar s f') r HL') by (intros; reflexivity). rewrite (C68_conjugate_fields s L f (fbar s f) (qmul q r) HL) by (intros; reflexivity).
  f_equal. apply turned_field; assumption.
Qed.
Lemma eth_scaled : forall s l, exists x, forall f m, eth_GHP s f l m = Cscale x (f l m).
Proof.
  intros s l. unfold eth_GHP, fscale, eth, ladder. destruct (l <? _)%Z; [exists 0; intros; cx|]. exists (/ sqrt 2 * (1 * sqrt (IZR ((l - s) * (l + (s + 1)))))). intros f m. cx.
Qed.
Lemma ethbar_scaled : forall s l, exists x, forall f m, ethbar_GHP s f l m = Cscale x (f l m).
Proof.
  intros s l. unfold ethbar_GHP, fscale, ethbar. destruct (l <? _)%Z; [exists 0; intros; cx|]. exists (/ sqrt 2 * - sqrt (IZR ((l + s) * (l - s + 1)))). intros f m. cx.
Qed.
Lemma turn_scaled : forall q x f g l m, (forall k, g l k = Cscale x (f l k)) -> turn wigner_D q g l m = Cscale x (turn wigner_D q f l m).
Proof. intros q x f g l m H. unfold turn. rewrite Cscale_mul, <- csum_scale. apply csum_ext. intros k _. rewrite H, Cscale_mul. ring. Qed.
Lemma turned_eth : forall q s L f L' f', turned q s L f L' f' -> turned q (s + 1) L (eth_GHP s f) L' (eth_GHP s f').
Proof.
  intros q s L f L' f' (A & A' & E). split; [apply upto_eth, A|]. split; [apply upto_eth, A'|]. intros l m Hl Hm.
  destruct (Z.lt_ge_cases l (Z.abs s)) as [B|B].
  - assert (Z : forall g k, eth_GHP s g l k = C0) by (intros g k; unfold eth_GHP, fscale, eth, ladder; destruct (Z.ltb_spec l (Z.max (Z.abs s) (Z.abs (s + 1)))); [cx|lia]).
    rewrite Z. symmetry. apply turn_zero. intros; apply Z.
  - destruct (eth_scaled s l) as [x X]. rewrite X, E by assumption. symmetry. apply turn_scaled. intros; apply X.
Qed.
Lemma turned_real : forall q L f L' f', (0 <= L)%Z -> (0 <= L')%Z -> turned q 0 L f L' f' -> turned q 0 L (freal f) L' (freal f').
Proof. intros q L f L' f' HL HL' H. unfold freal. apply turned_scale, turned_add; [exact H|]. apply (turned_bar q 0); assumption. Qed.

(** ** Products *)
Lemma times_upto : forall s1 L1 s2 L2 f g, upto (L1 + L2) (times s1 L1 s2 L2 f g).
Proof.
  intros s1 L1 s2 L2 f g l m O. unfold times. apply csum_const0. intros [l1 m1] I1. apply csum_const0. intros [l2 m2] I2. apply LM_range_In in I1, I2. cbn [fst snd].
  destruct (Z.eqb_spec (m1 + m2) m) as [<-|]; [|reflexivity]. rewrite table_zero; [cx|]. unfold ok.
  destruct (Z.leb_spec (Z.abs (s1 + s2)) l), (Z.leb_spec (Z.abs (m1 + m2)) l), (Z.leb_spec l (l1 + l2)); cbn [andb]; rewrite ?andb_false_r; try reflexivity. lia.
Qed.
Lemma multiply_times : forall L Lo s1 s2 f g l m, (l <= Lo)%Z -> multiply product_table L Lo s1 s2 f g l m = times s1 L s2 L f g l m.
Proof. intros L Lo s1 s2 f g l m H. unfold multiply. destruct (Z.leb_spec l Lo); [|lia]. reflexivity. Qed.
Lemma turned_times : forall q s1 s2 L1 f L1' f' L2 g L2' g', (0 <= L1)%Z -> (0 <= L1')%Z -> (0 <= L2)%Z -> (0 <= L2')%Z -> qnorm2 q = 1 -> turned q s1 L1 f L1' f' -> turned q s2 L2 g L2' g' ->
  turned q (s1 + s2) (L1 + L2) (times s1 L1 s2 L2 f g) (L1' + L2') (times s1 L1' s2 L2' f' g').
Proof.
  intros q s1 s2 L1 f L1' f' L2 g L2' g' H1 H1' H2 H2' Hq A B. apply turned_of_field; [lia|lia|apply times_upto|apply times_upto|]. intros r Hr.
  assert (U : qnorm2 (qmul q r) = 1) by (rewrite qnorm2_mul, Hq, Hr; ring).
  rewrite <- (proj1 (C72_fields s1 L1 f s2 L2 g H1 H2) _ U), <- (proj1 (C72_fields s1 L1' f' s2 L2' g' H1' H2') _ Hr).
  rewrite (turned_field q s1 L1 f L1' f') by assumption. rewrite (turned_field q s2 L2 g L2' g') by assumption. reflexivity.
Qed.

(** ** The charge vector of a rotated aspect *)
Lemma charge_same : forall f g, (forall m, (- 1 <= m <= 1)%Z -> f 1%Z m = g 1%Z m) -> snd (charge_vector f) = snd (charge_vector g).
Proof. intros f g H. unfold charge_vector. cbn [snd]. rewrite !H by lia. reflexivity. Qed.
(** The value of a real function with parts up to ell = 1 is c + v.n. *)
Lemma parts_field : forall f c v q, has_parts f c v -> qnorm2 q = 1 -> field 0 1 (freal f) q = RtoC (c + v3dot v (direction q)).
Proof.
  intros f c [[vx vy] vz] q [H0 H1] Hq. unfold field. change (LM_range 0 1) with [(0, 0); (1, -1); (1, 0); (1, 1)]%Z. cbn [csum fst snd]. rewrite !swsh_1m by (exact Hq || lia). rewrite swsh_00.
  assert (E1 := f_equal (fun l => nth 0 l C0) H1). assert (E2 := f_equal (fun l => nth 1 l C0) H1). assert (E3 := f_equal (fun l => nth 2 l C0) H1). cbn [nth vector_as_ell_1_modes] in E1, E2, E3.
  rewrite H0, E1, E2, E3. destruct (direction q) as [[nx ny] nz]. unfold Y1, Y0, v3dot, constant_as_ell_0_mode. cbn [Z.eqb Pos.eqb]. destruct sqrt_consts as (S1 & S2 & S3).
  set (f' := sqrt (2 * PI / 3)) in *. set (g := sqrt (3 / (2 * PI))) in *. set (h := sqrt (3 / PI)) in *. set (r := sqrt 2) in *. set (w := sqrt (4 * PI)) in *. set (u := / w) in *. apply C_eq; cbn.
  - replace (c + (vx * nx + vy * ny + vz * nz)) with (c * (w * u) + (f' * g) * (vx * nx + vy * ny) + (f' * r * h) / 2 * (vz * nz)) by (rewrite S1, S2, S3; field). field.
  - field.
Qed.
Lemma rotv_adjoint : forall q v n, v3dot v (rotv q n) = v3dot (rotv (qconj q) v) n.
Proof. intros [w x y z] [[a b] c] [[d e] f]. unfold rotv, qvec, v3dot. cbn. ring. Qed.
Lemma charge_turn : forall q L f L' f', qnorm2 q = 1 -> (0 <= L)%Z -> (0 <= L')%Z -> turned q 0 L f L' f' ->
  charge_vector f' = (fst (charge_vector f), rotv (qconj q) (snd (charge_vector f))).
Proof.
  intros q L f L' f' Hq HL HL' H. destruct (C36_projection_total f) as (c & v & P). destruct (C36_projection_total f') as (c' & v' & P').
  rewrite (C36_projection f c v P), (C36_projection f' c' v' P'). cbn [fst snd].
  assert (E : forall r, qnorm2 r = 1 -> c' + v3dot v' (direction r) = c + v3dot (rotv (qconj q) v) (direction r)).
  { intros r Hr. assert (U : qnorm2 (qmul q r) = 1) by (rewrite qnorm2_mul, Hq, Hr; ring).
    assert (X : field 0 1 (freal f') r = field 0 1 (freal f) (qmul q r)).
    { rewrite <- C68_field_rotation by lia. apply Pipeline_Proofs.field_ext. intros l m Hl Hm. apply (turned_real q L f L' f' HL HL' H); lia. }
    rewrite (parts_field f' c' v' r P' Hr), (parts_field f c v _ P U), (direction_mul q r Hq Hr), rotv_adjoint in X. exact (f_equal re X). }
  assert (D : forall w x y z, qnorm2 (mkq w x y z) = 1 -> direction (mkq w x y z) = (2 * (x * z + w * y), 2 * (y * z - w * x), w * w + z * z - x * x - y * y)).
  { intros w x y z U. rewrite direction_formula by exact U. cbn [qw qx qy qz]. apply f_equal2; [apply f_equal2|]; ring. }
  destruct v' as [[x' y'] z'], (rotv (qconj q) v) as [[x y] z] eqn:ER.
  assert (N2 : / sqrt 2 * / sqrt 2 = / 2) by (rewrite <- Rinv_mult, sqrt_sqrt by lra; reflexivity).
  assert (A1 := E (mkq 1 0 0 0)). assert (A2 := E (mkq 0 1 0 0)). assert (A3 := E (mkq (/ sqrt 2) 0 (/ sqrt 2) 0)). assert (A4 := E (mkq (/ sqrt 2) (/ sqrt 2) 0 0)).
  rewrite D in A1, A2, A3, A4 by (unfold qnorm2; cbn; lra).
  specialize (A1 ltac:(unfold qnorm2; cbn; lra)). specialize (A2 ltac:(unfold qnorm2; cbn; lra)). specialize (A3 ltac:(unfold qnorm2; cbn; lra)). specialize (A4 ltac:(unfold qnorm2; cbn; lra)).
  unfold v3dot in A1, A2, A3, A4. set (g := / sqrt 2) in *.
  assert (EL : rotv (qconj q) (v3scale (/ 3) v) = v3scale (/ 3) (rotv (qconj q) v)) by (destruct q, v as [[? ?] ?]; unfold rotv, qvec, v3scale; cbn; apply f_equal2; [apply f_equal2|]; ring).
  rewrite EL, ER. apply f_equal2; [lra|]. unfold v3scale. apply f_equal2; [apply f_equal2|]; nra.
Qed.
(** For the vector part alone the ell = 1 modes are enough, whatever the spin weight. *)
Lemma charge_turn_1 : forall q s L f L' f', (Z.abs s <= 1)%Z -> qnorm2 q = 1 -> turned q s L f L' f' -> snd (charge_vector f') = rotv (qconj q) (snd (charge_vector f)).
Proof.
  intros q s L f L' f' Hs Hq (A & A' & E).
  set (g := fun l m => if ((l =? 1) && (- 1 <=? m) && (m <=? 1))%Z then f 1%Z m else C0). set (g' := fun l m => if ((l =? 1) && (- 1 <=? m) && (m <=? 1))%Z then f' 1%Z m else C0).
  assert (T : turned q 0 1 g 1 g').
  { split; [|split].
    - intros l m O. unfold g. destruct (Z.eqb_spec l 1), (Z.leb_spec (-1) m), (Z.leb_spec m 1); cbn [andb]; try reflexivity. lia.
    - intros l m O. unfold g'. destruct (Z.eqb_spec l 1), (Z.leb_spec (-1) m), (Z.leb_spec m 1); cbn [andb]; try reflexivity. lia.
    - intros l m Hl Hm. destruct (Z.eqb_spec l 1) as [->|N].
      + unfold g'. cbn [Z.eqb Pos.eqb andb]. destruct (Z.leb_spec (-1) m), (Z.leb_spec m 1); try lia. cbn [andb]. rewrite E by lia. apply turn_ext. intros k Hk. unfold g. cbn [Z.eqb Pos.eqb andb].
        destruct (Z.leb_spec (-1) k), (Z.leb_spec k 1); try lia. reflexivity.
      + assert (Z : forall k, g l k = C0) by (intros k; unfold g; destruct (Z.eqb_spec l 1); [contradiction|reflexivity]). rewrite turn_zero by (intros; apply Z).
        unfold g'. destruct (Z.eqb_spec l 1); [contradiction|reflexivity]. }
  assert (C := charge_turn q 1 g 1 g' Hq ltac:(lia) ltac:(lia) T). apply (f_equal snd) in C. cbn [snd] in C.
  rewrite (charge_same f g), (charge_same f' g'); [exact C| |]; intros m Hm; unfold g, g'; cbn [Z.eqb Pos.eqb andb]; destruct (Z.leb_spec (-1) m), (Z.leb_spec m 1); try lia; reflexivity.
Qed.

(** ** The charges at one time *)
Section Turned.
Variables (q : quat) (L L' : Z) (b b' : bondi) (d d' : modes).
Hypothesis Hq : qnorm2 q = 1.
Hypothesis HL : (1 <= L)%Z.
Hypothesis HL' : (1 <= L')%Z.
Hypothesis T1 : turned q 1 L (b_psi1 b) L' (b_psi1 b').
Hypothesis T2 : turned q 0 L (b_psi2 b) L' (b_psi2 b').
Hypothesis Ts : turned q 2 L (b_sigma b) L' (b_sigma b').
Hypothesis Td : turned q (-2) L d L' d'.
Lemma turned_bar_sigma : turned q (-2) L (fbar 2 (b_sigma b)) L' (fbar 2 (b_sigma b')).
Proof. apply (turned_bar q 2); [lia|lia|exact Ts]. Qed.
Lemma turned_eth_sigma : turned q (-1) L (eth_GHP (-2) (fbar 2 (b_sigma b))) L' (eth_GHP (-2) (fbar 2 (b_sigma b'))).
Proof. apply (turned_eth q (-2)), turned_bar_sigma. Qed.
(** psi2 + sigma conj(sigma)', psi1 + sigma eth conj(sigma) and |sigma|^2, untruncated *)
Definition full_mass (L : Z) (b : bondi) (d : modes) : modes := fadd (b_psi2 b) (times 2 L (-2) L (b_sigma b) d).
Definition full_ang (L : Z) (b : bondi) : modes := fadd (b_psi1 b) (times 2 L (-1) L (b_sigma b) (eth_GHP (-2) (fbar 2 (b_sigma b)))).
Definition full_sq (L : Z) (b : bondi) : modes := times 2 L (-2) L (b_sigma b) (fbar 2 (b_sigma b)).
Lemma turned_mass : turned q 0 (L + L) (full_mass L b d) (L' + L') (full_mass L' b' d').
Proof. apply turned_add; [apply (turned_grow q 0 L _ L'); [lia|lia|exact T2]|]. apply (turned_times q 2 (-2)); try lia; assumption. Qed.
Lemma turned_ang : turned q 1 (L + L) (full_ang L b) (L' + L') (full_ang L' b').
Proof. apply turned_add; [apply (turned_grow q 1 L _ L'); [lia|lia|exact T1]|]. apply (turned_times q 2 (-1)); try lia; [exact Hq|exact Ts|apply turned_eth_sigma]. Qed.
Lemma turned_sq : turned q 0 (L + L) (full_sq L b) (L' + L') (full_sq L' b').
Proof. apply (turned_times q 2 (-2)); try lia; [exact Hq|exact Ts|apply turned_bar_sigma]. Qed.
End Turned.
Lemma momentum_full : forall L b d k, bondi_four_momentum product_table L b d k = charge_vector (fopp (full_mass L b d)).
Proof.
  intros L b d k. unfold bondi_four_momentum, mass_aspect. change (1 =? 0)%Z with false. cbv iota. rewrite !charge_opp, charge_real.
  rewrite (charge_ext _ (full_mass L b d)); [reflexivity|]. intros l m Hl. unfold fadd, full_mass, truncate_ell, fadd. destruct (Z.leb_spec l 1); [|lia]. rewrite multiply_times by exact Hl. reflexivity.
Qed.
Lemma angular_full : forall L b, bondi_angular_momentum product_table L b = snd (charge_vector (fmuli (full_ang L b))).
Proof.
  intros L b. unfold bondi_angular_momentum, angular_aspect. reflexivity.
Qed.
Lemma com_full : forall L b, bondi_CoM_charge product_table L b = snd (charge_vector (fopp (fadd (full_ang L b) (fscale (1 / 2) (eth_GHP 0 (full_sq L b)))))).
Proof.
  intros L b. reflexivity.
Qed.
Lemma v3_turn : forall q a b x, rotv q (v3add a (v3scale x b)) = v3add (rotv q a) (v3scale x (rotv q b)).
Proof. intros [w x y z] [[a b] c] [[d e] f] k. unfold rotv, qvec, v3add, v3scale. cbn. apply f_equal2; [apply f_equal2|]; ring. Qed.
(** The four-momentum, angular momentum and centre-of-mass charge of rotated data are the rotated vectors. *)
Lemma charges_turned : forall q L L' b b' d d' k k', qnorm2 q = 1 -> (1 <= L)%Z -> (1 <= L')%Z -> turned q 1 L (b_psi1 b) L' (b_psi1 b') -> turned q 0 L (b_psi2 b) L' (b_psi2 b') ->
  turned q 2 L (b_sigma b) L' (b_sigma b') -> turned q (-2) L d L' d' ->
  let P := bondi_four_momentum product_table L b d k in
  bondi_four_momentum product_table L' b' d' k' = (fst P, rotv (qconj q) (snd P)) /\
  bondi_angular_momentum product_table L' b' = rotv (qconj q) (bondi_angular_momentum product_table L b) /\
  bondi_CoM_charge product_table L' b' = rotv (qconj q) (bondi_CoM_charge product_table L b).
Proof.
  intros q L L' b b' d d' k k' Hq HL HL' T1 T2 Ts Td P. unfold P. rewrite !momentum_full, !angular_full, !com_full. split; [|split].
  - apply (charge_turn q (L + L) _ (L' + L')); [exact Hq|lia|lia|]. apply turned_opp, turned_mass; assumption.
  - apply (charge_turn_1 q 1 (L + L) _ (L' + L')); [lia|exact Hq|]. apply turned_muli, turned_ang; assumption.
  - apply (charge_turn_1 q 1 (L + L) _ (L' + L')); [lia|exact Hq|]. apply turned_opp, turned_add; [apply turned_ang; assumption|]. apply turned_scale, (turned_eth q 0), turned_sq; assumption.
Qed.

(** ** Rotations and time translations of the whole object *)
(** What is needed of scipy's CubicSpline: a derivative is linear in the values, and does not notice a shift of all times. *)
Definition linear_spline (dspl : nat -> list R -> list C -> R -> C) : Prop :=
  (forall n xs (f g : nat -> C) c x, increasing xs -> (2 <= length xs)%nat -> let vals h := map h (seq 0 (length xs)) in
     dspl n xs (vals (fun j => (c * f j + g j)%C)) x = (c * dspl n xs (vals f) x + dspl n xs (vals g) x)%C) /\
  (forall n xs ys x a, increasing xs -> (2 <= length xs)%nat -> length ys = length xs -> dspl n (map (fun t => t - a) xs) ys (x - a) = dspl n xs ys x).
Section Spline.
Variable dspl : nat -> list R -> list C -> R -> C.
Hypothesis HD : linear_spline dspl.
Variables (n : nat) (xs : list R) (x : R).
Hypothesis Hi : increasing xs.
Hypothesis H2 : (2 <= length xs)%nat.
Local Notation sp h := (dspl n xs (map h (seq 0 (length xs))) x).
Lemma sp_zero : sp (fun _ => C0) = C0.
Proof.
  assert (E := proj1 HD n xs (fun _ => C0) (fun _ => C0) C1 x Hi H2). cbv beta zeta in E. replace (C1 * C0 + C0)%C with C0 in E by ring. change (sp (fun _ => C0) = (C1 * sp (fun _ => C0) + sp (fun _ => C0))%C) in E.
  destruct (sp (fun _ => C0)) as [u v]. injection E as E1 E2. apply C_eq; cbn in *; lra.
Qed.
Lemma sp_ext : forall f g, (forall j, (j < length xs)%nat -> f j = g j) -> sp f = sp g.
Proof. intros f g H. f_equal. apply map_ext_in. intros j I. apply in_seq in I. apply H, I. Qed.
Lemma sp_sum : forall (A : Type) (c : A -> C) (f : A -> nat -> C) l, sp (fun j => csum (fun k => (f k j * c k)%C) l) = csum (fun k => (sp (f k) * c k)%C) l.
Proof.
  intros A c f l. induction l as [|k l IH]; cbn [csum]; [apply sp_zero|]. rewrite <- IH.
  rewrite (sp_ext _ (fun j => (c k * f k j + csum (fun k => (f k j * c k)%C) l)%C)) by (intros; ring). rewrite (proj1 HD n xs (f k) _ (c k) x Hi H2). ring.
Qed.
Lemma sp_turn : forall q (f : nat -> modes) l m, sp (fun j => turn wigner_D q (f j) l m) = turn wigner_D q (fun l m => sp (fun j => f j l m)) l m.
Proof. intros q f l m. unfold turn. apply (sp_sum Z (fun k => wigner_D q l k m) (fun k j => f j l k)). Qed.
End Spline.

Lemma of_bmode : forall a f i l m, ms_at (mts_of a f) i l m = if ((0 <=? l) && (l <=? bd_hi (ad_data a)) && (- l <=? m) && (m <=? l))%Z then bmode (ad_data a) f i l m else C0.
Proof.
  intros a f i l m. cbn [mts_of ms_at]. destruct (Z.leb_spec 0 l), (Z.leb_spec l (bd_hi (ad_data a))), (Z.leb_spec (- l) m), (Z.leb_spec m l); cbn [andb]; try reflexivity.
Qed.
Lemma of_upto : forall a f i, upto (bd_hi (ad_data a)) (ms_at (mts_of a f) i).
Proof.
  intros a f i l m O. rewrite of_bmode. destruct (Z.leb_spec 0 l), (Z.leb_spec l (bd_hi (ad_data a))), (Z.leb_spec (- l) m), (Z.leb_spec m l); cbn [andb]; try reflexivity. lia.
Qed.
(** ** The dimensionless spin *)
Lemma rotv_dot : forall q a b, v3dot (rotv q a) (rotv q b) = qnorm2 q * qnorm2 q * v3dot a b.
Proof. intros [w x y z] [[a b] c] [[d e] f]. unfold rotv, qvec, v3dot, qnorm2. cbn. ring. Qed.
Lemma rotv_cross : forall q a b, v3cross (rotv q a) (rotv q b) = v3scale (qnorm2 q) (rotv q (v3cross a b)).
Proof. intros [w x y z] [[a b] c] [[d e] f]. unfold rotv, qvec, v3cross, v3scale, qnorm2. cbn. apply f_equal2; [apply f_equal2|]; ring. Qed.
Lemma rotv_scale : forall q x a, rotv q (v3scale x a) = v3scale x (rotv q a).
Proof. intros [w x y z] k [[a b] c]. unfold rotv, qvec, v3scale. cbn. apply f_equal2; [apply f_equal2|]; ring. Qed.
Lemma rotv_add : forall q a b, rotv q (v3add a b) = v3add (rotv q a) (rotv q b).
Proof. intros [w x y z] [[a b] c] [[d e] f]. unfold rotv, qvec, v3add. cbn. apply f_equal2; [apply f_equal2|]; ring. Qed.
Lemma norm3_dot : forall v, norm3 v = sqrt (v3dot v v).
Proof. intros [[x y] z]. reflexivity. Qed.
Lemma spin_turn : forall q N J E P t, qnorm2 q = 1 ->
  dimensionless_spin (rotv q (v3add N (v3scale t P))) (rotv q J) E (rotv q P) = rotv q (dimensionless_spin N J E P).
Proof.
  intros q N J E P t Hq. unfold dimensionless_spin. assert (D : forall a b, v3dot (rotv q a) (rotv q b) = v3dot a b) by (intros; rewrite rotv_dot, Hq; ring).
  rewrite <- rotv_scale. set (v := v3scale (/ E) P). rewrite !norm3_dot, !D.
  assert (V : (if Req_EM_T (sqrt (v3dot v v)) 0 then rotv q v else v3scale (/ sqrt (v3dot v v)) (rotv q v)) = rotv q (if Req_EM_T (sqrt (v3dot v v)) 0 then v else v3scale (/ sqrt (v3dot v v)) v)).
  { destruct (Req_EM_T (sqrt (v3dot v v)) 0); [reflexivity|]. symmetry. apply rotv_scale. }
  rewrite V, D. set (vh := if Req_EM_T _ 0 then _ else _). clearbody vh. rewrite rotv_cross, Hq, !rotv_scale, !rotv_add, !rotv_scale, !rotv_add.
  assert (X : v3cross v (v3add N (v3scale t P)) = v3cross v N).
  { unfold v. destruct N as [[a b] c], P as [[d e] f]. unfold v3cross, v3add, v3scale. apply f_equal2; [apply f_equal2|]; ring. }
  rewrite X. do 3 f_equal. f_equal. destruct (rotv q (v3cross v N)) as [[a b] c]. unfold v3scale. apply f_equal2; [apply f_equal2|]; ring.
Qed.
(** ** The CWWY angular momentum at one time *)
Lemma turned_scaled : forall q s L f L' f' (x : Z -> R) g g', turned q s L f L' f' -> (forall l m, g l m = Cscale (x l) (f l m)) -> (forall l m, g' l m = Cscale (x l) (f' l m)) -> turned q s L g L' g'.
Proof.
  intros q s L f L' f' x g g' (A & A' & E) X X'. split; [intros l m O; rewrite X, A by exact O; cx|]. split; [intros l m O; rewrite X', A' by exact O; cx|].
  intros l m Hl Hm. rewrite X', E by assumption. symmetry. apply turn_scaled. intros; apply X.
Qed.
Lemma turned_low : forall q s s' L f L' f', (forall l m, (Z.abs s <= l)%Z -> (l < Z.abs s')%Z -> f l m = C0 /\ f' l m = C0) -> turned q s' L f L' f' -> turned q s L f L' f'.
Proof.
  intros q s s' L f L' f' H (A & A' & E). split; [exact A|]. split; [exact A'|]. intros l m Hl Hm. destruct (Z.lt_ge_cases l (Z.abs s')) as [B|B]; [|apply E; assumption].
  rewrite (proj2 (H l m Hl B)). symmetry. apply turn_zero. intros k _. apply (H l k Hl B).
Qed.
Lemma turned_ethbar : forall q s L f L' f', turned q s L f L' f' -> turned q (s - 1) L (ethbar_GHP s f) L' (ethbar_GHP s f').
Proof.
  intros q s L f L' f' H. apply (turned_low q (s - 1) s).
  - intros l m Hl B. assert (Z : forall g k, ethbar_GHP s g l k = C0) by (intros g k; unfold ethbar_GHP, fscale, ethbar; destruct (Z.ltb_spec l (Z.max (Z.abs s) (Z.abs (s - 1)))); [cx|lia]). split; apply Z.
  - set (x := fun l => if (l <? Z.max (Z.abs s) (Z.abs (s - 1)))%Z then 0 else / sqrt 2 * - sqrt (IZR ((l + s) * (l - s + 1)))).
    apply (turned_scaled q s L f L' f' x); [exact H| |]; intros l m; unfold x, ethbar_GHP, fscale, ethbar; destruct (l <? _)%Z; cx.
Qed.
Lemma turned_potential : forall q L f L' f', (0 <= L)%Z -> (0 <= L')%Z -> turned q 2 L f L' f' -> turned q 0 L (cwwy_potential f) L' (cwwy_potential f').
Proof.
  intros q L f L' f' HL HL' H. apply (turned_scaled q 0 L (fadd (ethbar_GHP 1 (ethbar_GHP 2 f)) (eth_GHP (-1) (eth_GHP (-2) (fbar 2 f)))) L' (fadd (ethbar_GHP 1 (ethbar_GHP 2 f')) (eth_GHP (-1) (eth_GHP (-2) (fbar 2 f')))) Dinv_value); [|intros; reflexivity..].
  apply turned_add; [apply (turned_ethbar q 1), (turned_ethbar q 2), H|]. apply (turned_eth q (-1)), (turned_eth q (-2)), (turned_bar q 2); assumption.
Qed.
Lemma turned_cut : forall q s L f L' f' N, turned q s L f L' f' -> turned q s L (truncate_ell N f) L' (truncate_ell N f').
Proof.
  intros q s L f L' f' N H. apply (turned_scaled q s L f L' f' (fun l => if (l <=? N)%Z then 1 else 0)); [exact H| |]; intros l m; unfold truncate_ell; destruct (l <=? N)%Z; cx.
Qed.
Lemma turned_aspect : forall q L b b' d d', qnorm2 q = 1 -> (1 <= L)%Z -> turned q 0 L (b_psi2 b) L (b_psi2 b') -> turned q 2 L (b_sigma b) L (b_sigma b') -> turned q (-2) L d L d' ->
  turned q 0 L (mass_aspect product_table L b d L (TCall Z.max)) L (mass_aspect product_table L b' d' L (TCall Z.max)).
Proof.
  intros q L b b' d d' Hq HL T2 Ts Td. unfold mass_aspect. rewrite Z.max_id. apply turned_opp, turned_real; [lia|lia|].
  assert (E : forall b d l m, truncate_ell L (full_mass L b d) l m = fadd (truncate_ell L (b_psi2 b)) (multiply product_table L L 2 (-2) (b_sigma b) d) l m).
  { intros b0 d0 l m. unfold truncate_ell, full_mass, fadd. destruct (Z.leb_spec l L); [rewrite multiply_times by assumption; reflexivity|]. unfold multiply. destruct (Z.leb_spec l L); [lia|]. ring. }
  assert (U : forall f, upto L f -> forall l m, truncate_ell L f l m = f l m) by (intros f Hf l m; unfold truncate_ell; destruct (Z.leb_spec l L); [reflexivity|symmetry; apply Hf; lia]).
  assert (X := turned_cut q 0 _ _ _ _ L (turned_mass q L L b b' d d' Hq HL HL T2 Ts Td)). destruct X as (_ & _ & X). split; [|split].
  - intros l m O. unfold fadd. rewrite (proj1 T2) by exact O. unfold multiply. destruct (Z.leb_spec l L) as [B|B]; [|cx]. change (C0 + times 2 L (-2) L (b_sigma b) d l m = C0)%C. rewrite (times_upto 2 L (-2) L) by lia. cx.
  - intros l m O. unfold fadd. rewrite (proj1 (proj2 T2)) by exact O. unfold multiply. destruct (Z.leb_spec l L) as [B|B]; [|cx]. change (C0 + times 2 L (-2) L (b_sigma b') d' l m = C0)%C. rewrite (times_upto 2 L (-2) L) by lia. cx.
  - intros l m Hl Hm. assert (G : forall b d l m, upto L (b_psi2 b) -> fadd (b_psi2 b) (multiply product_table L L 2 (-2) (b_sigma b) d) l m = truncate_ell L (full_mass L b d) l m).
    { intros b0 d0 l0 m0 H0. rewrite E. unfold fadd. rewrite U by exact H0. reflexivity. }
    rewrite (G b' d') by apply T2. rewrite X by assumption. apply turn_ext. intros k _. symmetry. apply G. apply T2.
Qed.
Lemma cwwy_turned : forall q L b b' d d', qnorm2 q = 1 -> (1 <= L)%Z -> turned q 1 L (b_psi1 b) L (b_psi1 b') -> turned q 0 L (b_psi2 b) L (b_psi2 b') ->
  turned q 2 L (b_sigma b) L (b_sigma b') -> turned q (-2) L d L d' ->
  snd (charge_vector (cwwy_aspect product_table L b' d')) = rotv (qconj q) (snd (charge_vector (cwwy_aspect product_table L b d))).
Proof.
  intros q L b b' d d' Hq HL T1 T2 Ts Td.
  set (F := fun b d => fmuli (fadd (full_ang L b) (times 0 L 1 L (cwwy_potential (b_sigma b)) (eth_GHP 0 (mass_aspect product_table L b d L (TCall Z.max)))))).
  assert (E : forall b d, charge_vector (cwwy_aspect product_table L b d) = charge_vector (F b d)) by (intros; reflexivity). rewrite !E.
  apply (charge_turn_1 q 1 (L + L) _ (L + L)); [lia|exact Hq|]. apply turned_muli, turned_add; [apply turned_ang; assumption|]. apply (turned_times q 0 1); try lia; [exact Hq|apply turned_potential; [lia|lia|exact Ts]|].
  apply (turned_eth q 0), turned_aspect; assumption.
Qed.

(** ** The whole object *)
Lemma at_times_map : forall (A B : Type) a a' (f : nat -> A) (f' : nat -> B) (g : A -> B), length (bd_u (ad_data a')) = length (bd_u (ad_data a)) ->
  (forall i, (i < length (bd_u (ad_data a)))%nat -> f' i = g (f i)) -> at_times a' f' = map g (at_times a f).
Proof. intros A B a a' f f' g HL H. unfold at_times. rewrite HL, map_map. apply map_ext_in. intros i I. apply in_seq in I. apply H. lia. Qed.
Lemma combine_map : forall (A B D : Type) (f : D -> A) (g : D -> B) l, combine (map f l) (map g l) = map (fun x => (f x, g x)) l.
Proof. intros A B D f g l. induction l as [|x l IH]; cbn; [reflexivity|rewrite IH; reflexivity]. Qed.
Theorem C78_rotation : forall spline map2salm dspl a k q t0, let b := ad_data a in
  let w := dflt (2 * bd_hi b + 1)%Z (k_working_ell_max k) in let out := dflt (bd_hi b) (k_output_ell_max k) in let K := product_table in let turn3 := rotv (qconj q) in
  passes spline -> linear_spline dspl -> data_ok b -> increasing (bd_u b) -> (2 <= length (bd_u b))%nat -> (1 <= bd_hi b)%Z -> rotation_only k q t0 ->
  (bd_hi b <= out <= w)%Z -> (forall f, (f < 6)%nat -> exact map2salm (spin_of f) (2 * w + 1) (2 * w + 1)) ->
  exists a' P M J G N S, ad_transform spline map2salm a k = Ok a' /\ bd_u (ad_data a') = map (fun t => t - t0) (bd_u b) /\ bd_hi (ad_data a') = out /\ length P = length (bd_u b) /\
    ad_four_momentum K dspl a = Ok P /\ ad_four_momentum K dspl a' = Ok (map (fun p => (fst p, turn3 (snd p))) P) /\
    ad_rest_mass K dspl a = Ok M /\ ad_rest_mass K dspl a' = Ok M /\
    ad_angular_momentum K a = Ok J /\ ad_angular_momentum K a' = Ok (map turn3 J) /\
    ad_CoM_charge K a = Ok G /\ ad_CoM_charge K a' = Ok (map turn3 G) /\
    ad_boost_charge K dspl a = Ok N /\ ad_boost_charge K dspl a' = Ok (map (fun x => turn3 (v3add (fst x) (v3scale t0 (snd (snd x))))) (combine N P)) /\
    ad_dimensionless_spin K dspl a = Ok S /\ ad_dimensionless_spin K dspl a' = Ok (map turn3 S) /\
    (out = bd_hi b -> exists W, ad_CWWY_angular_momentum K dspl a = Ok W /\ ad_CWWY_angular_momentum K dspl a' = Ok (map turn3 W)).
Proof.
  intros spline map2salm dspl [b tr] k q t0 b0. cbn [ad_data] in b0. subst b0. intros w out K turn3 Hs HD Hb Hi H2 H1 Hk Ho HX.
  destruct (C69_rotation spline Hs map2salm b k q t0 Hb Hi H2 Hk ltac:(fold w; lia) ltac:(fold w out; lia) HX) as (b' & Et & Eu & Eh & Hb' & _ & _ & Em).
  fold out in Eh. assert (Hq : qnorm2 q = 1) by exact (rotation_unit _ _ _ Hk). set (a := mkad b tr). set (a' := mkad b' Sum). set (n := length (bd_u b)) in *.
  assert (Ln : length (bd_u b') = n) by (rewrite Eu; apply map_length).
  assert (Ii : increasing (bd_u b')) by (rewrite Eu; apply increasing_map; [intros; lra|exact Hi]).
  (** the stored modes are the turned ones *)
  assert (TF : forall f i, (f < 6)%nat -> (i < n)%nat -> turned q (spin_of f) (bd_hi b) (ms_at (mts_of a f) i) out (ms_at (mts_of a' f) i)).
  { intros f i Hf Hi'. split; [apply (of_upto a)|]. split; [rewrite <- Eh; apply (of_upto a')|]. intros l m Hl Hm. rewrite of_bmode. cbn [ad_data a']. rewrite Eh.
    assert (TZ : (bd_hi b < l)%Z -> turn wigner_D q (ms_at (mts_of a f) i) l m = C0) by (intros B; apply turn_zero; intros c _; apply (of_upto a); cbn [ad_data a]; lia).
    destruct (Z.leb_spec 0 l); [|lia]. destruct (Z.leb_spec (- l) m), (Z.leb_spec m l); try lia. destruct (Z.leb_spec l out) as [B|B]; cbn [andb]; [|symmetry; apply TZ; lia].
    rewrite Em by (try assumption; split; lia). destruct (Z.leb_spec (Z.abs (spin_of f)) l); [|lia]. cbn [andb]. destruct (Z.leb_spec l (bd_hi b)) as [B'|B']; [|symmetry; apply TZ; exact B'].
    apply turn_ext. intros c Hc. rewrite of_bmode. cbn [ad_data a]. destruct (Z.leb_spec 0 l), (Z.leb_spec l (bd_hi b)), (Z.leb_spec (- l) c), (Z.leb_spec c l); try lia. reflexivity. }
  set (d := der dspl 1 (mts_bar (sigma a))). set (d' := der dspl 1 (mts_bar (sigma a'))).
  assert (Ed : sigma_bar_dot dspl a = Ok d).
  { apply der_ok; [lia|]. cbn [mts_bar ms_u sigma mts_of ad_data a]. unfold timesb. apply andb_true_iff. split; [apply Nat.leb_le; exact H2|apply increasingb_iff; exact Hi]. }
  assert (Ed' : sigma_bar_dot dspl a' = Ok d').
  { apply der_ok; [lia|]. cbn [mts_bar ms_u sigma mts_of ad_data a']. unfold timesb. apply andb_true_iff. split; [apply Nat.leb_le; lia|apply increasingb_iff; exact Ii]. }
  assert (TD : forall i, (i < n)%nat -> turned q (-2) (bd_hi b) (ms_at d i) out (ms_at d' i)).
  { intros i Hi'. assert (TB : forall j, (j < n)%nat -> turned q (-2) (bd_hi b) (fbar 2 (ms_at (sigma a) j)) out (fbar 2 (ms_at (sigma a') j))).
    { intros j Hj. apply (turned_bar q 2); [lia|lia|]. apply (TF 5%nat j); [lia|exact Hj]. }
    unfold d, d', der. cbn [ms_at mts_bar ms_u ms_s]. change (ms_u (sigma a)) with (bd_u b). change (ms_u (sigma a')) with (bd_u b'). change (ms_s (sigma a)) with 2%Z. change (ms_s (sigma a')) with 2%Z. split; [|split].
    - intros l m O. transitivity (dspl 1%nat (bd_u b) (map (fun _ => C0) (seq 0 (length (bd_u b)))) (nth i (bd_u b) 0)); [apply sp_ext; intros j Hj; apply (TB j Hj); exact O|apply sp_zero; assumption].
    - intros l m O. transitivity (dspl 1%nat (bd_u b') (map (fun _ => C0) (seq 0 (length (bd_u b')))) (nth i (bd_u b') 0)); [apply sp_ext; intros j Hj; apply (TB j); [lia|exact O]|apply sp_zero; [exact HD|exact Ii|lia]].
    - intros l m Hl Hm. transitivity (dspl 1%nat (bd_u b') (map (fun j => turn wigner_D q (fbar 2 (ms_at (sigma a) j)) l m) (seq 0 (length (bd_u b')))) (nth i (bd_u b') 0)); [apply sp_ext; intros j Hj; apply (TB j); [lia|exact Hl|exact Hm]|].
      rewrite Ln, Eu. rewrite (nth_indep _ 0 ((fun t => t - t0) 0)) by (rewrite map_length; exact Hi'). rewrite (map_nth (fun t => t - t0)). rewrite (proj2 HD) by (try assumption; rewrite map_length, seq_length; reflexivity).
      apply (sp_turn dspl HD 1 (bd_u b) (nth i (bd_u b) 0) Hi H2 q (fun j => fbar 2 (ms_at (sigma a) j)) l m). }
  assert (CT : forall i, (i < n)%nat -> let P := four_momentum_at K a d i in four_momentum_at K a' d' i = (fst P, turn3 (snd P)) /\
    bondi_angular_momentum K (bd_hi b') (bondi_of a' i) = turn3 (bondi_angular_momentum K (bd_hi b) (bondi_of a i)) /\ bondi_CoM_charge K (bd_hi b') (bondi_of a' i) = turn3 (bondi_CoM_charge K (bd_hi b) (bondi_of a i))).
  { intros i Hi'. unfold four_momentum_at. cbn [ad_data a a']. rewrite Eh. apply charges_turned; [exact Hq|lia|lia|apply (TF 1%nat); [lia|exact Hi']|apply (TF 2%nat); [lia|exact Hi']|apply (TF 5%nat); [lia|exact Hi']|apply TD; exact Hi']. }
  assert (NG : forall a d i, bondi_boost_charge K (bd_hi (ad_data a)) (bondi_of a i) (ms_at d i) (time_at a i) =
     v3add (bondi_CoM_charge K (bd_hi (ad_data a)) (bondi_of a i)) (v3scale (- time_at a i) (snd (four_momentum_at K a d i)))).
  { intros a0 d0 i. rewrite (C36_center_of_mass K (bd_hi (ad_data a0)) (bondi_of a0 i) (ms_at d0 i) (time_at a0 i) 1%Z). fold (four_momentum_at K a0 d0 i).
    destruct (bondi_boost_charge _ _ _ _ _) as [[x y] z], (snd (four_momentum_at K a0 d0 i)) as [[x' y'] z']. unfold v3add, v3scale. apply f_equal2; [apply f_equal2|]; ring. }
  assert (TA : forall i, (i < n)%nat -> time_at a' i = time_at a i - t0).
  { intros i Hi'. unfold time_at. cbn [ad_data a a']. rewrite Eu. rewrite (nth_indep _ 0 ((fun t => t - t0) 0)) by (rewrite map_length; exact Hi'). apply (map_nth (fun t => t - t0)). }
  assert (NT : forall i, (i < n)%nat -> bondi_boost_charge K (bd_hi b') (bondi_of a' i) (ms_at d' i) (time_at a' i) =
    turn3 (v3add (bondi_boost_charge K (bd_hi b) (bondi_of a i) (ms_at d i) (time_at a i)) (v3scale t0 (snd (four_momentum_at K a d i))))).
  { intros i Hi'. change b' with (ad_data a') at 1. rewrite NG. change (bd_hi b) with (bd_hi (ad_data a)). rewrite (NG a d). destruct (CT i Hi') as (E1 & _ & E3). rewrite E1, TA by exact Hi'. cbn [fst snd ad_data a a'] in *. rewrite E3.
    generalize (snd (four_momentum_at K a d i)) (bondi_CoM_charge K (bd_hi b) (bondi_of a i)) (time_at a i). intros p g t. unfold turn3. destruct q as [qw' qx' qy' qz'], p as [[? ?] ?], g as [[? ?] ?].
    unfold rotv, qvec, v3add, v3scale. cbn. apply f_equal2; [apply f_equal2|]; ring. }
  exists a'. do 6 eexists. split; [unfold ad_transform; cbn [ad_data a]; rewrite Et; reflexivity|]. split; [exact Eu|]. split; [exact Eh|].
  unfold ad_four_momentum, ad_rest_mass, ad_boost_charge, ad_angular_momentum, ad_CoM_charge, ad_dimensionless_spin, ad_boost_charge, ad_angular_momentum, ad_four_momentum, ad_CWWY_angular_momentum. rewrite Ed, Ed'. cbn [rbind].
  split; [|split; [reflexivity|]]; [unfold at_times; rewrite map_length, seq_length; reflexivity|].
  split; [f_equal; apply at_times_map; [exact Ln|intros i Hi'; apply (CT i Hi')]|]. split; [reflexivity|].
  split; [f_equal; rewrite (at_times_map _ _ a a' (fun i => bondi_rest_mass K (bd_hi b) (bondi_of a i) (ms_at d i) 1) _ (fun x => x) Ln); [apply map_id|]|].
  { intros i Hi'. unfold bondi_rest_mass. change (bondi_four_momentum K (bd_hi (ad_data a')) (bondi_of a' i) (ms_at d' i) 1) with (four_momentum_at K a' d' i).
    change (bondi_four_momentum K (bd_hi b) (bondi_of a i) (ms_at d i) 1) with (four_momentum_at K a d i). rewrite (proj1 (CT i Hi')). destruct (four_momentum_at K a d i) as [e [[x y] z]]. cbn [fst snd].
    assert (D := rotv_dot (qconj q) (x, y, z) (x, y, z)). rewrite qnorm2_conj, Hq in D. unfold turn3. destruct (rotv (qconj q) (x, y, z)) as [[x' y'] z']. unfold v3dot in D. f_equal. nra. }
  split; [reflexivity|]. split; [f_equal; apply at_times_map; [exact Ln|intros i Hi'; apply (CT i Hi')]|]. split; [reflexivity|]. split; [f_equal; apply at_times_map; [exact Ln|intros i Hi'; apply (CT i Hi')]|].
  split; [reflexivity|]. split; [f_equal; unfold at_times at 2 3; rewrite combine_map; fold (at_times a (fun x => (bondi_boost_charge K (bd_hi (ad_data a)) (bondi_of a x) (ms_at d x) (time_at a x), four_momentum_at K a d x))); apply at_times_map; [exact Ln|]|].
  { intros i Hi'. cbn [fst snd]. apply NT. exact Hi'. }
  split; [unfold at_times; rewrite !combine_map, map_map; reflexivity|]. split.
  { f_equal. unfold at_times. rewrite !combine_map, !map_map. cbn [ad_data a a']. rewrite Ln. fold n. apply map_ext_in. intros i I. apply in_seq in I. destruct (CT i ltac:(lia)) as (E1 & E2 & _).
    rewrite NT by lia. rewrite E1, E2. destruct (four_momentum_at K a d i) as [e p]. cbn [fst snd]. apply spin_turn. rewrite qnorm2_conj. exact Hq. }
  intros Eo. eexists. split; [reflexivity|]. f_equal. apply at_times_map; [exact Ln|]. intros i Hi'. cbn [ad_data a a']. rewrite Eh, Eo. rewrite Eo in TF, TD.
  apply cwwy_turned; [exact Hq|lia|apply (TF 1%nat); [lia|exact Hi']|apply (TF 2%nat); [lia|exact Hi']|apply (TF 5%nat); [lia|exact Hi']|apply TD; exact Hi'].
Qed.

(** *** A case: angular momentum along x, turned by half a turn about z *)
Lemma ex_dspl_linear : linear_spline ex_dspl.
Proof.
  split.
  - intros n xs f g c x Hi H2 vals. unfold vals. destruct xs as [|x0 [|x1 [|x2 [|x3 xs]]]]; [cbn; cx|cbn; cx|cbn; cx|cbn; cx|].
    cbn [length seq map ex_dspl]. cbv zeta. unfold dd. generalize (/ (x1 - x0)) (/ (x2 - x0)) (/ (x3 - x0)) (/ (x2 - x1)) (/ (x3 - x1)) (/ (x3 - x2)). intros r1 r2 r3 r4 r5 r6.
    destruct (f 0%nat), (f 1%nat), (f 2%nat), (f 3%nat), (g 0%nat), (g 1%nat), (g 2%nat), (g 3%nat), c. destruct n as [|[|[|n]]]; apply C_eq; cbn; ring.
  - intros n xs ys x a Hi H2 HL. destruct xs as [|x0 [|x1 [|x2 [|x3 xs]]]]; try reflexivity. destruct ys as [|y0 [|y1 [|y2 [|y3 ys]]]]; try reflexivity.
    cbn [map ex_dspl]. cbv zeta. unfold dd. replace (x - a - (x0 - a)) with (x - x0) by ring. replace (x - a - (x1 - a)) with (x - x1) by ring. replace (x - a - (x2 - a)) with (x - x2) by ring.
    replace (x1 - a - (x0 - a)) with (x1 - x0) by ring. replace (x2 - a - (x0 - a)) with (x2 - x0) by ring. replace (x3 - a - (x0 - a)) with (x3 - x0) by ring.
    replace (x2 - a - (x1 - a)) with (x2 - x1) by ring. replace (x3 - a - (x1 - a)) with (x3 - x1) by ring. replace (x3 - a - (x2 - a)) with (x3 - x2) by ring. reflexivity.
Qed.
Definition ex_spinning : adata := mkad (sampled_data 2 [0; 1; 2; 3] (fun _ => mkbondi zmodes (fmuli (one_mode 1 1)) (fopp (one_mode 0 0)) zmodes zmodes zmodes) InertialFrame) Sum.
Definition ex_ks : Kwargs_Model.kwargs := mkkw None None None (Some (Some 3)) (Some 2%Z) (Some 9%Z) (Some [0; 0; 0; 2]) None.
Example C78_case_rotation : exists map2salm a' J, passes cubic_or_lookup /\ linear_spline ex_dspl /\ data_ok (ad_data ex_spinning) /\ increasing (bd_u (ad_data ex_spinning)) /\ rotation_only ex_ks (mkq 0 0 0 1) 3 /\
  (forall f, (f < 6)%nat -> exact map2salm (spin_of f) 19 19) /\ ad_transform cubic_or_lookup map2salm ex_spinning ex_ks = Ok a' /\
  J <> 0 /\ ad_angular_momentum product_table ex_spinning = Ok (repeat (J, 0, 0) 4) /\ ad_angular_momentum product_table a' = Ok (repeat (- J, 0, 0) 4).
Proof.
  destruct (C68_inverse_exists 2 19 19) as [m1 X1]. destruct (C68_inverse_exists 1 19 19) as [m2 X2]. destruct (C68_inverse_exists 0 19 19) as [m3 X3].
  destruct (C68_inverse_exists (-1) 19 19) as [m4 X4]. destruct (C68_inverse_exists (-2) 19 19) as [m5 X5].
  set (mm := fun nt np vals s L => if (s =? 2)%Z then m1 nt np vals s L else if (s =? 1)%Z then m2 nt np vals s L else if (s =? 0)%Z then m3 nt np vals s L
             else if (s =? -1)%Z then m4 nt np vals s L else m5 nt np vals s L).
  assert (HX : forall f, (f < 6)%nat -> exact mm (spin_of f) 19 19).
  { intros f Hf. destruct f as [|[|[|[|[|[|f]]]]]]; try lia; intros L a lmax; [apply X1|apply X2|apply X3|apply X4|apply X5|apply X1]. }
  destruct (sampled_data_ok 2 [0; 1; 2; 3] (fun _ => mkbondi zmodes (fmuli (one_mode 1 1)) (fopp (one_mode 0 0)) zmodes zmodes zmodes) InertialFrame ltac:(lia)) as [O1 S1].
  assert (K : rotation_only ex_ks (mkq 0 0 0 1) 3).
  { repeat (split; [reflexivity|]). split; [|left; reflexivity]. cbn [ex_ks k_rotation]. unfold read_rotation. cbn [quat_of].
    assert (A : qabs (mkq 0 0 0 2) = 2). { unfold qabs, qnorm2. cbn [qw qx qy qz]. replace (0 * 0 + 0 * 0 + 0 * 0 + 2 * 2) with (2 * 2) by ring. apply sqrt_square. lra. }
    rewrite A. destruct (Rltb_spec 2 (3 / 10 ^ 16)); [exfalso; lra|]. unfold qnormalized. rewrite A. cbn [qw qx qy qz]. f_equal. apply quat_eq; cbn; field. }
  destruct (C78_rotation cubic_or_lookup mm ex_dspl ex_spinning ex_ks _ _ cubic_or_lookup_passes ex_dspl_linear O1 ex_times ltac:(cbn; lia) ltac:(cbn; lia) K ltac:(split; intro Q; discriminate Q) HX)
    as (a' & P & M & J & G & N & S & E & _ & _ & _ & _ & _ & _ & _ & EJ & EJ' & _).
  set (j := 1 / sqrt 6 / sqrt (4 * PI)).
  assert (Ej : J = repeat (j, 0, 0) 4).
  { enough (Q : ad_angular_momentum product_table ex_spinning = Ok (repeat (j, 0, 0) 4)) by congruence. unfold ad_angular_momentum. f_equal. change (repeat (j, 0, 0) 4) with (map (fun _ : nat => (j, 0, 0)) (seq 0 4)).
    unfold at_times. change (length (bd_u (ad_data ex_spinning))) with 4%nat. apply map_ext_in. intros i I. apply in_seq in I. rewrite angular_full.
    assert (V : forall m, (- 1 <= m <= 1)%Z -> fmuli (full_ang (bd_hi (ad_data ex_spinning)) (bondi_of ex_spinning i)) 1%Z m = if (m =? 1)%Z then (- C1)%C else C0).
    { intros m Hm. unfold fmuli, full_ang, fadd. change (b_sigma (bondi_of ex_spinning i)) with (ms_at (sigma ex_spinning) i).
      assert (Z0 : forall l m, ms_at (sigma ex_spinning) i l m = C0).
      { intros l m'. unfold sigma. rewrite of_bmode. destruct (_ && _)%bool eqn:B; [|reflexivity]. rewrite !andb_true_iff, !Z.leb_le in B. change (bd_hi (ad_data ex_spinning)) with 2%Z in B. exact (S1 5%nat i l m' ltac:(lia) ltac:(cbn; lia) ltac:(split; cbn [sampled_data bd_hi]; lia)). }
      assert (TZ : times 2 (bd_hi (ad_data ex_spinning)) (-1) (bd_hi (ad_data ex_spinning)) (ms_at (sigma ex_spinning) i) (eth_GHP (-2) (fbar 2 (ms_at (sigma ex_spinning) i))) 1%Z m = C0).
      { unfold times. apply csum_const0. intros p _. apply csum_const0. intros q _. rewrite Z0. destruct (_ =? _)%Z; [cx|reflexivity]. }
      rewrite TZ. change (b_psi1 (bondi_of ex_spinning i)) with (ms_at (mts_of ex_spinning 1) i). rewrite of_bmode. change (bd_hi (ad_data ex_spinning)) with 2%Z.
      rewrite (proj2 (Z.leb_le (- (1)) m)), (proj2 (Z.leb_le m 1)) by lia. cbn [Z.leb Z.compare andb]. assert (E1 := S1 1%nat i 1%Z m ltac:(lia) ltac:(cbn; lia) ltac:(split; cbn [sampled_data bd_hi]; lia)).
      cbn [bfield b_psi1] in E1. change (ad_data ex_spinning) with (sampled_data 2 [0; 1; 2; 3] (fun _ => mkbondi zmodes (fmuli (one_mode 1 1)) (fopp (one_mode 0 0)) zmodes zmodes zmodes) InertialFrame). rewrite E1. unfold fmuli, one_mode. cbn [Z.eqb Pos.eqb andb].
      cbn [bfield b_psi1 Z.leb Z.compare Pos.compare Pos.compare_cont Z.eqb Pos.eqb andb]. 
      unfold bfield. apply C_eq; cbn; destruct (m =? 1)%Z; cbn; ring. }
    unfold charge_vector. cbn [snd]. rewrite !V by lia. cbn [Z.eqb Pos.eqb]. unfold j. apply f_equal2; [apply f_equal2|]; cbn; unfold Rdiv; ring. }
  exists mm, a', j. split; [exact cubic_or_lookup_passes|]. split; [exact ex_dspl_linear|]. split; [exact O1|]. split; [exact ex_times|]. split; [exact K|]. split; [exact HX|]. split; [exact E|]. split.
  - unfold j. assert (0 < sqrt 6) by (apply sqrt_lt_R0; lra). assert (0 < sqrt (4 * PI)) by (apply sqrt_lt_R0; pose proof PI_RGT_0; lra). apply Rgt_not_eq. apply Rdiv_lt_0_compat; [apply Rdiv_lt_0_compat; lra|assumption].
  - rewrite EJ, EJ', Ej. split; [reflexivity|]. f_equal. cbn [repeat map]. assert (Q : rotv (qconj (mkq 0 0 0 1)) (j, 0, 0) = (- j, 0, 0)) by (clearbody j; unfold rotv, qvec; cbn; apply (f_equal2 pair); [apply (f_equal2 pair)|]; ring). rewrite Q. reflexivity.
Qed.
