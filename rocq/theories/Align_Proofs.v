(** * Alignment of the decomposition frame to the modes (C66) *)
From Coq Require Import Reals ZArith List Bool Lia Lra.
From Verif Require Import Common Cplx Quat Times_Model Tables_Model Modes_Model Modal_Model Kwargs_Model Transform_Model Rotate_Model
  Times_Proofs Modal_Proofs Rotate_Proofs Wigner_Model Wigner_Proofs Align_Model.
Import ListNotations.
Open Scope R_scope.

(** ** The external functions *)
Definition cis (x : R) : C := mkC (cos x) (sin x).
Lemma cis_add : forall x y, cis (x + y) = (cis x * cis y)%C.
Proof. intros x y. unfold cis. rewrite cos_plus, sin_plus. apply C_eq; cbn; ring. Qed.
Lemma atan_polar : forall x y, 0 < x -> x = sqrt (x * x + y * y) * cos (atan (y / x)) /\ y = sqrt (x * x + y * y) * sin (atan (y / x)).
Proof.
  intros x y Hx. rewrite cos_atan, sin_atan.
  assert (E : sqrt (x * x + y * y) = x * sqrt (1 + (y / x)²)).
  { transitivity (sqrt (x * x) * sqrt (1 + (y / x)²)); [|rewrite sqrt_square by lra; reflexivity].
    rewrite <- sqrt_mult; [|nra|pose proof (Rle_0_sqr (y / x)); lra]. f_equal. unfold Rsqr. field. lra. }
  rewrite E. assert (P : 0 < sqrt (1 + (y / x)²)) by (apply sqrt_lt_R0; pose proof (Rle_0_sqr (y / x)); lra).
  split; field; lra.
Qed.
Lemma atan2_polar : forall x y, x <> 0 \/ y <> 0 ->
  x = sqrt (x * x + y * y) * cos (atan2 y x) /\ y = sqrt (x * x + y * y) * sin (atan2 y x).
Proof.
  intros x y H. unfold atan2. destruct (Rltb_spec 0 x) as [P|P]; [apply atan_polar; exact P|].
  destruct (Rltb_spec x 0) as [N|N].
  - destruct (atan_polar (- x) (- y) ltac:(lra)) as [A B].
    replace (- x * - x + - y * - y) with (x * x + y * y) in * by ring. replace (- y / - x) with (y / x) in * by (field; lra).
    destruct (Rltb y 0).
    + replace (atan (y / x) - PI) with (- (PI - atan (y / x))) by ring. rewrite cos_neg, sin_neg, Rtrigo_facts.cos_pi_minus, Rtrigo_facts.sin_pi_minus.
      split; lra.
    + rewrite neg_cos, neg_sin. split; lra.
  - assert (x = 0) by lra. subst x. replace (0 * 0 + y * y) with (y * y) by ring.
    destruct (Rltb_spec 0 y) as [Q|Q].
    + rewrite sqrt_square by lra. rewrite cos_PI2, sin_PI2. lra.
    + destruct (Rltb_spec y 0) as [Q'|Q']; [|lra]. rewrite cos_neg, sin_neg, cos_PI2, sin_PI2.
      replace (y * y) with (- y * - y) by ring. rewrite sqrt_square by lra. lra.
Qed.
(** A complex number is its modulus times exp(i atan2). *)
Lemma polar : forall z, exists r, 0 <= r /\ z = Cscale r (cis (atan2 (im z) (re z))).
Proof.
  intros [x y]. cbn [re im]. exists (sqrt (x * x + y * y)). split; [apply sqrt_pos|].
  destruct (Req_dec x 0) as [X|X], (Req_dec y 0) as [Y|Y];
    try (destruct (atan2_polar x y ltac:(auto)) as [A B]; apply C_eq; cbn; assumption).
  subst. replace (0 * 0 + 0 * 0) with 0 by ring. rewrite sqrt_0. apply C_eq; cbn; ring.
Qed.
Lemma exp_z_value : forall phi, exp_z phi = mkq (cos phi) 0 0 (sin phi).
Proof.
  intros phi. unfold exp_z, qexp_vec, norm3. replace (0 * 0 + 0 * 0 + phi * phi) with (phi * phi) by ring.
  change (phi * phi) with (Rsqr phi). rewrite sqrt_Rsqr_abs.
  destruct (Req_EM_T (Rabs phi) 0) as [Z|Z].
  - assert (phi = 0) by (destruct (Req_dec phi 0); [assumption|]; apply Rabs_no_R0 in H; contradiction). subst. rewrite cos_0, sin_0. reflexivity.
  - unfold Rabs in *. destruct (Rcase_abs phi).
    + rewrite cos_neg, sin_neg. apply quat_eq; cbn; try ring. field. lra.
    + apply quat_eq; cbn; try ring. field. lra.
Qed.
Lemma exp_z_unit : forall phi, unitq (exp_z phi).
Proof. intros phi. rewrite exp_z_value. unfold unitq, qnorm2. cbn. pose proof (sin2_cos2 phi). unfold Rsqr in *. lra. Qed.
Lemma exp_z_mul : forall a b, qmul (exp_z a) (exp_z b) = exp_z (a + b).
Proof. intros a b. rewrite !exp_z_value. rewrite cos_plus, sin_plus. apply quat_eq; cbn; ring. Qed.

Definition turned (R v : quat) : quat := qmul (qmul R v) (qinv R).
Lemma turned_mul : forall p q v, unitq p -> unitq q -> turned (qmul p q) v = turned p (turned q v).
Proof.
  intros p q v Hp Hq. unfold turned. rewrite !qinv_unit by (try apply unit_mul; assumption). rewrite qconj_mul. rewrite !qmul_assoc. reflexivity.
Qed.
Lemma exp_z_axis : forall phi, turned (exp_z phi) qk = qk.
Proof.
  intros phi. unfold turned. rewrite qinv_unit by apply exp_z_unit. rewrite exp_z_value.
  pose proof (sin2_cos2 phi). unfold Rsqr in *. apply quat_eq; cbn; lra.
Qed.
Lemma exp_z_half : turned (exp_z (PI / 2)) qi = qopp qi.
Proof.
  unfold turned. rewrite qinv_unit by apply exp_z_unit. rewrite exp_z_value, cos_PI2, sin_PI2. apply quat_eq; cbn; ring.
Qed.
(** The rotor computed for a unit vector takes z to it. *)
Lemma axis_rotor_ok : forall V, qw V = 0 -> unitq V -> unitq (axis_rotor V) /\ turned (axis_rotor V) qk = V.
Proof.
  intros [w a b c] Hw HV. cbn in Hw. subst w. unfold unitq, qnorm2 in HV. cbn in HV.
  unfold axis_rotor. assert (EP : qmul (qopp (mkq 0 a b c)) qk = mkq c (- b) a 0) by (apply quat_eq; cbn; ring). rewrite EP.
  unfold qsqrt. assert (EA : qabs (mkq c (- b) a 0) = 1).
  { unfold qabs, qnorm2. cbn. replace (c * c + - b * - b + a * a + 0 * 0) with 1 by lra. apply sqrt_1. }
  rewrite EA. destruct (Req_EM_T 1 0); [lra|]. cbn [qw qx qy qz].
  destruct (Req_EM_T (1 + c) 0) as [Z|Z].
  - assert (c = -1) by lra. subst c. assert (a * a + b * b = 0) by lra. assert (a = 0) by nra. assert (b = 0) by nra. subst. rewrite sqrt_1.
    assert (U : unitq (mkq 0 1 0 0)) by (unfold unitq, qnorm2; cbn; ring). split; [exact U|]. unfold turned. rewrite qinv_unit by exact U. apply quat_eq; cbn; ring.
  - assert (P : 0 < 1 + c) by nra. set (k := sqrt (/ 2 / (1 + c))).
    assert (K : k * k = / 2 / (1 + c)) by (apply sqrt_sqrt; apply Rlt_le, Rdiv_lt_0_compat; lra).
    assert (K2 : k * k * (2 * (1 + c)) = 1) by (rewrite K; field; lra).
    assert (U : unitq (mkq ((1 + c) * k) (- b * k) (a * k) (0 * k))).
    { unfold unitq, qnorm2. cbn. transitivity (k * k * ((1 + c) * (1 + c) + (1 - c * c))); [|transitivity (k * k * (2 * (1 + c))); [ring|exact K2]].
      replace (1 - c * c) with (a * a + b * b) by lra. ring. }
    split; [exact U|]. unfold turned. rewrite qinv_unit by exact U.
    assert (Q : (1 + c) * (1 + c) - (a * a + b * b) = 2 * (1 + c) * c) by nra.
    apply quat_eq; cbn.
    + ring.
    + transitivity (k * k * (2 * (1 + c)) * a); [ring|rewrite K2; ring].
    + transitivity (k * k * (2 * (1 + c)) * b); [ring|rewrite K2; ring].
    + transitivity (k * k * ((1 + c) * (1 + c) - (a * a + b * b))); [ring|]. rewrite Q. transitivity (k * k * (2 * (1 + c)) * c); [ring|rewrite K2; ring].
Qed.
Lemma pureq_normalized : forall V, V <> (0, 0, 0) -> qw (qnormalized (pureq V)) = 0 /\ unitq (qnormalized (pureq V)).
Proof.
  intros [[x y] z] H. split; [cbn; ring|]. apply qnormalized_unit. intros E. apply H. unfold q0 in E. cbn in E. congruence.
Qed.
Lemma aligned_axis_ok : forall o V, V <> (0, 0, 0) ->
  qw (aligned_axis o V) = 0 /\ unitq (aligned_axis o V) /\ 0 <= dotv (qvec o) (qvec (aligned_axis o V)) /\
  exists s, s <> 0 /\ aligned_axis o V = qscale s (pureq V).
Proof.
  intros o V H. destruct (pureq_normalized V H) as [W U]. unfold aligned_axis.
  assert (NZ : / qabs (pureq V) <> 0).
  { apply Rinv_neq_0_compat. unfold qabs. apply Rgt_not_eq. apply sqrt_lt_R0. apply qnorm2_pos. destruct V as [[x y] z]. intros E. apply H. cbn in E. unfold q0 in E. congruence. }
  destruct (Rltb_spec (dotv (qvec o) (qvec (qnormalized (pureq V)))) 0) as [L|L].
  - split; [cbn in *; lra|]. split; [unfold unitq, qnorm2 in *; cbn in *; lra|]. split.
    + unfold dotv, qvec in *. cbn [qopp qx qy qz] in *. lra.
    + exists (- / qabs (pureq V)). split; [apply Ropp_neq_0_compat; exact NZ|]. apply quat_eq; cbn; ring.
  - split; [exact W|]. split; [exact U|]. split; [lra|]. exists (/ qabs (pureq V)). split; [exact NZ|reflexivity].
Qed.

(** ** The samples used around the fiducial time *)
Lemma last_le_spec : forall t tf k f,
  match last_le t tf k f with
  | Some i => (exists j, i = (k + j)%nat /\ (j < length t)%nat /\ nth j t 0 <= tf /\ forall j', (j < j' < length t)%nat -> tf < nth j' t 0) \/
              (f = Some i /\ forall j, (j < length t)%nat -> tf < nth j t 0)
  | None => f = None /\ forall j, (j < length t)%nat -> tf < nth j t 0
  end.
Proof.
  induction t as [|x t IH]; intros tf k f; cbn [last_le].
  - destruct f as [i|]; [right|]; (split; [reflexivity|]); cbn; intros; lia.
  - specialize (IH tf (S k) (if Rleb x tf then Some k else f)).
    destruct (last_le t tf (S k) (if Rleb x tf then Some k else f)) as [i|].
    + destruct IH as [(j & -> & Hj & Hle & Hgt)|(E & Hgt)].
      * left. exists (S j). split; [lia|]. split; [cbn; lia|]. split; [exact Hle|].
        intros [|j'] Hj'; [lia|]. cbn [nth]. apply Hgt. cbn in Hj'. lia.
      * destruct (Rleb_spec x tf) as [L|L].
        -- injection E as <-. left. exists 0%nat. split; [lia|]. split; [cbn; lia|]. split; [exact L|].
           intros [|j'] Hj'; [lia|]. cbn [nth]. apply Hgt. cbn in Hj'. lia.
        -- right. split; [exact E|]. intros [|j] Hj; cbn [nth]; [lra|]. apply Hgt. cbn in Hj. lia.
    + destruct IH as [E Hgt]. destruct (Rleb_spec x tf) as [L|L]; [discriminate|].
      split; [exact E|]. intros [|j] Hj; cbn [nth]; [lra|]. apply Hgt. cbn in Hj. lia.
Qed.
Theorem C66_region : forall t tf, strictly_up t -> t <> [] -> nth 0 t 0 <= tf <= last t 0 ->
  exists i i1 i2, region t tf = Ok (i, i1, i2) /\
    (i1 <= i < i2)%nat /\ (i2 <= length t)%nat /\ (i2 - i1 <= 11)%nat /\
    nth i1 t 0 <= tf <= nth (i2 - 1) t 0 /\
    (tf < last t 0 -> (0 < i)%nat /\ nth (i - 1) t 0 <= tf < nth i t 0) /\ (tf = last t 0 -> i = (length t - 1)%nat).
Proof.
  intros t tf Ht Hn [H0 H1]. assert (L : (0 < length t)%nat) by (destruct t; [congruence|cbn; lia]).
  rewrite last_nth in * by exact Hn.
  pose proof (last_le_spec t tf 0 None) as S. unfold region. destruct (last_le t tf 0 None) as [i0|].
  2: { destruct S as [_ S]. specialize (S 0%nat L). lra. }
  destruct S as [(j & -> & Hj & Hle & Hgt)|(E & _)]; [|discriminate]. rewrite Nat.add_0_l.
  assert (UP : forall a b, (a <= b < length t)%nat -> nth a t 0 <= nth b t 0).
  { intros a b Hab. destruct (Nat.eq_dec a b) as [->|N]; [lra|]. apply Rlt_le, Ht. lia. }
  destruct (Nat.ltb_spec j (length t - 1)) as [A|A].
  - pose proof (Hgt (S j) ltac:(lia)) as G.
    destruct (Nat.ltb_spec (length t) (S j - 5 + 11)) as [B|B]; do 3 eexists; (split; [reflexivity|]); repeat split; try lia.
    + apply Rle_trans with (nth j t 0); [apply UP; lia|exact Hle].
    + exact H1.
    + replace (S j - 1)%nat with j by lia. exact Hle.
    + exact G.
    + intros ->. exfalso. pose proof (UP (S j) (length t - 1)%nat ltac:(lia)). lra.
    + apply Rle_trans with (nth j t 0); [apply UP; lia|exact Hle].
    + apply Rlt_le. apply Rlt_le_trans with (nth (S j) t 0); [exact G|apply UP; lia].
    + replace (S j - 1)%nat with j by lia. exact Hle.
    + exact G.
    + intros ->. exfalso. pose proof (UP (S j) (length t - 1)%nat ltac:(lia)). lra.
  - assert (j = (length t - 1)%nat) by lia. subst j.
    destruct (Nat.ltb_spec (length t) (length t - 1 - 5 + 11)) as [B|B]; do 3 eexists; (split; [reflexivity|]); repeat split; try lia; try lra.
    + apply Rle_trans with (nth (length t - 1) t 0); [apply UP; lia|exact Hle].
Qed.

(** ** The rotor *)
Section Rotor.
Variable garbage : Z -> list C.
Hypothesis garbage_len : forall n, (0 <= n)%Z -> zlen (garbage n) = n.

Lemma mode_2_ok : forall W m, wf W -> (length (rw_data W) > 0)%nat -> valid (rw_lo W) (rw_hi W) 2 m -> mode_2 W m = Ok (md W 0 2 m).
Proof.
  intros W m [Hlo HF] HL [Hv Hm]. unfold mode_2, rd, md, mode.
  assert (I : (0 <= LM_index 2 m (rw_lo W) < (rw_hi W + 1) ^ 2 - rw_lo W ^ 2)%Z) by (unfold LM_index; nia).
  destruct (Z.ltb_spec (LM_index 2 m (rw_lo W)) 0); [lia|].
  rewrite (nth_error_nth' _ C0); [reflexivity|].
  rewrite Forall_forall in HF. pose proof (HF (nth 0 (rw_data W) []) ltac:(apply nth_In; lia)) as E. cbv beta in E. lia.
Qed.

(** The rotor is a rotation taking z along the axis V, towards the angular velocity; it makes the phases of the
    (2, 2) and (2, -2) modes equal, namely to the mean of the phases they have when only the axis is aligned;
    and it takes x, seen from the inertial frame, to within a right angle of nHat. *)
Theorem C66_rotor : forall omega W R_f0 V nHat, wf W -> length (rw_data W) = 1%nat -> (rw_lo W <= 2 <= rw_hi W)%Z ->
  V <> (0, 0, 0) -> unitq R_f0 ->
  exists R_eps W' W'', alignment_rotor wigner_doc garbage omega W R_f0 V nHat = Ok R_eps /\ unitq R_eps /\
    (* the axis *)
    (exists s, s <> 0 /\ turned R_eps qk = qscale s (pureq V)) /\ 0 <= dotv (qvec omega) (qvec (turned R_eps qk)) /\
    (* the phases *)
    rotate_basis wigner_doc garbage W (RQuat (axis_rotor (aligned_axis omega V))) = Ok W'' /\
    rotate_basis wigner_doc garbage W (RQuat R_eps) = Ok W' /\
    (forall m, (m = 2 \/ m = -2)%Z -> norm2 (md W' 0 2 m) = norm2 (md W'' 0 2 m)) /\
    (exists r r', 0 <= r /\ 0 <= r' /\
       let theta := (atan2 (im (md W'' 0 2 2)) (re (md W'' 0 2 2)) + atan2 (im (md W'' 0 2 (-2))) (re (md W'' 0 2 (-2)))) / 2 in
       md W' 0 2 2 = Cscale r (cis theta) /\ md W' 0 2 (-2) = Cscale r' (cis theta)) /\
    (* the x axis *)
    0 <= dotv (qvec nHat) (qvec (turned (qmul R_f0 R_eps) qi)).
Proof.
  intros omega W R_f0 V nHat HW HL H2 HV HR.
  destruct (aligned_axis_ok omega V HV) as (A0 & A1 & A2 & s & Hs & A3).
  destruct (axis_rotor_ok _ A0 A1) as [U T]. set (P := axis_rotor (aligned_axis omega V)) in *.
  destruct (C25_constant wigner_D wigner_doc garbage doc_fills garbage_len W P _ HW (or_introl eq_refl)) as (W2 & E2 & HW2 & T2 & _).
  assert (L2 : length (rw_data W2) = 1%nat) by (rewrite <- HL; apply T2).
  assert (RG : rw_lo W2 = rw_lo W /\ rw_hi W2 = rw_hi W) by (split; apply T2).
  set (h := md W2 0 2 2). set (h' := md W2 0 2 (-2)).
  set (p := atan2 (im h) (re h)). set (p' := atan2 (im h') (re h')).
  set (phi := - (p - p') / 8). set (Q := qmul P (exp_z phi)).
  assert (UQ : unitq Q) by (apply unit_mul; [exact U|apply exp_z_unit]).
  unfold alignment_rotor. fold P. rewrite E2. cbn [rbind].
  rewrite !mode_2_ok by (try lia; try exact HW2; split; lia). cbn [rbind]. fold h h' p p' phi Q.
  set (x' := qmul (qmul (qmul (qmul R_f0 Q) qi) (qinv Q)) (qinv R_f0)).
  assert (EX : x' = turned (qmul R_f0 Q) qi).
  { unfold x'. rewrite turned_mul by assumption. unfold turned. rewrite !qmul_assoc. reflexivity. }
  (* a rotation about z, of angle 2 psi, with 4 psi equal to 4 phi up to a full turn *)
  set (psi := if Rltb (dotv (qvec nHat) (qvec x')) 0 then phi + PI / 2 else phi).
  assert (ER : (if Rltb (dotv (qvec nHat) (qvec x')) 0 then qmul Q (exp_z (PI / 2)) else Q) = qmul P (exp_z psi)).
  { unfold psi. destruct (Rltb (dotv (qvec nHat) (qvec x')) 0); [|reflexivity]. unfold Q. rewrite <- qmul_assoc, exp_z_mul. reflexivity. }
  assert (UR : unitq (qmul P (exp_z psi))) by (apply unit_mul; [exact U|apply exp_z_unit]).
  destruct (C25_documented_z garbage garbage_len W2 psi HW2) as (W3 & E3 & HW3 & L3 & M3).
  assert (EC : rotate_basis wigner_doc garbage W (RQuat (qmul P (exp_z psi))) = Ok W3).
  { rewrite <- (C25_documented_compose garbage garbage_len W P (exp_z psi) HW U (exp_z_unit psi)). rewrite E2. cbn [rbind]. rewrite exp_z_value. exact E3. }
  assert (CP : cis (2 * (2 * psi)) = cis (- (p - p') / 2) /\ cis (-2 * (2 * psi)) = cis ((p - p') / 2)).
  { unfold psi. destruct (Rltb (dotv (qvec nHat) (qvec x')) 0).
    - split; unfold cis.
      + replace (2 * (2 * (phi + PI / 2))) with (- (p - p') / 2 + 2 * PI) by (unfold phi; field).
        rewrite cos_plus, sin_plus, cos_2PI, sin_2PI. apply C_eq; cbn; ring.
      + replace (-2 * (2 * (phi + PI / 2))) with ((p - p') / 2 - 2 * PI) by (unfold phi; field).
        rewrite cos_minus, sin_minus, cos_2PI, sin_2PI. apply C_eq; cbn; ring.
    - split; f_equal; unfold phi; field. }
  destruct CP as [CP CP'].
  assert (M2 : md W3 0 2 2 = (h * cis (- (p - p') / 2))%C).
  { rewrite M3 by (try lia; split; lia). fold h. rewrite <- CP. reflexivity. }
  assert (M2' : md W3 0 2 (-2) = (h' * cis ((p - p') / 2))%C).
  { rewrite M3 by (try lia; split; lia). fold h'. rewrite <- CP'. reflexivity. }
  assert (NC : forall x, norm2 (cis x) = 1) by (intros x; unfold cis, norm2; cbn; pose proof (sin2_cos2 x); unfold Rsqr in *; lra).
  exists (qmul P (exp_z psi)), W3, W2. rewrite ER.
  split; [reflexivity|]. split; [exact UR|].
  assert (AX : turned (qmul P (exp_z psi)) qk = aligned_axis omega V) by (rewrite turned_mul by (auto using exp_z_unit); rewrite exp_z_axis; exact T).
  split; [exists s; split; [exact Hs|]; rewrite AX; exact A3|]. split; [rewrite AX; exact A2|].
  split; [reflexivity|]. split; [exact EC|]. split.
  { intros m [-> | ->]; [rewrite M2|rewrite M2']; rewrite norm2_mul, NC; fold h h'; ring. }
  split.
  { destruct (polar h) as (r & Hr & Er). destruct (polar h') as (r' & Hr' & Er'). fold p in Er. fold p' in Er'.
    exists r, r'. split; [exact Hr|]. split; [exact Hr'|]. cbv zeta. fold h h' p p'. split.
    - rewrite M2, Er, !Cscale_mul. replace (RtoC r * cis p * cis (- (p - p') / 2))%C with (RtoC r * (cis p * cis (- (p - p') / 2)))%C by ring. rewrite <- cis_add. do 2 f_equal. field.
    - rewrite M2', Er', !Cscale_mul. replace (RtoC r' * cis p' * cis ((p - p') / 2))%C with (RtoC r' * (cis p' * cis ((p - p') / 2)))%C by ring. rewrite <- cis_add. do 2 f_equal. field. }
  unfold psi. destruct (Rltb_spec (dotv (qvec nHat) (qvec x')) 0) as [X|X].
  - assert (EN : turned (qmul R_f0 (qmul P (exp_z (phi + PI / 2)))) qi = qopp x').
    { rewrite EX. rewrite <- exp_z_mul, (qmul_assoc P). fold Q.
      rewrite (qmul_assoc R_f0), turned_mul by (auto using unit_mul, exp_z_unit). rewrite exp_z_half. unfold turned.
      apply quat_eq; cbn; ring. }
    rewrite EN. unfold dotv, qvec in *. cbn [qopp qx qy qz] in *. lra.
  - fold Q. rewrite <- EX. lra.
Qed.

Lemma atan2_conj : forall x y, y <> 0 \/ 0 <= x -> atan2 (- y) x = - atan2 y x.
Proof.
  intros x y H. unfold atan2. replace (- y / x) with (- (y / x)) by (unfold Rdiv; ring). rewrite atan_opp.
  destruct (Rltb_spec 0 x); [reflexivity|]. destruct (Rltb_spec x 0).
  - destruct (Rltb_spec (- y) 0), (Rltb_spec y 0); try lra.
  - destruct (Rltb_spec 0 (- y)), (Rltb_spec 0 y), (Rltb_spec (- y) 0), (Rltb_spec y 0); lra.
Qed.
(** When the two modes are complex conjugates of each other, and not negative, they become real: the documented phase zero. *)
Theorem C66_phase_zero : forall omega W R_f0 V nHat W'', wf W -> length (rw_data W) = 1%nat -> (rw_lo W <= 2 <= rw_hi W)%Z ->
  V <> (0, 0, 0) -> unitq R_f0 ->
  rotate_basis wigner_doc garbage W (RQuat (axis_rotor (aligned_axis omega V))) = Ok W'' ->
  md W'' 0 2 (-2) = Conj (md W'' 0 2 2) -> im (md W'' 0 2 2) <> 0 \/ 0 <= re (md W'' 0 2 2) ->
  exists R_eps W' r r', alignment_rotor wigner_doc garbage omega W R_f0 V nHat = Ok R_eps /\
    rotate_basis wigner_doc garbage W (RQuat R_eps) = Ok W' /\ 0 <= r /\ 0 <= r' /\
    md W' 0 2 2 = RtoC r /\ md W' 0 2 (-2) = RtoC r'.
Proof.
  intros omega W R_f0 V nHat W'' HW HL H2 HV HR E'' HC HN.
  destruct (C66_rotor omega W R_f0 V nHat HW HL H2 HV HR) as (R_eps & W' & W2 & EA & _ & _ & _ & E2 & E' & _ & (r & r' & Hr & Hr' & P1 & P2) & _).
  assert (W2 = W'') by congruence. subst W2. cbv zeta in P1, P2. rewrite HC in P1, P2. cbn [re im Conj] in P1, P2. rewrite atan2_conj in P1, P2 by exact HN.
  exists R_eps, W', r, r'. split; [exact EA|]. split; [exact E'|]. split; [exact Hr|]. split; [exact Hr'|].
  rewrite P1, P2. unfold cis. set (a := atan2 (im (md W'' 0 2 2)) (re (md W'' 0 2 2))).
  replace ((a + - a) / 2) with 0 by field. rewrite cos_0, sin_0. split; apply C_eq; cbn; ring.
Qed.

(** In general the phase is not zero: here both modes are i, the axis and the x axis are aligned already. *)
Definition tilted : rwave := mkrw 2 2 [[Ci; C0; C0; C0; Ci]] (F1 [q1]) CorotatingFrame.
Theorem C66_phase_refuted : wf tilted /\ exists R_eps W', alignment_rotor wigner_doc garbage qk tilted q1 (0, 0, 1) qi = Ok R_eps /\
  rotate_basis wigner_doc garbage tilted (RQuat R_eps) = Ok W' /\ md W' 0 2 2 = Ci.
Proof.
  assert (HW : wf tilted) by (split; [cbn; lia|repeat constructor]). split; [exact HW|].
  assert (A : aligned_axis qk (0, 0, 1) = qk).
  { unfold aligned_axis, pureq. change (mkq 0 0 0 1) with qk. rewrite qnormalized_id by (unfold qnorm2; cbn; ring).
    destruct (Rltb_spec (dotv (qvec qk) (qvec qk)) 0) as [L|L]; [cbn in L; lra|reflexivity]. }
  assert (B : axis_rotor qk = q1).
  { unfold axis_rotor. assert (E : qmul (qopp qk) qk = q1) by (apply quat_eq; cbn; ring). rewrite E. unfold qsqrt.
    assert (E1 : qabs q1 = 1) by (unfold qabs, qnorm2; cbn; replace (1 * 1 + 0 * 0 + 0 * 0 + 0 * 0) with 1 by ring; apply sqrt_1). rewrite E1.
    destruct (Req_EM_T 1 0); [lra|]. cbn [qw q1]. destruct (Req_EM_T (1 + 1) 0); [lra|].
    replace (/ 2 / (1 + 1)) with (/ 2 * / 2) by field. rewrite sqrt_square by lra. apply quat_eq; cbn; field. }
  destruct (C66_rotor qk tilted q1 (0, 0, 1) qi HW eq_refl ltac:(cbn; lia)) as (R_eps & W' & W2 & EA & _ & _ & _ & E2 & E' & NM & (r & r' & Hr & Hr' & P1 & _) & _).
  { intros E. injection E as E. lra. } { apply unit_one. }
  exists R_eps, W'. split; [exact EA|]. split; [exact E'|].
  rewrite A, B in E2.
  destruct (C25_constant wigner_D wigner_doc garbage doc_fills garbage_len tilted q1 _ HW (or_introl eq_refl)) as (W3 & E3 & _ & T3 & _).
  assert (W3 = W2) by congruence. subst W3.
  assert (M : forall m, (-2 <= m <= 2)%Z -> md W2 0 2 m = md tilted 0 2 m).
  { intros m Hm. rewrite (turned_md _ _ _ _ _ _ _ T3); [|cbn; lia|split; cbn; lia]. apply (turn_one wigner_D C25_wigner_one); lia. }
  assert (M1 : md W2 0 2 2 = Ci) by (rewrite M by lia; reflexivity). assert (M2 : md W2 0 2 (-2) = Ci) by (rewrite M by lia; reflexivity).
  cbv zeta in P1. rewrite M1, M2 in P1. specialize (NM 2%Z (or_introl eq_refl)). rewrite M1 in NM.
  assert (AT : atan2 (im Ci) (re Ci) = PI / 2).
  { unfold atan2. cbn [re im Ci]. destruct (Rltb_spec 0 0); [lra|]. destruct (Rltb_spec 0 1); [reflexivity|lra]. }
  rewrite AT in P1. replace ((PI / 2 + PI / 2) / 2) with (PI / 2) in P1 by field. unfold cis in P1. rewrite cos_PI2, sin_PI2 in P1.
  rewrite P1 in NM |- *. unfold norm2 in NM. cbn in NM. assert (r = 1) by nra. subst r. apply C_eq; cbn; ring.
Qed.

(** ** The whole function *)
Lemma frames_dot : forall R u v, unitq R -> qw u = 0 -> qw v = 0 -> dotv (qvec (qmul (qmul (qinv R) u) R)) (qvec v) = dotv (qvec u) (qvec (turned R v)).
Proof.
  intros R u v HR Hu Hv. unfold turned. rewrite qinv_unit by exact HR. destruct u as [u0 u1 u2 u3], v as [v0 v1 v2 v3]. cbn in Hu, Hv. subst u0 v0.
  unfold dotv, qvec. cbn. ring.
Qed.
(** Numbers [i1, i2) of a list *)
Definition window {A} (i1 i2 : nat) (l : list A) : list A := firstn (i2 - i1) (skipn i1 l).
Lemma sl_window : forall A i1 i2 (l : list A), (i1 <= i2 <= length l)%nat -> py_slice (Some (Z.of_nat i1)) (Some (Z.of_nat i2)) l = window i1 i2 l.
Proof. intros A i1 i2 l H. rewrite py_slice_nonneg by lia. unfold window. f_equal; [lia|]. f_equal. lia. Qed.
Lemma window_length : forall A i1 i2 (l : list A), (i1 <= i2 <= length l)%nat -> length (window i1 i2 l) = (i2 - i1)%nat.
Proof. intros A i1 i2 l H. unfold window. rewrite firstn_length, skipn_length. lia. Qed.
Lemma window_nth : forall A i1 i2 (l : list A) k d, (k < i2 - i1)%nat -> nth k (window i1 i2 l) d = nth (i1 + k) l d.
Proof. intros A i1 i2 l k d H. unfold window. rewrite nth_firstn_lt by exact H. apply nth_skipn. Qed.
Lemma window_Forall : forall A (P : A -> Prop) i1 i2 l, Forall P l -> Forall P (window i1 i2 l).
Proof.
  intros A P i1 i2 l H. unfold window. rewrite Forall_forall in *. intros x Hx. apply H.
  apply In_nth_error in Hx as [k Hk]. assert (K : In x (firstn (i2 - i1) (skipn i1 l))) by (apply nth_error_In in Hk; exact Hk).
  rewrite <- (firstn_skipn i1 l). apply in_or_app. right. rewrite <- (firstn_skipn (i2 - i1) (skipn i1 l)). apply in_or_app. left. exact K.
Qed.

Variable angular_velocity : list R -> rwave -> list vec3.
Variable squad : list quat -> list R -> R -> quat.
Variable spline : list R -> list (list C) -> R -> list C.
Variable dominant : rwave -> vec3.
Hypothesis av_len : forall t W, length (angular_velocity t W) = length t.
Hypothesis squad_unit : forall f t tf, Forall unitq f -> unitq (squad f t tf).
Hypothesis spline_len : forall t d tf n, d <> [] -> Forall (fun row : list C => length row = n) d -> length (spline t d tf) = n.
Hypothesis dominant_some : forall W, dominant W <> (0, 0, 0).

(** A waveform with consistent arrays, all modes and a unit rotor for every time *)
Definition consistent (w : Modes_Model.wf R quat C) : Prop :=
  (0 <= wlmin w <= wlmax w)%Z /\ length (wdata w) = length (wt w) /\ length (wframe w) = length (wt w) /\
  Forall (fun row => Z.of_nat (length row) = ((wlmax w + 1) ^ 2 - wlmin w ^ 2)%Z) (wdata w) /\ Forall unitq (wframe w).
Definition columns (w : Modes_Model.wf R quat C) : Z := ((wlmax w + 1) ^ 2 - wlmin w ^ 2)%Z.
Definition top (w : Modes_Model.wf R quat C) (ell_max : option Z) : Z := match ell_max with Some l => l | None => wlmax w end.
Definition inst (w : Modes_Model.wf R quat C) (ft : ftype) (tf : R) (i1 i2 : nat) : rwave :=
  mkrw (wlmin w) (wlmax w) [spline (window i1 i2 (wt w)) (window i1 i2 (wdata w)) tf]
    (F1 [squad (window i1 i2 (wframe w)) (window i1 i2 (wt w)) tf]) ft.

Lemma region_inertial : forall w ft i1 i2, consistent w -> (wlmin w <= 2 <= wlmax w)%Z -> (i1 < i2 <= length (wt w))%nat ->
  exists reg Region, getitem_pair (columns w) w (Some (Z.of_nat i1), Some (Z.of_nat i2)) (MInt 2) = Ok reg /\ wt reg = window i1 i2 (wt w) /\
    to_inertial wigner_doc garbage (to_rw reg ft) = Ok Region /\ rw_lo Region = 2%Z /\ rw_hi Region = 2%Z /\
    length (rw_data Region) = (i2 - i1)%nat /\
    forall k m, (k < i2 - i1)%nat -> (-2 <= m <= 2)%Z ->
      md Region k 2 m = turn wigner_D (qconj (nth (i1 + k) (wframe w) q1)) (md (to_rw w ft) (i1 + k)) 2 m.
Proof.
  intros w ft i1 i2 (Hl & HD & HF & HR & HU) H2 Hi.
  unfold getitem_pair, mode_slice. destruct (Z.ltb_spec 2 (wlmin w)); [lia|]. destruct (Z.ltb_spec (wlmax w) 2); [lia|]. cbn [orb rbind].
  unfold base_getitem_pair. destruct (Z.leb_spec 2 (columns w)) as [_|N]; [|unfold columns in N; nia]. cbn [rbind].
  unfold sl. cbn [fst snd]. rewrite !sl_window by lia.
  set (cut := py_slice (Some (2 ^ 2 - wlmin w ^ 2)%Z) (Some (2 * (2 + 2) + 1 - wlmin w ^ 2)%Z)).
  assert (CUT : forall row : list C, Z.of_nat (length row) = columns w -> cut row = firstn 5 (skipn (Z.to_nat (4 - wlmin w ^ 2)) row)).
  { intros row E. unfold cut. rewrite py_slice_nonneg by (rewrite ?E; unfold columns; nia). f_equal; try (f_equal; lia); lia. }
  pose (W := mkrw 2 2 (map cut (window i1 i2 (wdata w))) (F1 (window i1 i2 (wframe w))) ft). assert (EW : W = mkrw 2 2 (map cut (window i1 i2 (wdata w))) (F1 (window i1 i2 (wframe w))) ft) by reflexivity.
  assert (HW : Rotate_Proofs.wf W).
  { rewrite EW. split; [cbn; lia|]. cbn [rw_data rw_lo rw_hi]. rewrite Forall_map. apply window_Forall. apply (Forall_impl _ (P := fun row => Z.of_nat (length row) = columns w)); [|exact HR].
    intros row E. rewrite CUT by exact E. rewrite firstn_length, skipn_length. unfold columns in E. nia. }
  assert (LW : length (rw_data W) = (i2 - i1)%nat) by (rewrite EW; cbn [rw_data]; rewrite map_length; apply window_length; lia).
  assert (LF : length (window i1 i2 (wframe w)) = (i2 - i1)%nat) by (apply window_length; lia).
  assert (MD : forall k m, (k < i2 - i1)%nat -> (-2 <= m <= 2)%Z -> md W k 2 m = md (to_rw w ft) (i1 + k) 2 m).
  { intros k m Hk Hm. unfold md. rewrite EW. cbn [rw_lo rw_data to_rw].
    assert (RK : nth k (map cut (window i1 i2 (wdata w))) [] = cut (nth (i1 + k) (wdata w) [])).
    { rewrite (nth_indep _ [] (cut [])) by (rewrite map_length, window_length; lia). rewrite map_nth. f_equal. apply window_nth. exact Hk. }
    rewrite RK. rewrite CUT.
    - unfold mode. rewrite nth_firstn_lt by (unfold LM_index; lia). rewrite nth_skipn. f_equal. unfold LM_index. nia.
    - rewrite Forall_forall in HR. apply HR. apply nth_In. lia. }
  eexists. assert (TI : exists Region, to_inertial wigner_doc garbage W = Ok Region /\ rw_lo Region = 2%Z /\ rw_hi Region = 2%Z /\ length (rw_data Region) = (i2 - i1)%nat /\
    forall k m, (k < i2 - i1)%nat -> (-2 <= m <= 2)%Z -> md Region k 2 m = turn wigner_D (qconj (nth (i1 + k) (wframe w) q1)) (md W k) 2 m).
  { unfold to_inertial. change (rw_frame W) with (F1 (window i1 i2 (wframe w))). cbn [rw_frame frame_rotors conj_rotors rbind].
    destruct (Nat.eq_dec (i2 - i1) 1) as [E1|N1].
    - destruct (window i1 i2 (wframe w)) as [|f [|g fs]] eqn:EF; cbn in LF; try lia. cbn [map].
      destruct (C25_constant wigner_D wigner_doc garbage doc_fills garbage_len W (qconj f) (RArr1 [qconj f]) HW (or_intror (or_intror eq_refl))) as (W' & E & HW' & (T1 & T2 & T3 & _ & T4) & _).
      rewrite E. cbn [rbind]. eexists. split; [reflexivity|]. cbn [rw_lo rw_hi rw_data]. split; [rewrite T1, EW; reflexivity|]. split; [rewrite T2, EW; reflexivity|].
      split; [rewrite T3; exact LW|]. intros k m Hk Hm. assert (k = 0%nat) by lia. subst k.
      assert (F0 : nth (i1 + 0) (wframe w) q1 = f) by (rewrite <- (window_nth _ i1 i2) by lia; rewrite EF; reflexivity).
      rewrite F0. rewrite <- T4; [reflexivity|lia|rewrite EW; split; cbn; lia].
    - destruct (C25_series wigner_D wigner_doc garbage doc_fills W (map qconj (window i1 i2 (wframe w))) (RArr1 (map qconj (window i1 i2 (wframe w)))) HW) with (f := window i1 i2 (wframe w)) as (W' & E & HW' & (T1 & T2 & T3 & _ & T4) & _).
      { rewrite map_length. lia. } { rewrite map_length. lia. } { right. reflexivity. } { rewrite EW. reflexivity. } { right. rewrite map_length. reflexivity. }
      rewrite E. cbn [rbind]. eexists. split; [reflexivity|]. cbn [rw_lo rw_hi rw_data]. split; [rewrite T1, EW; reflexivity|]. split; [rewrite T2, EW; reflexivity|].
      split; [rewrite T3; exact LW|]. intros k m Hk Hm.
      assert (F0 : nth k (map qconj (window i1 i2 (wframe w))) q1 = qconj (nth (i1 + k) (wframe w) q1)).
      { rewrite (nth_indep _ q1 (qconj q1)) by (rewrite map_length; lia). rewrite map_nth. f_equal. apply window_nth. exact Hk. }
      rewrite <- F0. rewrite <- (T4 k 2%Z m); [reflexivity|lia|rewrite EW; split; cbn; lia]. }
  destruct TI as (Region & E & E1 & E2 & E3 & E4). exists Region. split; [reflexivity|]. split; [reflexivity|]. split; [exact E|]. split; [exact E1|]. split; [exact E2|]. split; [exact E3|].
  intros k m Hk Hm. rewrite E4 by assumption. apply turn_ext. intros j Hj. apply MD; [exact Hk|lia].
Qed.

Theorem C66_aligned : forall w ft tf nHat ell_max, consistent w -> (wlmin w <= 2 <= wlmax w)%Z -> rotating ft = true ->
  strictly_up (wt w) -> wt w <> [] -> nth 0 (wt w) 0 <= tf <= last (wt w) 0 -> (wlmin w <= top w ell_max <= wlmax w)%Z ->
  exists R_eps i i1 i2 Region I' W',
    region (wt w) tf = Ok (i, i1, i2) /\
    (* the (2, m) modes of the window in the inertial frame give the angular velocity *)
    length (rw_data Region) = (i2 - i1)%nat /\
    (forall k m, (k < i2 - i1)%nat -> (-2 <= m <= 2)%Z ->
       md Region k 2 m = turn wigner_D (qconj (nth (i1 + k) (wframe w) q1)) (md (to_rw w ft) (i1 + k)) 2 m) /\
    get_alignment wigner_doc garbage angular_velocity squad spline dominant (columns w) w ft tf nHat ell_max = Ok R_eps /\ unitq R_eps /\
    (* the axis, in the frame of the waveform and seen from the inertial frame *)
    (exists V s, V = dominant (mkrw (wlmin w) (top w ell_max)
         (map (firstn (Z.to_nat ((top w ell_max + 1) ^ 2 - wlmin w ^ 2))) (rw_data (inst w ft tf i1 i2))) (rw_frame (inst w ft tf i1 i2)) ft) /\
       s <> 0 /\ turned R_eps qk = qscale s (pureq V)) /\
    0 <= dotv (nth (i - i1) (angular_velocity (window i1 i2 (wt w)) Region) (0, 0, 0)) (qvec (turned (qmul (nth i (wframe w) q1) R_eps) qk)) /\
    (* the phases at the fiducial time *)
    rotate_basis wigner_doc garbage (inst w ft tf i1 i2) (RQuat R_eps) = Ok I' /\
    (exists r r' theta, 0 <= r /\ 0 <= r' /\ md I' 0 2 2 = Cscale r (cis theta) /\ md I' 0 2 (-2) = Cscale r' (cis theta)) /\
    (* the x axis *)
    0 <= dotv (qvec nHat) (qvec (turned (qmul (squad (window i1 i2 (wframe w)) (window i1 i2 (wt w)) tf) R_eps) qi)) /\
    (* what is applied to the waveform *)
    align wigner_doc garbage angular_velocity squad spline dominant (columns w) w ft tf nHat ell_max = Ok W' /\
    turned_by wigner_D (to_rw w ft) W' (fun _ => R_eps) /\ rw_frame W' = F1 (map (fun f => qmul f R_eps) (wframe w)).
Proof.
  intros w ft tf nHat ell_max HC H2 Hft Hup Hne Htf Htop.
  destruct (C66_region (wt w) tf Hup Hne Htf) as (i & i1 & i2 & ER & Hi & Hi2 & _).
  destruct (region_inertial w ft i1 i2 HC H2 ltac:(lia)) as (reg & Region & EG & ET & EI & R1 & R2 & R3 & R4).
  pose proof HC as (Hl & HD & HF & HR & HU).
  assert (NI : (i < length (wframe w))%nat) by lia.
  set (om := nth (i - i1) (angular_velocity (window i1 i2 (wt w)) Region) (0, 0, 0)).
  set (Ri := nth i (wframe w) q1).
  assert (URi : unitq Ri) by (rewrite Forall_forall in HU; apply HU, nth_In; exact NI).
  set (omegaHat := qmul (qmul (qinv Ri) (qnormalized (pureq om))) Ri).
  set (R_f0 := squad (window i1 i2 (wframe w)) (window i1 i2 (wt w)) tf).
  assert (URf : unitq R_f0) by (apply squad_unit, window_Forall; exact HU).
  set (row := spline (window i1 i2 (wt w)) (window i1 i2 (wdata w)) tf).
  assert (LR : Z.of_nat (length row) = columns w).
  { unfold row. rewrite (spline_len _ _ _ (Z.to_nat (columns w))).
    - unfold columns. nia.
    - intros E. apply (f_equal (@length _)) in E. rewrite window_length in E by lia. cbn in E. lia.
    - apply window_Forall. apply (Forall_impl _ (P := fun r => Z.of_nat (length r) = columns w)); [|exact HR]. intros r E. unfold columns in *. lia. }
  set (V := dominant (mkrw (wlmin w) (top w ell_max) [firstn (Z.to_nat ((top w ell_max + 1) ^ 2 - wlmin w ^ 2)) row] (F1 [R_f0]) ft)).
  assert (HWI : Rotate_Proofs.wf (inst w ft tf i1 i2)).
  { split; [exact Hl|]. cbn [inst rw_data rw_hi rw_lo]. constructor; [exact LR|constructor]. }
  destruct (C66_rotor omegaHat (inst w ft tf i1 i2) R_f0 V nHat HWI eq_refl H2 (dominant_some _) URf)
    as (R_eps & I' & I'' & EA & UE & AX & DT & E'' & E' & _ & PH & XX).
  assert (HWW : Rotate_Proofs.wf (to_rw w ft)) by (split; [exact Hl|exact HR]).
  destruct (C25_constant wigner_D wigner_doc garbage doc_fills garbage_len (to_rw w ft) R_eps _ HWW (or_introl eq_refl)) as (W' & EW & _ & TW & FW).
  assert (GA : get_alignment wigner_doc garbage angular_velocity squad spline dominant (columns w) w ft tf nHat ell_max = Ok R_eps).
  { unfold get_alignment. rewrite Hft, HF, Nat.eqb_refl. cbn [negb].
    assert (Em : exists t0 rest, wt w = t0 :: rest) by (destruct (wt w) as [|t0 rest]; [congruence|eauto]). destruct Em as (t0 & rest & Et).
    rewrite Et. cbv iota. rewrite <- Et.
    assert (LL : last rest t0 = last (t0 :: rest) 0).
    { clear. revert t0. induction rest as [|a rest IH]; intros t0; [reflexivity|]. cbn [last] in *. destruct rest; [reflexivity|apply IH]. }
    rewrite LL, <- Et. destruct (Rltb_spec tf t0) as [A|A]; [rewrite Et in Htf; cbn [nth] in Htf; lra|]. destruct (Rltb_spec (last (wt w) 0) tf) as [B|B]; [lra|]. cbn [orb].
    rewrite ER. cbn [rbind]. rewrite EG. cbn [rbind]. rewrite EI. cbn [rbind]. rewrite ET. unfold elt at 1.
    rewrite (nth_error_nth' _ (0, 0, 0)) by (rewrite av_len, window_length; lia). cbn [rbind]. fold om.
    unfold elt. rewrite (nth_error_nth' _ q1) by exact NI. cbn [rbind]. fold Ri omegaHat.
    unfold getitem_slice, base_getitem_slice, set_ells, sl. cbn [wframe wt wdata wlmin wlmax wLM fst snd].
    rewrite !sl_window by lia. fold R_f0. fold row.
    unfold getitem_pair. cbn [wlmin wlmax]. fold (top w ell_max).
    unfold mode_slice. cbn [falsy negb andb]. destruct (Z.eqb_spec (top w ell_max + 1) 0) as [Z0|Z0]; [lia|]. cbn [falsy andb].
    destruct (Z.eqb_spec (top w ell_max + 1) 0) as [Z1|Z1]; [lia|].
    destruct (Z.ltb_spec (wlmin w) (wlmin w)); [lia|]. destruct (Z.ltb_spec (wlmax w) (top w ell_max + 1 - 1)); [lia|]. cbn [orb rbind].
    unfold base_getitem_pair. destruct (Z.leb_spec 2 (columns w)) as [_|N]; [|unfold columns in N; nia]. cbn [rbind].
    unfold to_rw, set_ells, sl. cbn [wframe wt wdata wlmin wlmax wLM fst snd map].
    replace (top w ell_max + 1 - 1)%Z with (top w ell_max) by ring.
    change (py_slice None None [row]) with [row]. change (py_slice None None [R_f0]) with [R_f0]. cbn [map].
    rewrite py_slice_nonneg by (rewrite ?LR; unfold columns; nia).
    replace (wlmin w ^ 2 - wlmin w ^ 2)%Z with 0%Z by ring. cbn [Z.to_nat skipn].
    replace (top w ell_max * (top w ell_max + 2) + 1 - wlmin w ^ 2 - 0)%Z with ((top w ell_max + 1) ^ 2 - wlmin w ^ 2)%Z by ring.
    fold V. fold row. exact EA. }
  exists R_eps, i, i1, i2, Region, I', W'. split; [exact ER|]. split; [exact R3|]. split; [exact R4|]. split; [exact GA|]. split; [exact UE|].
  split; [destruct AX as (s & Hs & AX); exists V, s; split; [reflexivity|]; split; [exact Hs|exact AX]|].
  split.
  { rewrite turned_mul by assumption.
    assert (PW : qw (turned R_eps qk) = 0) by (destruct AX as (s & _ & AX); rewrite AX; destruct V as [[vx vy] vz]; cbn; ring).
    assert (OW : qw (qnormalized (pureq om)) = 0) by (destruct om as [[ox oy] oz]; cbn; ring).
    unfold omegaHat in DT. rewrite frames_dot in DT by assumption.
    fold om Ri. destruct (Req_dec (qabs (pureq om)) 0) as [Z|Z].
    - assert (N0 : qnorm2 (pureq om) = 0) by (unfold qabs in Z; apply sqrt_eq_0 in Z; [exact Z|apply qnorm2_nonneg]).
      apply qnorm2_zero in N0. destruct om as [[ox oy] oz]. unfold q0 in N0. cbn in N0. injection N0 as -> -> ->. unfold dotv. destruct (qvec (turned Ri (turned R_eps qk))) as [[a b] c]. lra.
    - assert (PN : 0 < qabs (pureq om)) by (unfold qabs in *; pose proof (sqrt_pos (qnorm2 (pureq om))); lra).
      assert (ES : dotv (qvec (qnormalized (pureq om))) (qvec (turned Ri (turned R_eps qk))) = / qabs (pureq om) * dotv om (qvec (turned Ri (turned R_eps qk)))).
      { unfold qnormalized. generalize (/ qabs (pureq om)). intros c. destruct om as [[ox oy] oz]. destruct (qvec (turned Ri (turned R_eps qk))) as [[a b] d]. cbn. ring. }
      rewrite ES in DT. apply (Rmult_le_reg_l (/ qabs (pureq om))); [apply Rinv_0_lt_compat; exact PN|]. lra. }
  split; [exact E'|]. split; [destruct PH as (r & r' & Hr & Hr' & PH1 & PH2); do 3 eexists; split; [exact Hr|]; split; [exact Hr'|]; split; [exact PH1|exact PH2]|].
  split; [exact XX|].
  split; [unfold align; rewrite GA; exact EW|]. split; [exact TW|].
  rewrite FW. cbn [to_rw rw_frame]. destruct (wframe w); [cbn in NI; lia|reflexivity].
Qed.

(** What is refused: nothing is rotated then. *)
Theorem C66_refused : forall w ft tf nHat ell_max,
  rotating ft = false \/
  (rotating ft = true /\ length (wframe w) <> length (wt w)) \/
  (rotating ft = true /\ length (wframe w) = length (wt w) /\ wt w <> [] /\ (tf < nth 0 (wt w) 0 \/ last (wt w) 0 < tf)) \/
  (rotating ft = true /\ length (wframe w) = length (wt w) /\ strictly_up (wt w) /\ wt w <> [] /\ nth 0 (wt w) 0 <= tf <= last (wt w) 0 /\
   (2 < wlmin w \/ wlmax w < 2)%Z) ->
  get_alignment wigner_doc garbage angular_velocity squad spline dominant (columns w) w ft tf nHat ell_max = Err ValueError /\
  align wigner_doc garbage angular_velocity squad spline dominant (columns w) w ft tf nHat ell_max = Err ValueError.
Proof.
  intros w ft tf nHat ell_max H.
  assert (G : get_alignment wigner_doc garbage angular_velocity squad spline dominant (columns w) w ft tf nHat ell_max = Err ValueError).
  { unfold get_alignment. destruct H as [H|[(H & L)|[(H & L & N & O)|(H & L & S & N & O & Q)]]]; rewrite H; cbn [negb].
    - reflexivity.
    - destruct (Nat.eqb_spec (length (wframe w)) (length (wt w))); [contradiction|reflexivity].
    - rewrite L, Nat.eqb_refl. cbn [negb]. destruct (wt w) as [|t0 rest]; [congruence|].
      assert (LL : last rest t0 = last (t0 :: rest) 0).
      { clear. revert t0. induction rest as [|a rest IH]; intros t0; [reflexivity|]. cbn [last] in *. destruct rest; [reflexivity|apply IH]. }
      rewrite LL. destruct (Rltb_spec tf t0) as [A|A]; [reflexivity|]. destruct (Rltb_spec (last (t0 :: rest) 0) tf) as [B|B]; [reflexivity|].
      destruct O as [O|O]; [change (nth 0 (t0 :: rest) 0) with t0 in O|]; lra.
    - rewrite L, Nat.eqb_refl. cbn [negb]. destruct (C66_region (wt w) tf S N O) as (i & i1 & i2 & ER & _). rewrite ER.
      destruct (wt w) as [|t0 rest]; [congruence|].
      assert (LL : last rest t0 = last (t0 :: rest) 0).
      { clear. revert t0. induction rest as [|a rest IH]; intros t0; [reflexivity|]. cbn [last] in *. destruct rest; [reflexivity|apply IH]. }
      rewrite LL. change (nth 0 (t0 :: rest) 0) with t0 in O. destruct (Rltb_spec tf t0) as [A|A]; [lra|]. destruct (Rltb_spec (last (t0 :: rest) 0) tf) as [B|B]; [lra|].
      cbn [orb rbind]. unfold getitem_pair, mode_slice.
      destruct (Z.ltb_spec 2 (wlmin w)); [reflexivity|]. destruct (Z.ltb_spec (wlmax w) 2); [reflexivity|]. lia. }
  split; [exact G|]. unfold align. rewrite G. reflexivity.
Qed.
End Rotor.

(** A waveform meeting the hypotheses, with external functions meeting theirs. *)
Definition gal (n : Z) : list C := repeat C0 (Z.to_nat n).
Definition w_al : Modes_Model.wf R quat C :=
  mkwf [0; 1; 2] [q1; qi; qk] (repeat (repeat Ci 5) 3) 2 2 (LM_range 2 2).
Example C66_case :
  (forall n, (0 <= n)%Z -> zlen (gal n) = n) /\
  (forall t (W : rwave), length ((fun (t : list R) (_ : rwave) => map (fun _ => (0, 0, 1)) t) t W) = length t) /\
  (forall (f : list quat) (t : list R) (tf : R), Forall unitq f -> unitq (hd q1 f)) /\
  (forall (t : list R) (d : list (list C)) (tf : R) n, d <> [] -> Forall (fun row : list C => length row = n) d -> length (hd [] d) = n) /\
  consistent w_al /\ strictly_up (wt w_al) /\ nth 0 (wt w_al) 0 <= 3 / 2 <= last (wt w_al) 0 /\
  region (wt w_al) (3 / 2) = Ok (2, 0, 3)%nat.
Proof.
  split; [intros n Hn; unfold zlen, gal; rewrite repeat_length; lia|]. split; [intros; apply map_length|].
  split; [intros f t tf H; destruct H; [apply unit_one|assumption]|].
  split; [intros t d tf n N H; destruct H; [congruence|assumption]|].
  split; [repeat split; cbn; try lia; repeat constructor; unfold unitq, qnorm2; cbn; ring|].
  split.
  - intros i j H. cbn in H. destruct i as [|[|i]], j as [|[|[|j]]]; try lia; cbn; lra.
  - split; [cbn; lra|]. unfold region. cbn [w_al wt last_le length].
    destruct (Rleb_spec 0 (3 / 2)); [|lra]. destruct (Rleb_spec 1 (3 / 2)); [|lra]. destruct (Rleb_spec 2 (3 / 2)); [lra|]. reflexivity.
Qed.
