(** C13, C14: data-type codes, weight tables and unit conversions. *)
From Coq Require Import Reals ZArith List Lia Lra Bool.
From Verif Require Import Common Cplx Tables_Model.
Import ListNotations.
Open Scope Z_scope.

Definition is_datatype (d : Z) : Prop := 0 <= d <= 10.

Ltac dcases d H :=
  assert (d = 0 \/ d = 1 \/ d = 2 \/ d = 3 \/ d = 4 \/ d = 5 \/ d = 6 \/ d = 7 \/ d = 8 \/ d = 9 \/ d = 10)
    as K by (unfold is_datatype in H; lia);
  repeat match type of K with _ \/ _ => destruct K as [K|K] end; (subst d || rewrite K in *).

(** * C13 *)
(** All eleven data types survive the translation to the SpEC numbering and back. *)
Theorem C13_round_trip : forall d, is_datatype d ->
  exists c, waveforms_to_GWFrames d = Ok c /\ GWFrames_to_waveforms c = Ok d.
Proof. intros d H. dcases d H; eexists; split; reflexivity. Qed.

(** Distinct data types get distinct codes. *)
Theorem C13_codes_distinct : forall d d' c, is_datatype d -> is_datatype d' ->
  waveforms_to_GWFrames d = Ok c -> waveforms_to_GWFrames d' = Ok c -> d = d'.
Proof.
  intros d d' c H H' E E'.
  destruct (C13_round_trip d H) as (c1 & A & B). destruct (C13_round_trip d' H') as (c2 & A' & B').
  congruence.
Qed.

(** The reader accepts exactly the codes 0..18 and always produces a data type; other codes raise. *)
Theorem C13_accepted_codes : forall c,
  (0 <= c <= 18 <-> exists d, GWFrames_to_waveforms c = Ok d)
  /\ (forall d, GWFrames_to_waveforms c = Ok d -> is_datatype d)
  /\ (c < 0 -> GWFrames_to_waveforms c = Err KeyError)
  /\ (18 < c -> GWFrames_to_waveforms c = Err IndexError).
Proof.
  intros c.
  assert (Neg : c < 0 -> GWFrames_to_waveforms c = Err KeyError).
  { intros H. unfold GWFrames_to_waveforms. replace (c <? 8) with true by (symmetry; lia).
    cbn [dict_get]. repeat match goal with |- context [?a =? c] => replace (a =? c) with false by (symmetry; lia) end.
    reflexivity. }
  assert (Big : 18 < c -> GWFrames_to_waveforms c = Err IndexError).
  { intros H. unfold GWFrames_to_waveforms. replace (c <? 8) with false by (symmetry; lia).
    unfold py_get. change (Z.of_nat (length DataType)) with 11.
    replace (c - 8 <? 0) with false by (symmetry; lia).
    replace (0 <=? c - 8) with true by (symmetry; lia).
    replace (c - 8 <? 11) with false by (symmetry; lia). reflexivity. }
  assert (Mid : 0 <= c <= 18 -> exists d, GWFrames_to_waveforms c = Ok d /\ is_datatype d).
  { intros H.
    assert (c = 0 \/ c = 1 \/ c = 2 \/ c = 3 \/ c = 4 \/ c = 5 \/ c = 6 \/ c = 7 \/ c = 8 \/ c = 9 \/ c = 10
      \/ c = 11 \/ c = 12 \/ c = 13 \/ c = 14 \/ c = 15 \/ c = 16 \/ c = 17 \/ c = 18) as K by lia.
    unfold is_datatype.
    clear Neg Big H. repeat match type of K with _ \/ _ => destruct K as [K|K] end; subst c;
      (eexists; split; [reflexivity|vm_compute; split; discriminate]). }
  split; [|split; [|split; assumption]].
  - split; [intros H; destruct (Mid H) as (d & E & _); eauto|].
    intros [d E]. destruct (Z_lt_dec c 0) as [N|N]; [rewrite (Neg N) in E; discriminate|].
    destruct (Z_lt_dec 18 c) as [B|B]; [rewrite (Big B) in E; discriminate|]. lia.
  - intros d E. destruct (Z_lt_dec c 0) as [N|N]; [rewrite (Neg N) in E; discriminate|].
    destruct (Z_lt_dec 18 c) as [B|B]; [rewrite (Big B) in E; discriminate|].
    destruct (Mid ltac:(lia)) as (d' & E' & D). congruence.
Qed.

(** * C14 *)
Definition is_physical (d : Z) : Prop := 1 <= d <= 10.

(** Derived weights: each Weyl scalar psi_n has spin 2-n; with r scaled out all of them (and the
    combined type psin) have conformal weight -3, which is what mixing them in a boost needs. *)
Theorem C14_weyl_weights : forall n, 0 <= n <= 4 ->
  spin_weight (psi0 + n) = Ok (2 - n)
  /\ r_scaling (psi0 + n) = Ok (5 - n)
  /\ conformal_weight (psi0 + n) true = Ok (-3)
  /\ conformal_weight psin true = Ok (-3)
  /\ conformal_weight (psi0 + n) false = spin_weight (psi0 + n)
  /\ m_scaling (psi0 + n) = Ok 2
  /\ gamma_weight (psi0 + n) true true = Ok (n - 3).
Proof.
  intros n H. assert (n = 0 \/ n = 1 \/ n = 2 \/ n = 3 \/ n = 4) as K by lia.
  repeat match type of K with _ \/ _ => destruct K as [K|K] end; subst n; vm_compute; repeat split; reflexivity.
Qed.

(** Time derivatives lower the conformal weight by one and need one more mass factor: h -> hdot,
    sigma -> (minus the conjugate of) news, and hdot -> psi4. *)
Theorem C14_time_derivative_weights : forall a b, In (a, b) [(h, hdot); (hdot, psi4); (h, news)] ->
  exists s c m r, spin_weight a = Ok s /\ spin_weight b = Ok s
    /\ (forall f, exists c0, conformal_weight a f = Ok c0 /\ conformal_weight b f = Ok (c0 - 1))
    /\ conformal_weight a false = Ok c
    /\ m_scaling a = Ok m /\ m_scaling b = Ok (m + 1)
    /\ r_scaling a = Ok r /\ r_scaling b = Ok r.
Proof.
  intros a b [H|[H|[H|[]]]]; injection H as <- <-; eexists _, _, _, _;
    (split; [reflexivity|]; split; [reflexivity|]; split; [intros []; eexists; split; reflexivity|];
     repeat (split; [reflexivity|]); reflexivity).
Qed.

(** The shear is half the conjugate strain: opposite spin, same mass exponent; it is stored with one more power of
    r than the strain, and with r scaled out both transform with the same conformal weight. *)
Theorem C14_shear_weights : exists s m r, spin_weight h = Ok s /\ spin_weight sigma = Ok (- s)
  /\ m_scaling h = Ok m /\ m_scaling sigma = Ok m /\ r_scaling h = Ok r /\ r_scaling sigma = Ok (r + 1)
  /\ conformal_weight sigma true = conformal_weight h true
  /\ s = -2 /\ m = 0 /\ r = 1.
Proof. exists (-2), 0, 1. vm_compute. repeat split. Qed.
(** The asymptotic strain and shear are both lengths and the news has no unit, so that with everything scaled out
    the powers of the mass should be equal for strain and shear and one higher for the news.  This holds for the
    strain but not for the shear, whose mass exponent is one too low for its power of r. *)
Theorem C14_shear_mass_exponent_refuted : exists a,
  gamma_weight h true true = Ok a /\ gamma_weight hdot true true = Ok (a + 1) /\ gamma_weight news true true = Ok (a + 1)
  /\ gamma_weight psi4 true true = Ok (a + 2) /\ gamma_weight sigma true true = Ok (a - 1).
Proof. exists (-1). vm_compute. repeat split. Qed.

Open Scope R_scope.

Lemma m_sun_pos : 0 < m_sun_in_meters.
Proof. unfold m_sun_in_meters; lra. Qed.
Lemma c_pos : 0 < speed_of_light.
Proof. unfold speed_of_light; lra. Qed.
Lemma parsec_pos : 0 < parsec_in_meters.
Proof. unfold parsec_in_meters; lra. Qed.

(** What "scaled out" means: the stored number for a physical value [x] observed at distance [R]
    (metres) from a source of mass [M] (metres). *)
Definition stored (rs ms : Z) (r m : bool) (Rm M x : R) : R :=
  x * (if r then powerRZ (Rm / M) rs else 1) * (if m then powerRZ M ms else 1).

Lemma powerRZ_cancel : forall x n, x <> 0 -> powerRZ x n * powerRZ x (- n) = 1.
Proof. intros x n H. rewrite <- powerRZ_add by assumption. rewrite Z.add_opp_diag_r. reflexivity. Qed.

(** SI_units undoes the scaling: if every stored entry is the scaled version of a physical entry,
    then the output holds the physical entries, in seconds and metres, with both flags cleared. *)
Theorem C14_SI_units_unscales : forall w mass dist x t, is_physical (u_type w) -> 0 < mass -> 0 < dist ->
  let M := mass * m_sun_in_meters in
  let Rm := dist * (1000000 * parsec_in_meters) in
  forall rs ms, r_scaling (u_type w) = Ok rs -> m_scaling (u_type w) = Ok ms ->
  u_data w = map (map (fun z => Cscale (stored rs ms (u_r w) (u_m w) Rm M 1) z)) x ->
  u_t w = map (fun s => if u_m w then s / (M / speed_of_light) else s) t ->
  SI_units w mass dist = Ok (mkuwave t x (u_type w) false false).
Proof.
  intros w mass dist x t Hd Hm Hdist M Rm rs ms Hrs Hms Hx Ht.
  pose proof m_sun_pos. pose proof c_pos. pose proof parsec_pos.
  assert (HM : 0 < M) by (unfold M; nra).
  assert (HR : 0 < Rm) by (unfold Rm; nra).
  unfold SI_units. rewrite Hrs, Hms. cbn [rbind]. fold M. fold Rm. f_equal.
  assert (HRM : Rm / M <> 0) by (apply Rgt_not_eq, Rdiv_lt_0_compat; assumption).
  assert (HMn : M <> 0) by lra.
  f_equal.
  - rewrite Ht. destruct (u_m w).
    + rewrite map_map. rewrite <- (map_id t) at 2. apply map_ext. intros s. field. lra.
    + rewrite map_id. reflexivity.
  - rewrite Hx. rewrite map_map. rewrite <- (map_id x) at 2. apply map_ext. intros row.
    rewrite map_map. rewrite <- (map_id row) at 2. apply map_ext. intros z.
    assert (E : amplitude_scaling rs ms (u_r w) (u_m w) (Rm / M) M
                * stored rs ms (u_r w) (u_m w) Rm M 1 = 1).
    { unfold amplitude_scaling, stored.
      pose proof (powerRZ_cancel _ rs HRM) as E1. pose proof (powerRZ_cancel _ ms HMn) as E2.
      destruct (u_r w), (u_m w).
      - transitivity ((powerRZ (Rm/M) rs * powerRZ (Rm/M) (- rs)) * (powerRZ M ms * powerRZ M (- ms))); [ring|].
        rewrite E1, E2. ring.
      - transitivity (powerRZ (Rm/M) rs * powerRZ (Rm/M) (- rs)); [ring|exact E1].
      - transitivity (powerRZ M ms * powerRZ M (- ms)); [ring|exact E2].
      - ring. }
    destruct z as [zr zi]. unfold Cscale. cbn [re im].
    f_equal; rewrite <- Rmult_assoc, E; ring.
Qed.

(** A second conversion changes nothing. *)
Theorem C14_SI_units_idempotent : forall w mass dist mass' dist' w', is_physical (u_type w) ->
  SI_units w mass dist = Ok w' -> SI_units w' mass' dist' = Ok w'.
Proof.
  intros w mass dist mass' dist' w' Hd H. unfold SI_units in H.
  destruct (r_scaling (u_type w)) as [rs|] eqn:Er; [|discriminate].
  destruct (m_scaling (u_type w)) as [ms|] eqn:Em; [|discriminate].
  cbn [rbind] in H. injection H as <-. unfold SI_units. cbn [u_type u_r u_m u_t u_data].
  rewrite Er, Em. cbn [rbind]. f_equal. f_equal.
  set (D := map _ (u_data w)). rewrite <- (map_id D) at 2. apply map_ext. intros row.
  rewrite <- (map_id row) at 2. apply map_ext. intros [zr zi]. unfold Cscale, amplitude_scaling.
  cbn [re im]. f_equal; ring.
Qed.

(** Every data type, known or not, has table entries, so SI_units never raises on a valid object. *)
Theorem C14_SI_units_total : forall w mass dist, is_datatype (u_type w) ->
  exists w', SI_units w mass dist = Ok w' /\ u_r w' = false /\ u_m w' = false
    /\ length (u_t w') = length (u_t w) /\ length (u_data w') = length (u_data w).
Proof.
  intros w mass dist H. unfold SI_units.
  assert (exists rs, r_scaling (u_type w) = Ok rs) as [rs ->] by (dcases (u_type w) H; eexists; reflexivity).
  assert (exists ms, m_scaling (u_type w) = Ok ms) as [ms ->] by (dcases (u_type w) H; eexists; reflexivity).
  cbn [rbind]. eexists. split; [reflexivity|]. cbn. split; [reflexivity|]. split; [reflexivity|].
  split; [destruct (u_m w); [apply map_length|reflexivity]|apply map_length].
Qed.

(** make_variable_dimensionless: data [D = r^rs x] in units where the mass is [M] becomes the
    dimensionless [(r/M)^rs M^ms x], for the seven data types it knows; others raise. *)
Theorem C14_dimensionless : forall w M, 0 < M -> u_m w = false -> is_datatype (u_type w) ->
  match make_variable_dimensionless w M with
  | Ok w' => exists rs ms, r_scaling (u_type w) = Ok rs /\ m_scaling (u_type w) = Ok ms
      /\ w' = mkuwave (map (fun t => t / M) (u_t w)) (map (map (Cscale (powerRZ M (ms - rs)))) (u_data w))
                      (u_type w) (u_r w) true
      /\ ((psi0 <= u_type w <= psi4)%Z \/ u_type w = h \/ u_type w = hdot)
  | Err e => e = ValueError /\ (u_type w = UnknownDataType \/ u_type w = sigma \/ u_type w = news \/ u_type w = psin)
  end.
Proof.
  intros w M HM Hm H. unfold make_variable_dimensionless. rewrite Hm.
  destruct w as [t d ty r m]. cbn [u_type u_t u_data u_r u_m] in *. subst m.
  unfold psi0, psi4, h, hdot, UnknownDataType, sigma, news, psin.
  assert (P1 : powerRZ M (0 - 1) = 1 / M) by (change (powerRZ M (0 - 1)) with (/ (M * 1)); field; lra).
  assert (P2 : powerRZ M (1 - 1) = 1) by reflexivity.
  dcases ty H; cbn -[powerRZ Z.sub r_scaling m_scaling]; try (split; [reflexivity|tauto]);
    match goal with |- exists rs ms, r_scaling ?d = _ /\ _ =>
      let a := eval vm_compute in (r_scaling d) in let b := eval vm_compute in (m_scaling d) in
      match a with Ok ?x => match b with Ok ?y => exists x, y end end end;
    (split; [reflexivity|]; split; [reflexivity|]; split; [|lia]);
    rewrite ?P1, ?P2; reflexivity.
Qed.

(** ... and then SI_units gives back the physical data: the two tables agree. *)
Theorem C14_dimensionless_then_SI : forall w mass dist w1 x t, 0 < mass -> 0 < dist ->
  is_datatype (u_type w) -> u_r w = true -> u_m w = false ->
  let M := mass * m_sun_in_meters in
  let Rm := dist * (1000000 * parsec_in_meters) in
  forall rs, r_scaling (u_type w) = Ok rs ->
  (* w holds R^rs times the physical data, times in metres *)
  u_data w = map (map (Cscale (powerRZ Rm rs))) x ->
  u_t w = map (fun s => s * speed_of_light) t ->
  make_variable_dimensionless w M = Ok w1 ->
  SI_units w1 mass dist = Ok (mkuwave t x (u_type w) false false).
Proof.
  intros w mass dist w1 x t Hm Hdist Hd Hr Hmf M Rm rs Hrs Hx Ht H1.
  pose proof m_sun_pos. pose proof c_pos. pose proof parsec_pos.
  assert (HM : 0 < M) by (unfold M; nra).
  assert (HR : 0 < Rm) by (unfold Rm; nra).
  pose proof (C14_dimensionless w M HM Hmf Hd) as D. rewrite H1 in D.
  destruct D as (rs' & ms & Hrs' & Hms & -> & K). rewrite Hrs in Hrs'. injection Hrs' as <-.
  refine (C14_SI_units_unscales _ mass dist x t _ Hm Hdist rs ms _ _ _ _); cbn [u_type u_data u_t u_r u_m].
  - unfold is_physical, psi0, psi4, h, hdot in *. lia.
  - assumption.
  - assumption.
  - fold M. fold Rm. rewrite Hr, Hx, map_map. apply map_ext. intros row. rewrite map_map. apply map_ext.
    intros [zr zi]. unfold Cscale, stored. cbn [re im].
    assert (E : powerRZ M (ms - rs) * powerRZ Rm rs = 1 * powerRZ (Rm / M) rs * powerRZ M ms).
    { unfold Rdiv. rewrite powerRZ_mult. rewrite powerRZ_inv' by lra.
      unfold Z.sub. rewrite powerRZ_add by lra. rewrite powerRZ_neg' by lra. field.
      apply powerRZ_NOR; lra. }
    f_equal; rewrite <- E; ring.
  - rewrite Ht, map_map. apply map_ext. intros s. fold M. field. lra.
Qed.

(** The docstring promises s^-2 for the curvature scalars; the factor applied is in metres. *)
Theorem C14_SI_units_seconds_refuted : exists w mass dist w', 0 < mass /\ 0 < dist
  /\ u_type w = psi4 /\ u_r w = true /\ u_m w = true
  /\ SI_units w mass dist = Ok w'
  /\ let M_m := mass * m_sun_in_meters in
     let M_s := M_m / speed_of_light in
     let R_over_M := dist * (1000000 * parsec_in_meters) / M_m in
     u_data w' = [[Cscale (/ R_over_M * / (M_m * M_m)) C1]]
     /\ u_data w' <> [[Cscale (/ R_over_M * / (M_s * M_s)) C1]].
Proof.
  exists (mkuwave [0] [[C1]] psi4 true true), 1, 1. eexists.
  split; [lra|]. split; [lra|]. split; [reflexivity|]. split; [reflexivity|]. split; [reflexivity|].
  split; [reflexivity|]. cbv zeta. cbn [u_data map].
  assert (A : forall X Y, amplitude_scaling 1 2 true true X Y = / (X * 1) * / (Y * (Y * 1))) by reflexivity.
  rewrite A.
  pose proof m_sun_pos. pose proof c_pos. pose proof parsec_pos.
  set (m := m_sun_in_meters) in *. set (c := speed_of_light) in *. set (p := parsec_in_meters) in *.
  assert (Hc : c = 299792458) by reflexivity.
  split.
  - f_equal. f_equal. f_equal. rewrite !Rmult_1_r. reflexivity.
  - intros H2. injection H2 as H2 _. cbn in H2.
    assert (E : 1 * (1000000 * p) / (1 * m) = 1000000 * p / m) by (f_equal; ring).
    assert (K : c * c = 1).
    { apply Rmult_eq_reg_l with (/ (1 * (1000000 * p) / (1 * m)) * / (1 * m * (1 * m))).
      - transitivity (/ (1 * (1000000 * p) / (1 * m) * 1) * / (1 * m * (1 * m * 1)) * 1).
        + rewrite H2. field. repeat split; lra.
        + field. lra.
      - apply Rmult_integral_contrapositive_currified; apply Rinv_neq_0_compat.
        + apply Rgt_not_eq. apply Rdiv_lt_0_compat; lra.
        + apply Rgt_not_eq. nra. }
    rewrite Hc in K. lra.
Qed.

(** Non-trivial instance: one psi4 mode at two times. *)
Example C14_case : exists w w', u_type w = psi4 /\ u_m w = false /\ u_t w = [1; 2]
  /\ make_variable_dimensionless w 3 = Ok w' /\ u_data w' = [[mkC 6 0]; [mkC 0 3]] /\ u_m w' = true.
Proof.
  exists (mkuwave [1; 2] [[mkC 2 0]; [mkC 0 1]] psi4 true false). eexists.
  repeat (split; [reflexivity|]). split; [|reflexivity]. cbn [u_data map].
  assert (E : forall a b a' b', 3 * 1 * a = a' -> 3 * 1 * b = b' -> Cscale (powerRZ 3 (psi4 - 4)) (mkC a b) = mkC a' b').
  { intros a b a' b' Ha Hb. unfold Cscale. cbn [re im]. change (powerRZ 3 (psi4 - 4)) with (3 * 1). congruence. }
  cbn [u_type] in *. rewrite (E 2 0 6 0), (E 0 1 0 3) by lra. reflexivity.
Qed.
