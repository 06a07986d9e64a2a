(** * Rotation of asymptotic Bondi data about the z axis without the grid *)
From Coq Require Import Reals ZArith List Bool Lia Lra.
From Verif Require Import Common Cplx Quat Modes_Model Create_Model Times_Model Tables_Model Modal_Model Kwargs_Model Transform_Model Rotate_Model
  Modes_Proofs Modal_Proofs Rotate_Proofs Times_Proofs Kwargs_Proofs Transform_Proofs Wigner_Model Wigner_Proofs Sphere_Model Sphere_Proofs Harmonics_Proofs
  Pipeline_Model Pipeline_Proofs Abdpipe_Model Abdpipe_Proofs Align_Model Align_Proofs Zturn_Model.
Import ListNotations.
Open Scope R_scope.

(** ** Specification *)
(** Same times, range, frame and frame type; mode (l, m) of every field gets the phase m phi, the modes of degree less than
    the spin weight (which no field has) are zero. *)
Definition phased (phi : R) (b b' : bdata) : Prop :=
  bd_u b' = bd_u b /\ bd_hi b' = bd_hi b /\ bd_frameType b' = bd_frameType b /\ bd_frame b' = bd_frame b /\ data_ok b' /\
  forall f i l m, (f < 6)%nat -> (i < length (bd_u b))%nat -> valid 0 (bd_hi b) l m ->
    bmode b' f i l m = if (Z.abs (spin_of f) <=? l)%Z then (bmode b f i l m * cis (IZR m * phi))%C else C0.
(** A series with the modes from ell = 0 to ell_max at every time *)
Definition series_ok (a : mts) : Prop :=
  (0 <= mt_hi a)%Z /\ length (mt_data a) = length (mt_t a) /\ forall row, In row (mt_data a) -> length row = length (LM_range 0 (mt_hi a)).
Definition smode (a : mts) (i : nat) (l m : Z) : C := mode 0 (nth i (mt_data a) []) l m.

(** ** Rows *)
Lemma Cscale_0 : forall x, Cscale x C0 = C0.
Proof. intros x. apply C_eq; cbn; ring. Qed.
Lemma start : forall a, (0 <= a)%Z -> LM_index a (- a) 0 = (a ^ 2)%Z.
Proof. intros. unfold LM_index. nia. Qed.
Lemma range_length : forall lo hi, (0 <= lo)%Z -> (lo <= hi + 1)%Z -> Z.of_nat (length (LM_range lo hi)) = ((hi + 1) ^ 2 - lo ^ 2)%Z.
Proof. intros lo hi H1 H2. pose proof (LM_range_length lo hi H1 H2). nia. Qed.
Lemma skip_mode : forall a row l m, (0 <= a <= l)%Z -> (- l <= m <= l)%Z -> mode a (skipn (Z.to_nat (a ^ 2)) row) l m = mode 0 row l m.
Proof.
  intros a row l m Hl Hm. unfold mode. rewrite nth_skipn. f_equal. unfold LM_index. nia.
Qed.
Lemma pad_mode : forall a row l m, (0 <= a)%Z -> (0 <= l)%Z -> (- l <= m <= l)%Z ->
  mode 0 (repeat C0 (Z.to_nat (a ^ 2)) ++ row) l m = if (l <? a)%Z then C0 else mode a row l m.
Proof.
  intros a row l m Ha Hl Hm. unfold mode. destruct (Z.ltb_spec l a) as [H|H].
  - rewrite app_nth1 by (rewrite repeat_length; unfold LM_index; nia). apply nth_repeat.
  - rewrite app_nth2 by (rewrite repeat_length; unfold LM_index; nia). rewrite repeat_length. f_equal. unfold LM_index. nia.
Qed.
Lemma scale_mode : forall x lo row l m, mode lo (map (Cscale x) row) l m = Cscale x (mode lo row l m).
Proof. intros. unfold mode. rewrite <- (map_nth (Cscale x)). rewrite Cscale_0. reflexivity. Qed.
Lemma bar_mode : forall s hi row l m, valid 0 hi l m -> mode 0 (bar_row s hi row) l m = Cscale (sgn (s + m)) (Conj (mode 0 row l (- m))).
Proof. intros s hi row l m Hv. unfold bar_row. rewrite mode_map by (assumption || lia). reflexivity. Qed.
Lemma skip_length : forall a hi (row : list C), (0 <= a <= hi + 1)%Z -> length row = length (LM_range 0 hi) -> length (skipn (Z.to_nat (a ^ 2)) row) = length (LM_range a hi).
Proof.
  intros a hi row Ha H. rewrite skipn_length, H. pose proof (range_length 0 hi ltac:(lia) ltac:(lia)). pose proof (range_length a hi ltac:(lia) ltac:(lia)). nia.
Qed.
Lemma pad_ok : forall lo hi row, (0 <= lo <= hi + 1)%Z -> length row = length (LM_range lo hi) ->
  from_ell_min lo hi row = Ok (repeat C0 (Z.to_nat (lo ^ 2)) ++ row) /\ length (repeat C0 (Z.to_nat (lo ^ 2)) ++ row) = length (LM_range 0 hi).
Proof.
  intros lo hi row H L. pose proof (range_length lo hi ltac:(lia) ltac:(lia)) as E. pose proof (range_length 0 hi ltac:(lia) ltac:(lia)) as E0. split.
  - unfold from_ell_min. rewrite L, E. rewrite Z.eqb_refl. reflexivity.
  - rewrite app_length, repeat_length, L. nia.
Qed.
Lemma row_equal : forall hi row row', length row = length (LM_range 0 hi) -> length row' = length (LM_range 0 hi) ->
  (forall l m, valid 0 hi l m -> mode 0 row l m = mode 0 row' l m) -> row = row'.
Proof.
  intros hi row row' H H' E. rewrite (row_map 0 hi row), (row_map 0 hi row') by (assumption || lia). apply map_ext_in. intros [l m] I. apply LM_range_In in I.
  apply E. split; cbn [fst snd]; lia.
Qed.
Lemma nth_map_row : forall (f : list C -> list C) rows i, (i < length rows)%nat -> nth i (map f rows) [] = f (nth i rows []).
Proof. intros f rows i H. rewrite (nth_indep _ [] (f [])) by (rewrite map_length; exact H). apply map_nth. Qed.

(** ** Conversions *)
Lemma to_wave : forall a dt, series_ok a -> (Z.abs (mt_s a) <= mt_hi a)%Z ->
  pw_lo (MT_to_WM a dt) = Z.abs (mt_s a) /\ length (pw_data (MT_to_WM a dt)) = length (mt_data a) /\
  (forall row, In row (pw_data (MT_to_WM a dt)) -> length row = length (LM_range (Z.abs (mt_s a)) (mt_hi a))) /\
  forall i l m, (i < length (mt_data a))%nat -> valid (Z.abs (mt_s a)) (mt_hi a) l m ->
    mode (Z.abs (mt_s a)) (nth i (pw_data (MT_to_WM a dt)) []) l m = smode a i l m.
Proof.
  intros a dt (H0 & HL & HR) Hs. cbn [MT_to_WM pw_lo pw_data]. rewrite start by lia. split; [reflexivity|]. split; [apply map_length|]. split.
  - intros row I. apply in_map_iff in I. destruct I as (r & <- & I). apply skip_length; [lia|]. apply HR, I.
  - intros i l m Hi [Hl Hm]. rewrite nth_map_row by exact Hi. apply skip_mode; lia.
Qed.
Lemma from_wave : forall w s, spin_weight (pw_dataType w) = Ok s -> (0 <= pw_lo w <= pw_hi w)%Z -> length (pw_data w) = length (pw_t w) ->
  (forall row, In row (pw_data w) -> length row = length (LM_range (pw_lo w) (pw_hi w))) ->
  exists a, WM_to_MT w = Ok a /\ mt_t a = pw_t w /\ mt_s a = s /\ mt_hi a = pw_hi w /\ series_ok a /\
    forall i l m, (i < length (pw_t w))%nat -> valid 0 (pw_hi w) l m ->
      smode a i l m = if (l <? pw_lo w)%Z then C0 else mode (pw_lo w) (nth i (pw_data w) []) l m.
Proof.
  intros w s Es Hr HL HR. unfold WM_to_MT. rewrite Es. cbn [rbind].
  rewrite (each_ok _ _ _ (fun row => repeat C0 (Z.to_nat (pw_lo w ^ 2)) ++ row)) by (intros row I; apply pad_ok; [lia|apply HR, I]).
  cbn [rbind]. eexists. split; [reflexivity|]. cbn [mt_t mt_s mt_hi mt_data]. repeat (split; [reflexivity|]). split.
  - split; [cbn; lia|]. cbn [mt_data mt_t mt_hi]. split; [rewrite map_length; exact HL|]. intros row I. apply in_map_iff in I. destruct I as (r & <- & I).
    apply pad_ok; [lia|apply HR, I].
  - intros i l m Hi [Hl Hm]. unfold smode. cbn [mt_data]. rewrite nth_map_row by lia. apply pad_mode; lia.
Qed.
(** There and back: the same series with the modes that the spin weight does not allow set to zero, so the same series if
    it has none.  The data type must have the spin weight of the series. *)
Theorem C71_series_round_trip : forall a dt, series_ok a -> (Z.abs (mt_s a) <= mt_hi a)%Z -> spin_weight dt = Ok (mt_s a) ->
  (forall i l m, (i < length (mt_t a))%nat -> valid 0 (mt_hi a) l m -> (l < Z.abs (mt_s a))%Z -> smode a i l m = C0) ->
  WM_to_MT (MT_to_WM a dt) = Ok a.
Proof.
  intros a dt HA Hs Ed HZ. destruct (to_wave a dt HA Hs) as (W1 & W2 & W3 & W4). assert (HA' := HA). destruct HA' as (H0 & HL & HR).
  destruct (from_wave (MT_to_WM a dt) (mt_s a) Ed) as (a' & E & T & S & L & O & M); try rewrite W1; try rewrite W2; try assumption; [cbn [MT_to_WM pw_hi]; lia|].
  rewrite E. f_equal. rewrite W1 in M. change (pw_t (MT_to_WM a dt)) with (mt_t a) in *. change (pw_hi (MT_to_WM a dt)) with (mt_hi a) in *.
  destruct O as (O0 & OL & OR). destruct a' as [t' s' hi' d'], a as [t s hi d]. cbn [mt_t mt_s mt_hi mt_data] in *. subst. f_equal.
  apply nth_ext with (d := []) (d' := []); [lia|]. intros i Hi. apply (row_equal hi); [apply OR, nth_In; lia|apply HR, nth_In; lia|].
  intros l m Hv. specialize (M i l m ltac:(lia) Hv). unfold smode in *. cbn [mt_data] in *. rewrite M. destruct (Z.ltb_spec l (Z.abs s)) as [K|K].
  - symmetry. apply HZ; [lia|exact Hv|exact K].
  - apply W4; [lia|]. destruct Hv. split; lia.
Qed.
(** The other way round, for an inertial waveform beginning at the spin weight. *)
Theorem C71_wave_round_trip : forall w s, spin_weight (pw_dataType w) = Ok s -> pw_lo w = Z.abs s -> (Z.abs s <= pw_hi w)%Z -> length (pw_data w) = length (pw_t w) ->
  (forall row, In row (pw_data w) -> length row = length (LM_range (pw_lo w) (pw_hi w))) -> pw_frame w = [] -> pw_frameType w = InertialFrame -> pw_r w = true ->
  exists a, WM_to_MT w = Ok a /\ mt_s a = s /\ MT_to_WM a (pw_dataType w) = w.
Proof.
  intros w s Es Hlo Hs HL HR F1 F2 F3. unfold WM_to_MT. rewrite Es. cbn [rbind].
  rewrite (each_ok _ _ _ (fun row => repeat C0 (Z.to_nat (pw_lo w ^ 2)) ++ row)) by (intros row I; apply pad_ok; [lia|apply HR, I]).
  cbn [rbind]. eexists. split; [reflexivity|]. split; [reflexivity|]. unfold MT_to_WM. cbn [mt_t mt_s mt_hi mt_data]. rewrite start by lia. rewrite map_map, Hlo.
  destruct w as [t d lo hi fr ft dt r]. cbn [pw_t pw_data pw_lo pw_hi pw_frame pw_frameType pw_dataType pw_r] in *. subst. f_equal.
  rewrite <- (map_id d) at 2. apply map_ext. intros row. rewrite skipn_app, repeat_length, Nat.sub_diag, skipn_O.
  rewrite skipn_all2 by (rewrite repeat_length; lia). reflexivity.
Qed.
(** The type is not worked out from the series: it comes back with the spin weight of the type ... *)
Theorem C71_type_needed : forall a dt s, series_ok a -> (Z.abs (mt_s a) <= mt_hi a)%Z -> spin_weight dt = Ok s ->
  exists a', WM_to_MT (MT_to_WM a dt) = Ok a' /\ mt_s a' = s /\ (s <> mt_s a -> a' <> a).
Proof.
  intros a dt s HA Hs Ed. destruct (to_wave a dt HA Hs) as (W1 & W2 & W3 & W4). destruct HA as (H0 & HL & HR).
  destruct (from_wave (MT_to_WM a dt) s) as (a' & E & T & S & L & O & M); try rewrite W1; try rewrite W2; try assumption; [cbn [MT_to_WM pw_hi]; lia|].
  exists a'. split; [exact E|]. split; [exact S|]. intros N. congruence.
Qed.
(** ... which is -2 with the default, a strain. *)
Theorem C71_default_type_refuted : forall a, series_ok a -> (Z.abs (mt_s a) <= mt_hi a)%Z -> mt_s a <> (-2)%Z ->
  exists a', WM_to_MT (MT_to_WM a h) = Ok a' /\ mt_s a' = (-2)%Z /\ a' <> a.
Proof.
  intros a HA Hs N. destruct (C71_type_needed a h (-2) HA Hs eq_refl) as (a' & E & S & K). exists a'. split; [exact E|]. split; [exact S|]. apply K. congruence.
Qed.

(** ** Rotation *)
Section Turn.
Variable garbage : Z -> list C.
Hypothesis garbage_len : forall n, (0 <= n)%Z -> zlen (garbage n) = n.

Lemma minus_half : forall phi, qconj (qexp_vec (scalev (/ 2) (scalev (- phi) (0, 0, 1)))) = mkq (cos (phi / 2)) 0 0 (sin (phi / 2)).
Proof.
  intros phi. assert (E : qexp_vec (scalev (/ 2) (scalev (- phi) (0, 0, 1))) = exp_z (- (phi / 2))).
  { unfold exp_z. f_equal. unfold scalev. f_equal; [f_equal|]; field. }
  rewrite E, exp_z_value, cos_neg, sin_neg. apply quat_eq; cbn; ring.
Qed.
Lemma rotate_wave_ok : forall w phi, (0 <= pw_lo w <= pw_hi w)%Z -> (forall row, In row (pw_data w) -> length row = length (LM_range (pw_lo w) (pw_hi w))) ->
  exists w', rotate_wave wigner_doc garbage w (qexp_vec (scalev (/ 2) (scalev (- phi) (0, 0, 1)))) = Ok w' /\
    pw_t w' = pw_t w /\ pw_dataType w' = pw_dataType w /\ pw_lo w' = pw_lo w /\ pw_hi w' = pw_hi w /\ length (pw_data w') = length (pw_data w) /\
    (forall row, In row (pw_data w') -> length row = length (LM_range (pw_lo w) (pw_hi w))) /\
    forall i l m, (i < length (pw_data w))%nat -> valid (pw_lo w) (pw_hi w) l m ->
      mode (pw_lo w) (nth i (pw_data w') []) l m = (mode (pw_lo w) (nth i (pw_data w) []) l m * cis (IZR m * phi))%C.
Proof.
  intros w phi Hr HR. unfold rotate_wave, rotate_physical. cbn [conj_rotors rbind]. rewrite minus_half. set (W := mkrw _ _ _ _ _).
  assert (WF : wf W).
  { split; [exact Hr|]. apply Forall_forall. intros row I. cbn [W rw_hi rw_lo]. rewrite (HR row I). apply range_length; lia. }
  pose proof (C25_constant wigner_D wigner_doc garbage doc_fills garbage_len W (mkq (cos (phi / 2)) 0 0 (sin (phi / 2))) _ WF (or_introl eq_refl)) as (W'' & E'' & _ & (TL & TH & _) & _).
  destruct (C25_documented_z garbage garbage_len W (phi / 2) WF) as (W' & E & WF' & L & M).
  assert (W'' = W') by congruence. subst W''.
  rewrite E. cbn [rbind]. eexists. split; [reflexivity|]. cbn [pw_t pw_dataType pw_lo pw_hi pw_data]. split; [reflexivity|]. split; [reflexivity|].
  split; [exact TL|]. split; [exact TH|]. split; [exact L|]. split.
  - intros row I. destruct WF' as [_ WF']. rewrite Forall_forall in WF'. specialize (WF' row I). rewrite TL, TH in WF'. cbn [W rw_lo rw_hi] in WF'.
    pose proof (range_length (pw_lo w) (pw_hi w) ltac:(lia) ltac:(lia)). lia.
  - intros i l m Hi Hv. specialize (M i l m Hi Hv). unfold md in M. rewrite TL in M. cbn [W rw_lo rw_data] in M. rewrite M.
    unfold cis. replace (2 * (phi / 2)) with phi by field. reflexivity.
Qed.
Lemma turn_series : forall a dt phi, series_ok a -> (Z.abs (mt_s a) <= mt_hi a)%Z -> spin_weight dt = Ok (mt_s a) ->
  exists a', rbind (rotate_wave wigner_doc garbage (MT_to_WM a dt) (qexp_vec (scalev (/ 2) (scalev (- phi) (0, 0, 1))))) WM_to_MT = Ok a' /\
    mt_t a' = mt_t a /\ mt_s a' = mt_s a /\ mt_hi a' = mt_hi a /\ series_ok a' /\
    forall i l m, (i < length (mt_t a))%nat -> valid 0 (mt_hi a) l m ->
      smode a' i l m = if (Z.abs (mt_s a) <=? l)%Z then (smode a i l m * cis (IZR m * phi))%C else C0.
Proof.
  intros a dt phi HA Hs Ed. destruct (to_wave a dt HA Hs) as (W1 & W2 & W3 & W4). destruct HA as (H0 & HL & HR).
  destruct (rotate_wave_ok (MT_to_WM a dt) phi) as (w' & E & T & D & LO & HI & L & R & M); [rewrite W1; cbn [MT_to_WM pw_hi]; lia|rewrite W1; exact W3|].
  rewrite E. cbn [rbind]. rewrite W1 in *. change (pw_t (MT_to_WM a dt)) with (mt_t a) in *. change (pw_hi (MT_to_WM a dt)) with (mt_hi a) in *.
  change (pw_dataType (MT_to_WM a dt)) with dt in *.
  destruct (from_wave w' (mt_s a)) as (a' & E' & T' & S' & L' & O' & M'); [rewrite D; exact Ed|rewrite LO, HI; lia|rewrite L, T, W2; exact HL|rewrite LO, HI; exact R|].
  exists a'. split; [exact E'|]. split; [congruence|]. split; [exact S'|]. split; [congruence|]. split; [exact O'|].
  intros i l m Hi Hv. assert (Hv' := Hv). destruct Hv' as [Hl Hm]. rewrite M' by (try rewrite T; try rewrite HI; assumption). rewrite LO.
  destruct (Z.ltb_spec l (Z.abs (mt_s a))), (Z.leb_spec (Z.abs (mt_s a)) l); try lia; [reflexivity|].
  rewrite M by (try lia; split; lia). rewrite W4 by (try lia; split; lia). reflexivity.
Qed.
Lemma scale_ok : forall x a, series_ok a -> series_ok (mt_scale x a).
Proof.
  intros x a (H0 & HL & HR). split; [exact H0|]. cbn [mt_scale mt_data mt_t mt_hi]. split; [rewrite map_length; exact HL|].
  intros row I. apply in_map_iff in I. destruct I as (r & <- & I). rewrite map_length. apply HR, I.
Qed.
Lemma scale_smode : forall x a i l m, (i < length (mt_data a))%nat -> smode (mt_scale x a) i l m = Cscale x (smode a i l m).
Proof. intros. unfold smode. cbn [mt_scale mt_data]. rewrite nth_map_row by assumption. apply scale_mode. Qed.
Lemma bar_ok : forall a, series_ok a -> series_ok (mt_bar a).
Proof.
  intros a (H0 & HL & HR). split; [exact H0|]. cbn [mt_bar mt_data mt_t mt_hi]. split; [rewrite map_length; exact HL|].
  intros row I. apply in_map_iff in I. destruct I as (r & <- & I). apply map_length.
Qed.
Lemma bar_smode : forall a i l m, (i < length (mt_data a))%nat -> valid 0 (mt_hi a) l m -> smode (mt_bar a) i l m = Cscale (sgn (mt_s a + m)) (Conj (smode a i l (- m))).
Proof. intros. unfold smode. cbn [mt_bar mt_data]. rewrite nth_map_row by assumption. apply bar_mode. assumption. Qed.
Lemma assign_ok : forall u hi a, series_ok a -> mt_t a = u -> mt_hi a = hi -> assign u hi a = Ok (mt_data a).
Proof.
  intros u hi a (H0 & HL & HR) <- <-. unfold assign. rewrite HL, Nat.eqb_refl. cbn [andb].
  assert (F : forallb (fun row : list C => (Z.of_nat (length row) =? (mt_hi a + 1) ^ 2)%Z) (mt_data a) = true).
  { apply forallb_forall. intros row I. rewrite (HR row I), range_length by lia. apply Z.eqb_eq. lia. }
  rewrite F. reflexivity.
Qed.
Lemma factors : forall N, 2 * (- 1 / sqrt 2) ^ N * (/ 2 * (- sqrt 2) ^ N) = 1.
Proof.
  intros N. replace (2 * (- 1 / sqrt 2) ^ N * (/ 2 * (- sqrt 2) ^ N)) with ((- 1 / sqrt 2) ^ N * (- sqrt 2) ^ N) by field. rewrite <- Rpow_mult_distr.
  assert (0 < sqrt 2) by (apply sqrt_lt_R0; lra). replace (-1 / sqrt 2 * - sqrt 2) with 1 by (field; lra). apply pow1.
Qed.

Lemma turn_psi_ok : forall u hi phi N rows, (N < 5)%nat -> (2 <= hi)%Z -> series_ok (mkmts u (nth N spins 0%Z) hi rows) ->
  exists a', turn_psi wigner_doc garbage u hi (qexp_vec (scalev (/ 2) (scalev (- phi) (0, 0, 1)))) N rows = Ok (mt_data a') /\
    mt_t a' = u /\ mt_hi a' = hi /\ series_ok a' /\
    forall i l m, (i < length u)%nat -> valid 0 hi l m ->
      smode a' i l m = if (Z.abs (spin_of N) <=? l)%Z then (mode 0 (nth i rows []) l m * cis (IZR m * phi))%C else C0.
Proof.
  intros u hi phi N rows HN Hh HA. set (a := mkmts u (nth N spins 0%Z) hi rows) in *. unfold turn_psi. fold a. set (x := / 2 * (- sqrt 2) ^ N).
  assert (S : nth N spins 0%Z = spin_of N) by (destruct N as [|[|[|[|[|N]]]]]; try lia; reflexivity).
  assert (B : (Z.abs (spin_of N) <= 2)%Z) by (destruct N as [|[|[|[|[|N]]]]]; try lia; cbn; lia).
  destruct (turn_series (mt_scale x a) (nth N [psi0; psi1; psi2; psi3; psi4] 0%Z) phi) as (a' & E & T & S' & L & O & M).
  - apply scale_ok, HA.
  - cbn [mt_scale a mt_s mt_hi]. rewrite S. lia.
  - cbn [mt_scale a mt_s]. rewrite S. destruct N as [|[|[|[|[|N]]]]]; try lia; reflexivity.
  - cbv zeta. change (rbind ?p (fun W' => rbind (WM_to_MT W') ?k)) with (rbind p (fun W' => rbind (WM_to_MT W') k)).
    destruct (rotate_wave _ _ _ _) as [w'|e]; cbn [rbind] in E |- *; [|discriminate E]. rewrite E. cbn [rbind].
    exists (mt_scale (2 * (-1 / sqrt 2) ^ N) a'). cbn [mt_scale a mt_t mt_hi mt_s] in T, S', L, M. split; [|split; [exact T|split; [exact L|split; [apply scale_ok, O|]]]].
    + apply assign_ok; [apply scale_ok, O|exact T|exact L].
    + intros i l m Hi Hv. destruct O as (O0 & OL & OR). rewrite T in OL. destruct HA as (_ & AL & _). cbn [a mt_data mt_t] in AL. rewrite scale_smode by lia. rewrite M by assumption. rewrite S.
      destruct (Z.leb_spec (Z.abs (spin_of N)) l); [|apply Cscale_0].
      change (mkmts u (nth N spins 0%Z) hi (map (map (Cscale x)) rows)) with (mt_scale x a). rewrite scale_smode by (cbn [a mt_data]; lia).
      unfold smode. cbn [a mt_data]. rewrite !Cscale_mul. replace (RtoC (2 * (-1 / sqrt 2) ^ N) * (RtoC x * mode 0 (nth i rows []) l m * cis (IZR m * phi)))%C
        with (RtoC (2 * (-1 / sqrt 2) ^ N * x) * (mode 0 (nth i rows []) l m * cis (IZR m * phi)))%C by (rewrite RtoC_mul; ring).
      unfold x. rewrite factors. apply C_eq; cbn; ring.
Qed.
Lemma turn_sigma_ok : forall u hi phi rows, (2 <= hi)%Z -> series_ok (mkmts u 2 hi rows) ->
  exists a', turn_sigma wigner_doc garbage u hi (qexp_vec (scalev (/ 2) (scalev (- phi) (0, 0, 1)))) rows = Ok (mt_data a') /\
    mt_t a' = u /\ mt_hi a' = hi /\ series_ok a' /\
    forall i l m, (i < length u)%nat -> valid 0 hi l m ->
      smode a' i l m = if (2 <=? l)%Z then (mode 0 (nth i rows []) l m * cis (IZR m * phi))%C else C0.
Proof.
  intros u hi phi rows Hh HA. set (a := mkmts u 2 hi rows) in *. unfold turn_sigma. fold a.
  destruct (turn_series (mt_scale 2 (mt_bar a)) h phi) as (a' & E & T & S' & L & O & M).
  - apply scale_ok, bar_ok, HA.
  - cbn. lia.
  - reflexivity.
  - cbv zeta. destruct (rotate_wave _ _ _ _) as [w'|e]; cbn [rbind] in E |- *; [|discriminate E]. rewrite E. cbn [rbind].
    exists (mt_scale (/ 2) (mt_bar a')). cbn [mt_scale mt_bar a mt_t mt_hi mt_s] in T, S', L. split; [|split; [exact T|split; [exact L|split; [apply scale_ok, bar_ok, O|]]]].
    + apply assign_ok; [apply scale_ok, bar_ok, O|exact T|exact L].
    + intros i l m Hi Hv. assert (Hv' := Hv). destruct Hv' as [Hl Hm]. assert (O' := O). destruct O' as (O0 & OL & OR). rewrite T in OL. assert (HA' := HA). destruct HA' as (_ & AL & _). cbn [a mt_data mt_t] in AL.
      rewrite scale_smode by (cbn [mt_bar mt_data]; rewrite map_length; lia). rewrite bar_smode by (try rewrite L; try lia; assumption). rewrite S'.
      change (mt_t (mt_scale 2 (mt_bar a))) with u in M. change (mt_hi (mt_scale 2 (mt_bar a))) with hi in M. change (Z.abs (mt_s (mt_scale 2 (mt_bar a)))) with 2%Z in M.
      rewrite M by (try lia; split; lia). destruct (Z.leb_spec 2 l); [|apply C_eq; cbn; ring].
      rewrite scale_smode by (cbn [mt_bar a mt_data]; rewrite map_length; lia). rewrite bar_smode by (try (cbn [a mt_data]; lia); split; cbn [a mt_hi]; lia).
      unfold smode. cbn [a mt_data mt_s]. rewrite Z.opp_involutive.
      replace (sgn (2 + - m)) with (sgn m) by (rewrite sgn_add, sgn_opp; change (sgn 2) with 1; ring).
      replace (sgn (- (2) + m)) with (sgn m) by (rewrite sgn_add; change (sgn (- (2))) with 1; ring).
      rewrite opp_IZR. set (z := mode 0 (nth i rows []) l m). pose proof (sgn_sq m) as Q. unfold cis. replace (- IZR m * phi) with (- (IZR m * phi)) by ring. rewrite cos_neg, sin_neg.
      destruct (sgn_cases m) as [-> | ->]; apply C_eq; cbn; field.
Qed.

(** The rotation gives every mode its phase and changes nothing else. *)
Theorem C71_rotation : forall b phi, data_ok b -> (2 <= bd_hi b)%Z -> exists b', z_rotation wigner_doc garbage b phi = Ok b' /\ phased phi b b'.
Proof.
  intros b phi (H0 & H6 & H) Hh. unfold z_rotation. cbv zeta. set (q := qexp_vec _).
  assert (P : forall N, (N < 5)%nat -> exists a', turn_psi wigner_doc garbage (bd_u b) (bd_hi b) q N (nth N (bd_fields b) []) = Ok (mt_data a') /\
    mt_t a' = bd_u b /\ mt_hi a' = bd_hi b /\ series_ok a' /\
    forall i l m, (i < length (bd_u b))%nat -> valid 0 (bd_hi b) l m ->
      smode a' i l m = if (Z.abs (spin_of N) <=? l)%Z then (mode 0 (nth i (nth N (bd_fields b) []) []) l m * cis (IZR m * phi))%C else C0).
  { intros N HN. apply turn_psi_ok; [exact HN|exact Hh|]. destruct (H N ltac:(lia)) as [A B]. split; [exact H0|]. split; [exact A|exact B]. }
  destruct (P 0%nat ltac:(lia)) as (a0 & E0 & P0). destruct (P 1%nat ltac:(lia)) as (a1 & E1 & P1). destruct (P 2%nat ltac:(lia)) as (a2 & E2 & P2).
  destruct (P 3%nat ltac:(lia)) as (a3 & E3 & P3). destruct (P 4%nat ltac:(lia)) as (a4 & E4 & P4).
  destruct (turn_sigma_ok (bd_u b) (bd_hi b) phi (nth 5 (bd_fields b) []) Hh) as (a5 & E5 & P5).
  { destruct (H 5%nat ltac:(lia)) as [A B]. split; [exact H0|]. split; [exact A|exact B]. }
  fold q in E5. cbn [seq each]. rewrite E0. cbn [rbind]. rewrite E1. cbn [rbind]. rewrite E2. cbn [rbind]. rewrite E3. cbn [rbind]. rewrite E4. cbn [rbind]. rewrite E5. cbn [rbind app].
  eexists. split; [reflexivity|]. split; [reflexivity|]. split; [reflexivity|]. split; [reflexivity|]. split; [reflexivity|]. split.
  - split; [exact H0|]. split; [reflexivity|]. intros f Hf. cbn [bd_fields bd_u bd_hi].
    assert (K : forall a, mt_t a = bd_u b /\ mt_hi a = bd_hi b /\ series_ok a -> length (mt_data a) = length (bd_u b) /\ forall row, In row (mt_data a) -> length row = length (LM_range 0 (bd_hi b))).
    { intros a (<- & <- & (_ & A & B)). split; assumption. }
    destruct f as [|[|[|[|[|[|f]]]]]]; try lia; cbn [nth]; apply K; [destruct P0 as (? & ? & ? & _)|destruct P1 as (? & ? & ? & _)|destruct P2 as (? & ? & ? & _)|
      destruct P3 as (? & ? & ? & _)|destruct P4 as (? & ? & ? & _)|destruct P5 as (? & ? & ? & _)]; auto.
  - intros f i l m Hf Hi Hv. unfold bmode. cbn [bd_fields].
    destruct f as [|[|[|[|[|[|f]]]]]]; try lia; cbn [nth]; [apply P0|apply P1|apply P2|apply P3|apply P4|apply P5]; assumption.
Qed.
Lemma phased_unique : forall phi b b1 b2, phased phi b b1 -> phased phi b b2 -> b1 = b2.
Proof.
  intros phi b b1 b2 (A1 & A2 & A3 & A4 & A5 & A6) (B1 & B2 & B3 & B4 & B5 & B6). apply data_equal; try congruence.
  intros f i l m Hf Hi Hv. rewrite A1 in Hi. rewrite A2 in Hv. rewrite A6, B6 by assumption. reflexivity.
Qed.
(** It is the transformation with the corresponding frame_rotation, as the documentation says, for data in an inertial frame. *)
Definition about_z (phi : R) : kwargs := mkkw None None None None None None (Some [cos (phi / 2); 0; 0; sin (phi / 2)]) None.
Lemma about_z_only : forall phi, rotation_only (about_z phi) (mkq (cos (phi / 2)) 0 0 (sin (phi / 2))) 0.
Proof.
  intros phi. repeat (split; [reflexivity|]). split; [|right; split; reflexivity]. unfold read_rotation, about_z. cbn [k_rotation quat_of].
  set (q := mkq _ _ _ _). assert (A : qabs q = 1). { unfold qabs, qnorm2, q. cbn [qw qx qy qz]. replace (_ + _ + _ + _) with 1; [apply sqrt_1|]. pose proof (sin2_cos2 (phi / 2)). unfold Rsqr in *. lra. }
  rewrite A. destruct (Rltb_spec 1 (3 / 10 ^ 16)); [exfalso; lra|]. unfold qnormalized. rewrite A. unfold q. cbn [qw qx qy qz]. f_equal. apply quat_eq; cbn; field.
Qed.
Lemma turn_z : forall phi x l m, (0 <= l)%Z -> (- l <= m <= l)%Z -> turn wigner_D (mkq (cos (phi / 2)) 0 0 (sin (phi / 2))) x l m = (x l m * cis (IZR m * phi))%C.
Proof.
  intros phi x l m Hl Hm. unfold turn. transitivity (csum (fun m' => if (m' =? m)%Z then (x l m * cis (IZR m * phi))%C else C0) (ms_of l)).
  - apply csum_ext. intros k Hk. unfold ms_of in Hk. apply zrange_In in Hk. rewrite C25_wigner_z by lia. destruct (Z.eqb_spec k m) as [->|N]; [|ring].
    unfold cis. replace (2 * (phi / 2)) with phi by field. reflexivity.
  - rewrite csum_ms by lia. set (n := Z.to_nat (2 * l)).
    assert (SQ : seq 0 (S n) = (seq 0 (Z.to_nat (l + m)) ++ Z.to_nat (l + m) :: seq (S (Z.to_nat (l + m))) (n - Z.to_nat (l + m)))%list).
    { replace (S n) with (Z.to_nat (l + m) + S (n - Z.to_nat (l + m)))%nat by lia. rewrite seq_app. reflexivity. }
    rewrite SQ, csum_app. cbn [csum].
    rewrite (csum_const0 _ (seq 0 _)). 2: { intros k Hk. apply in_seq in Hk. destruct (Z.eqb_spec (Z.of_nat k - l) m); [lia|]. reflexivity. }
    rewrite (csum_const0 _ (seq (S _) _)). 2: { intros k Hk. apply in_seq in Hk. destruct (Z.eqb_spec (Z.of_nat k - l) m); [lia|]. reflexivity. }
    destruct (Z.eqb_spec (Z.of_nat (Z.to_nat (l + m)) - l) m); [ring|lia].
Qed.
Theorem C71_is_transform : forall spline map2salm b phi, passes spline -> data_ok b -> (2 <= bd_hi b)%Z -> increasing (bd_u b) -> (2 <= length (bd_u b))%nat ->
  bd_frameType b = InertialFrame -> bd_frame b = [] ->
  (forall f, (f < 6)%nat -> exact map2salm (spin_of f) (4 * bd_hi b + 3) (4 * bd_hi b + 3)) ->
  z_rotation wigner_doc garbage b phi = abd_transform spline map2salm b (about_z phi).
Proof.
  intros spline map2salm b phi HP HD Hh HI H2 F1 F2 HX. destruct (C71_rotation b phi HD Hh) as (b1 & E1 & P1). rewrite E1.
  destruct (C69_rotation spline HP map2salm b (about_z phi) _ 0 HD HI H2 (about_z_only phi)) as (b2 & E2 & U & L & D & FT & FR & V); cbn [about_z k_working_ell_max k_output_ell_max dflt] in *; try lia.
  { replace (2 * (2 * bd_hi b + 1) + 1)%Z with (4 * bd_hi b + 3)%Z by ring. exact HX. }
  rewrite E2. f_equal. apply (phased_unique phi b); [exact P1|]. split; [rewrite U; rewrite <- (map_id (bd_u b)) at 2; apply map_ext; intros; ring|].
  split; [exact L|]. split; [congruence|]. split; [congruence|]. split; [exact D|]. intros f i l m Hf Hi Hv. assert (Hv' := Hv). destruct Hv' as [Hl Hm]. rewrite V by assumption.
  destruct (Z.leb_spec l (bd_hi b)); [|lia]. rewrite andb_true_r. destruct (Z.leb_spec (Z.abs (spin_of f)) l); [|reflexivity]. apply turn_z; lia.
Qed.
(** The frame and frame type are kept, whatever they are; the transformation sets them to inertial. *)
Theorem C71_frame_refuted : forall spline map2salm b phi b', data_ok b -> (2 <= bd_hi b)%Z -> bd_frameType b <> InertialFrame \/ bd_frame b <> [] ->
  abd_transform spline map2salm b (about_z phi) = Ok b' -> z_rotation wigner_doc garbage b phi <> Ok b'.
Proof.
  intros spline map2salm b phi b' HD Hh HF HT HR. destruct (C71_rotation b phi HD Hh) as (b1 & E1 & (_ & _ & A & B & _)). assert (b1 = b') by congruence. subst b1.
  unfold abd_transform in HT. repeat match type of HT with rbind ?x _ = Ok _ => destruct x; cbn [rbind] in HT; [|discriminate HT] end.
  apply (f_equal (fun r => match r with Ok x => (bd_frameType x, bd_frame x) | Err _ => (UnknownFrame, []) end)) in HT. cbn [bd_frameType bd_frame] in HT.
  assert (C1 := f_equal fst HT). assert (C2 := f_equal snd HT). cbn [fst snd] in C1, C2. destruct HF; congruence.
Qed.
(** One rotation after another is the rotation by the sum of the angles. *)
Theorem C71_compose : forall b phi psi, data_ok b -> (2 <= bd_hi b)%Z ->
  rbind (z_rotation wigner_doc garbage b phi) (fun b1 => z_rotation wigner_doc garbage b1 psi) = z_rotation wigner_doc garbage b (phi + psi).
Proof.
  intros b phi psi HD Hh. destruct (C71_rotation b phi HD Hh) as (b1 & E1 & (A1 & A2 & A3 & A4 & A5 & A6)). rewrite E1. cbn [rbind].
  destruct (C71_rotation b1 psi A5 ltac:(lia)) as (b2 & E2 & (B1 & B2 & B3 & B4 & B5 & B6)). destruct (C71_rotation b (phi + psi) HD Hh) as (b3 & E3 & P3). rewrite E2, E3. f_equal.
  apply (phased_unique (phi + psi) b); [|exact P3]. split; [congruence|]. split; [congruence|]. split; [congruence|]. split; [congruence|]. split; [exact B5|].
  intros f i l m Hf Hi Hv. rewrite B6 by (try rewrite A1; try rewrite A2; assumption). destruct (Z.leb_spec (Z.abs (spin_of f)) l) as [K|K]; [|reflexivity].
  rewrite A6 by assumption. destruct (Z.leb_spec (Z.abs (spin_of f)) l); [|lia]. rewrite Rmult_plus_distr_l, cis_add. ring.
Qed.
(** Rotating by 0 or by full turns changes nothing, and the opposite angle undoes a rotation, if there are no modes of degree less than the spin weight. *)
Definition clean (b : bdata) : Prop := forall f i l m, (f < 6)%nat -> (i < length (bd_u b))%nat -> valid 0 (bd_hi b) l m -> (l < Z.abs (spin_of f))%Z -> bmode b f i l m = C0.
Lemma cis_turns : forall m n, cis (IZR m * (2 * PI * IZR n)) = C1.
Proof.
  intros m n. replace (IZR m * (2 * PI * IZR n)) with (IZR (2 * (m * n)) * PI) by (rewrite !mult_IZR; ring). unfold cis.
  assert (S : sin (IZR (2 * (m * n)) * PI) = 0) by (apply sin_eq_0_1; eexists; reflexivity).
  assert (C : cos (IZR (2 * (m * n)) * PI) = 1).
  { rewrite mult_IZR. replace (2 * IZR (m * n) * PI) with (2 * (IZR (m * n) * PI)) by ring. rewrite cos_2a. assert (S' : sin (IZR (m * n) * PI) = 0) by (apply sin_eq_0_1; eexists; reflexivity).
    pose proof (sin2_cos2 (IZR (m * n) * PI)). unfold Rsqr in *. rewrite S' in *. lra. }
  rewrite S, C. reflexivity.
Qed.
Theorem C71_full_turns : forall b n, data_ok b -> (2 <= bd_hi b)%Z -> clean b -> z_rotation wigner_doc garbage b (2 * PI * IZR n) = Ok b.
Proof.
  intros b n HD Hh HC. destruct (C71_rotation b (2 * PI * IZR n) HD Hh) as (b1 & E1 & P1). rewrite E1. f_equal. apply (phased_unique (2 * PI * IZR n) b); [exact P1|].
  repeat (split; [reflexivity|]). split; [exact HD|]. intros f i l m Hf Hi Hv. rewrite cis_turns. destruct (Z.leb_spec (Z.abs (spin_of f)) l); [ring|]. apply HC; assumption.
Qed.
Theorem C71_undone : forall b phi, data_ok b -> (2 <= bd_hi b)%Z -> clean b ->
  rbind (z_rotation wigner_doc garbage b phi) (fun b1 => z_rotation wigner_doc garbage b1 (- phi)) = Ok b.
Proof.
  intros b phi HD Hh HC. rewrite C71_compose by assumption. replace (phi + - phi) with (2 * PI * IZR 0) by ring. apply C71_full_turns; assumption.
Qed.
End Turn.

(** ** News of the target *)
(** Times a row, plus a row *)
Definition line (t : R) (c d : list C) : list C := map (fun p => (Cscale t (fst p) + snd p)%C) (combine c d).
Definition exact_on_lines (ddt : list R -> list (list C) -> list (list C)) : Prop :=
  forall u c d, length c = length d -> ddt u (map (fun t => line t c d) u) = map (fun _ => c) u.
Lemma line_zero : forall t c, line t (map (fun _ => C0) c) c = c.
Proof. intros t c. unfold line. induction c as [|x c IH]; [reflexivity|]. cbn [map combine fst snd]. rewrite IH. f_equal. apply C_eq; cbn; ring. Qed.
Lemma line_scaled : forall t c, line t c (map (fun _ => C0) c) = map (Cscale t) c.
Proof. intros t c. unfold line. induction c as [|x c IH]; [reflexivity|]. cbn [map combine fst snd]. rewrite IH. f_equal. apply C_eq; cbn; ring. Qed.
Lemma bar_bar : forall hi row, length row = length (LM_range 0 hi) -> bar_row 2 hi (bar_row (-2) hi row) = row.
Proof.
  intros hi row H. apply (row_equal hi); [apply map_length|exact H|]. intros l m [Hl Hm]. rewrite bar_mode by (split; lia). rewrite bar_mode by (split; lia). rewrite Z.opp_involutive.
  replace (sgn (2 + m)) with (sgn m) by (rewrite sgn_add; change (sgn 2) with 1; ring).
  replace (sgn (-2 + - m)) with (sgn m) by (rewrite sgn_add, sgn_opp; change (sgn (-2)) with 1; ring).
  destruct (sgn_cases m) as [-> | ->]; apply C_eq; cbn; ring.
Qed.
(** The target has exactly the strain of the data, but what is compared with the news of the data is the derivative of the news of the target:
    for a strain growing linearly the news are constant, and those of the target zero. *)
Theorem C71_target_news_refuted : forall ddt u hi (c : list C), exact_on_lines ddt -> (2 <= hi)%Z -> length c = length (LM_range 2 hi) ->
  exists sigma_rows w, MT_to_WM (mt_scale 2 (mt_bar (mkmts u 2 hi sigma_rows))) h = w /\ pw_data w = map (fun t => map (Cscale t) c) u /\
    pw_data (own_news ddt u hi sigma_rows) = map (fun _ => c) u /\
    exists w', target_news ddt w = Ok w' /\ pw_data w' = map (fun _ => map (fun _ => C0) c) u.
Proof.
  intros ddt u hi c HD Hh Hc. set (pad := repeat C0 4 ++ c).
  assert (LP : length pad = length (LM_range 0 hi)) by exact (proj2 (pad_ok 2 hi c ltac:(lia) Hc)).
  exists (map (fun t => map (Cscale (/ 2)) (bar_row (-2) hi (map (Cscale t) pad))) u). eexists. split; [reflexivity|].
  assert (BS : mt_data (mt_scale 2 (mt_bar (mkmts u 2 hi (map (fun t => map (Cscale (/ 2)) (bar_row (-2) hi (map (Cscale t) pad))) u)))) = map (fun t => map (Cscale t) pad) u).
  { cbn [mt_scale mt_bar mt_data mt_s mt_hi]. rewrite !map_map. apply map_ext. intros t. set (r := map (Cscale t) pad).
    assert (LR : length r = length (LM_range 0 hi)) by (unfold r; rewrite map_length; exact LP).
    apply (row_equal hi); [rewrite map_length; apply map_length|exact LR|]. intros l m [Hl Hm]. rewrite scale_mode, bar_mode by (split; lia). rewrite scale_mode.
    replace (Cscale 2 (Cscale (sgn (2 + m)) (Conj (Cscale (/ 2) (mode 0 (bar_row (-2) hi r) l (- m))))))
      with (Cscale (sgn (2 + m)) (Conj (mode 0 (bar_row (-2) hi r) l (- m)))) by (apply C_eq; cbn; field).
    rewrite <- (bar_mode 2 hi) by (split; lia). rewrite bar_bar by exact LR. reflexivity. }
  assert (SK : forall t, skipn 4 (map (Cscale t) pad) = map (Cscale t) c) by reflexivity.
  assert (LZ : length (map (fun _ : C => C0) c) = length (LM_range 2 hi)) by (rewrite map_length; exact Hc).
  split; [|split].
  - unfold MT_to_WM. cbn [pw_data]. rewrite BS. change (Z.to_nat (LM_index (Z.abs (mt_s _)) (- Z.abs (mt_s _)) 0)) with 4%nat. rewrite map_map. apply map_ext. exact SK.
  - unfold own_news. cbv zeta. rewrite BS. unfold MT_to_WM. cbn [pw_data mt_data mt_s mt_scale mt_bar]. change (Z.to_nat (LM_index (Z.abs (- (2))) (- Z.abs (- (2))) 0)) with 4%nat.
    rewrite (map_ext (fun t => map (Cscale t) pad) (fun t => line t pad (map (fun _ => C0) pad))) by (intros; symmetry; apply line_scaled).
    rewrite HD by (rewrite map_length; reflexivity). rewrite map_map. reflexivity.
  - unfold target_news. assert (PD : pw_data (MT_to_WM (mt_scale 2 (mt_bar (mkmts u 2 hi (map (fun t => map (Cscale (/ 2)) (bar_row (-2) hi (map (Cscale t) pad))) u)))) h) = map (fun t => map (Cscale t) c) u).
    { unfold MT_to_WM. cbn [pw_data]. rewrite BS. change (Z.to_nat (LM_index (Z.abs (mt_s _)) (- Z.abs (mt_s _)) 0)) with 4%nat. rewrite map_map. apply map_ext. exact SK. }
    rewrite PD. cbn [MT_to_WM pw_t pw_hi mt_t mt_hi mt_scale mt_bar].
    rewrite (map_ext (fun t => map (Cscale t) c) (fun t => line t c (map (fun _ => C0) c))) by (intros; symmetry; apply line_scaled).
    rewrite HD by (rewrite map_length; reflexivity).
    rewrite (each_ok _ _ _ (fun row => repeat C0 4 ++ row)). 2: { intros row I. apply in_map_iff in I. destruct I as (_ & <- & _). exact (proj1 (pad_ok 2 hi c ltac:(lia) Hc)). }
    cbn [rbind]. eexists. split; [reflexivity|]. rewrite map_map. unfold MT_to_WM. cbn [pw_data mt_data mt_s]. change (Z.to_nat (LM_index (Z.abs (-2)) (- Z.abs (-2)) 0)) with 4%nat.
    rewrite (map_ext (fun _ : R => repeat C0 4 ++ c) (fun t => line t (map (fun _ => C0) pad) pad)) by (intros; symmetry; apply line_zero).
    rewrite HD by (rewrite map_length; reflexivity). rewrite map_map. reflexivity.
Qed.

(** ** Cases *)
Example C71_case : data_ok ex_b /\ (2 <= bd_hi ex_b)%Z /\ clean ex_b /\
  exists b', z_rotation wigner_doc (fun n => repeat C0 (Z.to_nat n)) ex_b (PI / 2) = Ok b' /\ b' <> ex_b /\ bmode b' 5 0 2 1 = mkC (-1) 2 /\ bmode ex_b 5 0 2 1 = mkC 2 1.
Proof.
  destruct ex_b_ok as (O1 & O2 & O3). split; [exact O1|]. split; [cbn; lia|]. split; [exact O3|].
  assert (GL : forall n, (0 <= n)%Z -> zlen (repeat C0 (Z.to_nat n)) = n) by (intros n Hn; unfold zlen; rewrite repeat_length; lia).
  destruct (C71_rotation (fun n => repeat C0 (Z.to_nat n)) GL ex_b (PI / 2) O1 ltac:(cbn; lia)) as (b' & E & (_ & _ & _ & _ & _ & M)).
  specialize (M 5%nat 0%nat 2%Z 1%Z ltac:(lia) ltac:(cbn; lia) ltac:(split; cbn; lia)).
  assert (V : bmode ex_b 5 0 2 1 = mkC 2 1) by reflexivity.
  assert (V' : bmode b' 5 0 2 1 = mkC (-1) 2).
  { rewrite M, V. change (Z.abs (spin_of 5) <=? 2)%Z with true. cbv iota. unfold cis. replace (1 * (PI / 2)) with (PI / 2) by ring. rewrite cos_PI2, sin_PI2. apply C_eq; cbn; ring. }
  exists b'. split; [exact E|]. split; [|split; assumption]. intros ->. rewrite V in V'. apply (f_equal im) in V'. cbn in V'. lra.
Qed.
