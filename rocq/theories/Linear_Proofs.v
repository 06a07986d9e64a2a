(** * Supertranslations of fields that are linear in time: BMS transformation without interpolation error *)
From Coq Require Import Reals ZArith List Bool Lia Lra.
From Verif Require Import Common Cplx Quat Modes_Model Times_Model Tables_Model Modal_Model Kwargs_Model Transform_Model Rotate_Model
  Modes_Proofs Modal_Proofs Rotate_Proofs Times_Proofs Kwargs_Proofs Transform_Proofs Wigner_Model Wigner_Proofs Sphere_Model Sphere_Proofs Harmonics_Proofs
  Pipeline_Model Pipeline_Proofs Product_Proofs Gridmul_Proofs.
Import ListNotations.
Open Scope R_scope.

(** ** Specification *)
(** A spline reproduces straight lines. *)
Definition straight (spline : list R -> list R -> res (R -> R)) : Prop :=
  forall xs a b, increasing xs -> (4 <= length xs)%nat -> exists f, spline xs (map (fun x => a * x + b) xs) = Ok f /\ forall x, f x = a * x + b.
(** The modes of the waveform are straight lines in time, a + t b, with nothing above its largest degree. *)
Definition linear (w : pwave) (a b : Z -> Z -> C) : Prop :=
  (forall i l m, (i < length (pw_t w))%nat -> (0 <= l <= pw_hi w)%Z -> (- l <= m <= l)%Z -> mode_of w i l m = (a l m + Cscale (nth i (pw_t w) 0) (b l m))%C) /\
  (forall l m, (pw_hi w < l)%Z -> a l m = C0 /\ b l m = C0).
(** How much of eth eth alpha (ethbar ethbar alpha) a supertranslation subtracts from the data themselves *)
Definition memory (dataType : Z) : R := if (dataType =? h)%Z then 1 else if (dataType =? sigma)%Z then / 2 else 0.
Definition shear (dataType : Z) (alpha : Z -> Z -> C) (l m : Z) : C :=
  Cscale (memory dataType * sqrt (IZR ((l - 1) * (l + 2))) * sqrt (IZR (l * (l + 1)))) (alpha l m).

(** ** Fields *)
Lemma field_plus : forall s L a b q, field s L (fun l m => (a l m + b l m)%C) q = (field s L a q + field s L b q)%C.
Proof. intros s L a b q. unfold field. rewrite <- csum_add. apply csum_ext. intros p _. ring. Qed.
Lemma field_times : forall s L c a q, field s L (fun l m => Cscale c (a l m)) q = Cscale c (field s L a q).
Proof. intros s L c a q. rewrite Cscale_mul. unfold field. rewrite <- csum_scale. apply csum_ext. intros p _. rewrite Cscale_mul. ring. Qed.
Lemma real_field : forall a L q, (0 <= L)%Z -> is_real a L -> field 0 L (mode_at a) q = RtoC (re (field 0 L (mode_at a) q)).
Proof.
  intros a L q HL H. pose proof (C68_conjugate_fields 0 L (mode_at a) (mode_at a) q HL) as E. change (- 0)%Z with 0%Z in E.
  rewrite Z.opp_0 in E || idtac. assert (E' : field 0 L (mode_at a) q = Conj (field 0 L (mode_at a) q)).
  { apply E. intros l m Hl Hm. replace (0 + m)%Z with m by lia. apply H; assumption. }
  apply C_eq; [reflexivity|]. apply (f_equal im) in E'. cbn [im Conj RtoC] in *. lra.
Qed.

Lemma Ceq_dec : forall x y : C, {x = y} + {x <> y}.
Proof. intros [a b] [c d]. destruct (Req_EM_T a c) as [->|N]; [destruct (Req_EM_T b d) as [->|N]|]; [left; reflexivity|right; congruence|right; congruence]. Qed.

Section Straight.
Variable spline : list R -> list R -> res (R -> R).
Hypothesis spline_lines : straight spline.

(** The grid, from the functions interpolated in every direction *)
Lemma grid_rows : forall w nt np k aux g (F : quat -> R -> C), wave_ok w -> (4 <= length (pw_t w))%nat -> (5 <= pw_dataType w <= 9)%Z ->
  pw_frameType w = InertialFrame -> grid_process (pw_hi w) nt np k = Ok g -> is_real (gp_super g) (gp_ell_super g) ->
  let rotors := map (grid_rotor (gp_rotation g) (gp_boost g)) (grid_points (gp_theta g) (gp_phi g)) in
  let dirs := map (direction_of (gp_super g) (gp_ell_super g) (gp_boost g)) rotors in
  (forall q newt, In q rotors -> resample spline (gp_boost g) (direction_of (gp_super g) (gp_ell_super g) (gp_boost g) q) (pw_t w)
      (map (fun n => match transformed w aux g n q with Ok x => x | Err _ => C0 end) (seq 0 (length (pw_t w)))) newt = Ok (map (F q) newt)) ->
  exists G, from_modes spline w nt np k aux = Ok G /\ new_slices (gp_boost g) (nth 0 (gp_super g) C0) dirs (pw_t w) = Ok (pg_t G) /\
    pg_theta G = gp_theta g /\ pg_phi G = gp_phi g /\ pg_frameType G = InertialFrame /\ pg_dataType G = pw_dataType w /\ pg_r G = pw_r w /\
    length (pg_data G) = length (pg_t G) /\
    forall i, (i < length (pg_t G))%nat -> nth i (pg_data G) [] = map (fun q => F q (nth i (pg_t G) 0)) rotors.
Proof.
  intros w nt np k aux g F H H4 Hd Hf Hg HR rotors dirs HF.
  destruct (grid_process_facts _ _ _ _ _ Hg) as (L & HL & Hm & El & Em & T1 & T2 & Hv & Hq).
  assert (HH := proj1 H). assert (Hd' : (1 <= pw_dataType w <= 9)%Z) by lia. destruct (known_type _ Hd') as (Es & _ & _).
  assert (NE : rotors <> []).
  { intros E. apply (grid_points_nonempty (gp_theta g) (gp_phi g)); [lia|lia|]. apply map_eq_nil in E. exact E. }
  unfold from_modes. rewrite Hf, Hg. cbn [rbind]. rewrite Es. cbn [rbind]. cbv zeta. fold rotors. fold (flag (gp_boost g) (gp_super g)).
  rewrite (each_ok _ _ _ (direction_of (gp_super g) (gp_ell_super g) (gp_boost g))).
  2: { intros q _. rewrite El, Em. apply direction_data_ok; [lia|assumption|rewrite <- El; assumption]. }
  cbn [rbind]. fold dirs.
  assert (EC : combine rotors dirs = map (fun q => (q, direction_of (gp_super g) (gp_ell_super g) (gp_boost g) q)) rotors).
  { unfold dirs. rewrite <- (map_id rotors) at 1. apply Pipeline_Proofs.combine_maps. }
  rewrite EC.
  assert (EM : forall A B D (f : B -> res D) (m : A -> B) l, each f (map m l) = each (fun x => f (m x)) l).
  { intros A B D f m. induction l as [|a l IH]; [reflexivity|]. cbn [map each]. rewrite IH. reflexivity. }
  rewrite EM. cbn [fst snd].
  set (colf := fun q => map (fun n => match transformed w aux g n q with Ok x => x | Err _ => C0 end) (seq 0 (length (pw_t w)))).
  rewrite (each_ok _ _ _ colf); [|intros q _; apply (column_ok w aux g q L); try assumption; lia]. cbn [rbind].
  assert (NS : exists out, new_slices (gp_boost g) (nth 0 (gp_super g) C0) dirs (pw_t w) = Ok out).
  { unfold new_slices. destruct (pw_t w) as [|t0 t]; [cbn in H4; lia|]. assert (DN : exists d ds, dirs = d :: ds) by (unfold dirs; destruct rotors; [congruence|cbn [map]; eauto]).
    destruct DN as (d & ds & ->). cbn [map np_max np_min rbind]. eexists. reflexivity. }
  destruct NS as [out Eo]. rewrite Eo. cbn [rbind]. unfold dirs at 1. rewrite Pipeline_Proofs.combine_maps, EM. cbn [fst snd].
  rewrite (each_ok _ _ _ (fun q => map (F q) out)); [|intros q I; apply HF; exact I]. cbn [rbind].
  eexists. split; [reflexivity|]. cbn [pg_t pg_data pg_theta pg_phi pg_frameType pg_dataType pg_r].
  repeat (split; [reflexivity|]). split; [rewrite map_length, seq_length; reflexivity|].
  intros i Hi. set (FF := fun i => map (fun c => nth i c C0) (map (fun q => map (F q) out) rotors)).
  rewrite (nth_indep _ [] (FF 0%nat)) by (rewrite map_length, seq_length; exact Hi). rewrite (map_nth FF), seq_nth by exact Hi. cbn [Nat.add].
  unfold FF. rewrite map_map. apply map_ext. intros q. rewrite (nth_indep _ C0 (F q 0)) by (rewrite map_length; exact Hi). apply map_nth.
Qed.

Lemma unboosted : forall r, kfactor (0, 0, 0) r = 1.
Proof.
  intros [[x y] z]. unfold kfactor, one_over_k, gamma. assert (Nz : norm3 (0, 0, 0) = 0) by (unfold norm3; replace (0 * 0 + 0 * 0 + 0 * 0) with 0 by ring; apply sqrt_0).
  rewrite Nz. replace (1 - 0 ^ 2) with 1 by ring. rewrite sqrt_1. unfold dotv. field.
Qed.
Lemma resample_line : forall d t A B newt, increasing t -> (4 <= length t)%nat ->
  resample spline (0, 0, 0) d t (map (fun x => (A + Cscale x B)%C) t) newt = Ok (map (fun u => (A + Cscale (u + d_alpha d) B)%C) newt).
Proof.
  intros d t A B newt Hi H4. unfold resample. assert (EK : knots (0, 0, 0) d t = map (fun x => x - d_alpha d) t).
  { unfold knots. apply map_ext. intros x. rewrite unboosted. ring. }
  rewrite EK.
  assert (IK : increasing (map (fun x => x - d_alpha d) t)) by (apply increasing_map; [intros x y ?; lra|exact Hi]).
  assert (PART : forall p b : R, map (fun x => p + x * b) t = map (fun x => b * x + (p + d_alpha d * b)) (map (fun x => x - d_alpha d) t)).
  { intros p b. rewrite map_map. apply map_ext. intros x. ring. }
  assert (ER : map re (map (fun x => (A + Cscale x B)%C) t) = map (fun x => re A + x * re B) t) by (rewrite map_map; apply map_ext; intros x; reflexivity).
  assert (EI : map im (map (fun x => (A + Cscale x B)%C) t) = map (fun x => im A + x * im B) t) by (rewrite map_map; apply map_ext; intros x; reflexivity).
  rewrite ER, EI, !PART.
  destruct (spline_lines (map (fun x => x - d_alpha d) t) (re B) (re A + d_alpha d * re B) IK ltac:(rewrite map_length; exact H4)) as (f & Ef & Hf).
  destruct (spline_lines (map (fun x => x - d_alpha d) t) (im B) (im A + d_alpha d * im B) IK ltac:(rewrite map_length; exact H4)) as (f' & Ef' & Hf').
  rewrite Ef. cbn [rbind]. rewrite Ef'. cbn [rbind]. f_equal. apply map_ext. intros u. apply C_eq; cbn [re im Cadd Cscale]; [rewrite Hf|rewrite Hf']; ring.
Qed.
(** What a supertranslation takes away from the data in one direction *)
Lemma shear_value : forall w aux g n q, gp_boost g = (0, 0, 0) -> (5 <= pw_dataType w <= 9)%Z -> (0 <= gp_ell_super g)%Z ->
  Kwargs_Proofs.has_modes (gp_super g) (gp_ell_super g) -> is_real (gp_super g) (gp_ell_super g) ->
  transformed w aux g n q = Ok (at_point w n q - field (spin (pw_dataType w)) (gp_ell_super g) (shear (pw_dataType w) (mode_at (gp_super g))) q)%C.
Proof.
  intros w aux g n q Hb Hd HL Hm HR. unfold transformed. rewrite Hb. unfold grid_point.
  destruct (known_type (pw_dataType w) ltac:(lia)) as (_ & _ & KC). destruct (KC (pw_r w)) as [cw ->]. cbn [rbind]. rewrite unboosted.
  assert (P1 : powerRZ 1 cw = 1) by (destruct cw; cbn [powerRZ]; rewrite ?pow1, ?Rinv_1; reflexivity). rewrite P1.
  set (al := mode_at (gp_super g)). set (L := gp_ell_super g) in *.
  assert (S0 : flag (0, 0, 0) (gp_super g) = false -> forall l m, (0 <= l <= L)%Z -> (- l <= m <= l)%Z -> shear (pw_dataType w) al l m = C0).
  { intros FF l m Hl Hm'. unfold flag in FF. destruct (nontrivial_spec (0, 0, 0) (gp_super g)) as [|N]; [discriminate|].
    unfold shear. destruct (Z.eq_dec l 0) as [->|N0]; [change (IZR (0 * (0 + 1))) with 0; rewrite sqrt_0; apply C_eq; cbn; ring|].
    assert (A0 : al l m = C0).
    { unfold al, mode_at. destruct (Z.to_nat (l * l + l + m)) as [|j] eqn:J; [nia|].
      destruct (Ceq_dec (nth (S j) (gp_super g) C0) C0) as [E|E]; [exact E|]. exfalso. apply N. right. exists j. exact E. }
    rewrite A0. apply C_eq; cbn; ring. }
  assert (FZ : forall s b, (forall l m, (0 <= l <= L)%Z -> (- l <= m <= l)%Z -> b l m = C0) -> field s L b q = C0).
  { intros s b HZ. unfold field. apply csum_const0. intros [l m] I. apply LM_range_In in I. cbn [fst snd]. rewrite HZ by lia. ring. }
  f_equal. unfold grid_value. destruct (flag (0, 0, 0) (gp_super g)) eqn:FG; cbn [negb].
  2: { rewrite (FZ _ (shear (pw_dataType w) al)) by (apply S0; reflexivity). apply C_eq; cbn; ring. }
  assert (C : (pw_dataType w = 5 \/ pw_dataType w = 6 \/ pw_dataType w = 7 \/ pw_dataType w = 8 \/ pw_dataType w = 9)%Z) by lia.
  assert (NON : (memory (pw_dataType w) = 0) -> field (spin (pw_dataType w)) L (shear (pw_dataType w) al) q = C0).
  { intros M0. apply FZ. intros l m _ _. unfold shear. rewrite M0. apply C_eq; cbn; ring. }
  assert (E2 : d_eth2 (direction_of (gp_super g) L (0, 0, 0) q) = field 2 L (fun l m => Cscale (sqrt (IZR ((l - 1) * (l + 2))) * sqrt (IZR (l * (l + 1)))) (al l m)) q) by reflexivity.
  destruct C as [C|[C|[C|[C|C]]]].
  - rewrite NON by (rewrite C; reflexivity). rewrite C. cbn [Z.eqb h sigma Pos.eqb Z.leb Z.compare Pos.compare Pos.compare_cont andb]. apply C_eq; cbn; ring.
  - rewrite E2, C. change (6 =? h)%Z with false. change (6 =? sigma)%Z with true. cbv iota. change (spin 6) with 2%Z.
    assert (ES : field 2 L (shear 6 al) q = Cscale (/ 2) (field 2 L (fun l m => Cscale (sqrt (IZR ((l - 1) * (l + 2))) * sqrt (IZR (l * (l + 1)))) (al l m)) q)).
    { rewrite <- field_times. apply Gridmul_Proofs.field_ext. intros l m _ _. unfold shear. change (memory 6) with (/ 2). apply C_eq; cbn [re im Cscale]; ring. }
    rewrite ES. apply C_eq; cbn; ring.
  - rewrite E2, C. change (7 =? h)%Z with true. cbv iota. change (spin 7) with (- 2)%Z.
    assert (ES : field (- 2) L (shear 7 al) q = Conj (field 2 L (fun l m => Cscale (sqrt (IZR ((l - 1) * (l + 2))) * sqrt (IZR (l * (l + 1)))) (al l m)) q)).
    { apply (C68_conjugate_fields 2); [exact HL|]. intros l m Hl Hm'. unfold shear. change (memory 7) with 1. rewrite Rmult_1_l. unfold al. rewrite (HR l m) by lia.
      replace (sgn (2 + m)) with (sgn m) by (unfold sgn; rewrite Z.even_add; destruct (Z.even m); reflexivity).
      apply C_eq; cbn [re im Cscale Conj]; ring. }
    rewrite ES. apply C_eq; cbn; field.
  - rewrite NON by (rewrite C; reflexivity). rewrite C. cbn [Z.eqb h sigma Pos.eqb Z.leb Z.compare Pos.compare Pos.compare_cont andb]. apply C_eq; cbn; ring.
  - rewrite NON by (rewrite C; reflexivity). rewrite C. cbn [Z.eqb h sigma Pos.eqb Z.leb Z.compare Pos.compare Pos.compare_cont andb]. apply C_eq; cbn; ring.
Qed.
End Straight.

Section Modes.
Variable spline : list R -> list R -> res (R -> R).
Hypothesis spline_lines : straight spline.
Variable map2salm : Z -> Z -> list C -> Z -> Z -> list C.

(** A supertranslation alpha and a rotation of data a + t b: the result is the field a + (t' + alpha) b at the rotated point, less the
    derivative of alpha that belongs to the type of data, with the modes of the product exactly. *)
Theorem C73_supertranslation : forall w ell_max nt np k aux g a b p, usable w -> (5 <= pw_dataType w <= 9)%Z -> linear w a b ->
  grid_process (pw_hi w) nt np k = Ok g -> gp_boost g = (0, 0, 0) -> is_real (gp_super g) (gp_ell_super g) ->
  let s := spin (pw_dataType w) in let em := dflt (pw_hi w) ell_max in let L := gp_ell_super g in let alpha := mode_at (gp_super g) in
  let pts := map (qmul (gp_rotation g)) (grid_points (gp_theta g) (gp_phi g)) in
  (2 * (pw_hi w + L) + 1 <= gp_theta g)%Z -> (2 * (pw_hi w + L) + 1 <= gp_phi g)%Z -> (Z.abs s <= em)%Z -> (2 * em + 1 <= gp_theta g)%Z -> (2 * em + 1 <= gp_phi g)%Z ->
  exact map2salm s (gp_theta g) (gp_phi g) -> product_modes 0 L alpha s (pw_hi w) b p ->
  exists w', transform spline map2salm w ell_max nt np k aux = Ok w' /\
    (forall u, In u (pw_t w') <-> In u (map (fun t => t - re (alpha 0%Z 0%Z) / sqrt (4 * PI)) (pw_t w)) /\
       forall q, In q pts -> nth 0 (pw_t w) 0 - re (field 0 L alpha q) <= u <= last (pw_t w) 0 - re (field 0 L alpha q)) /\
    increasing (pw_t w') /\
    pw_lo w' = Z.abs s /\ pw_hi w' = em /\ pw_frame w' = [] /\ pw_frameType w' = InertialFrame /\ pw_dataType w' = pw_dataType w /\ pw_r w' = pw_r w /\ wave_ok w' /\
    forall i l m, (i < length (pw_t w'))%nat -> valid (Z.abs s) em l m ->
      mode_of w' i l m = if (l <=? pw_hi w + L)%Z
        then turn wigner_D (gp_rotation g) (fun l m => (a l m + Cscale (nth i (pw_t w') 0) (b l m) + p l m - (if (l <=? L)%Z then shear (pw_dataType w) alpha l m else C0))%C) l m
        else C0.
Proof.
  intros w ell_max nt np k aux g a b p (HW & HI & H4 & HD' & HF) HD HLin Hg HB HR s em L alpha pts S1 S2 Hs S3 S4 HX HP.
  destruct (grid_process_facts _ _ _ _ _ Hg) as (L' & HL & Hm & El & Em & T1 & T2 & Hv & Hq). fold L in El. subst L'.
  assert (HH := proj1 HW).
  assert (RE : forall x, In x (grid_points (gp_theta g) (gp_phi g)) -> grid_rotor (gp_rotation g) (gp_boost g) x = qmul (gp_rotation g) x).
  { intros x I. rewrite HB. apply (C55_parallel (gp_rotation g) x (0, 0, 0) Hq (grid_points_unit _ _ _ I)). }
  assert (RM : map (grid_rotor (gp_rotation g) (gp_boost g)) (grid_points (gp_theta g) (gp_phi g)) = pts) by (apply map_ext_in; exact RE).
  assert (UD : forall q, In q pts -> qnorm2 q = 1) by (intros q I; apply in_map_iff in I; destruct I as (x & <- & I); rewrite qnorm2_mul, Hq, (grid_points_unit _ _ _ I); ring).
  set (A := fun q => (field s (pw_hi w) a q - field s L (shear (pw_dataType w) alpha) q)%C). set (B := fun q => field s (pw_hi w) b q).
  assert (AP : forall n q, (n < length (pw_t w))%nat -> at_point w n q = (field s (pw_hi w) a q + Cscale (nth n (pw_t w) 0) (B q))%C).
  { intros n q Hn. unfold at_point, B. fold s. rewrite <- field_times, <- field_plus. apply Gridmul_Proofs.field_ext. intros l m Hl Hm'. apply (proj1 HLin); assumption. }
  destruct (grid_rows spline w nt np k aux g (fun q u => (A q + Cscale (u + re (field 0 L alpha q)) (B q))%C) HW H4 HD HF Hg HR) as (G & E & ET & E1 & E2 & E3 & E4 & E5 & EL & EV).
  { intros q newt Iq. rewrite RM in Iq. rewrite HB.
    transitivity (resample spline (0, 0, 0) (direction_of (gp_super g) L (0, 0, 0) q) (pw_t w) (map (fun x => (A q + Cscale x (B q))%C) (pw_t w)) newt).
    - f_equal. rewrite (list_index _ (pw_t w) 0) at 2. rewrite map_map. apply map_ext_in. intros n In'. apply in_seq in In'.
      rewrite shear_value by (try assumption; lia). fold s alpha L. rewrite AP by lia. unfold A. ring.
    - rewrite (resample_line spline spline_lines) by assumption. reflexivity. }
  rewrite RM in *.
  set (F := fun i l m => (a l m + Cscale (nth i (pg_t G) 0) (b l m) + p l m - (if (l <=? L)%Z then shear (pw_dataType w) alpha l m else C0))%C).
  assert (ROW : forall i, (i < length (pg_data G))%nat -> nth i (pg_data G) [] = map (field s (pw_hi w + L) (turn wigner_D (gp_rotation g) (F i))) (grid_points (pg_theta G) (pg_phi G))).
  { intros i Hi. rewrite EV by lia. rewrite E1, E2. unfold pts. rewrite map_map. apply map_ext_in. intros x Ix. rewrite C68_field_rotation by lia.
    set (q := qmul (gp_rotation g) x). assert (Uq : qnorm2 q = 1) by (apply UD, in_map, Ix).
    unfold F. set (u := nth i (pg_t G) 0).
    transitivity (field s (pw_hi w + L) (fun l m => (a l m + Cscale u (b l m) + p l m + Cscale (- 1) (if (l <=? L)%Z then shear (pw_dataType w) alpha l m else C0))%C) q).
    2: { apply Gridmul_Proofs.field_ext. intros l m _ _. apply C_eq; cbn [re im Cadd Csub Cscale]; ring. }
    rewrite !field_plus, !field_times.
    assert (Ga : field s (pw_hi w + L) a q = field s (pw_hi w) a q) by (symmetry; apply field_grow; [lia|intros l m Hl; apply (proj2 HLin); exact Hl]).
    assert (Gb : field s (pw_hi w + L) b q = B q) by (symmetry; apply field_grow; [lia|intros l m Hl; apply (proj2 HLin); exact Hl]).
    assert (Gs : field s (pw_hi w + L) (fun l m => if (l <=? L)%Z then shear (pw_dataType w) alpha l m else C0) q = field s L (shear (pw_dataType w) alpha) q).
    { transitivity (field s L (fun l m => if (l <=? L)%Z then shear (pw_dataType w) alpha l m else C0) q).
      - symmetry. apply field_grow; [lia|]. intros l m Hl. destruct (Z.leb_spec l L); [lia|reflexivity].
      - apply Gridmul_Proofs.field_ext. intros l m Hl _. destruct (Z.leb_spec l L); [reflexivity|lia]. }
    assert (Gp : field s (pw_hi w + L) p q = (RtoC (re (field 0 L alpha q)) * B q)%C).
    { unfold B. unfold alpha at 1. rewrite <- real_field by (lia || assumption). fold alpha. rewrite (proj1 HP q Uq). replace (0 + s)%Z with s by lia. f_equal. lia. }
    rewrite Ga, Gb, Gs, Gp. unfold A. apply C_eq; cbn [re im Cadd Csub Cscale Cmul RtoC]; ring. }
  unfold transform. rewrite E. cbn [rbind]. fold em.
  destruct (C68_to_modes map2salm G em (pw_hi w + L) (fun i => turn wigner_D (gp_rotation g) (F i))) as (w' & Ew & T & A1 & A2 & A3 & A4 & A5 & A6 & A7 & A8 & A9);
    rewrite ?E4, ?E1, ?E2; fold s; try assumption; try lia.
  { intros i Hi. rewrite ROW by exact Hi. rewrite E1, E2. reflexivity. }
  exists w'. rewrite E4 in *. fold s in A1, A9. split; [exact Ew|].
  split.
  { intros u. rewrite T. rewrite HB in ET. change (nth 0 (gp_super g) C0) with (alpha 0%Z 0%Z) in ET.
    assert (N0 : norm3 (0, 0, 0) = 0) by (unfold norm3; replace (0 * 0 + 0 * 0 + 0 * 0) with 0 by ring; apply sqrt_0).
    assert (G1 : gamma (0, 0, 0) = 1) by (unfold gamma; rewrite N0; replace (1 - 0 ^ 2) with 1 by ring; rewrite sqrt_1; field).
    rewrite (C29_slices (0, 0, 0) (alpha 0%Z 0%Z) (map (direction_of (gp_super g) L (0, 0, 0)) pts) (pw_t w) (pg_t G)).
    - assert (CE : candidates (0, 0, 0) (alpha 0%Z 0%Z) (pw_t w) = map (fun t => t - re (alpha 0%Z 0%Z) / sqrt (4 * PI)) (pw_t w)).
      { unfold candidates. apply map_ext. intros t. rewrite G1. unfold Rdiv at 1. rewrite Rinv_1. ring. }
      rewrite CE.
      assert (SE : forall q, source_time (0, 0, 0) (direction_of (gp_super g) L (0, 0, 0) q) u = u + re (field 0 L alpha q)).
      { intros q. unfold source_time. rewrite unboosted. cbn [direction_of d_alpha]. fold alpha. unfold Rdiv. rewrite Rinv_1. ring. }
      assert (HE : hd 0 (pw_t w) = nth 0 (pw_t w) 0) by (destruct (pw_t w); reflexivity). rewrite HE.
      split; (intros [I1 I2]; split; [exact I1|]).
      + intros q Iq. specialize (I2 _ (in_map _ _ _ Iq)). rewrite SE in I2. lra.
      + intros d Id. apply in_map_iff in Id. destruct Id as (q & <- & Iq). rewrite SE. specialize (I2 q Iq). lra.
    - rewrite N0. lra.
    - intros d I. apply in_map_iff in I. destruct I as (q & <- & I). cbn [direction_of d_r]. apply direction_unit, UD, I.
    - exact ET. }
  split; [rewrite T; eapply C29_increasing; [|exact HI|exact ET]; exact Hv|].
  split; [exact A1|]. split; [exact A2|]. split; [exact A3|]. split; [congruence|]. split; [exact A5|]. split; [congruence|].
  split.
  - split; [rewrite A1, A2; lia|]. split; [|exact A8]. rewrite T. lia.
  - intros i l m Hi Hv'. rewrite T in Hi |- *. apply A9; [lia|exact Hv'].
Qed.
End Modes.
