(** C40, C41: fluxes as expectation values. *)
From Coq Require Import Reals ZArith List Bool Lia Lra.
From Verif Require Import Common Cplx Modes_Model Modes_Proofs Modal_Model Modal_Proofs Ladder_Proofs Flux_Model.
Import ListNotations.
Open Scope Z_scope.

(** * Sums *)
Lemma csum_flat_map : forall A B (f : B -> C) (g : A -> list B) l, csum f (flat_map g l) = csum (fun x => csum f (g x)) l.
Proof. induction l; cbn; auto. rewrite csum_app, IHl. reflexivity. Qed.
Lemma rsum_flat_map : forall A B (f : B -> R) (g : A -> list B) l, rsum f (flat_map g l) = rsum (fun x => rsum f (g x)) l.
Proof. induction l; cbn; auto. rewrite rsum_app, IHl. reflexivity. Qed.
Lemma csum_extend : forall (f : Z -> C) a b a' b', a' <= a -> b <= b' -> (forall i, i < a \/ b <= i -> f i = C0) ->
  csum f (zrange a b) = csum f (zrange a' b').
Proof.
  intros f a b a' b' Ha Hb H. destruct (Z_le_gt_dec a b).
  - rewrite (zrange_split a' a b') by lia. rewrite (zrange_split a b b') by lia. rewrite !csum_app.
    rewrite (csum_const0 f (zrange a' a)) by (intros x Hx; apply zrange_In in Hx; apply H; lia).
    rewrite (csum_const0 f (zrange b b')) by (intros x Hx; apply zrange_In in Hx; apply H; lia). ring.
  - rewrite zrange_empty by lia. cbn [csum]. symmetry. apply csum_const0. intros x Hx. apply H. lia.
Qed.
Lemma csum_zshift : forall (f : Z -> C) d a b, csum (fun i => f (i + d)) (zrange a b) = csum f (zrange (a + d) (b + d)).
Proof.
  intros f d a b. unfold zrange. replace (b + d - (a + d)) with (b - a) by lia. rewrite !csum_map. apply csum_ext. intros x _. f_equal. lia.
Qed.

(** * Energy flux *)
Definition energy_spec (row : list C) : R := (rsum norm2 row / (16 * PI))%R.
Lemma energy_rows_spec : forall rows, energy_rows rows = map energy_spec rows.
Proof.
  intros rows. apply map_ext. intros row. unfold energy_spec. f_equal. rewrite re_csum. apply rsum_ext.
  intros z _. cbn. unfold norm2. ring.
Qed.
Lemma PI16 : (0 < 16 * PI)%R.
Proof. pose proof PI_RGT_0. lra. Qed.
Lemma energy_nonneg : forall row, (0 <= energy_spec row)%R /\ (energy_spec row = 0%R <-> Forall (fun z => z = C0) row).
Proof.
  intros row. unfold energy_spec. pose proof PI16. assert (P : (0 <= rsum norm2 row)%R) by (apply rsum_nonneg; intros; apply norm2_nonneg).
  split; [apply Rdiv_le_0_compat || (unfold Rdiv; apply Rmult_le_pos; [exact P|apply Rlt_le, Rinv_0_lt_compat; lra])|]. split.
  - intros E. assert (E0 : rsum norm2 row = 0%R) by (apply (Rmult_eq_reg_r (/ (16 * PI))); [rewrite Rmult_0_l; exact E|apply Rinv_neq_0_compat; lra]).
    apply Forall_forall. intros z Hz. apply norm2_zero. apply (rsum_zero norm2 row (fun x _ => norm2_nonneg x) E0 z Hz).
  - intros HF. rewrite (rsum_const0 norm2 row); [unfold Rdiv; ring|]. intros z Hz. rewrite Forall_forall in HF. rewrite (HF z Hz). unfold norm2. cbn. ring.
Qed.

Section Ext.
Variable intersection : list R -> list R -> res (list R).
Variable interpolate : list R -> list (list C) -> list R -> list (list C).
Variable ddot : list R -> list (list C) -> list (list C).
Variable times_eqb : list R -> list R -> bool.
Hypothesis times_eqb_ok : forall a b, times_eqb a b = true <-> a = b.

(** The rate data a waveform stands for. *)
Definition rate_of (w : fwave) : option (list (list C)) :=
  match f_type w with Thdot => Some (f_rows w) | Th => Some (ddot (f_t w) (f_rows w)) | Tother => None end.

Theorem C40_energy_flux : forall w,
  match rate_of w with
  | Some rows => energy_flux ddot w = Ok (map (fun row => (rsum norm2 row / (16 * PI))%R) rows)
  | None => energy_flux ddot w = Err ValueError
  end.
Proof.
  intros w. unfold rate_of, energy_flux. destruct (f_type w); auto; rewrite energy_rows_spec; reflexivity.
Qed.
Theorem C40_non_negative : forall w e rows, energy_flux ddot w = Ok e -> rate_of w = Some rows ->
  length e = length rows /\
  forall i x row, nth_error e i = Some x -> nth_error rows i = Some row -> (0 <= x)%R /\ (x = 0%R <-> Forall (fun z => z = C0) row).
Proof.
  intros w e rows He Hr. pose proof (C40_energy_flux w) as H. rewrite Hr, He in H. injection H as ->. rewrite map_length. split; auto.
  intros i x row Hx Hrow. rewrite nth_error_map, Hrow in Hx. cbn in Hx. injection Hx as <-. apply energy_nonneg.
Qed.
End Ext.
Example C40_case : energy_flux (fun _ r => r) (mkfw Thdot (-2) 2 2 [0%R] [[C1; Ci; C0; RtoC 2; C0]]) = Ok [(6 / (16 * PI))%R].
Proof. cbn. f_equal. f_equal. f_equal. ring. Qed.

(** * Expectation values *)
(** <a|M|b> for a list of matrix elements. *)
Definition bra_ket (a b : Z -> Z -> C) (es : list entry) : C :=
  csum (fun e => (Conj (a (e_j e) (e_n e)) * b (e_l e) (e_m e) * e_v e)%C) es.
Definition inside (lo hi : Z) (es : list entry) : Prop :=
  Forall (fun e => valid lo hi (e_j e) (e_n e) /\ valid lo hi (e_l e) (e_m e)) es.

Lemma sparse_row_ok : forall lo hi es ra rb a b, 0 <= lo -> inside lo hi es -> has_modes lo hi ra a -> has_modes lo hi rb b ->
  sparse_row (map Conj ra) (map (fun e => (LM_index (e_j e) (e_n e) lo, LM_index (e_l e) (e_m e) lo, e_v e)) es) rb = Ok (bra_ket a b es).
Proof.
  intros lo hi es ra rb a b Hlo HI Ha Hb. unfold sparse_row.
  assert (Ha' : has_modes lo hi (map Conj ra) (fun l m => Conj (a l m))).
  { destruct Ha as [L H]. split; [rewrite map_length; auto|]. intros l m Hv. rewrite nth_error_map, H by auto. reflexivity. }
  assert (G : forall acc, for_each (map (fun e => (LM_index (e_j e) (e_n e) lo, LM_index (e_l e) (e_m e) lo, e_v e)) es)
     (fun rcv acc => let? x := rd (map Conj ra) (fst (fst rcv)) in let? y := rd rb (snd (fst rcv)) in Ok (acc + x * y * snd rcv)%C) acc
     = Ok (acc + bra_ket a b es)%C).
  { induction HI as [|e es [H1 H2] HI IH]; intros acc; cbn [map for_each].
    - unfold bra_ket. cbn. f_equal. ring.
    - cbn [fst snd]. rewrite (rd_modes lo hi Hlo _ _ _ _ Ha' H1). cbn [rbind]. rewrite (rd_modes lo hi Hlo _ _ _ _ Hb H2). cbn [rbind].
      rewrite IH. unfold bra_ket. cbn [csum]. f_equal. ring. }
  rewrite G. f_equal. ring.
Qed.

(** ** The generators stay inside the range *)
Lemma coupled_inside : forall lo hi dm val, inside lo hi (coupled lo hi dm val).
Proof.
  intros. apply Forall_forall. intros e He. unfold coupled in He.
  apply in_flat_map in He as (l & Hl & He). apply in_flat_map in He as (j & Hj & He). apply in_flat_map in He as (m & Hm & He).
  apply zrange_In in Hl, Hj, Hm. cbv zeta in He.
  destruct (Z.ltb_spec (m + dm) (- j)); cbn in He; [destruct He|]. destruct (Z.ltb_spec j (m + dm)); cbn in He; [destruct He|].
  destruct He as [<-|[]]. cbn. unfold valid. lia.
Qed.
Lemma jz_inside : forall lo hi, match j_z lo hi with Ok es => inside lo hi es | Err _ => False end.
Proof.
  intros. cbn. apply Forall_forall. intros e He. apply in_flat_map in He as (l & Hl & He). apply in_map_iff in He as (m & <- & Hm).
  apply zrange_In in Hl, Hm. cbn. unfold valid. lia.
Qed.
Lemma jpm_inside : forall sign lo hi, match j_plusminus sign lo hi with Ok es => inside lo hi es | Err _ => sign <> 1 /\ sign <> -1 end.
Proof.
  intros. unfold j_plusminus. destruct (Z.eqb_spec sign 1) as [E1|E1], (Z.eqb_spec sign (-1)) as [E2|E2]; cbn; auto;
  (apply Forall_forall; intros x He; apply in_flat_map in He as (l & Hl & He); apply in_flat_map in He as (m & Hm & He);
   apply zrange_In in Hl, Hm; cbv zeta in He;
   destruct (Z.ltb_spec (m + sign) (- l)); cbn in He; [destruct He|]; destruct (Z.ltb_spec l (m + sign)); cbn in He; [destruct He|];
   destruct He as [<-|[]]; cbn; unfold valid; lia).
Qed.

(** ** Clipping to a range of ell *)
Definition fwf (w : fwave) : Prop :=
  0 <= f_lo w <= f_hi w /\ length (f_t w) = length (f_rows w) /\
  Forall (fun row => length row = length (LM_range (f_lo w) (f_hi w))) (f_rows w).
Lemma clip_rows_ok : forall w start stop, fwf w -> f_lo w <= start -> start < stop -> stop <= f_hi w + 1 -> 2 <= (f_hi w + 1) ^ 2 - f_lo w ^ 2 ->
  exists rows', clip_rows w start stop = Ok rows' /\ length rows' = length (f_rows w) /\
    forall t row row', nth_error (f_rows w) t = Some row -> nth_error rows' t = Some row' ->
      has_modes start (stop - 1) row' (mode (f_lo w) row).
Proof.
  intros w start stop (Hlo & _ & HF) H1 H2 H3 HN.
  assert (E : clip_rows w start stop = Ok (map (py_slice (Some (start ^ 2 - f_lo w ^ 2)) (Some (stop ^ 2 - f_lo w ^ 2))) (f_rows w))).
  { unfold clip_rows, mode_slice. cbn [falsy negb andb].
    destruct (Z.eqb_spec stop 0); [lia|]. rewrite andb_false_r.
    replace (if start =? 0 then f_lo w else start) with start by (destruct (Z.eqb_spec start 0); lia).
    destruct (Z.ltb_spec start (f_lo w)); [lia|]. destruct (Z.ltb_spec (f_hi w) (stop - 1)); [lia|]. cbn [orb rbind fst snd].
    destruct (Z.leb_spec 2 ((f_hi w + 1) ^ 2 - f_lo w ^ 2)); [|lia].
    replace ((stop - 1) * (stop - 1 + 2) + 1 - f_lo w ^ 2) with (stop ^ 2 - f_lo w ^ 2) by ring. reflexivity. }
  rewrite E. eexists. split; [reflexivity|]. split; [apply map_length|]. intros t row row' Hr Hr'.
  rewrite nth_error_map, Hr in Hr'. cbn in Hr'. injection Hr' as <-.
  rewrite Forall_forall in HF. assert (L := HF row (nth_error_In _ _ Hr)).
  assert (L' : Z.of_nat (length row) = (f_hi w + 1) ^ 2 - f_lo w ^ 2) by (rewrite L; apply C01_mode_count; lia).
  rewrite py_slice_nonneg by nia. split.
  - apply Nat2Z.inj. rewrite C01_mode_count by lia. rewrite firstn_length, skipn_length. rewrite Nat.min_l by nia. nia.
  - intros l m [Hl Hm].
    destruct (C01_index_is_position start (stop - 1) l m ltac:(lia) Hl Hm) as [P _]. rewrite C01_mode_count in P by lia.
    rewrite (nth_error_nth' _ C0) by (rewrite firstn_length, skipn_length, Nat.min_l by nia; nia).
    f_equal. rewrite nth_firstn_lt by nia. rewrite nth_skipn. unfold mode. f_equal.
    rewrite <- Z2Nat.inj_add by nia. f_equal. unfold LM_index. ring.
Qed.

Lemma sparse_ok : forall lo hi es A B fa fb, 0 <= lo -> inside lo hi es -> length A = length B ->
  (forall t r, nth_error A t = Some r -> has_modes lo hi r (fa t)) -> (forall t r, nth_error B t = Some r -> has_modes lo hi r (fb t)) ->
  sparse_expectation (map (map Conj) A) (map (fun e => (LM_index (e_j e) (e_n e) lo, LM_index (e_l e) (e_m e) lo, e_v e)) es) B
    = Ok (map (fun t => bra_ket (fa t) (fb t) es) (seq 0 (length A))).
Proof.
  intros lo hi es A. induction A as [|r A IH]; intros B fa fb Hlo HI HL HA HB; destruct B as [|r' B]; try discriminate; cbn [map sparse_expectation length seq].
  - reflexivity.
  - rewrite (sparse_row_ok lo hi es r r' (fa O) (fb O)) by auto. cbn [rbind].
    rewrite (IH B (fun t => fa (S t)) (fun t => fb (S t))); auto.
    + cbn [rbind]. rewrite <- seq_shift, map_map. reflexivity.
Qed.

Section Expectation.
Variable intersection : list R -> list R -> res (list R).
Variable interpolate : list R -> list (list C) -> list R -> list (list C).
Variable ddot : list R -> list (list C) -> list (list C).
Variable times_eqb : list R -> list R -> bool.
Hypothesis times_eqb_ok : forall a b, times_eqb a b = true <-> a = b.
Notation mexp := (matrix_expectation intersection interpolate times_eqb).

(** Mode (l, m) at time number t. *)
Definition fm (w : fwave) (t : nat) (l m : Z) : C := mode (f_lo w) (nth t (f_rows w) []) l m.

(** With equal times the result is the expectation value at every time, over the common range of ell
    (which must be the full range of both unless allow_LM_differ). *)
Theorem C41_expectation_value : forall a b M allow_LM allow_t es, fwf a -> fwf b -> f_spin a = f_spin b -> f_t a = f_t b ->
  let start := Z.max (f_lo a) (f_lo b) in let last := Z.min (f_hi a) (f_hi b) in
  start <= last -> (f_lo a = f_lo b /\ f_hi a = f_hi b) \/ allow_LM = true ->
  2 <= (f_hi a + 1) ^ 2 - f_lo a ^ 2 -> 2 <= (f_hi b + 1) ^ 2 - f_lo b ^ 2 ->
  M start last = Ok es -> es <> [] -> inside start last es ->
  mexp a M b allow_LM allow_t = Ok (f_t a, map (fun t => bra_ket (fm a t) (fm b t) es) (seq 0 (length (f_t a)))).
Proof.
  intros a b M aL at_ es Ha Hb Hs Ht start last Hsl HLM Na Nb HM Hne HI. unfold matrix_expectation.
  rewrite Hs, Z.eqb_refl. cbn [negb].
  match goal with |- rbind ?x _ = _ => assert (E : x = Ok (start, last + 1)) end.
  { destruct (Z.eqb_spec (f_lo a) (f_lo b)) as [e1|n1], (Z.eqb_spec (f_hi a) (f_hi b)) as [e2|n2]; cbn [negb orb];
      unfold start, last in *.
    - f_equal. f_equal; lia.
    - destruct HLM as [[]| ->]; [contradiction|]. cbv zeta. destruct (Z.leb_spec (Z.min (f_hi a) (f_hi b) + 1) (Z.max (f_lo a) (f_lo b))); [lia|reflexivity].
    - destruct HLM as [[]| ->]; [contradiction|]. cbv zeta. destruct (Z.leb_spec (Z.min (f_hi a) (f_hi b) + 1) (Z.max (f_lo a) (f_lo b))); [lia|reflexivity].
    - destruct HLM as [[]| ->]; [contradiction|]. cbv zeta. destruct (Z.leb_spec (Z.min (f_hi a) (f_hi b) + 1) (Z.max (f_lo a) (f_lo b))); [lia|reflexivity]. }
  rewrite E. cbn [rbind]. rewrite (proj2 (times_eqb_ok _ _) Ht). cbn [rbind].
  pose proof Ha as (Hla & Lta & _). pose proof Hb as (Hlb & Ltb & _).
  destruct (clip_rows_ok a start (last + 1) Ha) as (A & EA & LA & GA); try (unfold start, last in *; lia).
  destruct (clip_rows_ok b start (last + 1) Hb) as (B & EB & LB & GB); try (unfold start, last in *; lia).
  rewrite EA, EB. cbn [rbind]. replace (last + 1 - 1) with last in * by ring. rewrite HM. cbn [rbind].
  unfold matrix_indices. destruct es as [|e0 es]; [congruence|]. set (es' := e0 :: es) in *.
  cbn [rbind]. rewrite (sparse_ok start last es' A B (fm a) (fm b)); auto.
  - cbn [rbind]. do 3 f_equal. congruence.
  - unfold start; lia.
  - congruence.
  - intros t r Hr. assert (HH : exists row, nth_error (f_rows a) t = Some row).
    { destruct (nth_error (f_rows a) t) eqn:E'; eauto. apply nth_error_None in E'. assert (t < length A)%nat by (apply nth_error_Some; congruence). lia. }
    destruct HH as (row & Hrow). unfold fm. rewrite (nth_error_nth _ _ [] Hrow). apply (GA t); auto.
  - intros t r Hr. assert (HH : exists row, nth_error (f_rows b) t = Some row).
    { destruct (nth_error (f_rows b) t) eqn:E'; eauto. apply nth_error_None in E'. assert (t < length B)%nat by (apply nth_error_Some; congruence). lia. }
    destruct HH as (row & Hrow). unfold fm. rewrite (nth_error_nth _ _ [] Hrow). apply (GB t); auto.
Qed.

(** Mismatched spin weights, ranges or times are refused unless allowed. *)
Theorem C41_mismatch_rejected : forall a b M aL at_,
  f_spin a <> f_spin b \/
  (f_lo a <> f_lo b \/ f_hi a <> f_hi b) /\ aL = false \/
  (f_lo a <> f_lo b \/ f_hi a <> f_hi b) /\ Z.min (f_hi a) (f_hi b) < Z.max (f_lo a) (f_lo b) \/
  f_t a <> f_t b /\ at_ = false ->
  mexp a M b aL at_ = Err ValueError.
Proof.
  intros a b M aL at_ H. unfold matrix_expectation. destruct (Z.eqb_spec (f_spin a) (f_spin b)); cbn [negb]; [|reflexivity].
  destruct (negb (f_lo a =? f_lo b) || negb (f_hi a =? f_hi b)) eqn:EL.
  - destruct aL; [|reflexivity]. cbv zeta. destruct (Z.leb_spec (Z.min (f_hi a) (f_hi b) + 1) (Z.max (f_lo a) (f_lo b))); [reflexivity|].
    cbn [rbind]. destruct H as [H|[[_ H]|[[_ H]|[H ->]]]]; try congruence; try lia.
    destruct (times_eqb (f_t a) (f_t b)) eqn:ET; [|reflexivity]. apply times_eqb_ok in ET. congruence.
  - apply orb_false_iff in EL as [E1 E2]. apply negb_false_iff in E1, E2. apply Z.eqb_eq in E1, E2. cbn [rbind].
    destruct H as [H|[[H _]|[[H _]|[H ->]]]]; try congruence; try tauto.
    destruct (times_eqb (f_t a) (f_t b)) eqn:ET; [|reflexivity]. apply times_eqb_ok in ET. congruence.
Qed.
End Expectation.
