(** * Sample waveforms: one mode, its supertranslation, and the leading-order amplitudes *)
From Coq Require Import Reals ZArith List Bool Lia Lra.
From Verif Require Import Common Cplx Quat Modes_Model Times_Model Tables_Model Modal_Model Kwargs_Model Transform_Model Rotate_Model
  Modes_Proofs Modal_Proofs Rotate_Proofs Times_Proofs Kwargs_Proofs Transform_Proofs Wigner_Model Wigner_Proofs Sphere_Model Sphere_Proofs Harmonics_Proofs
  Pipeline_Model Pipeline_Proofs Product_Proofs Gridmul_Proofs Linear_Proofs Sample_Model.
Import ListNotations.
Open Scope R_scope.

(** ** Specification *)
(** One mode and nothing else *)
Definition one_mode (ell m : Z) (v : C) (l m' : Z) : C := if ((l =? ell) && (m' =? m))%Z then v else C0.
(** What is asked of the arguments: the mode is one of those present *)
Definition args_ok (a : sargs) : Prop :=
  (Z.abs (a_s a) <= 2)%Z /\ (0 <= a_lo a <= a_ell a)%Z /\ (a_ell a <= a_hi a)%Z /\ (- a_ell a <= a_m a <= a_ell a)%Z /\ 0 < a_dt a.
(** sf.Wigner3j gives the products of a scalar harmonic with the harmonic (s, ell, m). *)
Definition couples (w3j : Z -> Z -> Z -> Z -> Z -> Z -> R) (s ell m : Z) : Prop :=
  forall l2 m2 q, (0 <= l2)%Z -> (- l2 <= m2 <= l2)%Z -> qnorm2 q = 1 ->
  (swsh 0 l2 m2 q * swsh s ell m q)%C =
  csum (fun l' => Cscale (sgn (s + m + m2) * sqrt (IZR ((2 * l2 + 1) * (2 * ell + 1) * (2 * l' + 1)) / (4 * PI)) * w3j l2 ell l' 0%Z (- s)%Z s * w3j l2 ell l' m2 m (- (m + m2))%Z)
                    (swsh s l' (m + m2) q)) (zrange 0 (ell + l2 + 1)).

(** ** Times *)
Lemma ceiling_spec : forall x, x <= IZR (ceiling x) < x + 1.
Proof. intros x. unfold ceiling. rewrite minus_IZR. destruct (archimed (- x)). lra. Qed.
(** The times are t_0 + i dt, of which the last is the first not before t_1. *)
Theorem C73_times : forall t0 t1 dt, 0 < dt -> t0 <= t1 ->
  exists n, arange t0 (t1 + dt) dt = Ok (map (fun i => t0 + INR i * dt) (seq 0 (S n))) /\ t1 <= t0 + INR n * dt < t1 + dt.
Proof.
  intros t0 t1 dt Hd Ht. unfold arange. destruct (Req_EM_T dt 0); [lra|].
  pose proof (ceiling_spec ((t1 + dt - t0) / dt)) as [A B]. set (c := ceiling _) in *.
  assert (E : (t1 + dt - t0) / dt = (t1 - t0) / dt + 1) by (field; lra). rewrite E in A, B.
  assert (P : 0 <= (t1 - t0) / dt) by (apply Rmult_le_pos; [lra|apply Rlt_le, Rinv_0_lt_compat; exact Hd]).
  assert (C1 : (1 <= c)%Z) by (apply le_IZR; lra).
  exists (Z.to_nat (c - 1)). assert (EN : Z.to_nat c = S (Z.to_nat (c - 1))) by lia. rewrite EN. split; [reflexivity|].
  rewrite INR_IZR_INZ, Z2Nat.id by lia. rewrite minus_IZR.
  assert (E2 : (t1 - t0) / dt * dt = t1 - t0) by (field; lra). split; nra.
Qed.
Lemma arange_increasing : forall t0 dt n k, 0 < dt -> increasing (map (fun i => t0 + INR i * dt) (seq k n)).
Proof.
  intros t0 dt n. induction n as [|n IH]; intros k Hd; [constructor|]. cbn [seq map]. apply increasing_intro; [|apply IH; exact Hd].
  intros y I. apply in_map_iff in I. destruct I as (i & <- & I). apply in_seq in I. assert (INR k < INR i) by (apply lt_INR; lia). nra.
Qed.

(** ** Rows of modes *)
Lemma total_size : forall lo hi, (0 <= lo <= hi + 1)%Z -> LM_total_size lo hi = Z.of_nat (length (LM_range lo hi)).
Proof. intros lo hi H. destruct (Z.eq_dec lo (hi + 1)) as [->|N]. { unfold LM_total_size, LM_range. replace (zrange (hi + 1) (hi + 1)) with (@nil Z) by (unfold zrange; rewrite Z.sub_diag; reflexivity). cbn [flat_map length]. nia. }
  pose proof (LM_range_length lo hi ltac:(lia) ltac:(lia)). unfold LM_total_size. nia. Qed.
Lemma mode_position : forall lo hi l m, (0 <= lo)%Z -> valid lo hi l m -> column_number (LM_total_size lo hi) (LM_index l m lo) = Ok (Z.to_nat (LM_index l m lo)) /\
  (Z.to_nat (LM_index l m lo) < length (LM_range lo hi))%nat /\ (0 <= LM_index l m lo)%Z.
Proof.
  intros lo hi l m Hlo [Hl Hm]. destruct (C01_index_is_position lo hi l m Hlo Hl Hm) as [H _]. rewrite total_size by lia. unfold column_number.
  destruct (Z.ltb_spec (LM_index l m lo) 0); [lia|]. destruct (Z.leb_spec 0 (LM_index l m lo)); [|lia]. destruct (Z.ltb_spec (LM_index l m lo) (Z.of_nat (length (LM_range lo hi)))); [|lia].
  cbn [andb]. split; [reflexivity|lia].
Qed.
Lemma mode_distinct : forall lo hi l m l' m', (0 <= lo)%Z -> valid lo hi l m -> valid lo hi l' m' -> Z.to_nat (LM_index l m lo) = Z.to_nat (LM_index l' m' lo) -> l = l' /\ m = m'.
Proof.
  intros lo hi l m l' m' Hlo Hv Hv' E. destruct (mode_position lo hi l m Hlo Hv) as (_ & _ & P). destruct (mode_position lo hi l' m' Hlo Hv') as (_ & _ & P').
  assert (E' : LM_index l m lo = LM_index l' m' lo) by lia. unfold LM_index in E'. destruct Hv as [? ?], Hv' as [? ?]. assert (l = l') by nia. subst. lia.
Qed.
Lemma put_mode : forall lo hi l m v row, (0 <= lo)%Z -> valid lo hi l m -> length row = length (LM_range lo hi) ->
  exists row', put row (Z.to_nat (LM_index l m lo)) v = Ok row' /\ length row' = length row /\
    forall l' m', valid lo hi l' m' -> mode lo row' l' m' = if ((l' =? l) && (m' =? m))%Z then v else mode lo row l' m'.
Proof.
  intros lo hi l m v row Hlo Hv HL. destruct (mode_position lo hi l m Hlo Hv) as (_ & P & _). rewrite <- HL in P.
  destruct (upd_ok _ row _ v P) as [row' E]. exists row'. unfold put. rewrite E. split; [reflexivity|]. split; [eapply upd_length; exact E|].
  intros l' m' Hv'. unfold mode. rewrite (upd_nth _ _ _ _ _ C0 _ E). destruct (Nat.eqb_spec (Z.to_nat (LM_index l' m' lo)) (Z.to_nat (LM_index l m lo))) as [EE|N].
  - destruct (mode_distinct lo hi _ _ _ _ Hlo Hv' Hv EE) as [-> ->]. rewrite !Z.eqb_refl. reflexivity.
  - destruct (Z.eqb_spec l' l) as [->|]; [|reflexivity]. destruct (Z.eqb_spec m' m) as [->|]; [contradiction|reflexivity].
Qed.
Lemma zero_row : forall lo hi, (0 <= lo <= hi)%Z -> exists row, zeros (LM_total_size lo hi) = Ok row /\ length row = length (LM_range lo hi) /\ forall l m, mode lo row l m = C0.
Proof.
  intros lo hi H. unfold zeros. rewrite total_size by lia. destruct (Z.ltb_spec (Z.of_nat (length (LM_range lo hi))) 0); [lia|]. rewrite Nat2Z.id.
  eexists. split; [reflexivity|]. split; [apply repeat_length|]. intros l m. unfold mode. destruct (nth_in_or_default (Z.to_nat (LM_index l m lo)) (repeat C0 (length (LM_range lo hi))) C0) as [I|E]; [apply repeat_spec in I; exact I|exact E].
Qed.
(** The type of data belongs to the spin weight: psi0 to psi4. *)
Theorem C73_type : forall a, (Z.abs (a_s a) <= 2)%Z -> exists d, a_type a = Ok (dflt d (sa_type a)) /\ (1 <= d <= 5)%Z /\ d = (3 - a_s a)%Z /\ spin d = a_s a.
Proof.
  intros a H. unfold a_type. set (s := a_s a) in *. assert (C : (s = -2 \/ s = -1 \/ s = 0 \/ s = 1 \/ s = 2)%Z) by lia.
  destruct C as [->|[->|[->|[->| ->]]]]; (match goal with |- exists d, _ /\ _ /\ d = ?x /\ _ => let v := eval vm_compute in x in exists v end; split; [reflexivity|split; [lia|split; reflexivity]]).
Qed.
Lemma type_err : forall a, (2 < Z.abs (a_s a))%Z -> a_s a <> maxsize -> a_type a = Err ValueError.
Proof.
  intros a H N. unfold a_type. set (s := a_s a) in *. unfold SpinWeights, index_of.
  repeat (match goal with |- context [(?x =? s)%Z] => destruct (Z.eqb_spec x s); [exfalso; (lia || congruence)|] end). reflexivity.
Qed.
(** Another spin weight is refused, even if a type of data is given. *)
Theorem C73_spin_refused : forall f a, (2 < Z.abs (a_s a))%Z -> a_s a <> maxsize -> single_waveform f a = Err ValueError.
Proof. intros f a H N. unfold single_waveform, single_rows. rewrite type_err by assumption. reflexivity. Qed.

Lemma single_rows_ok : forall f a, args_ok a -> exists d t rows, single_rows f a = Ok (d, t, rows) /\ a_type a = Ok d /\ arange (a_t0 a) (a_t1 a + a_dt a) (a_dt a) = Ok t /\
  Forall2 (fun x row => length row = length (LM_range (a_lo a) (a_hi a)) /\ forall l m, valid (a_lo a) (a_hi a) l m -> mode (a_lo a) row l m = one_mode (a_ell a) (a_m a) (f x) l m) t rows.
Proof.
  intros f a (Hs & H1 & H2 & H3 & H4). destruct (C73_type a Hs) as (d & Ed & _). unfold single_rows. rewrite Ed. cbn [rbind].
  assert (ET : exists t, arange (a_t0 a) (a_t1 a + a_dt a) (a_dt a) = Ok t) by (unfold arange; destruct (Req_EM_T (a_dt a) 0); [lra|eexists; reflexivity]).
  destruct ET as [t ET]. rewrite ET. cbn [rbind].
  destruct (zero_row (a_lo a) (a_hi a) ltac:(lia)) as (row & Er & Lr & Zr). rewrite Er. cbn [rbind].
  assert (Hv : valid (a_lo a) (a_hi a) (a_ell a) (a_m a)) by (split; lia).
  destruct (mode_position (a_lo a) (a_hi a) (a_ell a) (a_m a) ltac:(lia) Hv) as (Ec & _ & _). rewrite Ec. cbn [rbind].
  destruct (each_exists _ _ (fun x => put row (Z.to_nat (LM_index (a_ell a) (a_m a) (a_lo a))) (f x))
    (fun x row => length row = length (LM_range (a_lo a) (a_hi a)) /\ forall l m, valid (a_lo a) (a_hi a) l m -> mode (a_lo a) row l m = one_mode (a_ell a) (a_m a) (f x) l m) t) as (rows & E & P).
  { intros x _. destruct (put_mode (a_lo a) (a_hi a) _ _ (f x) row ltac:(lia) Hv Lr) as (row' & E & LL & M). exists row'. split; [exact E|]. split; [congruence|].
    intros l m Hv'. rewrite M by exact Hv'. unfold one_mode. destruct ((l =? a_ell a) && (m =? a_m a))%Z; [reflexivity|apply Zr]. }
  rewrite E. cbn [rbind]. exists (dflt d (sa_type a)), t, rows. repeat split; assumption.
Qed.
Lemma Forall2_In_r : forall A B (P : A -> B -> Prop) l l' y, Forall2 P l l' -> In y l' -> exists x, P x y.
Proof. intros A B P l l' y H. induction H as [|x z l l' Hx Hl IH]; intros I; [destruct I|]. destruct I as [<-|I]; [exists x; exact Hx|exact (IH I)]. Qed.
(** The waveform has the mode that was asked for, with the value at every time, and no other. *)
Theorem C73_single : forall f a, args_ok a -> exists w, single_waveform f a = Ok w /\ wave_ok w /\ arange (a_t0 a) (a_t1 a + a_dt a) (a_dt a) = Ok (pw_t w) /\
  pw_lo w = a_lo a /\ pw_hi w = a_hi a /\ pw_frame w = [] /\ pw_frameType w = InertialFrame /\ a_type a = Ok (pw_dataType w) /\ pw_r w = true /\
  forall i l m, (i < length (pw_t w))%nat -> (0 <= l <= a_hi a)%Z -> (- l <= m <= l)%Z -> mode_of w i l m = one_mode (a_ell a) (a_m a) (f (nth i (pw_t w) 0)) l m.
Proof.
  intros f a Ha. destruct (single_rows_ok f a Ha) as (d & t & rows & E & Ed & Et & P). unfold single_waveform. rewrite E. cbn [rbind fst snd].
  eexists. split; [reflexivity|]. destruct Ha as (Hs & H1 & H2 & H3 & H4). unfold wave_ok. cbn [pw_t pw_data pw_lo pw_hi pw_frame pw_frameType pw_dataType pw_r].
  split. { split; [lia|]. split; [symmetry; exact (Forall2_len _ _ _ _ _ P)|]. intros row I. destruct (Forall2_In_r _ _ _ _ _ _ P I) as (x & L & _). exact L. }
  repeat (split; [assumption || reflexivity|]). intros i l m Hi Hl Hm. unfold mode_of. cbn [pw_lo pw_data].
  destruct (Z.ltb_spec l (a_lo a)) as [B|B].
  - unfold one_mode. destruct (Z.eqb_spec l (a_ell a)); [lia|reflexivity].
  - destruct (Forall2_nth _ _ _ _ _ i (nth i t 0) [] P ltac:(apply nth_error_nth'; exact Hi)) as [_ M]. apply M. split; lia.
Qed.

(** A degree or order that is not present is not refused: an order just above the degree is the lowest order of the next degree, and a
    degree below the lowest counts from the end. *)
Theorem C73_wrong_mode_refuted : forall f a, (Z.abs (a_s a) <= 2)%Z -> 0 < a_dt a -> (0 <= a_lo a <= a_ell a)%Z -> (a_ell a < a_hi a)%Z -> a_m a = (a_ell a + 1)%Z ->
  single_waveform f a = single_waveform f (mksa (sa_s a) (Some (a_ell a + 1)%Z) (Some (- (a_ell a + 1))%Z) (Some (a_lo a)) (sa_hi a) (sa_type a) (sa_t0 a) (sa_t1 a) (sa_dt a)).
Proof.
  intros f a Hs Hd H1 H2 H3. unfold single_waveform, single_rows, a_type. set (b := mksa _ _ _ _ _ _ _ _ _).
  change (a_s b) with (a_s a). change (a_lo b) with (a_lo a). change (a_hi b) with (a_hi a). change (a_t0 b) with (a_t0 a). change (a_t1 b) with (a_t1 a). change (a_dt b) with (a_dt a).
  change (sa_type b) with (sa_type a). change (a_ell b) with (a_ell a + 1)%Z. change (a_m b) with (- (a_ell a + 1))%Z. rewrite H3.
  assert (EI : LM_index (a_ell a) (a_ell a + 1) (a_lo a) = LM_index (a_ell a + 1) (- (a_ell a + 1)) (a_lo a)) by (unfold LM_index; ring). rewrite EI. reflexivity.
Qed.

(** ** The loop over the supertranslation *)
Section Loop.
Variables lo hi : Z.
Hypothesis Hlo : (0 <= lo)%Z.
Notation width := (length (LM_range lo hi)).
Lemma add_mode : forall l m v row, valid lo hi l m -> length row = width ->
  exists row', add_at row (LM_total_size lo hi) (LM_index l m lo) v = Ok row' /\ length row' = width /\
    forall l' m', valid lo hi l' m' -> mode lo row' l' m' = (mode lo row l' m' + one_mode l m v l' m')%C.
Proof.
  intros l m v row Hv HL. unfold add_at. destruct (mode_position lo hi l m Hlo Hv) as (E & P & _). rewrite E. cbn [rbind]. unfold Kwargs_Model.get. rewrite (nth_error_nth' _ C0) by lia. cbn [rbind].
  destruct (put_mode lo hi l m (nth (Z.to_nat (LM_index l m lo)) row C0 + v)%C row Hlo Hv HL) as (row' & E' & L' & M). exists row'. split; [exact E'|]. split; [congruence|].
  intros l' m' Hv'. rewrite M by exact Hv'. unfold one_mode. destruct (Z.eqb_spec l' l) as [->|]; cbn [andb]; [|ring]. destruct (Z.eqb_spec m' m) as [->|]; [reflexivity|ring].
Qed.
Lemma inner_loop : forall m0 (v : Z -> C) ls row, (forall l, In l ls -> lo <= l <= hi)%Z -> length row = width ->
  exists row', fold_res (fun row l => if (Z.abs m0 <=? l)%Z then add_at row (LM_total_size lo hi) (LM_index l m0 lo) (v l) else Ok row) ls row = Ok row' /\ length row' = width /\
    forall l' m', valid lo hi l' m' -> mode lo row' l' m' = (mode lo row l' m' + csum (fun l => one_mode l m0 (v l) l' m') ls)%C.
Proof.
  intros m0 v. induction ls as [|l ls IH]; intros row HB HL; [exists row; split; [reflexivity|]; split; [exact HL|]; intros; cbn [csum]; ring|]. cbn [fold_res csum].
  destruct (Z.leb_spec (Z.abs m0) l) as [A|A].
  - destruct (add_mode l m0 (v l) row) as (r1 & E1 & L1 & M1); [pose proof (HB l (or_introl eq_refl)); split; lia|exact HL|]. rewrite E1. cbn [rbind].
    destruct (IH r1 (fun x I => HB x (or_intror I)) L1) as (r2 & E2 & L2 & M2). exists r2. split; [exact E2|]. split; [exact L2|]. intros l' m' Hv. rewrite M2, M1 by exact Hv. ring.
  - cbn [rbind]. destruct (IH row (fun x I => HB x (or_intror I)) HL) as (r2 & E2 & L2 & M2). exists r2. split; [exact E2|]. split; [exact L2|]. intros l' m' Hv. rewrite M2 by exact Hv.
    assert (Z0 : one_mode l m0 (v l) l' m' = C0); [|rewrite Z0; ring]. unfold one_mode. destruct (Z.eqb_spec l' l); [|reflexivity]. destruct (Z.eqb_spec m' m0); [|reflexivity]. destruct Hv. lia.
Qed.
Lemma outer_loop : forall m (top : Z -> Z) (v : C -> Z -> Z -> Z -> C) ps row, length row = width ->
  exists row', fold_res (fun row p => let '(x, (l2, m2)) := p in if Cnonzero x then
      fold_res (fun row l => if (Z.abs (m + m2) <=? l)%Z then add_at row (LM_total_size lo hi) (LM_index l (m + m2) lo) (v x l2 m2 l) else Ok row) (zrange lo (Z.min hi (top l2) + 1)) row
      else Ok row) ps row = Ok row' /\ length row' = width /\
    forall l' m', valid lo hi l' m' -> mode lo row' l' m' = (mode lo row l' m' +
      csum (fun p => let '(x, (l2, m2)) := p in if Cnonzero x then csum (fun l => one_mode l (m + m2) (v x l2 m2 l) l' m') (zrange lo (Z.min hi (top l2) + 1)) else C0) ps)%C.
Proof.
  intros m top v. induction ps as [|[x [l2 m2]] ps IH]; intros row HL; [exists row; split; [reflexivity|]; split; [exact HL|]; intros; cbn [csum]; ring|]. cbn [fold_res csum].
  destruct (Cnonzero x) eqn:NZ.
  - destruct (inner_loop (m + m2) (v x l2 m2) (zrange lo (Z.min hi (top l2) + 1)) row) as (r1 & E1 & L1 & M1); [intros l I; apply zrange_In in I; lia|exact HL|]. rewrite E1. cbn [rbind].
    destruct (IH r1 L1) as (r2 & E2 & L2 & M2). exists r2. split; [exact E2|]. split; [exact L2|]. intros l' m' Hv. rewrite M2, M1 by exact Hv. ring.
  - cbn [rbind]. destruct (IH row HL) as (r2 & E2 & L2 & M2). exists r2. split; [exact E2|]. split; [exact L2|]. intros l' m' Hv. rewrite M2 by exact Hv. ring.
Qed.
End Loop.

(** ** The supertranslation *)
Lemma coupled : forall w3j s ell m l2 m2 l, couples w3j s ell m -> (0 <= l2)%Z -> (- l2 <= m2 <= l2)%Z -> (Z.abs s <= l <= ell + l2)%Z -> (Z.abs (m + m2) <= l)%Z ->
  sgn (s + m + m2) * sqrt (IZR ((2 * l2 + 1) * (2 * ell + 1) * (2 * l + 1)) / (4 * PI)) * w3j l2 ell l 0%Z (- s)%Z s * w3j l2 ell l m2 m (- (m + m2))%Z = product_table 0 l2 m2 s ell m l.
Proof.
  intros w3j s ell m l2 m2 l HC H1 H2 H3 H4.
  set (c := fun l => sgn (s + m + m2) * sqrt (IZR ((2 * l2 + 1) * (2 * ell + 1) * (2 * l + 1)) / (4 * PI)) * w3j l2 ell l 0%Z (- s)%Z s * w3j l2 ell l m2 m (- (m + m2))%Z).
  change (c l = product_table 0 l2 m2 s ell m l).
  pose proof (C72_unique 0 l2 m2 s ell m (fun l => RtoC (c l))) as U. assert (E : RtoC (c l) = RtoC (product_table 0 l2 m2 s ell m l)); [|exact (f_equal re E)].
  apply U; [|lia|lia]. intros q Hq. rewrite (HC l2 m2 q H1 H2 Hq). replace (l2 + ell + 1)%Z with (ell + l2 + 1)%Z by lia. apply csum_ext. intros l' _. change (0 + s)%Z with s.
  replace (m2 + m)%Z with (m + m2)%Z by lia. rewrite Cscale_mul. reflexivity.
Qed.
Lemma parity_sgn : forall n, (if (n mod 2 =? 1)%Z then - 1 else 1) = sgn n.
Proof. intros n. unfold sgn. rewrite Zeven_mod. destruct (Z.eqb_spec (n mod 2) 1) as [E|E]; [rewrite E; reflexivity|]. pose proof (Z.mod_pos_bound n 2 ltac:(lia)). assert (n mod 2 = 0)%Z by lia. rewrite H0. reflexivity. Qed.
Lemma product_one : forall s L alpha ell m beta l m', (0 <= ell)%Z -> (- ell <= m <= ell)%Z ->
  times 0 L s ell alpha (one_mode ell m beta) l m' =
  csum (fun p => if (m + snd p =? m')%Z then Cscale (product_table 0 (fst p) (snd p) s ell m l) (beta * alpha (fst p) (snd p))%C else C0) (LM_range 0 L).
Proof.
  intros s L alpha ell m beta l m' He Hm. unfold times. apply csum_ext. intros [l2 m2] _. cbn [fst snd].
  rewrite (ABDBalance_Proofs.csum_pick _ _ (LM_range 0 ell) (ell, m) (keys_nodup 0 ell)).
  - cbn [fst snd]. replace (m2 + m)%Z with (m + m2)%Z by lia. unfold one_mode. rewrite !Z.eqb_refl. cbn [andb]. destruct (m + m2 =? m')%Z; [|reflexivity]. f_equal. ring.
  - apply LM_range_In. lia.
  - intros [l3 m3] _ N. cbn [fst snd]. destruct (m2 + m3 =? m')%Z; [|reflexivity]. unfold one_mode. destruct (Z.eqb_spec l3 ell) as [->|]; [destruct (Z.eqb_spec m3 m) as [->|]; [congruence|]|]; cbn [andb]; apply C_eq; cbn; ring.
Qed.
Lemma alpha_pairs : forall alpha L, (0 <= L)%Z -> Kwargs_Proofs.has_modes alpha L -> combine alpha (LM_range 0 L) = map (fun lm => (mode_at alpha (fst lm) (snd lm), lm)) (LM_range 0 L).
Proof.
  intros alpha L HL Hm. rewrite (row_map 0 L alpha) at 1 by (lia || (apply full_length; assumption)). rewrite <- (map_id (LM_range 0 L)) at 2. rewrite Pipeline_Proofs.combine_maps.
  apply map_ext. intros lm. rewrite mode_at_0. reflexivity.
Qed.
Lemma supertranslate_row_ok : forall w3j a beta alpha L row, args_ok a -> couples w3j (a_s a) (a_ell a) (a_m a) -> (0 <= L)%Z -> Kwargs_Proofs.has_modes alpha L ->
  length row = length (LM_range (a_lo a) (a_hi a)) ->
  exists row', supertranslate_row w3j a beta alpha L row = Ok row' /\ length row' = length (LM_range (a_lo a) (a_hi a)) /\
    forall l m, valid (a_lo a) (a_hi a) l m -> (Z.abs (a_s a) <= l)%Z ->
      mode (a_lo a) row' l m = (mode (a_lo a) row l m + times 0 L (a_s a) (a_ell a) (mode_at alpha) (one_mode (a_ell a) (a_m a) beta) l m)%C.
Proof.
  intros w3j a beta alpha L row (Hs & H1 & H2 & H3 & H4) HC HL Hm Lr. unfold supertranslate_row.
  destruct (outer_loop (a_lo a) (a_hi a) ltac:(lia) (a_m a) (fun l2 => a_ell a + l2)%Z (fun x l2 m2 l => addition w3j (a_s a) (a_ell a) (a_m a) beta x l2 m2 l) (combine alpha (LM_range 0 L)) row Lr) as (row' & E & L' & M).
  exists row'. split; [exact E|]. split; [exact L'|]. intros l m Hv Hl. rewrite M by exact Hv. f_equal. rewrite alpha_pairs by assumption. rewrite csum_map. rewrite product_one by lia.
  apply csum_ext. intros [l2 m2] I. apply LM_range_In in I. cbn [fst snd].
  destruct (Cnonzero_spec (mode_at alpha l2 m2)) as [NZ|ZZ].
  2: { assert (Z0 : mode_at alpha l2 m2 = C0) by (destruct (Ceq_dec (mode_at alpha l2 m2) C0); [assumption|contradiction]). rewrite Z0. destruct (a_m a + m2 =? m)%Z; [|reflexivity]. apply C_eq; cbn; ring. }
  destruct Hv as [Hv1 Hv2].
  destruct (Z.eqb_spec (a_m a + m2) m) as [Em|Em].
  2: { apply csum_const0. intros l' _. unfold one_mode. destruct (Z.eqb_spec m (a_m a + m2)); [congruence|]. rewrite andb_false_r. reflexivity. }
  destruct (Z_le_gt_dec l (a_ell a + l2)) as [LE|GT].
  - rewrite (ABDBalance_Proofs.csum_pick _ _ (zrange (a_lo a) (Z.min (a_hi a) (a_ell a + l2) + 1)) l).
    + unfold one_mode. rewrite Z.eqb_refl. destruct (Z.eqb_spec m (a_m a + m2)); [|congruence]. cbn [andb]. unfold addition. rewrite <- (coupled w3j (a_s a) (a_ell a) (a_m a) l2 m2 l HC) by lia.
      rewrite parity_sgn. replace (a_s a + (a_m a + m2))%Z with (a_s a + a_m a + m2)%Z by lia. reflexivity.
    + apply zrange_NoDup.
    + apply zrange_In. lia.
    + intros l' _ N. unfold one_mode. destruct (Z.eqb_spec l l'); [congruence|reflexivity].
  - rewrite csum_const0.
    + rewrite table_zero; [apply C_eq; cbn; ring|]. replace (l <=? l2 + a_ell a)%Z with false by lia. apply andb_false_r.
    + intros l' I'. apply zrange_In in I'. unfold one_mode. destruct (Z.eqb_spec l l'); [lia|reflexivity].
Qed.
Lemma complete_alpha : forall alpha, (ell_max_of alpha * (ell_max_of alpha + 2) + 1 =? Z.of_nat (length alpha))%Z = true <-> Kwargs_Proofs.has_modes alpha (ell_max_of alpha).
Proof. intros alpha. unfold Kwargs_Proofs.has_modes. split; [intros H; apply Z.eqb_eq in H; lia|intros H; apply Z.eqb_eq; lia]. Qed.
(** Mode by mode: beta times t in the mode of the original, and the modes of the product of alpha with the original's harmonic, as far
    as the waveform has them. *)
Theorem C73_supertranslated : forall w3j beta super space a alpha L p, args_ok a -> couples w3j (a_s a) (a_ell a) (a_m a) -> read_alpha super space = Ok alpha ->
  (0 <= L)%Z -> Kwargs_Proofs.has_modes alpha L -> product_modes 0 L (mode_at alpha) (a_s a) (a_ell a) (one_mode (a_ell a) (a_m a) beta) p ->
  exists w, supertranslated w3j beta super space a = Ok w /\ wave_ok w /\ arange (a_t0 a) (a_t1 a + a_dt a) (a_dt a) = Ok (pw_t w) /\
    pw_lo w = a_lo a /\ pw_hi w = a_hi a /\ pw_frame w = [] /\ pw_frameType w = InertialFrame /\ a_type a = Ok (pw_dataType w) /\ pw_r w = true /\
    forall i l m, (i < length (pw_t w))%nat -> valid (Z.max (a_lo a) (Z.abs (a_s a))) (a_hi a) l m ->
      mode_of w i l m = (one_mode (a_ell a) (a_m a) (beta * RtoC (nth i (pw_t w) 0)) l m + p l m)%C.
Proof.
  intros w3j beta super space a alpha L p Ha HC EA HL Hm HP. destruct (single_rows_ok (fun t => (beta * RtoC t)%C) a Ha) as (d & t & rows & E & Ed & Et & P).
  unfold supertranslated. rewrite E. cbn [rbind fst snd]. rewrite EA. cbn [rbind]. rewrite (ell_max_of_has alpha L) by (lia || exact Hm).
  destruct (Z.eqb_spec (L * (L + 2) + 1) (Z.of_nat (length alpha))) as [_|N]; [|unfold Kwargs_Proofs.has_modes in Hm; lia].
  assert (Ha' := Ha). destruct Ha' as (Hs & H1 & H2 & H3 & H4).
  set (Q := fun (r r' : list C) => length r' = length (LM_range (a_lo a) (a_hi a)) /\ forall l m, valid (a_lo a) (a_hi a) l m -> (Z.abs (a_s a) <= l)%Z -> mode (a_lo a) r' l m = (mode (a_lo a) r l m + p l m)%C).
  destruct (each_exists _ _ (supertranslate_row w3j a beta alpha L) Q rows) as (rows' & E' & P').
  { intros r I. destruct (Forall2_In_r _ _ _ _ _ _ P I) as (x & Lr & _). destruct (supertranslate_row_ok w3j a beta alpha L r Ha HC HL Hm Lr) as (r' & Er & L' & M). exists r'. split; [exact Er|].
    split; [exact L'|]. intros l m Hv Hl. rewrite M by assumption. f_equal. destruct Hv as [Hv1 Hv2].
    apply (product_modes_unique 0 L (mode_at alpha) (a_s a) (a_ell a) (one_mode (a_ell a) (a_m a) beta)); try assumption; try lia. apply C72_fields; lia. }
  rewrite E'. cbn [rbind]. eexists. split; [reflexivity|]. unfold wave_ok. cbn [pw_t pw_data pw_lo pw_hi pw_frame pw_frameType pw_dataType pw_r].
  split. { split; [lia|]. split; [rewrite <- (Forall2_len _ _ _ _ _ P'); symmetry; exact (Forall2_len _ _ _ _ _ P)|]. intros row I. destruct (Forall2_In_r _ _ _ _ _ _ P' I) as (x & L' & _). exact L'. }
  repeat (split; [assumption || reflexivity|]). intros i l m Hi [Hl Hm']. unfold mode_of. cbn [pw_lo pw_data]. destruct (Z.ltb_spec l (a_lo a)); [lia|].
  assert (Li : (i < length rows)%nat) by (rewrite <- (Forall2_len _ _ _ _ _ P); exact Hi).
  destruct (Forall2_nth _ _ _ _ _ i (nth i t 0) [] P ltac:(apply nth_error_nth'; exact Hi)) as [_ M].
  destruct (Forall2_nth _ _ _ _ _ i (nth i rows []) [] P' ltac:(apply nth_error_nth'; exact Li)) as [_ M'].
  rewrite M' by (try split; lia). rewrite M by (split; lia). reflexivity.
Qed.

(** As a function on the sphere, when the waveform has all the degrees of the product: the original at the retarded time t + alpha. *)
Theorem C73_field : forall w3j beta super space a alpha L w, args_ok a -> couples w3j (a_s a) (a_ell a) (a_m a) -> read_alpha super space = Ok alpha ->
  (0 <= L)%Z -> Kwargs_Proofs.has_modes alpha L -> (a_ell a + L <= a_hi a)%Z -> (a_lo a <= Z.abs (a_s a))%Z -> supertranslated w3j beta super space a = Ok w ->
  forall i q, (i < length (pw_t w))%nat -> qnorm2 q = 1 ->
    field (a_s a) (pw_hi w) (mode_of w i) q = (beta * (RtoC (nth i (pw_t w) 0) + field 0 L (mode_at alpha) q) * swsh (a_s a) (a_ell a) (a_m a) q)%C.
Proof.
  intros w3j beta super space a alpha L w Ha HC EA HL Hm HH Hlo Ew i q Hi Hq. set (b := one_mode (a_ell a) (a_m a) beta).
  assert (Ha' := Ha). destruct Ha' as (Hs & H1 & H2 & H3 & H4).
  pose proof (C72_fields 0 L (mode_at alpha) (a_s a) (a_ell a) b HL ltac:(lia)) as HP. set (p := times 0 L (a_s a) (a_ell a) (mode_at alpha) b) in *.
  destruct (C73_supertranslated w3j beta super space a alpha L p Ha HC EA HL Hm HP) as (w' & E' & _ & _ & _ & Eh & _ & _ & _ & _ & M). rewrite Ew in E'. injection E' as <-. rewrite Eh.
  assert (ONE : forall c M', (a_ell a <= M')%Z -> field (a_s a) M' (one_mode (a_ell a) (a_m a) c) q = (c * swsh (a_s a) (a_ell a) (a_m a) q)%C).
  { intros c M' HM. unfold field. rewrite (ABDBalance_Proofs.csum_pick _ _ (LM_range 0 M') (a_ell a, a_m a) (keys_nodup 0 M')).
    - cbn [fst snd]. unfold one_mode. rewrite !Z.eqb_refl. reflexivity.
    - apply LM_range_In. lia.
    - intros [l m] _ N. cbn [fst snd]. unfold one_mode. destruct (Z.eqb_spec l (a_ell a)) as [->|]; [destruct (Z.eqb_spec m (a_m a)) as [->|]; [congruence|]|]; cbn [andb]; ring. }
  transitivity (field (a_s a) (a_hi a) (fun l m => (one_mode (a_ell a) (a_m a) (beta * RtoC (nth i (pw_t w) 0)) l m + p l m)%C) q).
  { apply Pipeline_Proofs.field_ext. intros l m Hl Hm'. apply M; [exact Hi|]. split; lia. }
  rewrite field_plus, ONE by exact H2.
  assert (EP : field (a_s a) (a_hi a) p q = (field 0 L (mode_at alpha) q * (beta * swsh (a_s a) (a_ell a) (a_m a) q))%C).
  { transitivity (field (0 + a_s a) (L + a_ell a) p q).
    - change (0 + a_s a)%Z with (a_s a). symmetry. apply field_grow; [lia|]. intros l m Hl. apply (proj2 HP). lia.
    - rewrite <- (proj1 HP q Hq). f_equal. apply ONE. lia. }
  rewrite EP. ring.
Qed.
(** No supertranslation, no change; an array that is not a whole number of degrees is refused. *)
Theorem C73_none : forall w3j beta a, supertranslated w3j beta None None a = proportional_to_time beta a.
Proof.
  intros w3j beta a. unfold supertranslated, proportional_to_time, single_waveform. destruct (single_rows _ a) as [[p rows]|]; [|reflexivity]. cbn [rbind read_alpha dflt].
  change (ell_max_of []) with (-1)%Z. cbn [length Z.of_nat]. change (-1 * (-1 + 2) + 1 =? 0)%Z with true. cbv iota.
  assert (E : each (supertranslate_row w3j a beta [] (-1)) rows = Ok rows). { rewrite (each_ok _ _ _ (fun r => r)); [rewrite map_id; reflexivity|]. intros r _. reflexivity. }
  rewrite E. reflexivity.
Qed.
Theorem C73_bad_size : forall w3j beta super a, args_ok a -> (forall L, (0 <= L)%Z -> Z.of_nat (length super) <> (L * L)%Z) -> supertranslated w3j beta (Some super) None a = Err ValueError.
Proof.
  intros w3j beta super a Ha H. destruct (single_rows_ok (fun t => (beta * RtoC t)%C) a Ha) as (d & t & rows & E & _). unfold supertranslated. rewrite E. cbn [rbind read_alpha dflt].
  destruct (Z.eqb_spec (ell_max_of super * (ell_max_of super + 2) + 1) (Z.of_nat (length super))) as [EE|_]; [|reflexivity]. exfalso.
  unfold ell_max_of in EE. apply (H (Z.sqrt (Z.of_nat (length super)))); [apply Z.sqrt_nonneg|]. lia.
Qed.

(** ** Agreement with the transformation of the waveform *)
Lemma neg_vector : forall v, vector_as_ell_1_modes (vneg v) = map (fun z => (- z)%C) (vector_as_ell_1_modes v).
Proof. intros [[x y] z]. cbn [vneg vector_as_ell_1_modes map]. f_equal; [|f_equal; [|f_equal]]; apply C_eq; cbn; ring. Qed.
(** Only the supertranslation and the space translation are given. *)
Definition only (k : kwargs) (super : option (list C)) (space : option vec3) : Prop :=
  k_super k = super /\ k_space k = match space with None => None | Some (x, y, z) => Some [x; y; z] end /\
  k_spacetime k = None /\ k_time k = None /\ k_rotation k = None /\ k_boost k = None.
(** A space translation alone, or a real function given by all its modes, with or without a space translation *)
Definition real_super (super : option (list C)) (space : option vec3) : Prop :=
  match super with None => space <> None | Some a => exists L, (1 <= L)%Z /\ Kwargs_Proofs.has_modes a L /\ is_real a L end.
Lemma zeros_real : is_real (repeat C0 4) 1.
Proof. intros l m Hl Hm. unfold mode_at. assert (N : forall n, nth n (repeat C0 4) C0 = C0) by (intros n; do 5 (destruct n as [|n]; [reflexivity|]); destruct n; reflexivity). rewrite !N. apply C_eq; cbn; ring. Qed.
Lemma same_alpha : forall hi k super space alpha, (0 <= hi)%Z -> only k super space -> real_super super space -> read_alpha super space = Ok alpha ->
  exists L, (1 <= L)%Z /\ Kwargs_Proofs.has_modes alpha L /\ is_real alpha L /\
    grid_process hi None None k = Ok (mkgproc alpha L (hi + L) (2 * (hi + L) + 1) (2 * (hi + L) + 1) q1 (0, 0, 0)).
Proof.
  intros hi k super space alpha Hhi (K1 & K2 & K3 & K4 & K5 & K6) HR EA.
  assert (BASE : exists a L, read_super check_reality super = Ok a /\ (1 <= L)%Z /\ Kwargs_Proofs.has_modes a L /\ is_real a L /\ L = match super with None => 1%Z | Some _ => ell_max_of a end /\
    alpha = match space with None => a | Some v => match put3 a (vector_as_ell_1_modes (vneg v)) with Ok x => x | Err _ => [] end end).
  { destruct super as [sup|]; cbn [read_super real_super] in *.
    - destruct HR as (L & HL & Hm & HR). exists sup, L. assert (L4 : (4 <= length sup)%nat) by (unfold Kwargs_Proofs.has_modes in Hm; nia).
      assert (EP : pad4 sup = sup). { unfold pad4. destruct (Nat.leb_spec (length sup) 4); [|reflexivity]. replace (4 - length sup)%nat with 0%nat by lia. apply app_nil_r. }
      rewrite EP. assert (EM := ell_max_of_has sup L ltac:(lia) Hm).
      assert (EC : complete sup = true). { unfold complete. rewrite EM. apply Z.eqb_eq. unfold Kwargs_Proofs.has_modes in Hm. rewrite Hm. ring. }
      rewrite EC. unfold check_reality. rewrite EM. split; [apply (check_fold_pass L); [exact Hm|exact HR|intros l m I; apply nonneg_modes_In in I; exact I]|]. split; [exact HL|]. split; [exact Hm|]. split; [exact HR|]. split; [reflexivity|].
      unfold read_alpha in EA. cbn [dflt] in EA. destruct space as [v|]; [|injection EA as <-; reflexivity]. destruct (Nat.ltb_spec (length sup) 4); [lia|].
      rewrite neg_vector, EA. reflexivity.
    - exists (repeat C0 4), 1%Z. split; [reflexivity|]. split; [lia|]. split; [reflexivity|]. split; [exact zeros_real|]. split; [reflexivity|].
      destruct space as [v|]; [|congruence]. unfold read_alpha in EA. cbn [dflt length Nat.ltb Nat.leb app Nat.sub] in EA. rewrite neg_vector.
      change (repeat C0 4) with [C0; C0; C0; C0] in EA |- *. rewrite EA. reflexivity. }
  destruct BASE as (a & L & ER & HL & Hm & HRe & EL & EAl). assert (L4 : (4 <= length a)%nat) by (unfold Kwargs_Proofs.has_modes in Hm; nia).
  assert (EO : exists sp, override k a = Ok (alpha, sp)).
  { destruct (proj2 (override_ok k a L4)) as [[a' sp] EO].
    - rewrite K3, K2, K4. split; [discriminate|]. split; [|discriminate]. intros l El. destruct space as [[[x y] z]|]; [injection El as <-; reflexivity|discriminate].
    - exists sp. rewrite EO. f_equal. f_equal. unfold override in EO. rewrite !get_ok in EO by lia. cbn [rbind] in EO. destruct (vector_from_ell_1_modes _) as [[ax ay] az].
      rewrite K3, K2, K4 in EO. cbn [rbind] in EO. rewrite EAl. destruct space as [[[x y] z]|]; cbn [vec3_of rbind] in EO.
      + destruct (put3 a (vector_as_ell_1_modes (vneg (x, y, z)))) as [a''|]; [|discriminate]. cbn [rbind] in EO. injection EO as -> _. reflexivity.
      + injection EO as -> _. reflexivity. }
  destruct EO as [sp EO]. assert (LA : length alpha = length a) by (apply (proj1 (override_spec k a alpha sp L4 EO))).
  exists L. split; [exact HL|]. split; [unfold Kwargs_Proofs.has_modes in *; lia|]. split; [exact (override_real k a alpha sp L HL Hm HRe EO)|].
  unfold grid_process. rewrite K1, ER. cbn [rbind]. rewrite EO. cbn [rbind dflt]. rewrite <- EL.
  destruct (Z.ltb_spec (2 * (hi + L) + 1) (2 * hi + 1)); [lia|]. rewrite K5, K6.
  assert (E1 : read_rotation None = Ok q1).
  { unfold read_rotation. cbn [quat_of]. assert (A : qabs (mkq 1 0 0 0) = 1). { unfold qabs, qnorm2. cbn [qw qx qy qz]. replace (1 * 1 + 0 * 0 + 0 * 0 + 0 * 0) with 1 by ring. apply sqrt_1. }
    rewrite A. destruct (Rltb_spec 1 (3 / 10 ^ 16)); [exfalso; lra|]. unfold qnormalized. rewrite A. f_equal. apply quat_eq; cbn; field. }
  rewrite E1. cbn [rbind]. unfold read_boost. cbn [vec3_of]. assert (N0 : norm3 (0, 0, 0) = 0) by (unfold norm3; replace (0 * 0 + 0 * 0 + 0 * 0) with 0 by ring; apply sqrt_0).
  rewrite N0. destruct (Rleb_spec 1 0); [lra|]. reflexivity.
Qed.
(** Transforming the waveform that is proportional to time gives the modes of the analytical solution at the new times, less the
    derivative of the supertranslation if the data are a strain or a shear. *)
Theorem C73_agreement : forall spline map2salm w3j beta super space a alpha L k aux, straight spline -> args_ok a -> couples w3j (a_s a) (a_ell a) (a_m a) ->
  only k super space -> real_super super space -> read_alpha super space = Ok alpha -> (0 <= L)%Z -> Kwargs_Proofs.has_modes alpha L -> a_t0 a + 2 * a_dt a < a_t1 a -> (Z.abs (a_s a) <= a_hi a)%Z ->
  forall w, proportional_to_time beta a = Ok w -> (5 <= pw_dataType w <= 9)%Z -> spin (pw_dataType w) = a_s a ->
  exact map2salm (a_s a) (2 * (a_hi a + L) + 1) (2 * (a_hi a + L) + 1) ->
  exists w' ws, transform spline map2salm w None None None k aux = Ok w' /\ supertranslated w3j beta super space a = Ok ws /\
    pw_hi w' = pw_hi ws /\ pw_dataType w' = pw_dataType ws /\ pw_t ws = pw_t w /\
    (forall u, In u (pw_t w') <-> In u (map (fun t => t - re (mode_at alpha 0 0) / sqrt (4 * PI)) (pw_t w)) /\
       forall q, In q (grid_points (2 * (pw_hi w + L) + 1) (2 * (pw_hi w + L) + 1)) ->
         nth 0 (pw_t w) 0 - re (field 0 L (mode_at alpha) q) <= u <= last (pw_t w) 0 - re (field 0 L (mode_at alpha) q)) /\
    forall i j l m, (i < length (pw_t w'))%nat -> (j < length (pw_t ws))%nat -> nth i (pw_t w') 0 = nth j (pw_t ws) 0 -> valid (Z.max (a_lo a) (Z.abs (a_s a))) (a_hi a) l m ->
      mode_of w' i l m = (mode_of ws j l m - (if (l <=? L)%Z then shear (pw_dataType w) (mode_at alpha) l m else C0))%C.
Proof.
  intros spline map2salm w3j beta super space a alpha L k aux HS Ha HC HO HR EA HL0 Hm HT Hsh w Ew HD Hsp HX.
  assert (Ha' := Ha). destruct Ha' as (Hs & H1 & H2 & H3 & H4).
  destruct (C73_single (fun t => (beta * RtoC t)%C) a Ha) as (w0 & E0 & W0 & T0 & Lo0 & Hi0 & _ & F0 & Ty0 & _ & M0). unfold proportional_to_time in Ew. rewrite Ew in E0. injection E0 as <-.
  destruct (same_alpha (a_hi a) k super space alpha ltac:(lia) HO HR EA) as (L' & HL & Hm' & HRe & EG). assert (L' = L) by (unfold Kwargs_Proofs.has_modes in Hm, Hm'; nia). subst L'. clear Hm'.
  destruct (C73_times (a_t0 a) (a_t1 a) (a_dt a) H4 ltac:(lra)) as (n & EN0 & B1 & B2).
  assert (EN : pw_t w = map (fun i => a_t0 a + INR i * a_dt a) (seq 0 (S n))) by congruence. clear EN0.
  assert (N3 : (3 <= n)%nat). { destruct (Nat.lt_ge_cases n 3) as [LT|GE]; [|exact GE]. assert (INR n <= 2) by (change 2 with (INR 2); apply le_INR; lia). nra. }
  set (b := one_mode (a_ell a) (a_m a) beta).
  assert (U : usable w).
  { split; [exact W0|]. split; [rewrite EN; apply arange_increasing; exact H4|]. split; [rewrite EN, map_length, seq_length; lia|]. split; [lia|exact F0]. }
  assert (LIN : linear w (fun _ _ => C0) b).
  { split.
    - intros i l m Hi Hl Hm'. rewrite M0 by (try assumption; lia). unfold b, one_mode. destruct ((l =? a_ell a) && (m =? a_m a))%Z; apply C_eq; cbn; ring.
    - intros l m Hl. split; [reflexivity|]. unfold b, one_mode. destruct (Z.eqb_spec l (a_ell a)); [lia|reflexivity]. }
  pose proof (C72_fields 0 L (mode_at alpha) (a_s a) (a_hi a) b ltac:(lia) ltac:(lia)) as HP. set (p := times 0 L (a_s a) (a_hi a) (mode_at alpha) b) in *.
  pose proof (C72_fields 0 L (mode_at alpha) (a_s a) (a_ell a) b ltac:(lia) ltac:(lia)) as HP'. set (p' := times 0 L (a_s a) (a_ell a) (mode_at alpha) b) in *.
  assert (PP : forall l m, (0 <= l)%Z -> (- l <= m <= l)%Z -> p l m = p' l m).
  { intros l m Hl Hm'. apply (product_modes_unique 0 L (mode_at alpha) (a_s a) (a_hi a) b); [lia|lia|exact HP| |lia|lia]. split.
    - intros q Hq. assert (EB : field (a_s a) (a_hi a) b q = field (a_s a) (a_ell a) b q).
      { symmetry. apply field_grow; [lia|]. intros l' m' Hl'. unfold b, one_mode. destruct (Z.eqb_spec l' (a_ell a)); [lia|reflexivity]. }
      rewrite EB, (proj1 HP' q Hq). apply field_grow; [lia|]. intros l' m' Hl'. apply (proj2 HP'). lia.
    - intros l' m' [Q|Q]; apply (proj2 HP'); lia. }
  destruct (C73_supertranslated w3j beta super space a alpha L p' Ha HC EA ltac:(lia) Hm HP') as (ws & Es & _ & Ts & _ & His & _ & _ & Tys & _ & Ms).
  destruct (C73_supertranslation spline HS map2salm w None None None k aux (mkgproc alpha L (a_hi a + L) (2 * (a_hi a + L) + 1) (2 * (a_hi a + L) + 1) q1 (0, 0, 0)) (fun _ _ => C0) b p U HD LIN)
    as (w' & Ew' & Tw' & _ & Low' & Hiw' & _ & _ & Tyw' & _ & _ & Mw'); cbn [gp_boost gp_super gp_ell_super gp_theta gp_phi gp_rotation dflt]; rewrite ?Hsp, ?Hi0; try assumption; try lia; try reflexivity.
  exists w', ws. cbn [gp_boost gp_super gp_ell_super gp_theta gp_phi gp_rotation dflt] in Tw', Mw', Hiw'. rewrite Hsp in Mw'. rewrite Hi0 in *.
  split; [exact Ew'|]. split; [exact Es|]. split; [congruence|]. split; [congruence|]. split; [congruence|]. split.
  { intros u. rewrite Tw'. assert (EQ : forall x, qmul q1 x = x) by (intros [qa qb qc qd]; apply quat_eq; cbn; ring).
    assert (EPt : map (qmul q1) (grid_points (2 * (a_hi a + L) + 1) (2 * (a_hi a + L) + 1)) = grid_points (2 * (a_hi a + L) + 1) (2 * (a_hi a + L) + 1)).
    { rewrite <- (map_id (grid_points _ _)) at 2. apply map_ext. exact EQ. }
    rewrite EPt. reflexivity. }
  intros i j l m Hi Hj Eij [Hl Hm']. rewrite Mw' by (try assumption; split; lia). destruct (Z.leb_spec l (a_hi a + L)); [|lia].
  rewrite (turn_one wigner_D C25_wigner_one) by lia. rewrite (Ms j) by (try assumption; split; lia). rewrite PP by lia. rewrite Eij. unfold b, one_mode.
  destruct ((l =? a_ell a) && (m =? a_m a))%Z; apply C_eq; cbn [re im Cadd Csub Cscale Cmul RtoC C0]; ring.
Qed.
(** With the default type of data, psi4, and for the news and the time derivative of the strain, there is nothing to take away. *)
Theorem C73_psi4 : forall alpha l m, shear psi4 alpha l m = C0 /\ shear hdot alpha l m = C0 /\ shear news alpha l m = C0.
Proof. intros alpha l m. unfold shear. change (memory psi4) with 0. change (memory hdot) with 0. change (memory news) with 0. repeat split; apply C_eq; cbn; ring. Qed.
(** A space translation moves the origin: alpha is - v.n. *)
Theorem C73_space : forall v alpha q, read_alpha None (Some v) = Ok alpha -> qnorm2 q = 1 -> field 0 1 (mode_at alpha) q = RtoC (- dot3 v (direction q)).
Proof.
  intros [[vx vy] vz] alpha q E Hq. unfold read_alpha in E. cbn [dflt length Nat.ltb Nat.leb app Nat.sub] in E.
  change ([] ++ repeat C0 (4 - 0)) with [C0; C0; C0; C0] in E. rewrite <- neg_vector in E. cbn [vneg vector_as_ell_1_modes put3 put upd nth rbind] in E. injection E as <-.
  unfold field. change (LM_range 0 1) with [(0, 0); (1, -1); (1, 0); (1, 1)]%Z. cbn [csum fst snd]. rewrite !swsh_1m by (exact Hq || lia). rewrite swsh_00.
  destruct (direction q) as [[nx ny] nz].
  match goal with |- context [mode_at ?x 1 0] => set (al := x) end.
  change (mode_at al 0 0) with C0. change (mode_at al 1 (-1)) with (Cscale (sqrt (2 * PI / 3)) (mkC (- vx) (- vy))).
  change (mode_at al 1 0) with (Cscale (sqrt (2 * PI / 3)) (mkC (- vz * sqrt 2) 0)). change (mode_at al 1 1) with (Cscale (sqrt (2 * PI / 3)) (mkC (- - vx) (- vy))).
  unfold Y1, Y0, dot3. cbn [Z.eqb Pos.eqb]. destruct sqrt_consts as (S1 & S2 & S3).
  set (f := sqrt (2 * PI / 3)) in *. set (g := sqrt (3 / (2 * PI))) in *. set (h := sqrt (3 / PI)) in *. set (r := sqrt 2) in *. set (u := / sqrt (4 * PI)). apply C_eq; cbn.
  - replace (- (vx * nx + vy * ny + vz * nz)) with (- (f * g) * (vx * nx + vy * ny) - (f * r * h) / 2 * (vz * nz)) by (rewrite S1, S2; field). field.
  - field.
Qed.

(** ** The constant waveform, one mode equal to 1, and the keyword arguments they drop *)
Theorem C73_constant : forall k, exists w, constant_waveform k = Ok w /\ wave_ok w /\ pw_t w = default_times /\ pw_lo w = 2%Z /\ pw_hi w = 8%Z /\ pw_dataType w = h /\ pw_frameType w = InertialFrame /\
  forall i l m, (i < length default_times)%nat -> valid 2 8 l m -> mode_of w i l m = mkC (IZR m) (- IZR m).
Proof.
  intros k. unfold constant_waveform, modes_constructor, no_kwargs. cbn [mc_t mc_dataType mc_lo mc_hi mc_frame mc_frameType mc_r dflt].
  change (spin_weight h) with (@Ok Z (-2)%Z). cbn [rbind]. change (Z.abs (-2)) with 2%Z. eexists. split; [reflexivity|]. unfold wave_ok. cbn [pw_t pw_data pw_lo pw_hi pw_dataType pw_frameType].
  split; [split; [lia|]; split; [apply map_length|]; intros row I; apply in_map_iff in I; destruct I as (x & <- & _); apply map_length|].
  repeat (split; [reflexivity|]). intros i l m Hi Hv. unfold mode_of. cbn [pw_lo pw_data]. destruct (Z.ltb_spec l 2) as [B|B]; [destruct Hv; lia|].
  rewrite (nth_indep _ [] ((fun _ : R => map (fun lm : Z * Z => mkC (IZR (snd lm)) (- IZR (snd lm))) (LM_range 2 8)) 0)) by (rewrite map_length; exact Hi).
  rewrite (map_nth (fun _ : R => map (fun lm : Z * Z => mkC (IZR (snd lm)) (- IZR (snd lm))) (LM_range 2 8)) default_times 0 i). apply (mode_map (fun lm => mkC (IZR (snd lm)) (- IZR (snd lm)))); [lia|exact Hv].
Qed.

Lemma range_lowest : forall lo hi, (0 <= lo <= hi)%Z -> exists ls, map fst (LM_range lo hi) = lo :: ls /\ Forall (fun x => (lo <= x)%Z) ls.
Proof.
  intros lo hi H. destruct (map fst (LM_range lo hi)) as [|x ls] eqn:E.
  - exfalso. assert (I : In (lo, 0%Z) (LM_range lo hi)) by (apply LM_range_In; lia). apply (in_map fst) in I. rewrite E in I. exact I.
  - assert (F : forall y, In y (x :: ls) -> (lo <= y)%Z) by (rewrite <- E; intros y I; apply in_map_iff in I; destruct I as ([l m] & <- & I); apply LM_range_In in I; cbn; lia).
    exists ls. split; [|apply Forall_forall; intros y I; apply F; right; exact I]. f_equal. revert E. unfold LM_range. rewrite (zrange_split lo (lo + 1) (hi + 1)) by lia.
    replace (zrange lo (lo + 1)) with [lo] by (unfold zrange; replace (Z.to_nat (lo + 1 - lo)) with 1%nat by lia; cbn; f_equal; lia).
    cbn [app flat_map]. replace (zrange (- lo) (lo + 1)) with ((- lo)%Z :: zrange (- lo + 1) (lo + 1)).
    + cbn. congruence.
    + rewrite (zrange_split (- lo) (- lo + 1) (lo + 1)) by lia. replace (zrange (- lo) (- lo + 1)) with [(- lo)%Z]; [reflexivity|].
      unfold zrange. replace (Z.to_nat (- lo + 1 - - lo)) with 1%nat by lia. cbn. f_equal. lia.
Qed.
Lemma fold_min : forall ls lo, Forall (fun x => (lo <= x)%Z) ls -> fold_left Z.min ls lo = lo.
Proof. induction ls as [|x ls IH]; intros lo F; [reflexivity|]. inversion F; subst. cbn [fold_left]. rewrite Z.min_l by assumption. apply IH. assumption. Qed.
Theorem C73_single_mode : forall ell m k, valid 2 8 ell m -> exists w, single_mode ell m k = Ok w /\ wave_ok w /\ pw_t w = default_times /\ pw_lo w = 2%Z /\ pw_hi w = 8%Z /\ pw_dataType w = h /\ pw_frameType w = InertialFrame /\
  forall i l m', (i < length default_times)%nat -> valid 2 8 l m' -> mode_of w i l m' = one_mode ell m C1 l m'.
Proof.
  intros ell m k Hv. unfold single_mode, modes_constructor, no_kwargs. cbn [mc_t mc_dataType mc_lo mc_hi mc_frame mc_frameType mc_r dflt].
  change (spin_weight h) with (@Ok Z (-2)%Z). cbn [rbind]. change (Z.abs (-2)) with 2%Z.
  destruct (range_lowest 2 8 ltac:(lia)) as (ls & E & F). rewrite E, fold_min by exact F.
  rewrite <- total_size by lia. destruct (zero_row 2 8 ltac:(lia)) as (row & Ez & Lr & Mz). rewrite Ez. cbn [rbind].
  destruct (mode_position 2 8 ell m ltac:(lia) Hv) as (Ej & Hj & _). rewrite Ej. cbn [rbind].
  destruct (put_mode 2 8 ell m C1 row ltac:(lia) Hv Lr) as (row' & Ep & Lr' & Mp).
  destruct (each_exists R (list C) (fun _ : R => put row (Z.to_nat (LM_index ell m 2)) C1) (fun _ r => r = row') default_times) as (rows & Er & P).
  { intros x _. exists row'. split; [exact Ep|reflexivity]. }
  rewrite Er. cbn [rbind]. eexists. split; [reflexivity|]. unfold wave_ok. cbn [pw_t pw_data pw_lo pw_hi pw_dataType pw_frameType].
  split. { split; [lia|]. split; [symmetry; exact (Forall2_len _ _ _ _ _ P)|]. intros r I. destruct (Forall2_In_r _ _ _ _ _ _ P I) as (x & ->). congruence. }
  repeat (split; [reflexivity|]). intros i l m' Hi Hv'. unfold mode_of. cbn [pw_lo pw_data]. destruct (Z.ltb_spec l 2) as [B|B]; [destruct Hv'; lia|].
  rewrite (Forall2_nth _ _ _ _ _ i (nth i default_times 0) [] P ltac:(apply nth_error_nth'; exact Hi)).
  rewrite Mp by exact Hv'. unfold one_mode. destruct ((l =? ell) && (m' =? m))%Z; [reflexivity|]. apply Mz.
Qed.
(** The documentation of both says that additional keyword arguments are passed on. They are reported as unused and dropped. *)
Theorem C73_kwargs_refuted : forall k ell m, constant_waveform k = constant_waveform no_kwargs /\ single_mode ell m k = single_mode ell m no_kwargs /\
  exists k', mc_hi k' = Some 3%Z /\ exists w, constant_waveform k' = Ok w /\ pw_hi w = 8%Z.
Proof.
  intros k ell m. split; [reflexivity|]. split; [reflexivity|]. exists (mkmc None None None None None None (Some 3%Z)). split; [reflexivity|].
  destruct (C73_constant (mkmc None None None None None None (Some 3%Z))) as (w & E & _ & _ & _ & H & _). exists w. split; assumption.
Qed.

(** ** Leading-order amplitudes *)
Lemma pn_zero : forall l x q, (1 <= l)%Z -> pn_amplitude l 0 x q = C0.
Proof.
  intros l x q Hl. unfold pn_amplitude. assert (E : Cpow (Ci * RtoC (IZR 0))%C (Z.to_nat l) = C0).
  { destruct (Z.to_nat l) as [|n] eqn:EN; [lia|]. cbn [Cpow]. apply C_eq; cbn; ring. }
  rewrite E. destruct (Z.modulo (l + 0) 2 =? 0)%Z; apply C_eq; cbn; ring.
Qed.
(** The modes are symmetric under reflection of the orbital plane. *)
Theorem C73_pn_reflection : forall l m x q, (1 <= l)%Z -> pn_leading_order_amplitude l (- m) x q = Cscale (sgn l) (Conj (pn_leading_order_amplitude l m x q)).
Proof.
  intros l m x q Hl. unfold pn_leading_order_amplitude. destruct (Z.ltb_spec (- m) 0), (Z.ltb_spec m 0); try lia.
  - rewrite Z.opp_involutive. reflexivity.
  - set (z := pn_amplitude l (- m) x q). pose proof (sgn_sq l). apply C_eq; cbn [re im Cscale Conj].
    + transitivity (sgn l * sgn l * re z); [rewrite H1; ring|ring].
    + transitivity (sgn l * sgn l * im z); [rewrite H1; ring|ring].
  - replace m with 0%Z by lia. change (- 0)%Z with 0%Z. rewrite pn_zero by lia. apply C_eq; cbn; ring.
Qed.
(** Which of the two masses is called the first does not matter. *)
Theorem C73_pn_masses : forall l m x q, 0 < q -> pn_leading_order_amplitude l m x (/ q) = pn_leading_order_amplitude l m x q.
Proof.
  intros l m x q Hq. assert (H : forall m, pn_amplitude l m x (/ q) = pn_amplitude l m x q).
  { intros n. assert (E : (if Rltb (/ q) 1 then 1 / / q else / q) = (if Rltb q 1 then 1 / q else q)).
    { assert (P : q * / q = 1) by (field; lra). assert (P0 := Rinv_0_lt_compat q Hq). destruct (Rltb_spec q 1), (Rltb_spec (/ q) 1); try nra; field; lra. }
    unfold pn_amplitude. rewrite E. reflexivity. }
  unfold pn_leading_order_amplitude. rewrite !H. reflexivity.
Qed.
(** Equal masses do not radiate in modes of odd order, and no mode of order 0 has a leading-order amplitude. *)
Theorem C73_pn_equal_masses : forall l m x, Z.odd m = true -> pn_leading_order_amplitude l m x 1 = C0.
Proof.
  assert (S : forall l, Z.odd l = true -> pn_sigma 1 l = 0).
  { intros l Hl. unfold pn_sigma, sgn. rewrite <- Z.negb_odd, Hl. cbn [negb]. replace (1 + 1) with 2 by ring. ring. }
  assert (H : forall l m x, Z.odd m = true -> pn_amplitude l m x 1 = C0).
  { intros l m x Hm. unfold pn_amplitude. destruct (Rltb_spec 1 1); [lra|]. cbv zeta. rewrite Zmod_even, Z.even_add. rewrite <- (Z.negb_odd m), Hm. cbn [negb].
    destruct (Z.even l) eqn:El; cbn [eqb Z.eqb].
    - rewrite (S (l + 1)%Z); [apply C_eq; cbn; ring|]. rewrite Z.odd_add, <- Z.negb_even, El. reflexivity.
    - rewrite (S l); [apply C_eq; cbn; ring|]. rewrite <- Z.negb_even, El. reflexivity. }
  intros l m x Hm. unfold pn_leading_order_amplitude. destruct (m <? 0)%Z; rewrite H; [apply C_eq; cbn; ring|rewrite Z.odd_opp; exact Hm|reflexivity|exact Hm].
Qed.
Theorem C73_pn_order_0 : forall l x q, (1 <= l)%Z -> pn_leading_order_amplitude l 0 x q = C0.
Proof. intros l x q Hl. unfold pn_leading_order_amplitude. cbn. apply pn_zero. exact Hl. Qed.
(** The mode (2, 2) is 8 sqrt(pi / 5) nu x, Blanchet's normalization. *)
Theorem C73_pn_22 : forall x q, 0 < x -> 0 < q -> pn_leading_order_amplitude 2 2 x q = RtoC (8 * sqrt (PI / 5) * (q / (1 + q) ^ 2) * x).
Proof.
  intros x q Hx Hq. unfold pn_leading_order_amplitude. change (2 <? 0)%Z with false. cbv iota. unfold pn_amplitude.
  assert (EN : nu_of (if Rltb q 1 then 1 / q else q) = q / (1 + q) ^ 2) by (unfold nu_of; destruct (Rltb q 1); [field; lra|reflexivity]).
  assert (P : 0 < (if Rltb q 1 then 1 / q else q)) by (destruct (Rltb q 1); [apply Rdiv_lt_0_compat; lra|exact Hq]).
  set (q' := if Rltb q 1 then 1 / q else q) in *. clearbody q'. cbv zeta. rewrite EN.
  assert (ES : pn_sigma q' 2 = 1). { unfold pn_sigma, sgn. change (Z.to_nat (2 - 1)) with 1%nat. change (Z.even 2) with true. cbv iota. field. lra. }
  rewrite ES. change (Z.modulo (2 + 2) 2 =? 0)%Z with true. cbv iota.
  assert (ER : Rpower x (2 / 2 - 1) = 1). { replace (2 / 2 - 1) with 0 by field. apply Rpower_O. exact Hx. }
  rewrite ER. change (sgn ((2 - 2 + 2) / 2)) with (-1). change (Z.to_nat (2 + 1)) with 3%nat. change (Z.to_nat 2) with 2%nat.
  unfold factR. change (Z.to_nat ((2 + 2) / 2)) with 2%nat. change (Z.to_nat ((2 - 2) / 2)) with 0%nat. change (Z.to_nat (2 * 2 - 1)) with 3%nat. change (Z.to_nat (2 + 2)) with 4%nat. change (Z.to_nat (2 - 2)) with 0%nat.
  change (5 * (2 + 1) * (2 + 2))%Z with 60%Z. change (2 * (2 - 1) * (2 * 2 + 1))%Z with 10%Z.
  assert (EQ : sqrt (60 * INR (fact 4) * INR (fact 0) / 10) = 12).
  { replace (60 * INR (fact 4) * INR (fact 0) / 10) with (12 * 12); [apply sqrt_square; lra|]. cbn. field. }
  rewrite EQ. apply C_eq; cbn; field; repeat split; try lra; nra.
Qed.

(** The modes (2, 1), (3, 2) and (3, 3) in Blanchet's normalization: i Delta / 3, sqrt(5/7) (1 - 3 nu) / 3 and -3/4 i sqrt(15/14) Delta times powers of x, where Delta is |m1 - m2| / M. *)
Lemma pn_ratio : forall q, 0 < q -> let q' := if Rltb q 1 then 1 / q else q in 1 <= q' /\ q' / (1 + q') ^ 2 = q / (1 + q) ^ 2 /\ (q' - 1) / (q' + 1) = Rabs (q - 1) / (q + 1).
Proof.
  intros q Hq q'. unfold q'. destruct (Rltb_spec q 1) as [H|H].
  - split; [|split].
    + unfold Rdiv. rewrite Rmult_1_l. rewrite <- Rinv_1. apply Rinv_le_contravar; lra.
    + field. lra.
    + rewrite Rabs_left by lra. field. lra.
  - split; [lra|]. split; [reflexivity|]. rewrite Rabs_right by lra. reflexivity.
Qed.
Theorem C73_pn_21 : forall x q, 0 < x -> 0 < q -> pn_leading_order_amplitude 2 1 x q = Cscale (8 * sqrt (PI / 5) * (q / (1 + q) ^ 2) * x) (mkC 0 (/ 3 * (Rabs (q - 1) / (q + 1)) * sqrt x)).
Proof.
  intros x q Hx Hq. unfold pn_leading_order_amplitude. change (1 <? 0)%Z with false. cbv iota. unfold pn_amplitude. destruct (pn_ratio q Hq) as (P & EN & ED).
  set (q' := if Rltb q 1 then 1 / q else q) in *. clearbody q'. cbv zeta. unfold nu_of. rewrite EN, <- ED.
  assert (ES : pn_sigma q' (2 + 1) = - ((q' - 1) / (q' + 1))). { unfold pn_sigma, sgn. change (Z.to_nat (2 + 1 - 1)) with 2%nat. change (Z.even (2 + 1)) with false. cbv iota. field. lra. }
  rewrite ES. change (Z.modulo (2 + 1) 2 =? 0)%Z with false. cbv iota.
  assert (ER : Rpower x ((2 - 1) / 2) = sqrt x). { replace ((2 - 1) / 2) with (/ 2) by field. apply Rpower_sqrt. exact Hx. }
  rewrite ER. change (sgn ((2 - 1 - 1) / 2)) with 1. change (Z.to_nat (2 - 1)) with 1%nat. change (Z.to_nat 2) with 2%nat.
  unfold factR. change (Z.to_nat ((2 + 1 - 1) / 2)) with 1%nat. change (Z.to_nat ((2 - 1 - 1) / 2)) with 0%nat. change (Z.to_nat (2 * 2 + 1)) with 5%nat. change (Z.to_nat (2 + 1)) with 3%nat. change (Z.to_nat (2 - 1)) with 1%nat.
  change (5 * (2 + 2) * (2 * 2 + 1))%Z with 100%Z. change (2 * (2 - 1) * (2 + 1))%Z with 6%Z.
  assert (EQ : sqrt (100 * INR (fact 3) * INR (fact 1) / 6) = 10).
  { replace (100 * INR (fact 3) * INR (fact 1) / 6) with (10 * 10); [apply sqrt_square; lra|]. cbn. field. }
  rewrite EQ. apply C_eq; cbn; field; repeat split; try lra; nra.
Qed.
Theorem C73_pn_32 : forall x q, 0 < x -> 0 < q -> pn_leading_order_amplitude 3 2 x q = RtoC (8 * sqrt (PI / 5) * (q / (1 + q) ^ 2) * x * (/ 3 * sqrt (5 / 7) * (1 - 3 * (q / (1 + q) ^ 2)) * x)).
Proof.
  intros x q Hx Hq. unfold pn_leading_order_amplitude. change (2 <? 0)%Z with false. cbv iota. unfold pn_amplitude. destruct (pn_ratio q Hq) as (P & EN & _).
  set (q' := if Rltb q 1 then 1 / q else q) in *. clearbody q'. cbv zeta. unfold nu_of. rewrite EN.
  assert (ES : pn_sigma q' (3 + 1) = 1 - 3 * (q / (1 + q) ^ 2)). { rewrite <- EN. unfold pn_sigma, sgn. change (Z.to_nat (3 + 1 - 1)) with 3%nat. change (Z.even (3 + 1)) with true. cbv iota. field. lra. }
  rewrite ES. change (Z.modulo (3 + 2) 2 =? 0)%Z with false. cbv iota.
  assert (ER : Rpower x ((3 - 1) / 2) = x). { replace ((3 - 1) / 2) with 1 by field. apply Rpower_1. exact Hx. }
  rewrite ER. change (sgn ((3 - 2 - 1) / 2)) with 1. change (Z.to_nat (3 - 1)) with 2%nat. change (Z.to_nat 3) with 3%nat.
  unfold factR. change (Z.to_nat ((3 + 2 - 1) / 2)) with 2%nat. change (Z.to_nat ((3 - 2 - 1) / 2)) with 0%nat. change (Z.to_nat (2 * 3 + 1)) with 7%nat. change (Z.to_nat (3 + 2)) with 5%nat. change (Z.to_nat (3 - 2)) with 1%nat.
  change (5 * (3 + 2) * (2 * 3 + 1))%Z with 175%Z. change (3 * (3 - 1) * (3 + 1))%Z with 24%Z.
  assert (EQ : sqrt (175 * INR (fact 5) * INR (fact 1) / 24) = 35 * sqrt (5 / 7)).
  { replace (175 * INR (fact 5) * INR (fact 1) / 24) with (35 * 35 * (5 / 7)); [rewrite sqrt_mult by lra; rewrite sqrt_square by lra; reflexivity|]. cbn. field. }
  rewrite EQ. apply C_eq; cbn; field; lra.
Qed.
Theorem C73_pn_33 : forall x q, 0 < x -> 0 < q -> pn_leading_order_amplitude 3 3 x q = Cscale (8 * sqrt (PI / 5) * (q / (1 + q) ^ 2) * x) (mkC 0 (- (3 / 4) * sqrt (15 / 14) * (Rabs (q - 1) / (q + 1)) * sqrt x)).
Proof.
  intros x q Hx Hq. unfold pn_leading_order_amplitude. change (3 <? 0)%Z with false. cbv iota. unfold pn_amplitude. destruct (pn_ratio q Hq) as (P & EN & ED).
  set (q' := if Rltb q 1 then 1 / q else q) in *. clearbody q'. cbv zeta. unfold nu_of. rewrite EN, <- ED.
  assert (ES : pn_sigma q' 3 = - ((q' - 1) / (q' + 1))). { unfold pn_sigma, sgn. change (Z.to_nat (3 - 1)) with 2%nat. change (Z.even 3) with false. cbv iota. field. lra. }
  rewrite ES. change (Z.modulo (3 + 3) 2 =? 0)%Z with true. cbv iota.
  assert (ER : Rpower x (3 / 2 - 1) = sqrt x). { replace (3 / 2 - 1) with (/ 2) by field. apply Rpower_sqrt. exact Hx. }
  rewrite ER. change (sgn ((3 - 3 + 2) / 2)) with (-1). change (Z.to_nat (3 + 1)) with 4%nat. change (Z.to_nat 3) with 3%nat.
  unfold factR. change (Z.to_nat ((3 + 3) / 2)) with 3%nat. change (Z.to_nat ((3 - 3) / 2)) with 0%nat. change (Z.to_nat (2 * 3 - 1)) with 5%nat. change (Z.to_nat (3 + 3)) with 6%nat. change (Z.to_nat (3 - 3)) with 0%nat.
  change (5 * (3 + 1) * (3 + 2))%Z with 100%Z. change (3 * (3 - 1) * (2 * 3 + 1))%Z with 42%Z.
  assert (EQ : sqrt (100 * INR (fact 6) * INR (fact 0) / 42) = 40 * sqrt (15 / 14)).
  { replace (100 * INR (fact 6) * INR (fact 0) / 42) with (40 * 40 * (15 / 14)); [rewrite sqrt_mult by lra; rewrite sqrt_square by lra; reflexivity|]. cbn. field. }
  rewrite EQ. apply C_eq; cbn; field; lra.
Qed.
(** The default times are -10, -9.9, ..., 100. *)
Theorem C73_default_times : length default_times = 1101%nat /\ forall i, (i <= 1100)%nat -> nth i default_times 0 = -10 + INR i / 10.
Proof.
  split; [unfold default_times; rewrite map_length, seq_length; reflexivity|]. intros i Hi. unfold default_times.
  rewrite (nth_indep _ 0 (-10 + INR 0 * (110 / 1100))) by (rewrite map_length, seq_length; lia). rewrite (map_nth (fun i => -10 + INR i * (110 / 1100))). rewrite seq_nth by lia. cbn [Nat.add]. field.
Qed.
(** A mode below ell_min is written to a column counted from the end, that of another mode; only if the number of columns is too small is there an exception. *)
Definition counted (n i : Z) : res nat := if (i <? - n)%Z then Err IndexError else if (i <? 0)%Z then Ok (Z.to_nat (n + i)) else if (i <? n)%Z then Ok (Z.to_nat i) else Err IndexError.
Theorem C73_columns : forall n i, (0 <= n)%Z -> column_number n i = counted n i.
Proof.
  intros n i Hn. unfold column_number, counted. destruct (Z.ltb_spec i (- n)).
  - destruct (Z.ltb_spec i 0); [|lia]. destruct (Z.leb_spec 0 (i + n)); [lia|reflexivity].
  - destruct (Z.ltb_spec i 0).
    + destruct (Z.leb_spec 0 (i + n)), (Z.ltb_spec (i + n) n); try lia. cbn [andb]. f_equal. f_equal. lia.
    + destruct (Z.leb_spec 0 i); [|lia]. destruct (Z.ltb_spec i n); reflexivity.
Qed.
Theorem C73_low_mode_refuted : forall k, single_mode 1 0 k = single_mode 8 7 k /\
  exists w, single_mode 1 0 k = Ok w /\ forall i, (i < length (pw_t w))%nat -> mode_of w i 8 7 = C1.
Proof.
  intros k. assert (E : single_mode 1 0 k = single_mode 8 7 k).
  { unfold single_mode, modes_constructor, no_kwargs. cbn [mc_t mc_dataType mc_lo mc_hi mc_frame mc_frameType mc_r dflt].
    change (spin_weight h) with (@Ok Z (-2)%Z). cbn [rbind]. change (Z.abs (-2)) with 2%Z.
    destruct (range_lowest 2 8 ltac:(lia)) as (ls & E & F). rewrite E, fold_min by exact F. reflexivity. }
  split; [exact E|]. destruct (C73_single_mode 8 7 k ltac:(split; lia)) as (w & Ew & _ & Et & _ & _ & _ & _ & M). exists w. split; [rewrite E; exact Ew|].
  intros i Hi. rewrite Et in Hi. rewrite M by (try assumption; split; lia). reflexivity.
Qed.

(** ** The hypotheses can be met *)
Lemma couples_exists : forall s ell m, m <> (- s)%Z -> exists w3j, couples w3j s ell m.
Proof.
  intros s ell m N. exists (fun l2 ell' l' m2 m' _ => if ((m2 =? 0) && (m' =? - s))%Z then 1
    else sgn (s + m + m2) * / sqrt (IZR ((2 * l2 + 1) * (2 * ell' + 1) * (2 * l' + 1)) / (4 * PI)) * product_table 0 l2 m2 s ell' m l').
  intros l2 m2 q H1 H2 Hq. destruct (Z_lt_ge_dec ell 0) as [NE|NE].
  { rewrite (swsh_not s ell m). { rewrite csum_const0; [ring|]. intros l' I. destruct (Z.eqb_spec m (- s)); [lia|]. rewrite andb_false_r, (table_zero 0 l2 m2). { rewrite !Rmult_0_r. apply C_eq; cbn [re im Cscale C0]; ring. } unfold ok. destruct (Z.leb_spec (Z.abs s) ell); [lia|]. rewrite !andb_false_r. reflexivity. }
    unfold ok. destruct (Z.leb_spec (Z.abs s) ell); [lia|reflexivity]. }
  rewrite C72_harmonics by exact Hq. rewrite Z.add_comm with (n := l2) (m := ell), (Z.add_comm m2 m). change (0 + s)%Z with s. apply csum_ext. intros l' I. apply zrange_In in I. f_equal.
  cbv beta. rewrite !Z.eqb_refl. cbn [andb]. destruct (Z.eqb_spec m (- s)); [lia|]. rewrite andb_false_r.
  set (r := sqrt _). assert (Hr : 0 < r). { apply sqrt_lt_R0. apply Rdiv_lt_0_compat; [apply IZR_lt; nia|]. pose proof PI_RGT_0. lra. }
  replace (product_table 0 l2 m2 s ell m l') with (sgn (s + m + m2) * sgn (s + m + m2) * (r * / r) * product_table 0 l2 m2 s ell m l') at 1 by (rewrite sgn_sq; field; lra). ring.
Qed.
(** The line through the first two points *)
Definition first_line (xs ys : list R) : res (R -> R) :=
  match xs, ys with x0 :: x1 :: _, y0 :: y1 :: _ => Ok (fun x => y0 + (y1 - y0) / (x1 - x0) * (x - x0)) | _, _ => Err ValueError end.
Lemma first_line_straight : straight first_line.
Proof.
  intros xs a b HI HL. destruct xs as [|x0 [|x1 xs]]; cbn [length] in HL; try lia.
  exists (fun x => (a * x0 + b) + ((a * x1 + b) - (a * x0 + b)) / (x1 - x0) * (x - x0)). split; [reflexivity|]. intros x.
  assert (x0 < x1). { inversion HI; subst; assumption. } field. lra.
Qed.
(** psi4 in the mode (2, -2), moved by a tenth along x *)
Definition ex_args : sargs := mksa None None None None None None None None None.
Definition ex_move : kwargs := mkkw None None (Some [/ 10; 0; 0]) None None None None None.
Example C73_case : args_ok ex_args /\ (exists w3j, couples w3j (a_s ex_args) (a_ell ex_args) (a_m ex_args)) /\ straight first_line /\ only ex_move None (Some (/ 10, 0, 0)) /\
  real_super None (Some (/ 10, 0, 0)) /\ a_t0 ex_args + 2 * a_dt ex_args < a_t1 ex_args /\ (exists alpha, read_alpha None (Some (/ 10, 0, 0)) = Ok alpha /\ Kwargs_Proofs.has_modes alpha 1) /\
  exists w, proportional_to_time C1 ex_args = Ok w /\ pw_dataType w = psi4 /\ spin (pw_dataType w) = a_s ex_args.
Proof.
  assert (A : args_ok ex_args) by (repeat split; cbn; lia || lra).
  split; [exact A|]. split; [apply couples_exists; cbn; lia|]. split; [exact first_line_straight|]. split; [repeat split; reflexivity|]. split; [discriminate|].
  split; [cbn; lra|]. split. { eexists. split; [reflexivity|reflexivity]. }
  destruct (C73_single (fun t => (C1 * RtoC t)%C) ex_args A) as (w & E & _ & _ & _ & _ & _ & _ & T & _). exists w. split; [exact E|]. cbn in T. injection T as <-. split; reflexivity.
Qed.
(** A mode of constant rotation turns at the rate re omega and decays at the rate im omega. *)
Theorem C73_rotation : forall omega a, args_ok a -> exists w, constant_rotation omega a = Ok w /\ wave_ok w /\
  forall i, (i < length (pw_t w))%nat -> let t := nth i (pw_t w) 0 in
    mode_of w i (a_ell a) (a_m a) = Cscale (exp (- (im omega * t))) (mkC (cos (re omega * t)) (sin (re omega * t))) /\
    forall l m, (0 <= l <= a_hi a)%Z -> (- l <= m <= l)%Z -> (l, m) <> (a_ell a, a_m a) -> mode_of w i l m = C0.
Proof.
  intros omega a Ha. destruct (C73_single (fun t => Cexp (Ci * omega * RtoC t)%C) a Ha) as (w & E & W & _ & _ & _ & _ & _ & _ & _ & M). exists w. split; [exact E|]. split; [exact W|].
  destruct Ha as (Hs & H1 & H2 & H3 & H4). intros i Hi t. split.
  - rewrite M by (try assumption; lia). unfold one_mode. rewrite !Z.eqb_refl. cbn [andb]. fold t. unfold Cexp.
    replace (re (Ci * omega * RtoC t)%C) with (- (im omega * t)) by (cbn; ring). replace (im (Ci * omega * RtoC t)%C) with (re omega * t) by (cbn; ring). reflexivity.
  - intros l m Hl Hm N. rewrite M by assumption. unfold one_mode. destruct (Z.eqb_spec l (a_ell a)), (Z.eqb_spec m (a_m a)); try reflexivity. subst. contradiction.
Qed.
