(** C94: amplitude and unwrapped phase. *)
From Coq Require Import Reals ZArith List Bool Lia Lra.
From Verif Require Import Common Cplx Times_Model Times_Proofs Numeric_Model Align_Model Align_Proofs Phase_Model.
Import ListNotations.
Open Scope R_scope.

(** ** Specification *)
(** Angles that differ by full turns *)
Definition same_angle (a b : R) : Prop := exists k : Z, a = b + 2 * PI * IZR k.

(** ** One step *)
Lemma rmod_spec : forall x y, 0 < y -> exists k : Z, rmod x y = x + y * IZR k /\ 0 <= rmod x y < y.
Proof.
  intros x y Hy. exists (- floorR (x / y))%Z. unfold rmod, floorR. destruct (base_Int_part (x / y)) as [A B].
  rewrite opp_IZR. split; [ring|]. set (n := IZR (Int_part (x / y))) in *.
  assert (E : x = y * (x / y)) by (field; lra). split; nra.
Qed.
Lemma correction_spec : forall dd, same_angle (correction dd) 0 /\ Rabs (dd + correction dd) <= PI /\ (Rabs dd < PI -> correction dd = 0).
Proof.
  intros dd. unfold correction. pose proof PI_RGT_0 as P. destruct (rmod_spec (dd + PI) (2 * PI)) as (k & E & B); [lra|].
  destruct (Rltb_spec (Rabs dd) PI) as [L|L].
  - split; [exists 0%Z; simpl; ring|]. split; [rewrite Rplus_0_r; lra|auto].
  - split; [|split; [|intros; lra]].
    + destruct (Req_EM_T _ _) as [M|M]; cbn [andb].
      * destruct (Rltb 0 dd); [exists (k + 1)%Z|exists k]; rewrite ?plus_IZR; lra.
      * exists k. lra.
    + destruct (Req_EM_T _ _) as [M|M]; cbn [andb].
      * destruct (Rltb 0 dd).
        -- replace (dd + (PI - dd)) with PI by ring. rewrite Rabs_right; lra.
        -- rewrite M. replace (dd + (- PI - dd)) with (- PI) by ring. rewrite Rabs_Ropp, Rabs_right; lra.
      * match goal with |- Rabs (dd + (?u - dd)) <= _ => replace (dd + (u - dd)) with u by ring end. apply Rabs_le. lra.
Qed.
Lemma turn_small : forall k : Z, Rabs (2 * PI * IZR k) < 2 * PI -> k = 0%Z.
Proof.
  intros k H. pose proof PI_RGT_0 as P. rewrite Rabs_mult, Rabs_right in H by lra. rewrite <- abs_IZR in H.
  assert (Q : IZR (Z.abs k) < 1) by nra. apply lt_IZR in Q. lia.
Qed.
Lemma same_angle_refl : forall a, same_angle a a.
Proof. intros a. exists 0%Z. simpl. ring. Qed.
Lemma same_angle_sym : forall a b, same_angle a b -> same_angle b a.
Proof. intros a b [k ->]. exists (- k)%Z. rewrite opp_IZR. ring. Qed.
Lemma same_angle_trans : forall a b c, same_angle a b -> same_angle b c -> same_angle a c.
Proof. intros a b c [k ->] [n ->]. exists (n + k)%Z. rewrite plus_IZR. ring. Qed.
Lemma same_angle_cis : forall a b, same_angle a b <-> cis a = cis b.
Proof.
  intros a b. split.
  - intros [k ->]. unfold cis. f_equal.
    + destruct (Z_le_gt_dec 0 k) as [H|H].
      * rewrite <- (cos_period b (Z.to_nat k)). rewrite INR_IZR_INZ, Z2Nat.id by lia. f_equal. ring.
      * rewrite <- (cos_period (b + 2 * PI * IZR k) (Z.to_nat (- k))). rewrite INR_IZR_INZ, Z2Nat.id, opp_IZR by lia. f_equal. ring.
    + destruct (Z_le_gt_dec 0 k) as [H|H].
      * rewrite <- (sin_period b (Z.to_nat k)). rewrite INR_IZR_INZ, Z2Nat.id by lia. f_equal. ring.
      * rewrite <- (sin_period (b + 2 * PI * IZR k) (Z.to_nat (- k))). rewrite INR_IZR_INZ, Z2Nat.id, opp_IZR by lia. f_equal. ring.
  - intros E. injection E as EC ES.
    assert (S : sin (a - b) = 0) by (rewrite sin_minus, EC, ES; ring).
    assert (D : cos (a - b) = 1) by (rewrite cos_minus, EC, ES; pose proof (sin2_cos2 b) as Q; unfold Rsqr in Q; lra).
    assert (S2 : sin ((a - b) / 2) = 0).
    { assert (Q : cos (a - b) = 1 - 2 * sin ((a - b) / 2) * sin ((a - b) / 2)) by (rewrite <- cos_2a_sin; f_equal; field). rewrite D in Q.
      assert (sin ((a - b) / 2) * sin ((a - b) / 2) = 0) by lra. apply Rmult_integral in H. tauto. }
    apply sin_eq_0_0 in S2. destruct S2 as [k K]. exists k. lra.
Qed.

(** ** Unwrapping a list of angles *)
Lemma unwrap_from_length : forall l p s, length (unwrap_from p s l) = length l.
Proof. induction l as [|x l IH]; intros p s; cbn [unwrap_from length]; [|rewrite IH]; reflexivity. Qed.
Lemma unwrap_length : forall l, length (unwrap l) = length l.
Proof. intros [|x l]; cbn [unwrap length]; [|rewrite unwrap_from_length]; reflexivity. Qed.
(** Values, steps and starts of the loop *)
Lemma unwrap_from_spec : forall l p s i, same_angle s 0 -> (i < length l)%nat ->
  same_angle (nth i (unwrap_from p s l) 0) (nth i l 0) /\
  Rabs (nth i (unwrap_from p s l) 0 - nth i ((p + s) :: unwrap_from p s l) 0) <= PI.
Proof.
  induction l as [|x l IH]; intros p s i S Hi; cbn [length] in Hi; [lia|]. cbn [unwrap_from]. cbv zeta.
  destruct (correction_spec (x - p)) as (C1 & C2 & _). set (c := correction (x - p)) in *.
  assert (S' : same_angle (s + c) 0) by (destruct S as [k1 E1], C1 as [k2 E2]; exists (k1 + k2)%Z; rewrite plus_IZR; lra).
  destruct i as [|i]; cbn [nth].
  - split; [destruct S' as [k E]; exists k; lra|]. replace (x + (s + c) - (p + s)) with (x - p + c) by ring. exact C2.
  - destruct (IH x (s + c) i S' ltac:(lia)) as [A B]. split; [exact A|]. exact B.
Qed.
Lemma unwrap_spec : forall l i, (i < length l)%nat ->
  same_angle (nth i (unwrap l) 0) (nth i l 0) /\ ((S i < length l)%nat -> Rabs (nth (S i) (unwrap l) 0 - nth i (unwrap l) 0) <= PI).
Proof.
  intros [|x l] i Hi; cbn [length] in Hi; [lia|]. cbn [unwrap]. split.
  - destruct i as [|i]; cbn [nth]; [apply same_angle_refl|]. apply unwrap_from_spec; [apply same_angle_refl|lia].
  - intros H. cbn [length] in H. destruct (unwrap_from_spec l x 0 i (same_angle_refl 0) ltac:(lia)) as [_ B]. rewrite Rplus_0_r in B.
    cbn [nth]. exact B.
Qed.
(** A phase with steps below pi is recovered. *)
Lemma unwrap_recovers : forall l psi, (forall i, (i < length l)%nat -> same_angle (nth i l 0) (psi i)) ->
  (forall i, (S i < length l)%nat -> Rabs (psi (S i) - psi i) < PI) ->
  forall i, (i < length l)%nat -> nth i (unwrap l) 0 - psi i = nth 0 l 0 - psi 0%nat.
Proof.
  intros l psi A B. induction i as [|i IH]; intros Hi.
  - destruct l; [cbn in Hi; lia|]. reflexivity.
  - specialize (IH ltac:(lia)). destruct (unwrap_spec l i ltac:(lia)) as [_ ST]. specialize (ST Hi). specialize (B i Hi).
    destruct (unwrap_spec l (S i) Hi) as [[k K] _]. destruct (A (S i) Hi) as [m M]. destruct (A 0%nat ltac:(lia)) as [n N].
    assert (T : (k + m - n)%Z = 0%Z).
    { apply turn_small. rewrite minus_IZR, plus_IZR.
      replace (2 * PI * (IZR k + IZR m - IZR n)) with ((nth (S i) (unwrap l) 0 - nth i (unwrap l) 0) - (psi (S i) - psi i)).
      - eapply Rle_lt_trans; [apply Rabs_triang|]. rewrite Rabs_Ropp. lra.
      - lra. }
    assert (U : IZR (k + m - n) = 0) by (rewrite T; reflexivity). rewrite minus_IZR, plus_IZR in U.
    rewrite K, M, N. replace (IZR k) with (IZR n - IZR m) by lra. ring.
Qed.

(** ** Theorems *)
Section Data.
  Variable data : list (list C).
  Variable n : nat.
  Hypothesis shape : forall r, In r data -> length r = n.
  (** Entries at time [i] in column [j] *)
  Definition value (i j : nat) : C := nth j (nth i data []) C0.
  Definition amplitude (i j : nat) : R := nth j (nth i (abs_of data) []) 0.
  Definition argument (i j : nat) : R := nth j (nth i (arg_of data) []) 0.
  Definition phase (i j : nat) : R := nth j (nth i (arg_unwrapped data n) []) 0.

  Lemma entry : forall (f : C -> R) i j, (i < length data)%nat -> (j < n)%nat -> nth j (nth i (map (map f) data) []) 0 = f (value i j).
  Proof.
    intros f i j Hi Hj. unfold value. rewrite (nth_indep (map (map f) data) [] (map f [])) by (rewrite map_length; exact Hi). rewrite (map_nth (map f)).
    rewrite (nth_indep _ 0 (f C0)) by (rewrite map_length, shape; [exact Hj|apply nth_In; exact Hi]). apply map_nth.
  Qed.
  Lemma column_length : forall j, length (map (fun r => nth j r 0) (arg_of data)) = length data.
  Proof. intros j. unfold arg_of. rewrite !map_length. reflexivity. Qed.
  Lemma column_nth : forall i j, (i < length data)%nat -> (j < n)%nat -> nth i (map (fun r => nth j r 0) (arg_of data)) 0 = angle (value i j).
  Proof.
    intros i j Hi Hj. rewrite <- (entry angle i j Hi Hj). fold (arg_of data).
    rewrite (nth_indep _ 0 ((fun r => nth j r 0) [])) by (rewrite column_length; exact Hi). rewrite (map_nth (fun r => nth j r 0)). reflexivity.
  Qed.
  Lemma phase_nth : forall i j, (i < length data)%nat -> (j < n)%nat -> phase i j = nth i (unwrap (map (fun r => nth j r 0) (arg_of data))) 0.
  Proof.
    intros i j Hi Hj. unfold phase, arg_unwrapped. set (cols := map _ (seq 0 n)).
    rewrite (nth_indep _ [] ((fun i => map (fun c => nth i c 0) cols) 0%nat)) by (rewrite map_length, seq_length; exact Hi).
    rewrite (map_nth (fun i => map (fun c => nth i c 0) cols)), seq_nth by exact Hi. cbn [Nat.add].
    rewrite (nth_indep _ 0 ((fun c => nth i c 0) [])) by (unfold cols; rewrite !map_length, seq_length; exact Hj). rewrite (map_nth (fun c => nth i c 0)).
    f_equal. unfold cols. rewrite (nth_indep _ [] ((fun j => unwrap (map (fun r => nth j r 0) (arg_of data))) 0%nat)) by (rewrite map_length, seq_length; exact Hj).
    rewrite (map_nth (fun j => unwrap (map (fun r => nth j r 0) (arg_of data)))), seq_nth by exact Hj. reflexivity.
  Qed.
  Lemma angle_cis : forall z, z = Cscale (modulus z) (cis (angle z)).
  Proof.
    intros [x y]. unfold modulus, angle. cbn [re im].
    destruct (Req_dec x 0) as [X|X], (Req_dec y 0) as [Y|Y];
      try (destruct (atan2_polar x y ltac:(auto)) as [A B]; apply C_eq; cbn; assumption).
    subst. replace (0 * 0 + 0 * 0) with 0 by ring. rewrite sqrt_0. apply C_eq; cbn; ring.
  Qed.
  Lemma angle_of : forall r psi, 0 < r -> same_angle (angle (Cscale r (cis psi))) psi.
  Proof.
    intros r psi Hr. apply same_angle_cis. pose proof (angle_cis (Cscale r (cis psi))) as E.
    assert (M : modulus (Cscale r (cis psi)) = r).
    { unfold modulus. cbn [Cscale cis re im]. pose proof (sin2_cos2 psi) as Q. unfold Rsqr in Q.
      replace (r * cos psi * (r * cos psi) + r * sin psi * (r * sin psi)) with (r * r * (sin psi * sin psi + cos psi * cos psi)) by ring.
      rewrite Q, Rmult_1_r. apply sqrt_square. lra. }
    rewrite M in E. set (a := angle (Cscale r (cis psi))) in *. unfold cis in *. cbn [Cscale re im] in E. injection E as E1 E2.
    apply C_eq; cbn; apply Rmult_eq_reg_l with r; lra.
  Qed.

  (** Amplitude, argument and unwrapped phase have the shape of the data and are its polar form, the argument in
      (-pi, pi]. *)
  Theorem C94_polar : forall i j, (i < length data)%nat -> (j < n)%nat ->
    0 <= amplitude i j /\ value i j = Cscale (amplitude i j) (cis (argument i j)) /\ value i j = Cscale (amplitude i j) (cis (phase i j)) /\
    - PI < argument i j <= PI /\ (value i j = C0 -> argument i j = 0).
  Proof.
    intros i j Hi Hj. unfold amplitude, argument. unfold abs_of, arg_of. rewrite !entry by assumption. set (z := value i j).
    split; [apply sqrt_pos|]. split; [apply angle_cis|]. split; [|split].
    - rewrite (angle_cis z) at 1. f_equal. apply same_angle_cis, same_angle_sym. rewrite phase_nth by assumption.
      destruct (unwrap_spec (map (fun r => nth j r 0) (arg_of data)) i) as [A _]; [rewrite column_length; exact Hi|]. rewrite column_nth in A by assumption. exact A.
    - unfold angle, atan2. pose proof PI_RGT_0. pose proof (atan_bound (im z / re z)) as AB.
      destruct (Rltb_spec 0 (re z)); [lra|]. destruct (Rltb_spec (re z) 0) as [N|N].
      + destruct (Rltb_spec (im z) 0) as [Y|Y].
        * assert (0 < atan (im z / re z)). { rewrite <- atan_0. apply atan_increasing. replace (im z / re z) with (- im z * / - re z) by (field; lra). apply Rmult_lt_0_compat; [lra|apply Rinv_0_lt_compat; lra]. } lra.
        * assert (atan (im z / re z) <= 0). { destruct (Req_dec (im z) 0) as [Z|Z]; [rewrite Z; unfold Rdiv; rewrite Rmult_0_l, atan_0; lra|]. left. rewrite <- atan_0. apply atan_increasing. assert (0 < im z * / - re z) by (apply Rmult_lt_0_compat; [lra|apply Rinv_0_lt_compat; lra]). replace (im z / re z) with (- (im z * / - re z)) by (field; lra). lra. } lra.
      + destruct (Rltb_spec 0 (im z)); [lra|]. destruct (Rltb_spec (im z) 0); lra.
    - intros ->. unfold angle, atan2. cbn. destruct (Rltb_spec 0 0); [lra|]. reflexivity.
  Qed.
  Theorem C94_shape : length (arg_unwrapped data n) = length data /\ (forall r, In r (arg_unwrapped data n) -> length r = n).
  Proof.
    unfold arg_unwrapped. rewrite map_length, seq_length. split; [reflexivity|]. intros r H. apply in_map_iff in H. destruct H as (i & <- & _).
    rewrite !map_length, seq_length. reflexivity.
  Qed.
  (** The phase starts at the argument of the first sample, differs from the argument by full turns, and never steps
      by more than half a turn. *)
  Theorem C94_unwrapped : forall i j, (i < length data)%nat -> (j < n)%nat ->
    phase 0 j = argument 0 j /\ (exists k : Z, phase i j = argument i j + 2 * PI * IZR k) /\
    ((S i < length data)%nat -> Rabs (phase (S i) j - phase i j) <= PI) /\
    ((forall k, (S k < length data)%nat -> Rabs (argument (S k) j - argument k j) < PI) -> phase i j = argument i j).
  Proof.
    intros i j Hi Hj. assert (H0 : (0 < length data)%nat) by lia.
    assert (AR : forall k, (k < length data)%nat -> argument k j = nth k (map (fun r => nth j r 0) (arg_of data)) 0).
    { intros k Hk. rewrite column_nth by assumption. apply (entry angle); assumption. }
    set (l := map (fun r => nth j r 0) (arg_of data)) in *. assert (L : length l = length data) by apply column_length.
    assert (P0 : nth 0 (unwrap l) 0 = nth 0 l 0) by (destruct l; reflexivity).
    split; [rewrite phase_nth, AR by assumption; exact P0|]. split; [|split].
    - rewrite phase_nth, AR by assumption. apply unwrap_spec. lia.
    - intros HS. rewrite !phase_nth by lia. fold l. destruct (unwrap_spec l i ltac:(lia)) as [_ U]. apply U. lia.
    - intros Q. rewrite phase_nth, AR by assumption. fold l.
      pose proof (unwrap_recovers l (fun k => nth k l 0) (fun k _ => same_angle_refl _)) as U. cbv beta in U.
      specialize (U ltac:(intros k Hk; rewrite <- (AR (S k)) by lia; rewrite <- (AR k) by lia; apply Q; lia) i ltac:(lia)). lra.
  Qed.
  (** If the data are nowhere zero and their phase steps by less than half a turn, the phase is found up to a constant
      number of full turns. *)
  Theorem C94_recovered : forall j A psi, (j < n)%nat -> (forall i, (i < length data)%nat -> 0 < A i /\ value i j = Cscale (A i) (cis (psi i))) ->
    (forall i, (S i < length data)%nat -> Rabs (psi (S i) - psi i) < PI) ->
    exists k : Z, forall i, (i < length data)%nat -> phase i j = psi i + 2 * PI * IZR k.
  Proof.
    intros j A psi Hj V ST. destruct (Nat.eq_dec (length data) 0) as [Z|Z]; [exists 0%Z; intros; lia|].
    set (l := map (fun r => nth j r 0) (arg_of data)). assert (L : length l = length data) by apply column_length.
    assert (SA : forall i, (i < length l)%nat -> same_angle (nth i l 0) (psi i)).
    { intros i Hi. unfold l. rewrite column_nth by lia. destruct (V i ltac:(lia)) as [P ->]. apply angle_of. exact P. }
    destruct (SA 0%nat ltac:(lia)) as [k K]. exists k. intros i Hi. rewrite phase_nth by assumption. fold l.
    pose proof (unwrap_recovers l psi SA ltac:(intros; apply ST; lia) i ltac:(lia)) as U. lra.
  Qed.
End Data.

(** Multiplying one mode by a constant shifts its phase by a constant. *)
Theorem C94_factor : forall data data' n j c, (forall r, In r data -> length r = n) -> (forall r, In r data' -> length r = n) -> length data' = length data -> (j < n)%nat -> c <> C0 ->
  (forall i, (i < length data)%nat -> value data i j <> C0 /\ value data' i j = (c * value data i j)%C) ->
  (forall i, (S i < length data)%nat -> Rabs (phase data n (S i) j - phase data n i j) < PI) ->
  exists s, (exists k : Z, s = angle c + 2 * PI * IZR k) /\ forall i, (i < length data)%nat -> phase data' n i j = phase data n i j + s.
Proof.
  intros data data' n j c W W' L Hj NC V ST.
  assert (PM : forall z, z <> C0 -> 0 < modulus z).
  { intros [x y] N. apply sqrt_lt_R0. cbn [re im]. destruct (Req_dec x 0) as [->|X]; [destruct (Req_dec y 0) as [->|Y]; [destruct N; reflexivity|]|]; nra. }
  destruct (C94_recovered data' n W' j (fun i => modulus c * amplitude data i j) (fun i => angle c + phase data n i j) Hj) as [k K].
  - intros i Hi. rewrite L in Hi. destruct (V i Hi) as [N ->]. destruct (C94_polar data n W i j Hi Hj) as (A & _ & E & _).
    assert (PA : 0 < amplitude data i j). { destruct A as [A|A]; [exact A|]. destruct N. rewrite E, <- A. apply C_eq; cbn; ring. }
    split; [apply Rmult_lt_0_compat; auto|]. rewrite E at 1. rewrite (angle_cis c) at 1. rewrite cis_add. apply C_eq; cbn; ring.
  - intros i Hi. rewrite L in Hi. replace (angle c + phase data n (S i) j - (angle c + phase data n i j)) with (phase data n (S i) j - phase data n i j) by ring. apply ST; exact Hi.
  - exists (angle c + 2 * PI * IZR k). split; [exists k; ring|]. intros i Hi. rewrite K by lia. ring.
Qed.
(** Later samples do not change the phase of earlier ones. *)
Theorem C94_prefix : forall data more n i j, (forall r, In r (data ++ more) -> length r = n) -> (i < length data)%nat -> (j < n)%nat ->
  phase (data ++ more) n i j = phase data n i j.
Proof.
  intros data more n i j W Hi Hj. rewrite !phase_nth by (rewrite ?app_length; try lia; try exact W; intros r Hr; apply W; apply in_or_app; left; exact Hr).
  unfold arg_of. rewrite !map_app. set (a := map (fun r => nth j r 0) (map (map angle) data)). set (b := map (fun r => nth j r 0) (map (map angle) more)).
  assert (LA : (i < length a)%nat) by (unfold a; rewrite !map_length; exact Hi). clearbody a b. clear -LA.
  destruct a as [|x a]; [cbn in LA; lia|]. cbn [app unwrap]. destruct i as [|i]; [reflexivity|]. cbn [nth length] in *.
  assert (LB : (i < length a)%nat) by lia. clear LA. generalize x at 1 2. generalize 0 at 1 3. revert i LB. clear x. 
  induction a as [|y a IH]; intros i LB s p; cbn [length] in LB; [lia|]. cbn [app unwrap_from]. cbv zeta. destruct i as [|i]; [reflexivity|]. cbn [nth]. apply IH. lia.
Qed.

(** ** Where the phase is not that of the signal *)
Lemma angle_range : forall z, - PI < angle z <= PI.
Proof.
  intros z. assert (W : forall r, In r [[z]] -> length r = 1%nat) by (intros r [<-|[]]; reflexivity).
  destruct (C94_polar [[z]] 1 W 0 0 ltac:(cbn; lia) ltac:(lia)) as (_ & _ & _ & B & _). exact B.
Qed.
Lemma angle_exact : forall r a, 0 < r -> - PI < a <= PI -> angle (Cscale r (cis a)) = a.
Proof.
  intros r a Hr Ha. destruct (angle_of r a Hr) as [k K]. pose proof (angle_range (Cscale r (cis a))) as B.
  assert (k = 0%Z). { apply turn_small. apply Rabs_def1; lra. } subst k. simpl in K. lra.
Qed.
Lemma cis_scaled : forall a, cis a = Cscale 1 (cis a).
Proof. intros a. apply C_eq; cbn; ring. Qed.

(** A signal that turns by more than half a turn from one sample to the next is given the phase of one that turns the
    other way. *)
Theorem C94_aliased_refuted : forall data n j A w, (forall r, In r data -> length r = n) -> (j < n)%nat -> PI < w < 2 * PI ->
  (forall i, (i < length data)%nat -> 0 < A i /\ value data i j = Cscale (A i) (cis (INR i * w))) ->
  forall i, (i < length data)%nat -> phase data n i j = INR i * (w - 2 * PI).
Proof.
  intros data n j A w W Hj Hw V. pose proof PI_RGT_0 as P.
  destruct (C94_recovered data n W j A (fun i => INR i * (w - 2 * PI)) Hj) as [k K].
  - intros i Hi. destruct (V i Hi) as [PA E]. split; [exact PA|]. rewrite E. f_equal. apply same_angle_cis. exists (Z.of_nat i). rewrite <- INR_IZR_INZ. ring.
  - intros i _. rewrite S_INR. replace ((INR i + 1) * (w - 2 * PI) - INR i * (w - 2 * PI)) with (w - 2 * PI) by ring. apply Rabs_def1; lra.
  - intros i Hi. assert (H0 : (0 < length data)%nat) by lia. specialize (K 0%nat H0) as K0.
    destruct (C94_unwrapped data n W 0 j H0 Hj) as (E & _). destruct (V 0%nat H0) as [PA EV].
    assert (A0 : argument data 0 j = 0).
    { unfold argument, arg_of. rewrite (entry data n W) by assumption. rewrite EV. cbn [INR]. rewrite Rmult_0_l. apply angle_exact; [exact PA|lra]. }
    rewrite (K i Hi). cbn [INR] in K0. assert (2 * PI * IZR k = 0) by lra. lra.
Qed.
(** A sample that is exactly zero can cost a full turn; one that is arbitrarily small does not. *)
Definition passing (r : R) : list (list C) := [[cis (2 * PI / 3)]; [Cscale r (cis PI)]; [cis (4 * PI / 3)]].
Theorem C94_zero_refuted : (forall r, 0 < r -> phase (passing r) 1 2 0 = 4 * PI / 3) /\ phase (passing 0) 1 2 0 = 4 * PI / 3 - 2 * PI.
Proof.
  pose proof PI_RGT_0 as P.
  assert (W : forall r x, In x (passing r) -> length x = 1%nat) by (intros r x [<-|[<-|[<-|[]]]]; reflexivity).
  split.
  - intros r Hr.
    destruct (C94_recovered (passing r) 1 (W r) 0 (fun i => match i with 1%nat => r | _ => 1 end) (fun i => (INR i + 2) * PI / 3)) as [k K]; [lia| | |].
    + intros i Hi. cbn in Hi. destruct i as [|[|[|i]]]; [| | |lia]; (split; [lra|]); unfold value, passing; cbn [nth INR].
      * rewrite cis_scaled. do 2 f_equal. field.
      * do 2 f_equal. field.
      * rewrite cis_scaled. do 2 f_equal. field.
    + intros i _. rewrite S_INR. replace ((INR i + 1 + 2) * PI / 3 - (INR i + 2) * PI / 3) with (PI / 3) by field. apply Rabs_def1; lra.
    + pose proof (K 0%nat ltac:(cbn; lia)) as K0. pose proof (K 2%nat ltac:(cbn; lia)) as K2.
      destruct (C94_unwrapped (passing r) 1 (W r) 0 0 ltac:(cbn; lia) ltac:(lia)) as (E & _).
      assert (A0 : argument (passing r) 0 0 = 2 * PI / 3) by (unfold argument, passing; cbn [arg_of map nth]; rewrite cis_scaled; apply angle_exact; lra).
      cbn [INR] in K0, K2. lra.
  - assert (A0 : argument (passing 0) 0 0 = 2 * PI / 3) by (unfold argument, passing; cbn [arg_of map nth]; rewrite cis_scaled; apply angle_exact; lra).
    assert (A1 : argument (passing 0) 1 0 = 0).
    { apply (C94_polar (passing 0) 1 (W 0)); [cbn; lia|lia|]. unfold value, passing. cbn [nth]. apply C_eq; cbn; ring. }
    assert (A2 : argument (passing 0) 2 0 = - (2 * PI / 3)).
    { unfold argument, passing. cbn [arg_of map nth]. replace (cis (4 * PI / 3)) with (Cscale 1 (cis (- (2 * PI / 3)))).
      - apply angle_exact; lra.
      - rewrite <- cis_scaled. apply same_angle_cis. exists (-1)%Z. field. }
    destruct (C94_unwrapped (passing 0) 1 (W 0) 2 0 ltac:(cbn; lia) ltac:(lia)) as (_ & _ & _ & E).
    rewrite E, A2; [lra|]. intros k Hk. cbn in Hk. destruct k as [|[|k]]; [| |lia].
    + rewrite A0, A1. apply Rabs_def1; lra.
    + rewrite A1, A2. apply Rabs_def1; lra.
Qed.
(** Three samples whose phase passes through a half turn and is recovered. *)
Example C94_case : (forall r, In r (passing 1) -> length r = 1%nat) /\ argument (passing 1) 2 0 <> phase (passing 1) 1 2 0.
Proof.
  pose proof PI_RGT_0 as P. split; [intros x [<-|[<-|[<-|[]]]]; reflexivity|].
  rewrite (proj1 C94_zero_refuted) by lra. intros E. pose proof (angle_range (cis (4 * PI / 3))) as B.
  unfold argument, passing in E. cbn [arg_of map nth] in E. lra.
Qed.
