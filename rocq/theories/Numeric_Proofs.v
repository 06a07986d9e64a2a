(** C49, C50, C53: truncation of precision, position of the largest norm, inner products. *)
From Coq Require Import Reals ZArith List Lia Lra Bool.
From Verif Require Import Common Cplx Modes_Model Modes_Proofs Times_Model Times_Proofs Numeric_Model.
Import ListNotations.
Open Scope R_scope.
Local Arguments Z.pow : simpl never.

(** * C50 *)
(** Specification: total power of a row. *)
Definition power (row : list C) : R := rsum norm2 row.

Lemma row_norm_loop_spec : forall row acc, row_norm_loop acc row = acc + power row.
Proof.
  induction row as [|c r IH]; intros acc; unfold power in *; simpl; [lra|].
  rewrite IH. unfold norm2. lra.
Qed.

Lemma norms_spec : forall data, complex_array_norm data = map power data.
Proof. intros. unfold complex_array_norm. apply map_ext. intros row. rewrite row_norm_loop_spec. lra. Qed.

(** First position of the maximum of [f] over the positions [lo .. n-1]. *)
Definition first_max (f : nat -> R) (lo n p : nat) : Prop :=
  (lo <= p < n)%nat /\ (forall j, (lo <= j < n)%nat -> f j <= f p)
  /\ (forall j, (lo <= j < p)%nat -> f j < f p).

Lemma argmax_loop_spec : forall l pre best bv,
  (best < length pre)%nat -> bv = nth best pre 0 ->
  (forall j, (j < length pre)%nat -> nth j pre 0 <= bv) ->
  (forall j, (j < best)%nat -> nth j pre 0 < bv) ->
  first_max (fun j => nth j (pre ++ l) 0) 0 (length pre + length l) (argmax_loop best bv (length pre) l).
Proof.
  induction l as [|x l IH]; intros pre best bv Hb Hv Hmax Hfst; simpl.
  - rewrite app_nil_r, Nat.add_0_r. split; [lia|]. subst bv. split; intros j Hj; [apply Hmax; lia|apply Hfst; lia].
  - assert (E : pre ++ x :: l = (pre ++ [x]) ++ l) by (rewrite <- app_assoc; reflexivity).
    assert (L : S (length pre) = length (pre ++ [x])) by (rewrite app_length; simpl; lia).
    assert (L2 : (length pre + S (length l) = length (pre ++ [x]) + length l)%nat) by (rewrite app_length; simpl; lia).
    rewrite E, L, L2.
    assert (N : forall j, (j < length pre)%nat -> nth j (pre ++ [x]) 0 = nth j pre 0) by (intros; apply app_nth1; lia).
    assert (Nx : nth (length pre) (pre ++ [x]) 0 = x) by apply nth_middle.
    destruct (Rltb_spec bv x) as [Hlt|Hge].
    + apply IH.
      * rewrite <- L. lia.
      * rewrite Nx. reflexivity.
      * intros j Hj. rewrite <- L in Hj. destruct (Nat.eq_dec j (length pre)) as [->|]; [rewrite Nx; lra|].
        rewrite N by lia. specialize (Hmax j ltac:(lia)). lra.
      * intros j Hj. rewrite N by lia. specialize (Hmax j ltac:(lia)). lra.
    + apply IH.
      * rewrite <- L. lia.
      * rewrite N by lia. exact Hv.
      * intros j Hj. rewrite <- L in Hj. destruct (Nat.eq_dec j (length pre)) as [->|]; [rewrite Nx; lra|].
        rewrite N by lia. apply Hmax. lia.
      * intros j Hj. rewrite N by lia. apply Hfst. lia.
Qed.

Lemma argmax_spec : forall l, l <> [] -> exists k, argmax l = Ok k /\
  first_max (fun j => nth j l 0) 0 (length l) k.
Proof.
  intros [|x l] H; [contradiction|]. simpl. eexists. split; [reflexivity|].
  apply (argmax_loop_spec l [x] 0 x); simpl; try lia; auto.
  intros j Hj. replace j with 0%nat by lia. lra.
Qed.

(** Where the search starts: nothing skipped for 0 and 1, otherwise n//skip, counted from the end
    when negative. *)
Definition search_start (n skip : Z) : Z :=
  (if (skip =? 0) || (skip =? 1) then 0 else if n / skip <? 0 then n + n / skip else n / skip)%Z.
(** Position meant by a Python index. *)
Definition position (n i : Z) : Z := (if i <? 0 then n + i else i)%Z.

Lemma div_bounds : forall n k, (1 <= n -> k <> 0 -> k <> 1 -> - n <= n / k < n)%Z.
Proof.
  intros n k Hn H0 H1. destruct (Z_lt_dec k 0).
  - pose proof (Z.div_mod n k H0). pose proof (Z.mod_neg_bound n k ltac:(lia)). nia.
  - pose proof (Z.div_mod n k H0). pose proof (Z.mod_pos_bound n k ltac:(lia)). nia.
Qed.

Theorem C50_max_norm_index : forall data skip, data <> [] ->
  let n := Z.of_nat (length data) in
  exists i, max_norm_index data skip = Ok i
    /\ (- n <= i < n)%Z
    /\ first_max (fun j => power (nth j data [])) (Z.to_nat (search_start n skip)) (length data)
                 (Z.to_nat (position n i)).
Proof.
  intros data skip Hne n.
  assert (Hn : (1 <= n)%Z) by (unfold n; destruct data; [contradiction|simpl; lia]).
  unfold max_norm_index, search_start. fold n.
  destruct ((skip =? 0)%Z || (skip =? 1)%Z) eqn:E.
  - rewrite norms_spec. destruct (argmax_spec (map power data)) as (k & Ek & (Hr & Hm & Hf)).
    { destruct data; [contradiction|discriminate]. }
    rewrite Ek. cbn [rbind]. exists (Z.of_nat k). rewrite map_length in *.
    split; [reflexivity|]. split; [unfold n; lia|].
    unfold position. replace (Z.of_nat k <? 0)%Z with false by (symmetry; lia). rewrite Nat2Z.id.
    assert (P : forall j, (j < length data)%nat -> nth j (map power data) 0 = power (nth j data [])).
    { intros j Hj. rewrite (nth_indep _ 0 (power [])) by (rewrite map_length; lia). apply map_nth. }
    change (Z.to_nat 0) with 0%nat.
    split; [lia|]. split; intros j Hj; rewrite <- !P by lia; [apply Hm|apply Hf]; lia.
  - assert (Hs : (skip <> 0 /\ skip <> 1)%Z) by lia.
    pose proof (div_bounds n skip Hn (proj1 Hs) (proj2 Hs)) as Hb.
    set (k0 := (n / skip)%Z) in *.
    set (s := (if k0 <? 0 then n + k0 else k0)%Z).
    assert (Hsb : (0 <= s < n)%Z) by (unfold s; destruct (k0 <? 0)%Z eqn:E0; lia).
    assert (Esl : py_slice (Some k0) None data = skipn (Z.to_nat s) data).
    { unfold py_slice, py_bound. fold n.
      replace (Z.max 0 (Z.min n (if (k0 <? 0)%Z then k0 + n else k0)))%Z with s
        by (unfold s; destruct (k0 <? 0)%Z eqn:E0; lia).
      apply firstn_all2. rewrite skipn_length. unfold n. lia. }
    rewrite Esl, norms_spec.
    assert (Lsk : length (skipn (Z.to_nat s) data) = (length data - Z.to_nat s)%nat) by apply skipn_length.
    destruct (argmax_spec (map power (skipn (Z.to_nat s) data))) as (k & Ek & (Hr & Hm & Hf)).
    { intros H. apply map_eq_nil in H. rewrite H in Lsk. simpl in Lsk. unfold n in *. lia. }
    rewrite Ek. cbn [rbind]. rewrite map_length, Lsk in *.
    exists (Z.of_nat k + k0)%Z. split; [reflexivity|].
    assert (Hpos : position n (Z.of_nat k + k0) = (s + Z.of_nat k)%Z).
    { unfold position, s in *. destruct (k0 <? 0)%Z eqn:E0.
      - replace (Z.of_nat k + k0 <? 0)%Z with true by (symmetry; unfold n in *; lia). lia.
      - replace (Z.of_nat k + k0 <? 0)%Z with false by (symmetry; lia). lia. }
    split; [unfold s in *; destruct (k0 <? 0)%Z eqn:E0; unfold n in *; lia|].
    rewrite Hpos.
    assert (P : forall j, (j < length data - Z.to_nat s)%nat ->
              nth j (map power (skipn (Z.to_nat s) data)) 0 = power (nth (Z.to_nat s + j) data [])).
    { intros j Hj. rewrite (nth_indep _ 0 (power [])) by (rewrite map_length, Lsk; lia).
      rewrite map_nth, nth_skipn. reflexivity. }
    replace (Z.to_nat (s + Z.of_nat k)) with (Z.to_nat s + k)%nat by lia.
    split; [unfold n in *; lia|].
    split; intros j Hj; replace j with (Z.to_nat s + (j - Z.to_nat s))%nat by lia; rewrite <- !P by lia;
      [apply Hm|apply Hf]; lia.
Qed.

(** No rows: an exception, never an index. *)
Theorem C50_empty_raises : forall skip, max_norm_index [] skip = Err ValueError.
Proof.
  intros skip. unfold max_norm_index. destruct (_ || _); [reflexivity|].
  unfold py_slice. rewrite skipn_nil, firstn_nil. reflexivity.
Qed.

Example C50_case : exists data, length data = 5%nat /\ max_norm_index data 4 = Ok 3%Z
  /\ max_norm_index data 1 = Ok 0%Z /\ max_norm_index data (-4) = Ok (-2)%Z.
Proof.
  exists [[mkC 9 0]; [mkC 1 0]; [mkC 2 0]; [mkC 0 3]; [mkC 3 0]]. split; [reflexivity|].
  unfold max_norm_index; cbn -[Rltb].
  change (Pos.to_nat 1) with 1%nat. change (Pos.to_nat 2) with 2%nat.
  change (Pos.to_nat 3) with 3%nat. change (Pos.to_nat 4) with 4%nat. cbn -[Rltb]. unfold argmax_loop.
  repeat match goal with |- context [Rltb ?a ?b] =>
    destruct (Rltb_spec a b); [try (exfalso; lra)|try (exfalso; lra)] end.
  all: repeat split; reflexivity.
Qed.

(** * C49 *)
Lemma Int_part_bounds : forall x, IZR (Int_part x) <= x < IZR (Int_part x) + 1.
Proof. intros x. pose proof (base_Int_part x). lra. Qed.

Lemma rint_near : forall x, Rabs (IZR (rint x) - x) <= 1/2.
Proof.
  intros x. unfold rint, floorR. pose proof (Int_part_bounds x). set (f := Int_part x) in *.
  destruct (Rltb_spec (x - IZR f) (1/2)); [apply Rabs_le; lra|].
  destruct (Rltb_spec (1/2) (x - IZR f)); [rewrite plus_IZR; apply Rabs_le; lra|].
  destruct (Z.even f); [|rewrite plus_IZR]; apply Rabs_le; lra.
Qed.

Lemma Int_part_IZR : forall n, Int_part (IZR n) = n.
Proof.
  intros n. pose proof (Int_part_bounds (IZR n)) as [A B].
  apply le_IZR in A. rewrite <- plus_IZR in B. apply lt_IZR in B. lia.
Qed.

Lemma rint_IZR : forall n, rint (IZR n) = n.
Proof.
  intros n. unfold rint, floorR. rewrite Int_part_IZR.
  destruct (Rltb_spec (IZR n - IZR n) (1/2)); [reflexivity|lra].
Qed.

(** Ties go to the even integer. *)
Lemma rint_tie_even : forall x, Rabs (IZR (rint x) - x) = 1/2 -> Z.even (rint x) = true.
Proof.
  intros x. unfold rint, floorR. pose proof (Int_part_bounds x). set (f := Int_part x) in *.
  destruct (Rltb_spec (x - IZR f) (1/2)).
  { intros E. exfalso. apply (Rlt_irrefl (1/2)). rewrite <- E at 1. apply Rabs_def1; lra. }
  destruct (Rltb_spec (1/2) (x - IZR f)).
  { intros E. exfalso. apply (Rlt_irrefl (1/2)). rewrite <- E at 1. rewrite plus_IZR. apply Rabs_def1; lra. }
  intros _. destruct (Z.even f) eqn:E; [exact E|].
  rewrite Z.even_add, E. reflexivity.
Qed.

(** The grid used for a row: the smallest power of two not below the tolerance. *)
Definition is_unit (a u : R) : Prop := (exists k, u = powerRZ 2 k) /\ a <= u < 2 * a.

Lemma powerRZ_Rpower2 : forall k, powerRZ 2 k = exp (IZR k * ln 2).
Proof. intros k. rewrite powerRZ_Rpower by lra. reflexivity. Qed.

Lemma ln2_pos : 0 < ln 2.
Proof. rewrite <- ln_1. apply ln_increasing; lra. Qed.

Lemma unit_spec : forall a, 0 < a -> is_unit a (/ power_of_2 a).
Proof.
  intros a Ha. unfold power_of_2, floorR. set (x := - (ln a / ln 2)).
  pose proof (Int_part_bounds x) as [L U]. set (k := Int_part x) in *.
  pose proof ln2_pos as L2.
  assert (Hx : x * ln 2 = - ln a) by (unfold x; field; lra).
  split.
  - exists (- k)%Z. rewrite powerRZ_neg' by lra. reflexivity.
  - rewrite powerRZ_Rpower2. rewrite <- exp_Ropp. split.
    + rewrite <- (exp_ln a Ha) at 1.
      destruct (Req_dec (ln a) (- (IZR k * ln 2))) as [->|N]; [lra|].
      left. apply exp_increasing. nra.
    + replace (2 * a) with (exp (ln 2 + ln a)) by (rewrite exp_plus, !exp_ln; lra).
      apply exp_increasing. nra.
Qed.

Lemma unit_unique : forall a u u', is_unit a u -> is_unit a u' -> u = u'.
Proof.
  intros a u u' [[k ->] H] [[k' ->] H']. f_equal.
  assert (F : forall i j, (i < j)%Z -> 2 * powerRZ 2 i <= powerRZ 2 j).
  { intros i j Hij. replace (2 * powerRZ 2 i) with (powerRZ 2 (1 + i)) by (rewrite powerRZ_add, powerRZ_1 by lra; reflexivity).
    rewrite !powerRZ_Rpower2. pose proof ln2_pos.
    destruct (Z.eq_dec (1 + i) j) as [->|N]; [lra|]. left. apply exp_increasing.
    apply Rmult_lt_compat_r; [assumption|]. apply IZR_lt. lia. }
  destruct (Z.lt_trichotomy k k') as [L|[L|L]]; auto; specialize (F _ _ L); lra.
Qed.

(** Nonzero rows: every output component is a multiple of the unit nearest to the input (ties to an
    even multiple), so it moves by at most half a unit, which is less than the tolerance. *)
Definition rounded (u x y : R) : Prop :=
  exists j, y = IZR j * u /\ Rabs (y - x) <= u / 2 /\ (Rabs (y - x) = u / 2 -> Z.even j = true).

Theorem C49_each_component : forall tol row, 0 < tol -> (exists z, In z row /\ z <> C0) ->
  exists u out, is_unit (tol * row_abs row / sqrt (INR (length row))) u
    /\ truncate_row tol row = Some out
    /\ Forall2 (fun z z' => rounded u (re z) (re z') /\ rounded u (im z) (im z')) row out.
Proof.
  intros tol row Ht (z0 & Hz0 & Hnz).
  assert (Hlen : (0 < length row)%nat) by (destruct row; [contradiction|simpl; lia]).
  assert (Hs : 0 < sqrt (INR (length row))) by (apply sqrt_lt_R0, lt_0_INR; lia).
  assert (Hp : 0 < rsum norm2 row).
  { pose proof (rsum_nonneg norm2 row (fun z _ => norm2_nonneg z)) as N.
    destruct (Req_dec (rsum norm2 row) 0) as [E|]; [|lra].
    exfalso. apply Hnz. apply norm2_zero. apply (rsum_zero norm2 row (fun z _ => norm2_nonneg z) E z0 Hz0). }
  assert (Ha : 0 < absolute_tolerance tol row).
  { unfold absolute_tolerance, row_abs. apply Rmult_lt_0_compat; [apply sqrt_lt_R0; lra|].
    apply Rdiv_lt_0_compat; lra. }
  unfold truncate_row. destruct (Rltb_spec 0 (absolute_tolerance tol row)) as [_|]; [|contradiction].
  set (a := absolute_tolerance tol row) in *.
  pose proof (unit_spec a Ha) as Hu. set (p := power_of_2 a) in *.
  assert (Hpp : 0 < p) by (unfold p, power_of_2; apply powerRZ_lt; lra).
  exists (/ p). eexists. split; [|split; [reflexivity|]].
  - replace (tol * row_abs row / sqrt (INR (length row))) with a; [exact Hu|].
    unfold a, absolute_tolerance. field. lra.
  - assert (R1 : forall x, rounded (/ p) x (/ p * IZR (rint (p * x)))).
    { intros x. exists (rint (p * x)). split; [ring|].
      pose proof (rint_near (p * x)) as N.
      assert (E : / p * IZR (rint (p * x)) - x = (IZR (rint (p * x)) - p * x) * / p) by (field; lra).
      assert (Q : Rabs (/ p * IZR (rint (p * x)) - x) = Rabs (IZR (rint (p * x)) - p * x) * / p).
      { rewrite E, Rabs_mult. f_equal. apply Rabs_pos_eq. left. apply Rinv_0_lt_compat. exact Hpp. }
      rewrite Q. pose proof (Rinv_0_lt_compat p Hpp). split; [nra|].
      intros T. apply rint_tie_even. apply Rmult_eq_reg_r with (/ p); lra. }
    clear Hz0 Hnz z0 Hlen Hs Hp Ha Hu. clearbody p. clear a.
    induction row as [|z r IH]; simpl; constructor; auto.
    split; apply R1.
Qed.

(** The whole row moves by less than sqrt(2) times the tolerance (in units of its own norm). *)
Lemma rounded_sq : forall u x y, 0 < u -> rounded u x y -> (y - x) * (y - x) <= u * u / 4.
Proof.
  intros u x y Hu (j & _ & H & _).
  assert (- (u / 2) <= y - x <= u / 2).
  { pose proof (Rle_abs (y - x)). pose proof (Rle_abs (- (y - x))) as K. rewrite Rabs_Ropp in K. lra. }
  nra.
Qed.

Theorem C49_total_error : forall tol row out, 0 < tol -> (exists z, In z row /\ z <> C0) ->
  truncate_row tol row = Some out ->
  sqrt (rsum (fun p => norm2 (snd p - fst p)%C) (combine row out)) < sqrt 2 * tol * row_abs row.
Proof.
  intros tol row out Ht Hnz H.
  destruct (C49_each_component tol row Ht Hnz) as (u & out' & Hu & E & F). rewrite H in E. injection E as <-.
  set (a := tol * row_abs row / sqrt (INR (length row))) in *.
  destruct Hu as [[k Hk] [Hu1 Hu2]].
  assert (Hup : 0 < u) by (rewrite Hk; apply powerRZ_lt; lra).
  assert (Hlen : (0 < length row)%nat) by (destruct Hnz as (z & Hz & _); destruct row; [contradiction|simpl; lia]).
  assert (Hn : 0 < INR (length row)) by (apply lt_0_INR; lia).
  assert (Hs : 0 < sqrt (INR (length row))) by (apply sqrt_lt_R0; assumption).
  assert (B : rsum (fun p => norm2 (snd p - fst p)%C) (combine row out) <= INR (length row) * (u * u / 2)).
  { clear - F Hup. induction F as [|z z' r r' [Hr Hi] F IH].
    - simpl. lra.
    - cbn [combine rsum length]. rewrite S_INR.
      pose proof (rounded_sq _ _ _ Hup Hr). pose proof (rounded_sq _ _ _ Hup Hi).
      assert (norm2 (z' - z)%C <= u * u / 2) by (unfold norm2; cbn; lra).
      cbn [fst snd]. lra. }
  assert (Ea : a * sqrt (INR (length row)) = tol * row_abs row) by (unfold a; field; lra).
  assert (Hra : 0 < a) by lra.
  assert (Hbound : INR (length row) * (u * u / 2) < 2 * ((tol * row_abs row) * (tol * row_abs row))).
  { rewrite <- Ea. rewrite <- (sqrt_sqrt (INR (length row))) at 1 by lra.
    set (s := sqrt (INR (length row))) in *. assert (K1 : u * u < 4 * (a * a)) by (replace (4 * (a * a)) with ((2 * a) * (2 * a)) by ring; apply Rmult_le_0_lt_compat; lra).
    assert (K2 : 0 < s * s) by (apply Rmult_lt_0_compat; exact Hs).
    replace (2 * (a * s * (a * s))) with (s * s * (4 * (a * a) / 2)) by field.
    apply Rmult_lt_compat_l; lra. }
  assert (Hpos : 0 < tol * row_abs row) by (rewrite <- Ea; nra).
  apply Rsqr_incrst_0.
  - rewrite Rsqr_sqrt.
    + eapply Rle_lt_trans; [exact B|]. eapply Rlt_le_trans; [exact Hbound|].
      unfold Rsqr. replace (sqrt 2 * tol * row_abs row * (sqrt 2 * tol * row_abs row))
        with (sqrt 2 * sqrt 2 * (tol * row_abs row * (tol * row_abs row))) by ring.
      rewrite sqrt_sqrt by lra. lra.
    + apply rsum_nonneg. intros. apply norm2_nonneg.
  - apply sqrt_pos.
  - rewrite Rmult_assoc. apply Rmult_le_pos; [apply sqrt_pos|lra].
Qed.

(** Rounding again with the same unit changes nothing. *)
Theorem C49_same_unit_stable : forall u x y z, 0 < u -> rounded u x y -> rounded u y z -> z = y.
Proof.
  intros u x y z Hu (j & -> & _) (k & -> & H & T).
  assert (E : IZR k * u - IZR j * u = IZR (k - j) * u) by (rewrite minus_IZR; ring).
  rewrite E in H. rewrite Rabs_mult, (Rabs_pos_eq u) in H by lra.
  assert (Rabs (IZR (k - j)) <= 1/2) as K.
  { apply Rmult_le_reg_r with u; [assumption|]. lra. }
  assert (k - j = 0)%Z as Z0.
  { rewrite <- abs_IZR in K. assert (IZR (Z.abs (k - j)) < 1) as K' by lra. apply lt_IZR in K'. lia. }
  replace k with j by lia. reflexivity.
Qed.

(** A zero tolerance leaves the data alone; rows and columns are never lost. *)
Theorem C49_shape : forall tol data,
  length (truncate tol data) = length data
  /\ (tol = 0 -> truncate tol data = map Some data)
  /\ (forall i row out, nth_error data i = Some row -> nth_error (truncate tol data) i = Some (Some out) ->
       length out = length row).
Proof.
  intros tol data. unfold truncate. destruct (Req_EM_T tol 0) as [E|E].
  - split; [apply map_length|]. split; [reflexivity|]. intros i row out Hi Ho.
    rewrite nth_error_map, Hi in Ho. simpl in Ho. congruence.
  - split; [apply map_length|]. split; [contradiction|]. intros i row out Hi Ho.
    rewrite nth_error_map, Hi in Ho. simpl in Ho. injection Ho as Ho. unfold truncate_row in Ho.
    destruct (Rltb _ _); [|discriminate]. injection Ho as <-. apply map_length.
Qed.

(** At an instant where every mode vanishes the result is not a number. *)
Theorem C49_zero_row_refuted : forall tol n, 0 < tol -> truncate_row tol (repeat C0 n) = None.
Proof.
  intros tol n Ht. unfold truncate_row, absolute_tolerance, row_abs.
  replace (rsum norm2 (repeat C0 n)) with 0.
  - rewrite sqrt_0, Rmult_0_l. destruct (Rltb_spec 0 0); [lra|reflexivity].
  - symmetry. apply rsum_const0. intros x Hx. apply repeat_spec in Hx. subst. unfold norm2. simpl. lra.
Qed.

(** * C53 *)
Section C53.
  Variable Q : Type.
  Variable sdi : list C -> list R -> R -> R -> C.
  Variable interp : list R -> list (list C) -> list R -> list (list C).
  Variable intersect : list R -> list R -> res (list R).
  Notation ip := (inner_product Q sdi interp intersect).

  (** The value of mode (l, m) in a row of a waveform starting at [lmin]. *)
  Definition amp (lmin : Z) (row : list C) (l m : Z) : C := nth (Z.to_nat (l * (l + 1) - lmin ^ 2 + m)) row C0.
  (** Overlap of two rows over all modes with a <= l <= b. *)
  Definition overlap (a b : Z) (la lb : Z) (ra rb : list C) : C :=
    csum (fun lm => (Conj (amp la ra (fst lm) (snd lm)) * amp lb rb (fst lm) (snd lm))%C) (LM_range a b).

  Lemma list_eqb_eq : forall a b, list_eqb a b = true <-> a = b.
  Proof.
    induction a as [|x a IH]; destruct b as [|y b]; simpl; split; try congruence.
    - destruct (Req_EM_T x y) as [->|]; simpl; [|discriminate]. intros H. f_equal. apply IH; exact H.
    - intros H. injection H as <- <-. destruct (Req_EM_T x x); [|contradiction]. simpl. apply IH. reflexivity.
  Qed.

  Lemma csum_combine_seq : forall (f : C * C -> C) ra rb, length ra = length rb ->
    csum f (combine ra rb) = csum (fun i => f (nth i ra C0, nth i rb C0)) (seq 0 (length ra)).
  Proof.
    intros f ra. induction ra as [|x ra IH]; intros [|y rb] H; try discriminate; [reflexivity|].
    cbn [combine length seq csum]. f_equal. rewrite IH by (simpl in H; lia).
    rewrite <- seq_shift, csum_map. reflexivity.
  Qed.

  Lemma csum_LM : forall a b (g : nat -> C), (0 <= a)%Z ->
    csum (fun lm => g (Z.to_nat (fst lm * (fst lm + 1) - a ^ 2 + snd lm))) (LM_range a b)
    = csum g (seq 0 (length (LM_range a b))).
  Proof.
    intros a b g Ha.
    transitivity (csum g (map Z.to_nat (indices a (LM_range a b)))).
    - unfold indices. rewrite map_map, csum_map. reflexivity.
    - rewrite C01_indices_of_LM by assumption. rewrite map_map.
      f_equal. rewrite <- (map_id (seq 0 _)) at 2. apply map_ext. intros i. apply Nat2Z.id.
  Qed.

  Lemma overlap_whole : forall a b ra rb, (0 <= a)%Z ->
    length ra = length (LM_range a b) -> length rb = length (LM_range a b) ->
    integrand_row ra rb = overlap a b a a ra rb.
  Proof.
    intros a b ra rb Ha Hra Hrb. unfold integrand_row, overlap, amp.
    rewrite csum_combine_seq by congruence. rewrite Hra. symmetry.
    exact (csum_LM a b (fun i => (Conj (nth i ra C0) * nth i rb C0)%C) Ha).
  Qed.

  Lemma amp_slice : forall lo hi a b row l m, (0 <= lo)%Z -> (lo <= a)%Z -> (a <= l < b)%Z -> (b <= hi + 1)%Z ->
    (- l <= m <= l)%Z -> length row = length (LM_range lo hi) ->
    amp a (py_slice (Some (a ^ 2 - lo ^ 2)%Z) (Some (b ^ 2 - lo ^ 2)%Z) row) l m = amp lo row l m.
  Proof.
    intros lo hi a b row l m Hlo Ha Hl Hb Hm Hrow. unfold amp.
    assert (Hn : Z.of_nat (length row) = ((hi + 1) ^ 2 - lo ^ 2)%Z) by (rewrite Hrow; apply LM_range_length; lia).
    rewrite py_slice_nonneg by nia.
    rewrite nth_firstn_lt by nia. rewrite nth_skipn. f_equal. nia.
  Qed.

  (** Times shared, modes shared or clipped to the common ell range: the integral of the overlap of the
      common modes, matched by (ell, m). *)
  Definition ok_wave (n : Z) (w : wf R Q C) : Prop := wf_ok w /\ (2 <= n)%Z.

  Theorem C53_value : forall s nA nB (A B : wf R Q C) t1 t2 aLM aT x xs,
    ok_wave nA A -> ok_wave nB B -> wt A = wt B -> wt A = x :: xs ->
    let a := Z.max (wlmin A) (wlmin B) in
    let b := Z.min (wlmax A) (wlmax B) in
    (a <= b)%Z -> (aLM = true \/ (wlmin A = wlmin B /\ wlmax A = wlmax B)) ->
    ip s s nA nB A B t1 t2 aLM aT
    = Ok (sdi (map (fun p => overlap a b (wlmin A) (wlmin B) (fst p) (snd p)) (combine (wdata A) (wdata B)))
              (wt A) (match t1 with Some v => v | None => x end)
                     (match t2 with Some v => v | None => last (x :: xs) x end)).
  Proof.
    intros s nA nB A B t1 t2 aLM aT x xs [HA HnA] [HB HnB] Ht Hx a b Hab Hmode.
    unfold inner_product. rewrite Z.eqb_refl. cbn [negb].
    replace (list_eqb (wt A) (wt B)) with true by (symmetry; apply list_eqb_eq; assumption). cbn [negb].
    destruct (HA) as (A0 & A1 & ALM & AF). destruct (HB) as (B0 & B1 & BLM & BF).
    rewrite Forall_forall in AF, BF.
    destruct (negb (wlmin A =? wlmin B)%Z || negb (wlmax A =? wlmax B)%Z) eqn:Ed.
    - destruct Hmode as [->|[E1 E2]]; [|exfalso; lia].
      fold a. fold b.
      replace (b + 1 <=? a)%Z with false by (symmetry; lia). cbn [rbind].
      assert (Hfs : forall w : wf R Q C, (wlmin w <= a)%Z -> (0 <= wlmin w)%Z ->
                (if falsy (Some a) then wlmin w else a) = a).
      { intros w H0 H1. simpl. destruct (a =? 0)%Z eqn:E; lia. }
      assert (Hget : forall n (w : wf R Q C), (2 <= n)%Z -> wf_ok w -> (wlmin w <= a)%Z -> (b <= wlmax w)%Z ->
        getitem_pair n w (None, None) (MSlice (Some a) (Some (b + 1)%Z) None)
        = Ok (set_ells (mkwf (wt w) (wframe w)
               (map (py_slice (Some (a ^ 2 - wlmin w ^ 2)%Z) (Some ((b + 1) ^ 2 - wlmin w ^ 2)%Z)) (wdata w))
               (wlmin w) (wlmax w) (wLM w)) a b)).
      { intros n w Hn (W0 & W1 & _) Hwa Hwb. unfold getitem_pair, mode_slice. cbn [falsy negb andb].
        replace (b + 1 =? 0)%Z with false by (symmetry; lia). rewrite andb_false_r.
        change (a =? 0)%Z with (falsy (Some a)). rewrite Hfs by assumption.
        replace (b + 1 - 1)%Z with b by lia.
        replace (a <? wlmin w)%Z with false by (symmetry; lia).
        replace (wlmax w <? b)%Z with false by (symmetry; lia). cbn [orb rbind].
        unfold base_getitem_pair. replace (2 <=? n)%Z with true by (symmetry; lia). cbn [rbind].
        unfold sl. cbn [fst snd].
        assert (Full : forall X (l : list X), py_slice None None l = l).
        { intros X l. unfold py_slice, py_bound. rewrite Z.sub_0_r, Nat2Z.id. apply firstn_all. }
        rewrite !Full. replace (b * (b + 2) + 1 - wlmin w ^ 2)%Z with ((b + 1) ^ 2 - wlmin w ^ 2)%Z by nia.
        reflexivity. }
      rewrite (Hget nA A), (Hget nB B) by (assumption || unfold a, b; lia). cbn [rbind].
      unfold set_ells. cbn [wdata wt].
      rewrite Hx. unfold first_or, last_or.
      assert (Erows : map (fun p => integrand_row (fst p) (snd p))
         (combine (map (py_slice (Some (a ^ 2 - wlmin A ^ 2)%Z) (Some ((b + 1) ^ 2 - wlmin A ^ 2)%Z)) (wdata A))
                  (map (py_slice (Some (a ^ 2 - wlmin B ^ 2)%Z) (Some ((b + 1) ^ 2 - wlmin B ^ 2)%Z)) (wdata B)))
         = map (fun p => overlap a b (wlmin A) (wlmin B) (fst p) (snd p)) (combine (wdata A) (wdata B))).
      { generalize (wdata B) BF. generalize (wdata A) AF.
        clear - A0 A1 B0 B1 ALM BLM Hab. 
        induction l as [|ra l IH]; intros AF [|rb l'] BF; try reflexivity.
        cbn [map combine fst snd]. f_equal.
        - assert (Lra : length ra = length (LM_range (wlmin A) (wlmax A))) by (rewrite <- ALM; apply AF; left; reflexivity).
          assert (Lrb : length rb = length (LM_range (wlmin B) (wlmax B))) by (rewrite <- BLM; apply BF; left; reflexivity).
          assert (Ha0 : (0 <= a)%Z) by (unfold a; lia).
          rewrite (overlap_whole a b).
          + unfold overlap. apply csum_ext. intros [l0 m0] Hin. apply LM_range_In in Hin. cbn [fst snd].
            rewrite (amp_slice (wlmin A) (wlmax A)) by (assumption || unfold a, b in *; lia).
            rewrite (amp_slice (wlmin B) (wlmax B)) by (assumption || unfold a, b in *; lia).
            reflexivity.
          + assumption.
          + destruct (slice_row_spec C (wlmin A) (wlmax A) a (b + 1) ra) as [_ L]; try (assumption || unfold a, b in *; lia).
            replace (b + 1 - 1)%Z with b in L by lia. exact L.
          + destruct (slice_row_spec C (wlmin B) (wlmax B) a (b + 1) rb) as [_ L]; try (assumption || unfold a, b in *; lia).
            replace (b + 1 - 1)%Z with b in L by lia. exact L.
        - apply IH; intros r Hr; [apply AF|apply BF]; right; exact Hr. }
      rewrite Erows. destruct t1, t2; reflexivity.
    - assert (E1 : wlmin A = wlmin B) by lia. assert (E2 : wlmax A = wlmax B) by lia. cbn [rbind].
      assert (Ea : a = wlmin A) by (unfold a; lia). assert (Eb : b = wlmax A) by (unfold b; lia).
      rewrite Hx. unfold first_or, last_or.
      assert (Erows : map (fun p => integrand_row (fst p) (snd p)) (combine (wdata A) (wdata B))
         = map (fun p => overlap a b (wlmin A) (wlmin B) (fst p) (snd p)) (combine (wdata A) (wdata B))).
      { apply map_ext_in. intros [ra rb] Hin. cbn [fst snd]. rewrite <- E1, <- Ea.
        apply overlap_whole; [lia| |]; rewrite Ea, Eb.
        - rewrite <- ALM. apply AF. eapply in_combine_l; eassumption.
        - rewrite E1, E2, <- BLM. apply BF. eapply in_combine_r; eassumption. }
      rewrite Erows. destruct t1, t2; reflexivity.
  Qed.

  (** Rejections: spins, mode ranges, times. *)
  Theorem C53_rejections : forall sA sB nA nB (A B : wf R Q C) t1 t2 aLM aT,
    (sA <> sB -> ip sA sB nA nB A B t1 t2 aLM aT = Err ValueError)
    /\ ((wlmin A, wlmax A) <> (wlmin B, wlmax B) -> aLM = false -> ip sA sB nA nB A B t1 t2 aLM aT = Err ValueError)
    /\ ((wlmin A, wlmax A) <> (wlmin B, wlmax B) -> (Z.min (wlmax A) (wlmax B) < Z.max (wlmin A) (wlmin B))%Z ->
        ip sA sB nA nB A B t1 t2 aLM aT = Err ValueError)
    /\ (wt A <> wt B -> aT = false -> ip sA sB nA nB A B t1 t2 aLM aT = Err ValueError).
  Proof.
    intros sA sB nA nB A B t1 t2 aLM aT. unfold inner_product.
    destruct (sA =? sB)%Z eqn:Es; cbn [negb].
    2:{ repeat split; intros; try reflexivity. }
    apply Z.eqb_eq in Es.
    assert (D : (wlmin A, wlmax A) <> (wlmin B, wlmax B) ->
      (negb (wlmin A =? wlmin B)%Z || negb (wlmax A =? wlmax B)%Z) = true).
    { intros N. destruct (wlmin A =? wlmin B)%Z eqn:E1; [|reflexivity]. destruct (wlmax A =? wlmax B)%Z eqn:E2; [|reflexivity].
      exfalso. apply N. f_equal; lia. }
    split; [contradiction|]. split; [|split].
    - intros N ->. rewrite (D N). reflexivity.
    - intros N L. rewrite (D N). destruct aLM; [|reflexivity].
      match goal with |- context [(?p <=? ?q)%Z] => replace (p <=? q)%Z with true by (symmetry; lia) end. reflexivity.
    - intros N ->. replace (list_eqb (wt A) (wt B)) with false.
      2:{ symmetry. destruct (list_eqb _ _) eqn:E; [apply list_eqb_eq in E; contradiction|reflexivity]. }
      cbn [negb]. destruct (_ || _); [|reflexivity]. destruct aLM; [|reflexivity].
      destruct (_ <=? _)%Z; reflexivity.
  Qed.

  (** Swapping the arguments conjugates the result, if the quadrature commutes with conjugation. *)
  Theorem C53_hermitian : forall s nA nB (A B : wf R Q C) t1 t2 aLM aT v,
    (forall l ts u u', sdi (map Conj l) ts u u' = Conj (sdi l ts u u')) ->
    ok_wave nA A -> ok_wave nB B -> wt A = wt B -> wt A <> [] ->
    (Z.max (wlmin A) (wlmin B) <= Z.min (wlmax A) (wlmax B))%Z ->
    (aLM = true \/ (wlmin A = wlmin B /\ wlmax A = wlmax B)) ->
    ip s s nA nB A B t1 t2 aLM aT = Ok v -> ip s s nB nA B A t1 t2 aLM aT = Ok (Conj v).
  Proof.
    intros s nA nB A B t1 t2 aLM aT v Hc HA HB Ht Hne Hab Hm H.
    destruct (wt A) as [|x xs] eqn:Hx; [contradiction|].
    rewrite (C53_value s nA nB A B t1 t2 aLM aT x xs) in H; try assumption; try congruence.
    rewrite (C53_value s nB nA B A t1 t2 aLM aT x xs); try assumption; try congruence; try (symmetry; congruence).
    2:{ lia. }
    2:{ destruct Hm as [|[]]; [left; assumption|right; split; congruence]. }
    injection H as <-. f_equal. rewrite <- Hc. rewrite map_map. rewrite Hx, <- Ht. f_equal.
    rewrite (Z.max_comm (wlmin B)), (Z.min_comm (wlmax B)).
    generalize (wdata B). induction (wdata A) as [|ra l IH]; intros [|rb l']; try reflexivity.
    cbn [combine map fst snd]. f_equal; [|apply IH].
    unfold overlap. rewrite csum_conj. apply csum_ext. intros lm _.
    rewrite Conj_mul, Conj_involutive. ring.
  Qed.

  (** The integrand of a waveform with itself is its total power at each time. *)
  Theorem C53_self_overlap : forall n (w : wf R Q C) row, ok_wave n w -> In row (wdata w) ->
    overlap (wlmin w) (wlmax w) (wlmin w) (wlmin w) row row = RtoC (power row).
  Proof.
    intros n w row [(H0 & H1 & HLM & HF) _] Hin. rewrite Forall_forall in HF.
    rewrite <- overlap_whole; [|assumption|rewrite <- HLM; apply HF; assumption|rewrite <- HLM; apply HF; assumption].
    unfold integrand_row, power. clear. induction row as [|z r IH]; [reflexivity|].
    cbn [combine csum rsum fst snd]. rewrite IH, RtoC_add. f_equal. rewrite <- Cmul_conj. ring.
  Qed.
End C53.

Example C53_case : exists (A B : wf R unit C), wt A = [0] /\ wlmin A = 2%Z /\ wlmin B = 3%Z
  /\ inner_product unit (fun l _ _ _ => hd C0 l) (fun _ d _ => d) (fun a _ => Ok a) (-2) (-2) 12 7 A B None None true false
     = Ok (mkC 0 6).
Proof.
  exists (mkwf [0] [Datatypes.tt] [repeat C0 5 ++ [mkC 0 (-1)] ++ repeat C0 6] 2 3 (LM_range 2 3)),
         (mkwf [0] [Datatypes.tt] [mkC 6 0 :: repeat C0 6] 3 3 (LM_range 3 3)).
  repeat (split; [reflexivity|]).
  rewrite (C53_value unit _ _ _ (-2) 12 7 _ _ None None true false 0 []);
    try reflexivity; try (left; reflexivity); try (vm_compute; discriminate);
    try (split; [|lia]; repeat split; simpl; try lia; repeat constructor).
  f_equal. unfold overlap. cbn [wdata wlmin wlmax combine map hd fst snd].
  change (LM_range (Z.max 2 3) (Z.min 3 3)) with [(3, -3); (3, -2); (3, -1); (3, 0); (3, 1); (3, 2); (3, 3)]%Z.
  cbn [csum fst snd]. unfold amp.
  repeat match goal with |- context [Z.to_nat ?z] => let n := eval vm_compute in (Z.to_nat z) in change (Z.to_nat z) with n end.
  cbn [nth app repeat]. apply C_eq; cbn; lra.
Qed.
