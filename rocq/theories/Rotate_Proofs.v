(** C25: rotating the decomposition basis. *)
From Coq Require Import Reals ZArith List Bool Lia Lra.
From Verif Require Import Common Cplx Quat Modes_Model Modes_Proofs Modal_Model Modal_Proofs Rotate_Model.
Import ListNotations.
Open Scope Z_scope.

(** * Arrays and loops *)
Definition get (a : list C) (i : Z) : C := nth (Z.to_nat i) a C0.
Definition zlen (a : list C) : Z := Z.of_nat (length a).
Lemma rd_get : forall a i, 0 <= i < zlen a -> rd a i = Ok (get a i).
Proof.
  unfold rd, get, zlen. intros a i H. destruct (Z.ltb_spec i 0); [lia|].
  rewrite (nth_error_nth' a C0) by lia. reflexivity.
Qed.
Lemma wr_get : forall a i v, 0 <= i < zlen a ->
  exists a', wr a i v = Ok a' /\ zlen a' = zlen a /\ (forall j, 0 <= j -> get a' j = if j =? i then v else get a j).
Proof.
  unfold wr, get, zlen. intros a i v H. destruct (Z.ltb_spec i 0); [lia|].
  destruct (upd_ok _ a (Z.to_nat i) v ltac:(lia)) as [r' E]. rewrite E. exists r'.
  split; auto. rewrite (upd_length _ _ _ _ _ E). split; auto.
  intros j Hj. rewrite (upd_nth _ _ _ _ _ C0 _ E).
  destruct (Z.eqb_spec j i), (Nat.eqb_spec (Z.to_nat j) (Z.to_nat i)); auto; lia.
Qed.
Lemma get_ext : forall a b, zlen a = zlen b -> (forall i, 0 <= i < zlen a -> get a i = get b i) -> a = b.
Proof.
  unfold zlen, get. intros a b L H. apply nth_ext with (d := C0) (d' := C0); [lia|].
  intros n Hn. specialize (H (Z.of_nat n) ltac:(lia)). rewrite Nat2Z.id in H. exact H.
Qed.
Lemma for_range : forall S (P : Z -> S -> Prop) (body : Z -> S -> res S) a b s, a <= b -> P a s ->
  (forall i s, a <= i < b -> P i s -> exists s', body i s = Ok s' /\ P (i + 1) s') ->
  exists s', for_each (zrange a b) body s = Ok s' /\ P b s'.
Proof.
  intros S P body a b s Hab. remember (Z.to_nat (b - a)) as n eqn:En. revert a s Hab En.
  induction n as [|n IH]; intros a s Hab En H0 H.
  - assert (a = b) by lia. subst. rewrite zrange_empty by lia. cbn. eauto.
  - rewrite zrange_cons by lia. cbn. destruct (H a s ltac:(lia) H0) as (s1 & E1 & H1). rewrite E1. cbn.
    apply IH; try lia; auto. intros; apply H; auto; lia.
Qed.

(** * Offsets of the matrices *)
Lemma matrix_offset_step : forall ell lo, matrix_offset (ell + 1) lo = matrix_offset ell lo + (2 * ell + 1) ^ 2.
Proof.
  intros ell lo. unfold matrix_offset.
  replace ((ell + 1) * (2 * (ell + 1) - 1) * (2 * (ell + 1) + 1))
    with (ell * (2 * ell - 1) * (2 * ell + 1) + (2 * ell + 1) ^ 2 * 3) by ring.
  rewrite Z.div_add by lia. ring.
Qed.
Lemma matrix_offset_start : forall lo, matrix_offset lo lo = 0.
Proof. intros; unfold matrix_offset; lia. Qed.
Lemma matrix_offset_mono : forall lo l l', lo <= l -> l <= l' -> 0 <= matrix_offset l lo <= matrix_offset l' lo.
Proof.
  intros lo l l' H H'. assert (A : forall n a, (forall b, b = a + Z.of_nat n -> matrix_offset a lo <= matrix_offset b lo)).
  { induction n; intros a b ->; [replace (a + Z.of_nat 0) with a by lia; lia|].
    replace (a + Z.of_nat (S n)) with (a + Z.of_nat n + 1) by lia. rewrite matrix_offset_step.
    specialize (IHn a _ eq_refl). nia. }
  split. - rewrite <- (matrix_offset_start lo) at 1. apply (A (Z.to_nat (l - lo))). lia.
  - apply (A (Z.to_nat (l' - l))). lia.
Qed.
Lemma matrix_block : forall lo hi l i, lo <= l <= hi -> 0 <= i < (2 * l + 1) ^ 2 ->
  0 <= matrix_offset l lo + i < matrix_total lo hi.
Proof.
  intros lo hi l i H Hi. pose proof (matrix_offset_mono lo l l ltac:(lia) ltac:(lia)).
  pose proof (matrix_offset_mono lo (l + 1) (hi + 1) ltac:(lia) ltac:(lia)).
  unfold matrix_total. rewrite matrix_offset_step in H1. lia.
Qed.
Lemma data_block : forall lo hi l i, 0 <= lo -> lo <= l <= hi -> 0 <= i < 2 * l + 1 ->
  0 <= l ^ 2 - lo ^ 2 + i < (hi + 1) ^ 2 - lo ^ 2.
Proof. intros. nia. Qed.

(** * The sums the kernels are to compute *)
(** Mode (ell, i_m - ell) after rotation: the row of the modes of degree ell times the matrix [M]. *)
Definition rotated (M : Z -> Z -> Z -> C) (x : Z -> Z -> C) (l m : Z) : C :=
  csum (fun i => (x l i * M l i m)%C) (zrange 0 (2 * l + 1)).
(** The flat array [D] holds the matrices [M]. *)
Definition holds (lo hi : Z) (D : list C) (M : Z -> Z -> Z -> C) : Prop :=
  zlen D = matrix_total lo hi /\
  forall l i j, lo <= l <= hi -> 0 <= i < 2 * l + 1 -> 0 <= j < 2 * l + 1 ->
    get D (matrix_offset l lo + (2 * l + 1) * i + j) = M l i j.
(** The row holds mode (l, i - l) at position l^2 - lo^2 + i. *)
Definition row_is (lo hi : Z) (row : list C) (x : Z -> Z -> C) : Prop :=
  zlen row = (hi + 1) ^ 2 - lo ^ 2 /\
  forall l i, lo <= l <= hi -> 0 <= i < 2 * l + 1 -> get row (l ^ 2 - lo ^ 2 + i) = x l i.

Section Kernels.
Variables lo hi : Z.
Hypothesis Hlo : 0 <= lo.
Definition at_row (row : list C) (l i : Z) : C := get row (l ^ 2 - lo ^ 2 + i).
Definition in_block (l p : Z) : bool := (l ^ 2 - lo ^ 2 <=? p) && (p <? (l + 1) ^ 2 - lo ^ 2).
Definition N : Z := (hi + 1) ^ 2 - lo ^ 2.
Lemma in_block_spec : forall l p, in_block l p = true <-> l ^ 2 - lo ^ 2 <= p < (l + 1) ^ 2 - lo ^ 2.
Proof. intros. unfold in_block. rewrite andb_true_iff, Z.leb_le, Z.ltb_lt. tauto. Qed.
Lemma in_block_at : forall l l' i, 0 <= l -> 0 <= l' -> 0 <= i < 2 * l' + 1 -> in_block l (l' ^ 2 - lo ^ 2 + i) = (l' =? l).
Proof.
  intros l l' i H H' Hi. destruct (in_block l _) eqn:E.
  - apply in_block_spec in E. symmetry. apply Z.eqb_eq. nia.
  - symmetry. apply Z.eqb_neq. intros ->. assert (in_block l (l ^ 2 - lo ^ 2 + i) = true); [|congruence].
    apply in_block_spec. nia.
Qed.

(** Copying the sums into the row. *)
Lemma copy_back : forall l (src row : list C) off, lo <= l <= hi -> zlen row = N -> 0 <= off -> off + 2 * l + 1 <= zlen src ->
  exists row', for_each (zrange 0 (2 * l + 1)) (fun i_m row => let? v := rd src (off + i_m) in wr row (l ^ 2 - lo ^ 2 + i_m) v) row = Ok row' /\
    zlen row' = N /\ forall p, 0 <= p -> get row' p = if in_block l p then get src (off + (p - (l ^ 2 - lo ^ 2))) else get row p.
Proof.
  intros l src row off Hl HN Ho Hs.
  destruct (for_range _ (fun k r => zlen r = N /\ forall p, 0 <= p ->
     get r p = if (l ^ 2 - lo ^ 2 <=? p) && (p <? l ^ 2 - lo ^ 2 + k) then get src (off + (p - (l ^ 2 - lo ^ 2))) else get row p)
     (fun i_m row => let? v := rd src (off + i_m) in wr row (l ^ 2 - lo ^ 2 + i_m) v) 0 (2 * l + 1) row) as (r' & E & L & G).
  - lia.
  - split; auto. intros p Hp. destruct (Z.leb_spec (l ^ 2 - lo ^ 2) p), (Z.ltb_spec p (l ^ 2 - lo ^ 2 + 0)); cbn; auto; lia.
  - intros i r Hi [L G]. rewrite rd_get by lia. cbn [rbind].
    destruct (wr_get r (l ^ 2 - lo ^ 2 + i) (get src (off + i))) as (r' & E & L' & G').
    { rewrite L. apply data_block; lia. }
    exists r'. rewrite E. split; auto. split; [congruence|]. intros p Hp. rewrite G', G by lia.
    destruct (Z.eqb_spec p (l ^ 2 - lo ^ 2 + i)) as [->|n].
    + replace (_ && _) with true by (symmetry; apply andb_true_iff; rewrite Z.leb_le, Z.ltb_lt; lia). f_equal. lia.
    + destruct (Z.leb_spec (l ^ 2 - lo ^ 2) p), (Z.ltb_spec p (l ^ 2 - lo ^ 2 + i)), (Z.ltb_spec p (l ^ 2 - lo ^ 2 + (i + 1)));
        cbn; auto; lia.
  - exists r'. repeat split; auto. intros p Hp. rewrite G by lia. unfold in_block.
    replace (l ^ 2 - lo ^ 2 + (2 * l + 1)) with ((l + 1) ^ 2 - lo ^ 2) by ring. reflexivity.
Qed.

Lemma constant_ell_ok : forall D M l row tmp, holds lo hi D M -> lo <= l <= hi -> zlen row = N -> zlen tmp = 2 * hi + 1 ->
  exists row' tmp', constant_ell lo l D (row, tmp) = Ok (row', tmp') /\ zlen row' = N /\ zlen tmp' = 2 * hi + 1 /\
    forall p, 0 <= p -> get row' p = if in_block l p then rotated M (at_row row) l (p - (l ^ 2 - lo ^ 2)) else get row p.
Proof.
  intros D M l row tmp [HD HM] Hl HN HT. unfold constant_ell. cbn [fst snd].
  destruct (for_range _ (fun k t => zlen t = 2 * hi + 1 /\ forall j, 0 <= j < k -> get t j = C0)
    (fun i_m tmp => wr tmp i_m C0) 0 (2 * l + 1) tmp) as (t0 & E0 & L0 & G0).
  { lia. } { split; auto. intros; lia. }
  { intros i t Hi [L G]. destruct (wr_get t i C0) as (t' & E & L' & G'); [lia|]. exists t'. rewrite E. split; auto.
    split; [congruence|]. intros j Hj. rewrite G' by lia. destruct (Z.eqb_spec j i); auto. apply G. lia. }
  rewrite E0. cbn [rbind].
  destruct (for_range _ (fun k t => zlen t = 2 * hi + 1 /\ forall j, 0 <= j < 2 * l + 1 ->
      get t j = csum (fun i => (at_row row l i * M l i j)%C) (zrange 0 k))
    (fun i_mp tmp =>
               for_each (zrange 0 (2 * l + 1)) (fun i_m tmp' =>
                 let? d := rd row (l ^ 2 - lo ^ 2 + i_mp) in
                 let? w := rd D (matrix_offset l lo + (2 * l + 1) * i_mp + i_m) in
                 add_to tmp' i_m (d * w)%C) tmp) 0 (2 * l + 1) t0) as (t1 & E1 & L1 & G1).
  { lia. } { split; [exact L0|]. intros j Hj. rewrite zrange_empty by lia. cbn. apply G0. lia. }
  { intros i t Hi [L G].
    destruct (for_range _ (fun k t' => zlen t' = 2 * hi + 1 /\ forall j, 0 <= j < 2 * l + 1 ->
        get t' j = if j <? k then csum (fun i => (at_row row l i * M l i j)%C) (zrange 0 (i + 1)) else get t j)
      (fun i_m tmp' =>
                 let? d := rd row (l ^ 2 - lo ^ 2 + i) in
                 let? w := rd D (matrix_offset l lo + (2 * l + 1) * i + i_m) in
                 add_to tmp' i_m (d * w)%C) 0 (2 * l + 1) t) as (t' & E' & L' & G').
    { lia. } { split; auto. intros j Hj. destruct (Z.ltb_spec j 0); auto; lia. }
    { intros k t' Hk [L' G'].
      rewrite rd_get by (rewrite HN; apply data_block; lia). cbn [rbind].
      rewrite rd_get by (rewrite HD, <- Z.add_assoc; apply matrix_block; nia). cbn [rbind].
      rewrite HM by lia. unfold add_to. rewrite rd_get by lia. cbn [rbind].
      destruct (wr_get t' k (get t' k + get row (l ^ 2 - lo ^ 2 + i) * M l i k)%C) as (t2 & E2 & L2 & G2); [lia|].
      exists t2. rewrite E2. split; auto. split; [congruence|]. intros j Hj. rewrite G2 by lia.
      destruct (Z.eqb_spec j k) as [->|n].
      - destruct (Z.ltb_spec k (k + 1)); [|lia]. rewrite G' by lia. destruct (Z.ltb_spec k k); [lia|].
        rewrite G by lia. rewrite zrange_snoc, csum_app by lia. cbn [csum]. unfold at_row. ring.
      - rewrite G' by lia. destruct (Z.ltb_spec j k), (Z.ltb_spec j (k + 1)); auto; lia. }
    exists t'. rewrite E'. split; auto. split; auto. intros j Hj. rewrite G' by lia. destruct (Z.ltb_spec j (2 * l + 1)); auto; lia. }
  rewrite E1. cbn [rbind].
  destruct (copy_back l t1 row 0 Hl HN) as (row' & E2 & L2 & G2); [lia|lia|].
  cbn [Z.add] in E2. rewrite E2. cbn [rbind]. exists row', t1. split; auto. split; auto. split; auto.
  intros p Hp. rewrite G2 by lia. destruct (in_block l p) eqn:B; auto. apply in_block_spec in B.
  rewrite Z.add_0_l. rewrite G1 by (nia). reflexivity.
Qed.

(** The series kernel: row i_m of the sums only reads column i_m, whose first entry is overwritten last. *)
Lemma series_ell_ok : forall D M l row, zlen D = matrix_total lo hi ->
  (forall i j, 0 <= i < 2 * l + 1 -> 0 <= j < 2 * l + 1 -> get D (matrix_offset l lo + (2 * l + 1) * i + j) = M l i j) ->
  lo <= l <= hi -> zlen row = N ->
  exists row' D', series_ell lo l (row, D) = Ok (row', D') /\ zlen row' = N /\ zlen D' = matrix_total lo hi /\
    (forall p, 0 <= p -> p < matrix_offset l lo \/ matrix_offset (l + 1) lo <= p -> get D' p = get D p) /\
    forall p, 0 <= p -> get row' p = if in_block l p then rotated M (at_row row) l (p - (l ^ 2 - lo ^ 2)) else get row p.
Proof.
  intros D M l row HD HM Hl HN. unfold series_ell. cbn [fst snd].
  pose proof (matrix_offset_mono lo l l ltac:(lia) ltac:(lia)) as Ho.
  destruct (for_range _ (fun k D' => zlen D' = matrix_total lo hi /\ forall p, 0 <= p ->
      get D' p = if (matrix_offset l lo <=? p) && (p <? matrix_offset l lo + k)
                 then rotated M (at_row row) l (p - matrix_offset l lo) else get D p)
    (fun i_m D =>
               let? s := for_each (zrange 0 (2 * l + 1)) (fun i_mp acc =>
                           let? d := rd row (l ^ 2 - lo ^ 2 + i_mp) in
                           let? w := rd D (matrix_offset l lo + i_m + (2 * l + 1) * i_mp) in
                           Ok (acc + d * w)%C) C0 in
               wr D (matrix_offset l lo + i_m) s) 0 (2 * l + 1) D) as (D1 & E1 & L1 & G1).
  { lia. }
  { split; auto. intros p Hp. destruct (Z.leb_spec (matrix_offset l lo) p), (Z.ltb_spec p (matrix_offset l lo + 0)); cbn; auto; lia. }
  { intros k D' Hk [L G].
    destruct (for_range _ (fun n acc => acc = csum (fun i => (at_row row l i * M l i k)%C) (zrange 0 n))
       (fun i_mp acc =>
                           let? d := rd row (l ^ 2 - lo ^ 2 + i_mp) in
                           let? w := rd D' (matrix_offset l lo + k + (2 * l + 1) * i_mp) in
                           Ok (acc + d * w)%C) 0 (2 * l + 1) C0) as (s & Es & Hs).
    { lia. } { reflexivity. }
    { intros i acc Hi ->. rewrite rd_get by (rewrite HN; apply data_block; lia). cbn [rbind].
      rewrite rd_get by (rewrite L, <- Z.add_assoc; apply matrix_block; nia). cbn [rbind].
      eexists. split; [reflexivity|]. rewrite zrange_snoc, csum_app by lia. cbn [csum].
      rewrite G by nia.
      replace ((_ <=? _) && _) with false.
      - replace (matrix_offset l lo + k + (2 * l + 1) * i) with (matrix_offset l lo + (2 * l + 1) * i + k) by ring.
        rewrite HM by lia. unfold at_row. ring.
      - symmetry. apply andb_false_iff. right. apply Z.ltb_ge. nia. }
    rewrite Es. cbn [rbind]. rewrite Hs.
    destruct (wr_get D' (matrix_offset l lo + k) (csum (fun i => (at_row row l i * M l i k)%C) (zrange 0 (2 * l + 1)))) as (D2 & E2 & L2 & G2).
    { rewrite L. apply matrix_block; nia. }
    exists D2. rewrite E2. split; auto. split; [congruence|]. intros p Hp. rewrite G2, G by lia.
    destruct (Z.eqb_spec p (matrix_offset l lo + k)) as [->|n].
    - replace ((_ <=? _) && _) with true by (symmetry; apply andb_true_iff; rewrite Z.leb_le, Z.ltb_lt; lia).
      unfold rotated. replace (matrix_offset l lo + k - matrix_offset l lo) with k by ring. reflexivity.
    - destruct (Z.leb_spec (matrix_offset l lo) p), (Z.ltb_spec p (matrix_offset l lo + k)), (Z.ltb_spec p (matrix_offset l lo + (k + 1)));
        cbn; auto; lia. }
  rewrite E1. cbn [rbind].
  destruct (copy_back l D1 row (matrix_offset l lo) Hl HN) as (row' & E2 & L2 & G2); [lia| |].
  { rewrite L1. pose proof (matrix_block lo hi l (2 * l) Hl ltac:(nia)). lia. }
  rewrite E2. cbn [rbind]. exists row', D1. split; auto. split; auto. split; auto. split.
  - intros p Hp Hout. rewrite G1 by lia. replace ((_ <=? _) && _) with false; auto.
    symmetry. apply andb_false_iff. rewrite Z.leb_gt, Z.ltb_ge. rewrite matrix_offset_step in Hout. nia.
  - intros p Hp. rewrite G2 by lia. destruct (in_block l p) eqn:B; auto. apply in_block_spec in B.
    rewrite G1 by nia. replace ((_ <=? _) && _) with true.
    + f_equal. lia.
    + symmetry; apply andb_true_iff; rewrite Z.leb_le, Z.ltb_lt; nia.
Qed.

(** ** One time sample *)
Lemma row_is_at : forall row x, zlen row = N -> (forall l i, lo <= l <= hi -> 0 <= i < 2 * l + 1 -> at_row row l i = x l i) -> row_is lo hi row x.
Proof. intros row x H1 H2. split; auto. Qed.
Lemma rotated_ext : forall M x y l i, (forall j, 0 <= j < 2 * l + 1 -> x l j = y l j) -> rotated M x l i = rotated M y l i.
Proof. intros M x y l i H. apply csum_ext. intros j Hj. apply zrange_In in Hj. rewrite H by lia. reflexivity. Qed.

Lemma constant_time_ok : forall D M row tmp, holds lo hi D M -> zlen row = N -> zlen tmp = 2 * hi + 1 -> lo <= hi + 1 ->
  exists row' tmp', constant_time lo hi D (row, tmp) = Ok (row', tmp') /\ zlen tmp' = 2 * hi + 1 /\
    row_is lo hi row' (rotated M (at_row row)).
Proof.
  intros D M row tmp HD HN HT Hh. unfold constant_time.
  destruct (for_range _ (fun k st => zlen (fst st) = N /\ zlen (snd st) = 2 * hi + 1 /\
      forall l i, lo <= l <= hi -> 0 <= i < 2 * l + 1 ->
        at_row (fst st) l i = if l <? k then rotated M (at_row row) l i else at_row row l i)
    (fun ell st => constant_ell lo ell D st) lo (hi + 1) (row, tmp)) as ([row' tmp'] & E & L & LT & G).
  { lia. } { cbn [fst snd]. repeat split; auto. intros l i Hl Hi. destruct (Z.ltb_spec l lo); auto; lia. }
  { intros k [r t] Hk (L & LT & G). cbn [fst snd] in *.
    destruct (constant_ell_ok D M k r t HD ltac:(lia) L LT) as (r' & t' & E & L' & LT' & G').
    exists (r', t'). rewrite E. split; auto. cbn [fst snd]. split; auto. split; auto. intros l i Hl Hi.
    unfold at_row at 1. rewrite G' by (pose proof (data_block lo hi l i Hlo Hl Hi); lia). rewrite in_block_at by lia.
    destruct (Z.eqb_spec l k) as [->|n].
    - destruct (Z.ltb_spec k (k + 1)); [|lia]. replace (k ^ 2 - lo ^ 2 + i - (k ^ 2 - lo ^ 2)) with i by ring.
      apply rotated_ext. intros j Hj. rewrite G by lia. destruct (Z.ltb_spec k k); auto; lia.
    - fold (at_row r l i). rewrite G by lia. destruct (Z.ltb_spec l k), (Z.ltb_spec l (k + 1)); auto; lia. }
  exists row', tmp'. rewrite E. cbn [fst snd] in *. split; auto. split; auto. apply row_is_at; auto.
  intros l i Hl Hi. rewrite G by lia. destruct (Z.ltb_spec l (hi + 1)); auto; lia.
Qed.

Lemma series_time_ok : forall D M row, holds lo hi D M -> zlen row = N -> lo <= hi + 1 ->
  exists row' D', series_time lo hi (row, D) = Ok (row', D') /\ row_is lo hi row' (rotated M (at_row row)).
Proof.
  intros D M row [LD HD] HN Hh. unfold series_time.
  destruct (for_range _ (fun k st => zlen (fst st) = N /\ zlen (snd st) = matrix_total lo hi /\
      (forall p, 0 <= p -> matrix_offset k lo <= p -> get (snd st) p = get D p) /\
      forall l i, lo <= l <= hi -> 0 <= i < 2 * l + 1 ->
        at_row (fst st) l i = if l <? k then rotated M (at_row row) l i else at_row row l i)
    (fun ell st => series_ell lo ell st) lo (hi + 1) (row, D)) as ([row' D'] & E & L & LT & _ & G).
  { lia. } { cbn [fst snd]. repeat split; auto. intros l i Hl Hi. destruct (Z.ltb_spec l lo); auto; lia. }
  { intros k [r t] Hk (L & LT & GD & G). cbn [fst snd] in *.
    pose proof (matrix_offset_mono lo k (k + 1) ltac:(lia) ltac:(lia)) as Ho.
    destruct (series_ell_ok t M k r LT) as (r' & t' & E & L' & LT' & GD' & G'); try lia.
    { intros i j Hi Hj. rewrite GD by nia. apply HD; lia. }
    exists (r', t'). rewrite E. split; auto. cbn [fst snd]. split; auto. split; auto. split.
    { intros p Hp H. rewrite GD' by lia. apply GD; lia. }
    intros l i Hl Hi.
    unfold at_row at 1. rewrite G' by (pose proof (data_block lo hi l i Hlo Hl Hi); lia). rewrite in_block_at by lia.
    destruct (Z.eqb_spec l k) as [->|n].
    - destruct (Z.ltb_spec k (k + 1)); [|lia]. replace (k ^ 2 - lo ^ 2 + i - (k ^ 2 - lo ^ 2)) with i by ring.
      apply rotated_ext. intros j Hj. rewrite G by lia. destruct (Z.ltb_spec k k); auto; lia.
    - fold (at_row r l i). rewrite G by lia. destruct (Z.ltb_spec l k), (Z.ltb_spec l (k + 1)); auto; lia. }
  exists row', D'. rewrite E. cbn [fst snd] in *. split; auto. apply row_is_at; auto.
  intros l i Hl Hi. rewrite G by lia. destruct (Z.ltb_spec l (hi + 1)); auto; lia.
Qed.

(** Rows are determined by their modes. *)
Lemma row_is_inj : forall row row' x y, row_is lo hi row x -> row_is lo hi row' y ->
  (forall l i, lo <= l <= hi -> 0 <= i < 2 * l + 1 -> x l i = y l i) -> lo <= hi + 1 -> row = row'.
Proof.
  intros row row' x y [L H] [L' H'] E Hh. apply get_ext; [congruence|]. intros p Hp. rewrite L in Hp.
  set (l := Z.sqrt (p + lo ^ 2)). pose proof (Z.sqrt_spec (p + lo ^ 2) ltac:(nia)) as Hs. fold l in Hs.
  pose proof (Z.sqrt_nonneg (p + lo ^ 2)) as Hl0. fold l in Hl0. clearbody l. unfold Z.succ in Hs.
  assert (A : lo <= l) by (destruct (Z.lt_ge_cases l lo); [exfalso; nia|lia]). assert (B : l <= hi) by (unfold N in Hp; nia).
  replace p with (l ^ 2 - lo ^ 2 + (p + lo ^ 2 - l ^ 2)) by ring. rewrite H, H' by nia. apply E; nia.
Qed.
End Kernels.

(** * Specification *)
(** A unit quaternion. *)
Definition unitq (q : quat) : Prop := qnorm2 q = 1%R.
(** Every row has exactly the modes (ell, m), ell_min <= ell <= ell_max. *)
Definition wf (W : rwave) : Prop :=
  0 <= rw_lo W <= rw_hi W /\
  Forall (fun row : list C => Z.of_nat (length row) = (rw_hi W + 1) ^ 2 - rw_lo W ^ 2) (rw_data W).
(** Mode (l, m) at time number [t]. *)
Definition md (W : rwave) (t : nat) (l m : Z) : C := mode (rw_lo W) (nth t (rw_data W) []) l m.
(** The rotor of the frame at time number [t]: none means the identity, one means constant. *)
Definition frame_at (f : list quat) (t : nat) : quat :=
  match f with [] => q1 | [q] => q | _ => nth t f q1 end.

Lemma at_mode : forall lo row l m, at_row lo row l (l + m) = mode lo row l m.
Proof.
  intros. unfold at_row, mode, get. f_equal. f_equal. unfold LM_index. ring.
Qed.
Lemma zrange_shift : forall a b k, zrange (a + k) (b + k) = map (fun i => i + k) (zrange a b).
Proof.
  intros. unfold zrange. replace (b + k - (a + k)) with (b - a) by lia. rewrite map_map. apply map_ext. intros; lia.
Qed.
Lemma ms_zero : forall l, zrange 0 (2 * l + 1) = map (fun m => m + l) (ms_of l).
Proof. intros. unfold ms_of. rewrite <- zrange_shift. f_equal; lia. Qed.

Section Rotation.
(** The external Wigner functions: [Dw q l m' m] is the matrix element of a rotor. *)
Variable Dw : quat -> Z -> Z -> Z -> C.
Variable wigner : quat -> Z -> Z -> list C.
Variable garbage : Z -> list C.
Hypothesis wigner_fills : forall q lo hi, 0 <= lo <= hi -> holds lo hi (wigner q lo hi) (fun l i j => Dw q l (i - l) (j - l)).
Hypothesis garbage_len : forall n, 0 <= n -> zlen (garbage n) = n.
(** Representation of the rotation group. *)
Hypothesis Dw_mul : forall p q l m' m, unitq p -> unitq q -> 0 <= l -> - l <= m' <= l -> - l <= m <= l ->
  csum (fun k => (Dw p l m' k * Dw q l k m)%C) (ms_of l) = Dw (qmul p q) l m' m.
Hypothesis Dw_one : forall l m' m, 0 <= l -> - l <= m' <= l -> - l <= m <= l -> Dw q1 l m' m = if m' =? m then C1 else C0.
Hypothesis Dw_adjoint : forall q l m' m, unitq q -> 0 <= l -> - l <= m' <= l -> - l <= m <= l ->
  Dw (qconj q) l m' m = Conj (Dw q l m m').

(** The modes of [x] with respect to the basis rotated by [q]: degrees do not mix. *)
Definition turn (q : quat) (x : Z -> Z -> C) (l m : Z) : C :=
  csum (fun m' => (x l m' * Dw q l m' m)%C) (ms_of l).
(** [W'] has the modes of [W] turned by the rotors [qs t]. *)
Definition turned_by (W W' : rwave) (qs : nat -> quat) : Prop :=
  rw_lo W' = rw_lo W /\ rw_hi W' = rw_hi W /\ length (rw_data W') = length (rw_data W) /\ rw_type W' = rw_type W /\
  forall t l m, (t < length (rw_data W))%nat -> valid (rw_lo W) (rw_hi W) l m -> md W' t l m = turn (qs t) (md W t) l m.

Lemma rotated_turn : forall q lo row l m, 0 <= l -> - l <= m <= l ->
  rotated (fun l i j => Dw q l (i - l) (j - l)) (at_row lo row) l (l + m) = turn q (mode lo row) l m.
Proof.
  intros q lo row l m Hl Hm. unfold rotated, turn. rewrite ms_zero, csum_map. apply csum_ext. intros k Hk.
  rewrite <- at_mode. rewrite (Z.add_comm l k). f_equal. f_equal; lia.
Qed.

Definition rot1 (lo hi : Z) (q : quat) (row row' : list C) : Prop :=
  zlen row' = N lo hi /\ forall l m, valid lo hi l m -> mode lo row' l m = turn q (mode lo row) l m.
Lemma rot1_of : forall lo hi q row row', 0 <= lo ->
  row_is lo hi row' (rotated (fun l i j => Dw q l (i - l) (j - l)) (at_row lo row)) -> rot1 lo hi q row row'.
Proof.
  intros lo hi q row row' Hlo [L H]. split; auto. intros l m [Hl Hm]. rewrite <- rotated_turn by lia.
  rewrite <- at_mode. apply H; lia.
Qed.

Lemma by_constant_ok : forall lo hi q rows tmp, 0 <= lo <= hi -> zlen tmp = 2 * hi + 1 -> Forall (fun r => zlen r = N lo hi) rows ->
  exists rows', by_constant lo hi (wigner q lo hi) rows tmp = Ok rows' /\ Forall2 (rot1 lo hi q) rows rows'.
Proof.
  intros lo hi q rows. induction rows as [|row rows IH]; intros tmp Hlo HT HF; cbn [by_constant].
  - eauto.
  - inversion HF; subst. destruct (constant_time_ok lo hi ltac:(lia) _ _ row tmp (wigner_fills q lo hi ltac:(lia)) H1 HT ltac:(lia))
      as (row' & tmp' & E & LT & HR). rewrite E. cbn [rbind fst snd].
    destruct (IH tmp' Hlo LT H2) as (rows' & E' & HR'). rewrite E'. cbn [rbind]. eexists. split; [reflexivity|].
    constructor; auto. apply rot1_of; auto; lia.
Qed.
Inductive series_rel (lo hi : Z) : list (list C) -> list quat -> list (list C) -> Prop :=
| sr_nil : series_rel lo hi [] [] []
| sr_cons : forall row row' q rows Rs rows', rot1 lo hi q row row' -> series_rel lo hi rows Rs rows' ->
    series_rel lo hi (row :: rows) (q :: Rs) (row' :: rows').
Lemma by_series_ok : forall lo hi rows Rs, 0 <= lo <= hi -> length rows = length Rs -> Forall (fun r => zlen r = N lo hi) rows ->
  exists rows', by_series wigner lo hi rows Rs = Ok rows' /\ series_rel lo hi rows Rs rows'.
Proof.
  intros lo hi rows. induction rows as [|row rows IH]; intros [|q Rs] Hlo HL HF; cbn [by_series]; try discriminate.
  - eexists; split; [reflexivity|constructor].
  - inversion HF; subst. cbn in HL. destruct (series_time_ok lo hi ltac:(lia) _ _ row (wigner_fills q lo hi ltac:(lia)) H1 ltac:(lia))
      as (row' & D' & E & HR). rewrite E. cbn [rbind fst snd].
    destruct (IH Rs Hlo ltac:(lia) H2) as (rows' & E' & HR'). rewrite E'. cbn [rbind]. eexists. split; [reflexivity|].
    constructor; auto. apply rot1_of; auto; lia.
Qed.
Lemma series_rel_nth : forall lo hi rows Rs rows', series_rel lo hi rows Rs rows' ->
  length rows' = length rows /\ length Rs = length rows /\ Forall (fun r => zlen r = N lo hi) rows' /\
  forall t, (t < length rows)%nat -> rot1 lo hi (nth t Rs q1) (nth t rows []) (nth t rows' []).
Proof.
  induction 1 as [|row row' q rows Rs rows' H HR (L & LR & F & IH)]; [repeat (split; [solve [auto; constructor]|]); cbn; intros; lia|].
  cbn [length]. split; [congruence|]. split; [congruence|]. split; [constructor; auto; apply H|].
  intros [|t] Ht; cbn [nth]; auto. apply IH. cbn in Ht. lia.
Qed.
Lemma const_rel_nth : forall lo hi q rows rows', Forall2 (rot1 lo hi q) rows rows' ->
  length rows' = length rows /\ Forall (fun r => zlen r = N lo hi) rows' /\
  forall t, (t < length rows)%nat -> rot1 lo hi q (nth t rows []) (nth t rows' []).
Proof.
  induction 1 as [|row row' rows rows' H HR (L & F & IH)]; [repeat (split; [solve [auto; constructor]|]); cbn; intros; lia|].
  cbn [length]. split; [congruence|]. split; [constructor; auto; apply H|].
  intros [|t] Ht; cbn [nth]; auto. apply IH. cbn in Ht. lia.
Qed.

(** ** What the public function computes *)
Lemma wf_N : forall W, wf W -> Forall (fun r => zlen r = N (rw_lo W) (rw_hi W)) (rw_data W).
Proof. intros W [_ H]. exact H. Qed.

Theorem C25_constant : forall W q r, wf W -> r = RQuat q \/ r = RList [q] \/ r = RArr1 [q] ->
  exists W', rotate_basis wigner garbage W r = Ok W' /\ wf W' /\ turned_by W W' (fun _ => q) /\
    rw_frame W' = match rw_frame W with
                  | F1 [] => F1 [q]
                  | F1 f => F1 (map (fun p => qmul p q) f)
                  | F2 f => F2 (map (map (fun p => qmul p q)) f)
                  end.
Proof.
  intros W q r HW Hr. assert (Er : rotate_basis wigner garbage W r = rotate_constant wigner garbage W q)
    by (destruct Hr as [-> | [-> | ->]]; reflexivity).
  rewrite Er. unfold rotate_constant. pose proof HW as [Hlo HF].
  destruct (by_constant_ok (rw_lo W) (rw_hi W) q (rw_data W) (garbage (2 * rw_hi W + 1))) as (rows' & E & HR).
  { lia. } { apply garbage_len. lia. } { exact HF. }
  rewrite E. cbn [rbind]. apply const_rel_nth in HR as (L & F & HR). eexists. split; [reflexivity|].
  split; [split; [exact Hlo|exact F]|]. split; [|reflexivity].
  unfold turned_by. cbn [rw_lo rw_hi rw_data rw_type]. repeat (split; [auto; fail|]). intros t l m Ht Hv.
  unfold md. cbn [rw_lo rw_data]. apply HR; auto.
Qed.

Theorem C25_series : forall W Rs r, wf W -> length Rs = length (rw_data W) -> length Rs <> 1%nat -> r = RList Rs \/ r = RArr1 Rs ->
  forall f, rw_frame W = F1 f -> f = [] \/ length f = length Rs ->
  exists W', rotate_basis wigner garbage W r = Ok W' /\ wf W' /\ turned_by W W' (fun t => nth t Rs q1) /\
    exists f', rw_frame W' = F1 f' /\ length f' = length Rs /\
      forall t, (t < length Rs)%nat -> nth t f' q1 = qmul (nth t f q1) (nth t Rs q1).
Proof.
  intros W Rs r HW HL H1 Hr f Hf HLf. assert (Er : rotate_basis wigner garbage W r = rotate_series wigner W Rs).
  { destruct Rs as [|a [|b Rs]]; [| exfalso; apply H1; reflexivity |]; destruct Hr as [-> | ->]; reflexivity. }
  rewrite Er. unfold rotate_series. rewrite <- HL, Nat.eqb_refl. cbn [negb]. pose proof HW as [Hlo HF].
  destruct (by_series_ok (rw_lo W) (rw_hi W) (rw_data W) Rs) as (rows' & E & HR). { lia. } { auto. } { exact HF. }
  rewrite E. cbn [rbind]. apply series_rel_nth in HR as (L & _ & F & HR). rewrite Hf.
  assert (HW' : forall fr, wf (mkrw (rw_lo W) (rw_hi W) rows' fr (rw_type W)) /\
                 turned_by W (mkrw (rw_lo W) (rw_hi W) rows' fr (rw_type W)) (fun t => nth t Rs q1)).
  { intros fr. split; [split; [exact Hlo|exact F]|]. unfold turned_by. cbn [rw_lo rw_hi rw_data rw_type].
    repeat (split; [auto; fail|]). intros t l m Ht Hv. unfold md. cbn [rw_lo rw_data]. apply HR; auto. }
  destruct f as [|f0 [|f1 f]].
  - cbn [rbind]. eexists. split; [reflexivity|]. split; [apply HW'|]. split; [apply HW'|].
    exists Rs. split; [reflexivity|]. split; [reflexivity|]. intros t Ht. replace (nth t [] q1) with q1 by (destruct t; reflexivity). rewrite qmul_1_l. reflexivity.
  - exfalso. destruct HLf as [HLf|HLf]; [discriminate|]. cbn in HLf. congruence.
  - destruct HLf as [HLf|HLf]; [discriminate|]. set (ff := f0 :: f1 :: f) in *. unfold frame_times. rewrite HLf, Nat.eqb_refl.
    cbn [rbind]. eexists. split; [reflexivity|]. split; [apply HW'|]. split; [apply HW'|].
    eexists. split; [reflexivity|]. split; [rewrite map_length, combine_length; lia|]. intros t Ht.
    rewrite (nth_indep _ q1 (qmul q1 q1)) by (rewrite map_length, combine_length; lia).
    change (qmul q1 q1) with ((fun p => qmul (fst p) (snd p)) (q1, q1)). rewrite map_nth, combine_nth by lia. reflexivity.
Qed.

(** ** The action *)
Lemma turn_ext : forall q x y l m, (forall k, - l <= k <= l -> x l k = y l k) -> turn q x l m = turn q y l m.
Proof.
  intros q x y l m H. apply csum_ext. intros k Hk. unfold ms_of in Hk. apply zrange_In in Hk. rewrite H by lia. reflexivity.
Qed.
Lemma csum_scale_r : forall A (k : C) (f : A -> C) l, csum (fun x => (f x * k)%C) l = (csum f l * k)%C.
Proof. induction l; cbn [csum]; [|rewrite IHl]; ring. Qed.
Lemma turn_turn : forall p q x l m, unitq p -> unitq q -> 0 <= l -> - l <= m <= l ->
  turn q (turn p x) l m = turn (qmul p q) x l m.
Proof.
  intros p q x l m Hp Hq Hl Hm. unfold turn.
  transitivity (csum (fun k => csum (fun j => (x l j * Dw p l j k * Dw q l k m)%C) (ms_of l)) (ms_of l)).
  { apply csum_ext. intros k _. symmetry. apply csum_scale_r. }
  rewrite csum_swap. apply csum_ext. intros j Hj. unfold ms_of in Hj. apply zrange_In in Hj.
  rewrite <- (Dw_mul p q l j m) by (auto; lia). rewrite <- csum_scale. apply csum_ext. intros; ring.
Qed.
Lemma csum_delta : forall l m (f : Z -> C), 0 <= l -> - l <= m <= l ->
  csum (fun k => (f k * (if k =? m then C1 else C0))%C) (ms_of l) = f m.
Proof.
  intros l m f Hl Hm. unfold ms_of. rewrite (zrange_split (- l) m) by lia. rewrite (zrange_cons m) by lia.
  rewrite csum_app. cbn [csum]. rewrite Z.eqb_refl.
  rewrite (csum_const0 (fun k => (f k * (if k =? m then C1 else C0))%C) (zrange (- l) m)).
  2:{ intros k Hk. apply zrange_In in Hk. destruct (Z.eqb_spec k m); [lia|]. ring. }
  rewrite (csum_const0 (fun k => (f k * (if k =? m then C1 else C0))%C) (zrange (m + 1) (l + 1))).
  2:{ intros k Hk. apply zrange_In in Hk. destruct (Z.eqb_spec k m); [lia|]. ring. }
  ring.
Qed.
Lemma turn_one : forall x l m, 0 <= l -> - l <= m <= l -> turn q1 x l m = x l m.
Proof.
  intros x l m Hl Hm. unfold turn. rewrite <- (csum_delta l m (x l) Hl Hm). apply csum_ext. intros k Hk.
  unfold ms_of in Hk. apply zrange_In in Hk. rewrite Dw_one by lia. reflexivity.
Qed.
Lemma unit_conj : forall q, unitq q -> unitq (qconj q).
Proof. intros q H. unfold unitq. rewrite qnorm2_conj. exact H. Qed.
Lemma unit_mul : forall p q, unitq p -> unitq q -> unitq (qmul p q).
Proof. intros p q H H'. unfold unitq in *. rewrite qnorm2_mul, H, H'. ring. Qed.
Lemma unit_one : unitq q1.
Proof. unfold unitq, qnorm2. cbn. ring. Qed.
Lemma mul_conj_unit : forall q, unitq q -> qmul q (qconj q) = q1 /\ qmul (qconj q) q = q1.
Proof.
  intros q H. rewrite qmul_conj_r, qmul_conj_l. unfold unitq in H. rewrite H. split; apply qscale_1.
Qed.
(** Sum over m of |mode|^2 is unchanged. *)
Lemma turn_norm : forall q x l, unitq q -> 0 <= l ->
  rsum (fun m => norm2 (turn q x l m)) (ms_of l) = rsum (fun m => norm2 (x l m)) (ms_of l).
Proof.
  intros q x l Hq Hl. apply RtoC_inj. rewrite <- !csum_RtoC.
  transitivity (csum (fun m => csum (fun k => (x l k * (Dw q l k m * Conj (turn q x l m)))%C) (ms_of l)) (ms_of l)).
  { apply csum_ext. intros m Hm. rewrite <- Cmul_conj. unfold turn at 1. rewrite <- csum_scale_r. apply csum_ext. intros; ring. }
  rewrite csum_swap. apply csum_ext. intros k Hk. unfold ms_of in Hk. apply zrange_In in Hk.
  rewrite csum_scale, <- Cmul_conj. f_equal.
  transitivity (Conj (turn (qconj q) (turn q x) l k)).
  { unfold turn at 2. rewrite csum_conj. apply csum_ext. intros m Hm. unfold ms_of in Hm. apply zrange_In in Hm.
    rewrite Dw_adjoint by (auto; lia). rewrite Conj_mul, Conj_involutive. ring. }
  rewrite turn_turn by (auto using unit_conj; lia). rewrite (proj1 (mul_conj_unit q Hq)). rewrite turn_one by lia. reflexivity.
Qed.

Lemma wave_eq : forall A B, wf A -> wf B -> rw_lo A = rw_lo B -> rw_hi A = rw_hi B -> rw_frame A = rw_frame B -> rw_type A = rw_type B ->
  length (rw_data A) = length (rw_data B) ->
  (forall t l m, (t < length (rw_data A))%nat -> valid (rw_lo A) (rw_hi A) l m -> md A t l m = md B t l m) -> A = B.
Proof.
  intros [lo hi dA fA tA] [lo' hi' dB fB tB] [HlA HA] [HlB HB] E1 E2 E3 E4 EL H.
  cbn [rw_lo rw_hi rw_data rw_frame rw_type] in *. subst. f_equal. apply nth_ext with (d := []) (d' := []); auto.
  intros t Ht. rewrite Forall_forall in HA, HB.
  apply (row_is_inj lo' hi' ltac:(lia) _ _ (at_row lo' (nth t dA [])) (at_row lo' (nth t dB []))); try lia.
  - apply row_is_at; auto. apply HA. apply nth_In. auto.
  - apply row_is_at; auto. apply HB. apply nth_In. lia.
  - intros l i Hl Hi. replace i with (l + (i - l)) by ring. rewrite !at_mode. apply (H t l (i - l) Ht). split; lia.
Qed.
Lemma turned_md : forall W W' qs t l m, turned_by W W' qs -> (t < length (rw_data W))%nat -> valid (rw_lo W) (rw_hi W) l m ->
  md W' t l m = turn (qs t) (md W t) l m.
Proof. intros W W' qs t l m (_ & _ & _ & _ & H). auto. Qed.
Lemma turned_trans : forall A B D ps qs, wf A -> turned_by A B ps -> turned_by B D qs -> (forall t, (t < length (rw_data A))%nat -> unitq (ps t)) -> (forall t, (t < length (rw_data A))%nat -> unitq (qs t)) ->
  turned_by A D (fun t => qmul (ps t) (qs t)).
Proof.
  intros A B D ps qs HA (E1 & E2 & E3 & E4 & H) (E1' & E2' & E3' & E4' & H') Hp Hq.
  unfold turned_by. split; [congruence|]. split; [congruence|]. split; [congruence|]. split; [congruence|].
  intros t l m Ht Hv. destruct HA as [Hlo _]. destruct Hv as [Hl Hm].
  rewrite H' by (rewrite ?E1, ?E2, ?E3; auto; split; auto).
  rewrite (turn_ext (qs t) _ (turn (ps t) (md A t))) by (intros k Hk; apply H; auto; split; auto).
  apply turn_turn; auto; lia.
Qed.
Lemma turned_eq : forall A B B' ps qs, wf B -> wf B' -> turned_by A B ps -> turned_by A B' qs -> rw_frame B = rw_frame B' ->
  (forall t, (t < length (rw_data A))%nat -> ps t = qs t) -> B = B'.
Proof.
  intros A B B' ps qs HB HB' (E1 & E2 & E3 & E4 & H) (E1' & E2' & E3' & E4' & H') EF E.
  apply wave_eq; auto; try congruence. intros t l m Ht Hv. rewrite E3 in Ht. rewrite E1, E2 in Hv. rewrite H, H' by auto.
  rewrite E by auto. reflexivity.
Qed.
Lemma turned_refl : forall A, wf A -> turned_by A A (fun _ => q1).
Proof.
  intros A [Hlo _]. unfold turned_by. repeat (split; [reflexivity|]). intros t l m Ht [Hl Hm]. rewrite turn_one by lia. reflexivity.
Qed.

(** Rotating by p and then by q is rotating by p q: the same modes, the same frame, everything. *)
Theorem C25_constant_compose : forall W p q, wf W -> unitq p -> unitq q ->
  rbind (rotate_basis wigner garbage W (RQuat p)) (fun W1 => rotate_basis wigner garbage W1 (RQuat q)) =
  rotate_basis wigner garbage W (RQuat (qmul p q)).
Proof.
  intros W p q HW Hp Hq. destruct (C25_constant W p _ HW (or_introl eq_refl)) as (W1 & E1 & HW1 & T1 & F1').
  rewrite E1. cbn [rbind]. destruct (C25_constant W1 q _ HW1 (or_introl eq_refl)) as (W2 & E2 & HW2 & T2 & F2').
  destruct (C25_constant W (qmul p q) _ HW (or_introl eq_refl)) as (W3 & E3 & HW3 & T3 & F3').
  rewrite E2, E3. f_equal. apply (turned_eq W W2 W3 (fun _ => qmul p q) (fun _ => qmul p q)); auto.
  - apply turned_trans with (B := W1) (ps := fun _ => p) (qs := fun _ => q); auto.
  - rewrite F2', F3', F1'. destruct (rw_frame W) as [[|f0 f]|f]; cbn [map]; [reflexivity| |].
    + f_equal. f_equal; [symmetry; apply qmul_assoc|]. rewrite map_map. apply map_ext. intros; symmetry; apply qmul_assoc.
    + f_equal. rewrite map_map. apply map_ext. intros r. rewrite map_map. apply map_ext. intros; symmetry; apply qmul_assoc.
Qed.

Theorem C25_series_compose : forall W Ps Qs, wf W -> length Ps = length (rw_data W) -> length Qs = length (rw_data W) ->
  length (rw_data W) <> 1%nat -> Forall unitq Ps -> Forall unitq Qs ->
  forall f, rw_frame W = F1 f -> f = [] \/ length f = length (rw_data W) ->
  rbind (rotate_basis wigner garbage W (RArr1 Ps)) (fun W1 => rotate_basis wigner garbage W1 (RArr1 Qs)) =
  rotate_basis wigner garbage W (RArr1 (map (fun pq => qmul (fst pq) (snd pq)) (combine Ps Qs))).
Proof.
  intros W Ps Qs HW LP LQ L1 UP UQ f Hf Lf.
  destruct (C25_series W Ps _ HW LP ltac:(lia) (or_intror eq_refl) f Hf ltac:(rewrite LP; exact Lf)) as (W1 & E1 & HW1 & T1 & f1 & F1' & Lf1 & G1).
  rewrite E1. cbn [rbind]. assert (L' : length (rw_data W1) = length (rw_data W)) by apply T1.
  destruct (C25_series W1 Qs _ HW1 ltac:(lia) ltac:(lia) (or_intror eq_refl) f1 F1' ltac:(right; lia)) as (W2 & E2 & HW2 & T2 & f2 & F2' & Lf2 & G2).
  set (PQ := map _ (combine Ps Qs)).
  assert (LPQ : length PQ = length (rw_data W)) by (unfold PQ; rewrite map_length, combine_length; lia).
  assert (GPQ : forall t, (t < length (rw_data W))%nat -> nth t PQ q1 = qmul (nth t Ps q1) (nth t Qs q1)).
  { intros t Ht. unfold PQ. rewrite (nth_indep _ q1 (qmul q1 q1)) by (rewrite map_length, combine_length; lia).
    change (qmul q1 q1) with ((fun pq => qmul (fst pq) (snd pq)) (q1, q1)). rewrite map_nth, combine_nth by lia. reflexivity. }
  destruct (C25_series W PQ _ HW LPQ ltac:(lia) (or_intror eq_refl) f Hf ltac:(rewrite LPQ; exact Lf)) as (W3 & E3 & HW3 & T3 & f3 & F3' & Lf3 & G3).
  rewrite E2, E3. f_equal.
  apply (turned_eq W W2 W3 (fun t => qmul (nth t Ps q1) (nth t Qs q1)) (fun t => nth t PQ q1)); auto.
  - apply turned_trans with (B := W1) (ps := fun t => nth t Ps q1) (qs := fun t => nth t Qs q1); auto.
    + intros t Ht. rewrite Forall_forall in UP. apply UP, nth_In. lia.
    + intros t Ht. rewrite Forall_forall in UQ. apply UQ, nth_In. lia.
  - rewrite F2', F3'. f_equal. apply nth_ext with (d := q1) (d' := q1); [lia|]. intros t Ht.
    rewrite G2, G3, GPQ, G1 by lia. symmetry. apply qmul_assoc.
  - intros t Ht. symmetry. apply GPQ. auto.
Qed.

(** The norm of the modes of each degree, at each time, is unchanged by any rotation. *)
Theorem C25_norm : forall W W' qs, wf W -> turned_by W W' qs -> (forall t, (t < length (rw_data W))%nat -> unitq (qs t)) ->
  forall t l, (t < length (rw_data W))%nat -> rw_lo W <= l <= rw_hi W ->
  rsum (fun m => norm2 (md W' t l m)) (ms_of l) = rsum (fun m => norm2 (md W t l m)) (ms_of l).
Proof.
  intros W W' qs [Hlo _] HT HU t l Ht Hl. rewrite <- (turn_norm (qs t) (md W t) l) by (auto; lia).
  apply rsum_ext. intros m Hm. unfold ms_of in Hm. apply zrange_In in Hm. rewrite (turned_md W W' qs t l m); auto. split; lia.
Qed.

(** Rotating the physical system undoes rotating the basis, and conversely; data and frame are restored. *)
Theorem C25_physical_undoes_basis : forall W q f, wf W -> unitq q -> rw_frame W = F1 f -> f <> [] ->
  rbind (rotate_basis wigner garbage W (RQuat q)) (fun W1 => rotate_physical wigner garbage W1 (RQuat q)) = Ok W /\
  rbind (rotate_physical wigner garbage W (RQuat q)) (fun W1 => rotate_basis wigner garbage W1 (RQuat q)) = Ok W.
Proof.
  intros W q f HW Hq Hf Hne.
  assert (One : rotate_basis wigner garbage W (RQuat q1) = Ok W).
  { destruct (C25_constant W q1 _ HW (or_introl eq_refl)) as (W1 & E1 & HW1 & T1 & F1'). rewrite E1. f_equal.
    apply (turned_eq W W1 W (fun _ => q1) (fun _ => q1)); auto using turned_refl.
    rewrite F1', Hf. destruct f as [|a f]; [congruence|]. f_equal. rewrite (map_ext _ (fun x => x)) by apply qmul_1_r. apply map_id. }
  unfold rotate_physical. cbn [conj_rotors rbind]. split.
  - rewrite C25_constant_compose by auto using unit_conj. rewrite (proj1 (mul_conj_unit q Hq)). exact One.
  - rewrite C25_constant_compose by auto using unit_conj. rewrite (proj2 (mul_conj_unit q Hq)). exact One.
Qed.

(** Going to a rotating frame and back to the inertial frame restores every mode; the frame becomes the
    identity at every time and the frame type Inertial. *)
Theorem C25_inertial_round_trip : forall W Rs ft, wf W -> length Rs = length (rw_data W) -> length Rs <> 1%nat -> Forall unitq Rs ->
  rw_frame W = F1 [] \/ rw_frame W = F1 (repeat q1 (length Rs)) ->
  rbind (to_frame wigner garbage W Rs ft) (to_inertial wigner garbage) =
  Ok (mkrw (rw_lo W) (rw_hi W) (rw_data W) (F1 (repeat q1 (length Rs))) InertialFrame).
Proof.
  intros W Rs ft HW HL H1 HU HF.
  assert (HF' : exists f, rw_frame W = F1 f /\ (f = [] \/ length f = length Rs) /\ forall t, nth t f q1 = q1).
  { destruct HF as [HF|HF]; rewrite HF; eexists; (split; [reflexivity|]).
    - split; [auto|]. intros [|t]; reflexivity.
    - split; [rewrite repeat_length; auto|]. intros t. apply nth_repeat. }
  destruct HF' as (f & Hf & Lf & Gf). unfold to_frame.
  destruct (C25_series W Rs _ HW HL H1 (or_intror eq_refl) f Hf Lf) as (W1 & E1 & HW1 & T1 & f1 & F1' & Lf1 & G1).
  rewrite E1. cbn [rbind]. unfold to_inertial. cbn [rw_frame]. rewrite F1'. cbn [frame_rotors conj_rotors rbind].
  set (W1' := mkrw (rw_lo W1) (rw_hi W1) (rw_data W1) (F1 f1) ft).
  assert (HW1' : wf W1') by exact HW1.
  assert (L' : length (rw_data W1') = length (rw_data W)) by apply T1.
  assert (LC : length (map qconj f1) = length Rs) by (rewrite map_length; lia).
  destruct (C25_series W1' (map qconj f1) _ HW1' ltac:(lia) ltac:(lia) (or_intror eq_refl) f1 eq_refl ltac:(right; lia))
    as (W2 & E2 & HW2 & T2 & f2 & F2' & Lf2 & G2).
  rewrite E2. cbn [rbind]. f_equal.
  assert (GR : forall t, (t < length Rs)%nat -> nth t f1 q1 = nth t Rs q1) by (intros t Ht; rewrite G1, Gf by auto; apply qmul_1_l).
  assert (GC : forall t, (t < length Rs)%nat -> nth t (map qconj f1) q1 = qconj (nth t Rs q1)).
  { intros t Ht. rewrite (nth_indep _ q1 (qconj q1)) by lia. rewrite map_nth, GR by lia. reflexivity. }
  assert (UR : forall t, (t < length Rs)%nat -> unitq (nth t Rs q1)) by (intros t Ht; rewrite Forall_forall in HU; apply HU, nth_In, Ht).
  assert (T1' : turned_by W (mkrw (rw_lo W1') (rw_hi W1') (rw_data W1') (F1 f1) (rw_type W)) (fun t => nth t Rs q1)).
  { destruct T1 as (A1 & A2 & A3 & A4 & A5). unfold turned_by. cbn [rw_lo rw_hi rw_data rw_type]. auto 10. }
  set (W2' := mkrw (rw_lo W2) (rw_hi W2) (rw_data W2) (F1 (repeat q1 (length Rs))) (rw_type W)).
  assert (T2' : turned_by (mkrw (rw_lo W1') (rw_hi W1') (rw_data W1') (F1 f1) (rw_type W)) W2' (fun t => nth t (map qconj f1) q1)).
  { destruct T2 as (A1 & A2 & A3 & A4 & A5). unfold turned_by, W2'. cbn [rw_lo rw_hi rw_data rw_type]. auto 10. }
  assert (EQ : W2' = mkrw (rw_lo W) (rw_hi W) (rw_data W) (F1 (repeat q1 (length Rs))) (rw_type W)).
  { apply (turned_eq W _ _ (fun t => qmul (nth t Rs q1) (nth t (map qconj f1) q1)) (fun _ => q1)).
    - exact HW2. - exact HW.
    - eapply turned_trans; [exact HW | exact T1' | exact T2' | |].
      + intros t Ht. apply UR. lia.
      + intros t Ht. cbv beta. rewrite GC by lia. apply unit_conj, UR. lia.
    - destruct (turned_refl W HW) as (_ & _ & _ & _ & H). unfold turned_by. cbn [rw_lo rw_hi rw_data rw_type]. auto 10.
    - reflexivity.
    - intros t Ht. cbv beta. rewrite GC by lia. apply mul_conj_unit, UR. lia. }
  assert (Ef2 : f2 = repeat q1 (length Rs)).
  { apply nth_ext with (d := q1) (d' := q1); [rewrite repeat_length; lia|]. intros t Ht. rewrite nth_repeat, G2 by lia.
    rewrite GC, GR by lia. apply mul_conj_unit, UR. lia. }
  rewrite F2', Ef2. unfold W2' in EQ. injection EQ as -> -> ->. reflexivity.
Qed.

(** ** What is physical never changes *)
(** The modes with respect to the inertial frame. *)
Definition inertial (W : rwave) (f : list quat) (t : nat) (l m : Z) : C := turn (qconj (frame_at f t)) (md W t) l m.
Definition good_frame (n : nat) (f : list quat) : Prop := (f = [] \/ length f = 1%nat \/ length f = n) /\ Forall unitq f.
Lemma good_frame_unit : forall n f t, good_frame n f -> (t < n)%nat -> unitq (frame_at f t).
Proof.
  intros n f t [Hf HU] Ht. rewrite Forall_forall in HU. unfold frame_at. destruct f as [|a [|b f]]; auto using unit_one.
  - apply HU. left; auto. - apply HU, nth_In. destruct Hf as [|[|]]; [discriminate|discriminate|lia].
Qed.
Lemma frame_at_n : forall f t, length f <> 1%nat -> frame_at f t = nth t f q1.
Proof. intros [|a [|b f]] t H; cbn in *; try lia; auto. destruct t; reflexivity. Qed.
Lemma turned_inertial : forall W W' qs f f' t l m, wf W -> turned_by W W' qs -> (t < length (rw_data W))%nat -> valid (rw_lo W) (rw_hi W) l m ->
  unitq (frame_at f t) -> unitq (qs t) -> frame_at f' t = qmul (frame_at f t) (qs t) -> inertial W' f' t l m = inertial W f t l m.
Proof.
  intros W W' qs f f' t l m [Hlo _] HT Ht [Hl Hm] Uf Uq E. unfold inertial. rewrite E, qconj_mul.
  rewrite (turn_ext _ _ (turn (qs t) (md W t))) by (intros k Hk; apply (turned_md W W' qs); auto; split; auto).
  rewrite turn_turn by (auto using unit_mul, unit_conj; lia). rewrite qmul_assoc, (proj1 (mul_conj_unit _ Uq)), qmul_1_l. reflexivity.
Qed.

(** One rotation, constant (any frame) or in the cases where a series keeps a one-dimensional frame. *)
Inductive rotation_ok (W : rwave) (f : list quat) : rotors -> Prop :=
| ok_quat : forall q, unitq q -> rotation_ok W f (RQuat q)
| ok_single : forall q, unitq q -> rotation_ok W f (RArr1 [q])
| ok_series : forall Rs, Forall unitq Rs -> length Rs = length (rw_data W) -> length Rs <> 1%nat ->
    f = [] \/ length f = length Rs -> rotation_ok W f (RArr1 Rs).

Theorem C25_inertial_content : forall W f r, wf W -> rw_frame W = F1 f -> good_frame (length (rw_data W)) f -> rotation_ok W f r ->
  exists W' f', rotate_basis wigner garbage W r = Ok W' /\ wf W' /\ rw_frame W' = F1 f' /\ length (rw_data W') = length (rw_data W) /\
    rw_lo W' = rw_lo W /\ rw_hi W' = rw_hi W /\ good_frame (length (rw_data W')) f' /\
    forall t l m, (t < length (rw_data W))%nat -> valid (rw_lo W) (rw_hi W) l m -> inertial W' f' t l m = inertial W f t l m.
Proof.
  intros W f r HW Hf Hg Hr.
  assert (Hc : forall q, unitq q -> r = RQuat q \/ r = RList [q] \/ r = RArr1 [q] -> exists W' f', rotate_basis wigner garbage W r = Ok W' /\ wf W' /\ rw_frame W' = F1 f' /\ length (rw_data W') = length (rw_data W) /\
    rw_lo W' = rw_lo W /\ rw_hi W' = rw_hi W /\ good_frame (length (rw_data W')) f' /\
    forall t l m, (t < length (rw_data W))%nat -> valid (rw_lo W) (rw_hi W) l m -> inertial W' f' t l m = inertial W f t l m).
  { intros q Hq Er. destruct (C25_constant W q r HW Er) as (W1 & E1 & HW1 & T1 & F1').
    rewrite Hf in F1'.
    assert (Ex : exists f', rw_frame W1 = F1 f' /\ (f' = [q] /\ f = [] \/ f <> [] /\ f' = map (fun p => qmul p q) f)).
    { destruct f as [|a f]; eexists; (split; [exact F1'|]); auto. right. split; auto. discriminate. }
    destruct Ex as (f' & Ef' & Cf'). exists W1, f'. split; auto. split; auto. split; auto.
    assert (L1 : length (rw_data W1) = length (rw_data W)) by apply T1. split; auto.
    split; [apply T1|]. split; [apply T1|]. split.
    - rewrite L1. destruct Cf' as [[-> ->]|[Hne ->]]; [split; auto|]. destruct Hg as [Hg HU]. split.
      + rewrite map_length. destruct Hg as [|[|]]; [contradiction|auto|auto].
      + rewrite Forall_forall in *. intros x Hx. apply in_map_iff in Hx as (y & <- & Hy). apply unit_mul; auto.
    - intros t l m Ht Hv. apply (turned_inertial W W1 (fun _ => q)); auto.
      + eapply good_frame_unit; eauto.
      + destruct Cf' as [[-> ->]|[Hne ->]]; [cbn; rewrite qmul_1_l; reflexivity|].
        destruct f as [|a [|b f]]; [congruence|reflexivity|]. cbn [map]. unfold frame_at.
        change (qmul a q :: qmul b q :: map (fun p => qmul p q) f) with (map (fun p => qmul p q) (a :: b :: f)).
        destruct Hg as [[|[|Hg]] _]; [discriminate|discriminate|].
        rewrite (nth_indep _ q1 (qmul q1 q)) by (rewrite map_length; lia).
        apply (map_nth (fun p => qmul p q)). }
  inversion Hr; subst.
  - apply (Hc q); auto. - apply (Hc q); auto.
  - destruct (C25_series W Rs _ HW H0 H1 (or_intror eq_refl) f Hf H2) as (W1 & E1 & HW1 & T1 & f1 & F1' & Lf1 & G1).
    exists W1, f1. split; auto. split; auto. split; auto.
    assert (L1 : length (rw_data W1) = length (rw_data W)) by apply T1. split; auto.
    split; [apply T1|]. split; [apply T1|].
    assert (UR : forall t, (t < length Rs)%nat -> unitq (nth t Rs q1)) by (intros t Ht; rewrite Forall_forall in H; apply H, nth_In, Ht).
    assert (Nf : length f <> 1%nat) by (destruct H2 as [->|H2]; cbn; lia).
    split.
    + split; [right; right; lia|]. apply Forall_forall. intros x Hx. apply In_nth with (d := q1) in Hx as (t & Ht & <-).
      rewrite G1 by lia. apply unit_mul; [|apply UR; lia]. rewrite <- frame_at_n by auto. apply good_frame_unit with (n := length (rw_data W)); auto; lia.
    + intros t l m Ht Hv. apply (turned_inertial W W1 (fun t => nth t Rs q1)); auto.
      * eapply good_frame_unit; eauto.
      * apply UR; lia.
      * rewrite !frame_at_n by (auto; lia). apply G1. lia.
Qed.

(** ** Errors and findings *)
(** A series of the wrong length is rejected before anything is changed. *)
Theorem C25_length_mismatch : forall W Rs r, length Rs <> length (rw_data W) -> length Rs <> 1%nat -> r = RList Rs \/ r = RArr1 Rs ->
  rotate_basis wigner garbage W r = Err ValueError.
Proof.
  intros W Rs r H H1 Hr. assert (Er : rotate_basis wigner garbage W r = rotate_series wigner W Rs).
  { destruct Rs as [|a [|b Rs]]; [| exfalso; apply H1; reflexivity |]; destruct Hr as [-> | ->]; reflexivity. }
  rewrite Er. unfold rotate_series. destruct (Nat.eqb_spec (length (rw_data W)) (length Rs)); [congruence|]. reflexivity.
Qed.
(** A waveform without frame data (an inertial one) cannot be sent to the inertial frame. *)
Theorem C25_inertial_of_inertial_refuted : forall W, rw_frame W = F1 [] -> rw_data W <> [] ->
  to_inertial wigner garbage W = Err ValueError.
Proof.
  intros W Hf Hn. unfold to_inertial. rewrite Hf. cbn [frame_rotors conj_rotors rbind map].
  rewrite (C25_length_mismatch W []); auto. destruct (rw_data W); cbn; [congruence|lia].
Qed.
(** After a constant rotation, a series of rotors leaves a two-dimensional frame, and the waveform can no
    longer be brought back to the inertial frame. *)
Theorem C25_constant_then_series_refuted : forall W q Rs ft, wf W -> rw_frame W = F1 [] -> length Rs = length (rw_data W) -> (2 <= length Rs)%nat ->
  exists W1 W2, rotate_basis wigner garbage W (RQuat q) = Ok W1 /\ to_frame wigner garbage W1 Rs ft = Ok W2 /\
    rw_frame W2 = F2 (map (fun r => [qmul q r]) Rs) /\ to_inertial wigner garbage W2 = Err IndexError.
Proof.
  intros W q Rs ft HW Hf HL H2. destruct (C25_constant W q _ HW (or_introl eq_refl)) as (W1 & E1 & HW1 & T1 & F1').
  rewrite Hf in F1'. exists W1. assert (L1 : length (rw_data W1) = length (rw_data W)) by apply T1.
  unfold to_frame. assert (Er : rotate_basis wigner garbage W1 (RArr1 Rs) = rotate_series wigner W1 Rs)
    by (destruct Rs as [|a [|b Rs]]; cbn in H2; try lia; reflexivity).
  rewrite Er. unfold rotate_series. rewrite L1, <- HL, Nat.eqb_refl. cbn [negb]. pose proof HW1 as [Hlo HF].
  destruct (by_series_ok (rw_lo W1) (rw_hi W1) (rw_data W1) Rs) as (rows' & E & HR). { lia. } { lia. } { exact HF. }
  rewrite E. cbn [rbind]. rewrite F1'. cbn [rbind]. eexists. split; [exact E1|]. split; [reflexivity|].
  cbn [rw_frame]. split; [reflexivity|]. unfold to_inertial. cbn [rw_frame frame_rotors conj_rotors rbind].
  destruct Rs as [|a [|b Rs]]; cbn in H2; try lia. reflexivity.
Qed.
(** An array of two dimensions is refused with IndexError instead of the intended ValueError, and an
    argument of another type (such as a tuple of rotors) is silently ignored. *)
Theorem C25_other_arguments_refuted : forall W,
  (forall l, (2 <= length l)%nat -> rotate_basis wigner garbage W (RArr2 l) = Err IndexError) /\
  rotate_basis wigner garbage W ROther = Ok W.
Proof.
  intros W. split; [|reflexivity]. intros [|a [|b l]] H; cbn in H; try lia. reflexivity.
Qed.
End Rotation.

(** * The hypotheses can be met *)
(** A representation that is not trivial: the rotation matrix on the modes of degree 1. *)
Definition rm (q : quat) (i j : Z) : R :=
  let w := qw q in let x := qx q in let y := qy q in let z := qz q in
  match i, j with
  | Zneg xH, Zneg xH => (w * w + x * x - y * y - z * z)%R
  | Zneg xH, Z0 => (2 * (x * y - w * z))%R
  | Zneg xH, Zpos xH => (2 * (x * z + w * y))%R
  | Z0, Zneg xH => (2 * (x * y + w * z))%R
  | Z0, Z0 => (w * w - x * x + y * y - z * z)%R
  | Z0, Zpos xH => (2 * (y * z - w * x))%R
  | Zpos xH, Zneg xH => (2 * (x * z - w * y))%R
  | Zpos xH, Z0 => (2 * (y * z + w * x))%R
  | Zpos xH, Zpos xH => (w * w - x * x - y * y + z * z)%R
  | _, _ => 0%R
  end.
Definition Dex (q : quat) (l m' m : Z) : C := if l =? 1 then RtoC (rm q m' m) else if m' =? m then C1 else C0.
(** The flat array of the matrices: the degree of position p is the first whose block ends after p. *)
Definition fill (M : Z -> Z -> Z -> C) (lo hi : Z) : list C :=
  map (fun p => match find (fun l => p <? matrix_offset (l + 1) lo) (zrange lo (hi + 1)) with
                | Some l => M l ((p - matrix_offset l lo) / (2 * l + 1)) ((p - matrix_offset l lo) mod (2 * l + 1))
                | None => C0 end) (zrange 0 (matrix_total lo hi)).
Lemma find_first : forall (P : Z -> bool) l a b, a <= l < b -> P l = true -> (forall k, a <= k < l -> P k = false) -> find P (zrange a b) = Some l.
Proof.
  intros P l a b H HP HN. remember (Z.to_nat (l - a)) as n eqn:En. revert a H HN En. induction n as [|n IH]; intros a H HN En.
  - assert (a = l) by lia. subst. rewrite zrange_cons by lia. cbn. rewrite HP. reflexivity.
  - rewrite zrange_cons by lia. cbn. rewrite HN by lia. apply IH; try lia. intros; apply HN; lia.
Qed.
Lemma fill_holds : forall M lo hi, 0 <= lo <= hi -> holds lo hi (fill M lo hi) M.
Proof.
  intros M lo hi Hlo. pose proof (matrix_offset_mono lo (hi + 1) (hi + 1) ltac:(lia) ltac:(lia)) as HT.
  unfold holds, zlen, fill. rewrite map_length, zrange_length. split; [unfold matrix_total in *; lia|].
  intros l i j Hl Hi Hj. pose proof (matrix_offset_mono lo l l ltac:(lia) ltac:(lia)) as Ho.
  assert (B : 0 <= (2 * l + 1) * i + j < (2 * l + 1) ^ 2) by nia.
  pose proof (matrix_block lo hi l _ Hl B) as HB. rewrite Z.add_assoc in HB.
  unfold get. erewrite (nth_indep _ C0); [|rewrite map_length, zrange_length; lia].
  rewrite (map_nth _ (zrange 0 (matrix_total lo hi)) 0). rewrite zrange_nth by lia. rewrite Z2Nat.id by lia. rewrite Z.add_0_l.
  rewrite (find_first _ l); [ | lia | apply Z.ltb_lt; rewrite matrix_offset_step; lia
              | intros k Hk; apply Z.ltb_ge; pose proof (matrix_offset_mono lo (k + 1) l ltac:(lia) ltac:(lia)); lia ].
  replace (matrix_offset l lo + (2 * l + 1) * i + j - matrix_offset l lo) with (i * (2 * l + 1) + j) by ring.
  rewrite Z.div_add_l by lia. rewrite (Z.div_small j) by lia. rewrite (Z.add_comm (i * _)), Z.mod_add by lia.
  rewrite Z.mod_small by lia. f_equal. lia.
Qed.
Definition wex (q : quat) (lo hi : Z) : list C := fill (fun l i j => Dex q l (i - l) (j - l)) lo hi.
Definition gex (n : Z) : list C := repeat Ci (Z.to_nat n).
Lemma ms_cases : forall m, - (1) <= m <= 1 -> m = -1 \/ m = 0 \/ m = 1.
Proof. intros; lia. Qed.
Lemma Dex_mul : forall p q l m' m, unitq p -> unitq q -> 0 <= l -> - l <= m' <= l -> - l <= m <= l ->
  csum (fun k => (Dex p l m' k * Dex q l k m)%C) (ms_of l) = Dex (qmul p q) l m' m.
Proof.
  intros [pw px py pz] [w x y z] l m' m _ _ Hl Hm' Hm. unfold Dex. destruct (Z.eqb_spec l 1) as [->|n].
  - change (ms_of 1) with [-1; 0; 1].
    destruct (ms_cases m' Hm') as [-> | [-> | ->]]; destruct (ms_cases m Hm) as [-> | [-> | ->]];
      apply C_eq; cbn -[Rmult Rplus Rminus]; ring.
  - apply (csum_delta l m (fun k => if m' =? k then C1 else C0)); auto.
Qed.
Lemma Dex_one : forall l m' m, 0 <= l -> - l <= m' <= l -> - l <= m <= l -> Dex q1 l m' m = if m' =? m then C1 else C0.
Proof.
  intros l m' m Hl Hm' Hm. unfold Dex. destruct (Z.eqb_spec l 1) as [->|n]; auto.
  destruct (ms_cases m' Hm') as [-> | [-> | ->]]; destruct (ms_cases m Hm) as [-> | [-> | ->]];
      apply C_eq; cbn -[Rmult Rplus Rminus]; ring.
Qed.
Lemma Dex_adjoint : forall q l m' m, unitq q -> 0 <= l -> - l <= m' <= l -> - l <= m <= l ->
  Dex (qconj q) l m' m = Conj (Dex q l m m').
Proof.
  intros [w x y z] l m' m _ Hl Hm' Hm. unfold Dex. destruct (Z.eqb_spec l 1) as [->|n].
  - destruct (ms_cases m' Hm') as [-> | [-> | ->]]; destruct (ms_cases m Hm) as [-> | [-> | ->]];
      apply C_eq; cbn -[Rmult Rplus Rminus Ropp]; ring.
  - rewrite (Z.eqb_sym m m'). destruct (m' =? m); apply C_eq; cbn; ring.
Qed.
Lemma gex_len : forall n, 0 <= n -> zlen (gex n) = n.
Proof. intros n H. unfold zlen, gex. rewrite repeat_length. lia. Qed.

(** Two times with modes ell = 0, 1; a half turn about z and a quarter turn about x. *)
Definition W_ex : rwave :=
  mkrw 0 1 [[C1; Ci; RtoC 2; C1]; [Ci; C0; RtoC 3; Ci]] (F1 []) InertialFrame.
Example C25_case :
  wf W_ex /\ unitq qk /\ Forall unitq [qk; qi] /\
  (exists W', rotate_basis wex gex W_ex (RQuat qk) = Ok W' /\ md W' 0 1 (-1) = (- Ci)%C /\ md W' 0 1 1 = C1 /\ rw_frame W' = F1 [qk]) /\
  rbind (to_frame wex gex W_ex [qk; qi] CorotatingFrame) (to_inertial wex gex) =
    Ok (mkrw 0 1 (rw_data W_ex) (F1 [q1; q1]) InertialFrame).
Proof.
  assert (HW : wf W_ex) by (split; [cbn; lia|repeat constructor]).
  assert (Uk : unitq qk) by (unfold unitq, qnorm2; cbn; ring). assert (Ui : unitq qi) by (unfold unitq, qnorm2; cbn; ring).
  split; auto. split; auto. split; [auto|]. split.
  - destruct (C25_constant Dex wex gex (fun q lo hi H => fill_holds _ lo hi H) gex_len W_ex qk (RQuat qk) HW (or_introl eq_refl))
      as (W' & E & _ & T & F). exists W'. split; auto. split; [|split; [|exact F]].
    + rewrite (turned_md Dex W_ex W' _ 0 1 (-1) T) by (cbn; unfold valid; cbn; lia). unfold turn, Dex. cbn [Z.eqb Pos.eqb]. change (ms_of 1) with [-1; 0; 1].
      cbn [csum]. change (md W_ex 0 1 (-1)) with Ci. change (md W_ex 0 1 0) with (RtoC 2). change (md W_ex 0 1 1) with C1.
      apply C_eq; cbn -[Rmult Rplus Rminus]; ring.
    + rewrite (turned_md Dex W_ex W' _ 0 1 1 T) by (cbn; unfold valid; cbn; lia). unfold turn, Dex. cbn [Z.eqb Pos.eqb]. change (ms_of 1) with [-1; 0; 1].
      cbn [csum]. change (md W_ex 0 1 (-1)) with Ci. change (md W_ex 0 1 0) with (RtoC 2). change (md W_ex 0 1 1) with C1.
      apply C_eq; cbn -[Rmult Rplus Rminus]; ring.
  - apply (C25_inertial_round_trip Dex wex gex (fun q lo hi H => fill_holds _ lo hi H) Dex_mul Dex_one W_ex [qk; qi]); auto; discriminate.
Qed.
