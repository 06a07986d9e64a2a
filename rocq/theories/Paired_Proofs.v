(** C09: files of corotating waveforms. *)
From Coq Require Import String ZArith Reals List Bool Lia Lra.
From Verif Require Import Common Cplx Quat Times_Model Times_Proofs Modes_Model Modes_Proofs Modal_Model Modal_Proofs
  Tables_Model Tables_Proofs Numeric_Model Numeric_Proofs Codec_Model Codec_Proofs Validity_Model Validity_Proofs
  H5_Model H5_Proofs H5Main_Proofs Double_Model Double_Proofs Paired_Model.
Import ListNotations.
Open Scope list_scope.

(** ** Columns *)
Definition enc (F : list Z -> list Z) (n : nat) (rows : list (list Z)) : list (list Z) :=
  map (fun i => map (fun c => nth i c 0%Z) (map (fun j => F (col j rows)) (seq 0 n))) (seq 0 (length rows)).
Lemma on_columns_total : forall f F n rows, (forall u, f u = Ok (F u)) -> on_columns f n rows = Ok (enc F n rows).
Proof.
  intros f F n rows H. unfold on_columns. rewrite (map_res_ok _ _ _ (fun j => F (col j rows))) by (intros; apply H). reflexivity.
Qed.
Lemma enc_length : forall F n rows, length (enc F n rows) = length rows.
Proof. intros. unfold enc. rewrite map_length, seq_length. reflexivity. Qed.
Lemma enc_width : forall F n rows r, In r (enc F n rows) -> length r = n.
Proof. intros F n rows r H. apply in_map_iff in H. destruct H as (i & <- & _). rewrite !map_length, seq_length. reflexivity. Qed.
Lemma nth_map_seq : forall A (f : nat -> A) n i d, (i < n)%nat -> nth i (map f (seq 0 n)) d = f i.
Proof.
  intros A f n i d H. rewrite (nth_indep _ d (f 0%nat)) by (rewrite map_length, seq_length; auto).
  rewrite (map_nth f), seq_nth by auto. reflexivity.
Qed.
Lemma col_length : forall j rows, length (col j rows) = length rows.
Proof. intros. apply map_length. Qed.
Lemma nth_col : forall i j rows, nth i (col j rows) 0%Z = nth j (nth i rows []) 0%Z.
Proof.
  intros i j rows. unfold col. destruct (Nat.lt_ge_cases i (length rows)) as [H|H].
  - rewrite (nth_indep _ 0%Z ((fun r => nth j r 0%Z) [])) by (rewrite map_length; auto). apply (map_nth (fun r => nth j r 0%Z)).
  - rewrite nth_overflow by (rewrite map_length; auto). rewrite (nth_overflow rows) by auto. destruct j; reflexivity.
Qed.
Lemma rows_by_columns : forall n a b, length a = length b -> (forall r, In r a -> length r = n) -> (forall r, In r b -> length r = n) ->
  (forall j, (j < n)%nat -> col j a = col j b) -> a = b.
Proof.
  intros n a b L Wa Wb H. apply (nth_ext _ _ [] []); auto. intros i Hi.
  assert (La : length (nth i a []) = n) by (apply Wa, nth_In; auto).
  assert (Lb : length (nth i b []) = n) by (apply Wb, nth_In; lia).
  apply (nth_ext _ _ 0%Z 0%Z); [lia|]. intros j Hj. rewrite <- !nth_col. rewrite H by lia. reflexivity.
Qed.
Lemma col_enc : forall F n rows j, (forall u, length (F u) = length u) -> (j < n)%nat -> col j (enc F n rows) = F (col j rows).
Proof.
  intros F n rows j LF Hj. apply (nth_ext _ _ 0%Z 0%Z).
  - rewrite LF, !col_length. apply enc_length.
  - intros i Hi. rewrite col_length, enc_length in Hi. rewrite nth_col. unfold enc. rewrite nth_map_seq by auto.
    rewrite map_map, nth_map_seq by auto. reflexivity.
Qed.
Lemma spec_delta_length : forall l p, length (spec_delta p l) = length l.
Proof. induction l; intros; simpl; auto. Qed.
Lemma spec_undelta_length : forall l p, length (spec_undelta p l) = length l.
Proof. induction l; intros; simpl; auto. Qed.
Lemma spec_xor_length : forall u, length (spec_xor u) = length u.
Proof. destruct u; simpl; auto. rewrite spec_delta_length. auto. Qed.
Lemma spec_unxor_length : forall u, length (spec_unxor u) = length u.
Proof. destruct u; simpl; auto. rewrite spec_undelta_length. auto. Qed.
Lemma unxor_xor : forall u, spec_unxor (spec_xor u) = u.
Proof.
  intros u. pose proof (C03_decode_encode u) as H. rewrite xor_timeseries_eq in H. cbn [rbind] in H. rewrite xor_reverse_eq in H. congruence.
Qed.
Lemma dec_enc : forall n rows, (forall r, In r rows -> length r = n) -> enc spec_unxor n (enc spec_xor n rows) = rows.
Proof.
  intros n rows H. apply (rows_by_columns n); auto.
  - rewrite !enc_length. reflexivity.
  - apply enc_width.
  - intros j Hj. rewrite !col_enc by auto using spec_xor_length, spec_unxor_length. apply unxor_xor.
Qed.

(** ** Checksums and names *)
Lemma words16_ok : forall z, Forall word16 (words16 z).
Proof.
  intros z. unfold words16. repeat constructor; unfold word16; try (apply Z.mod_pos_bound; lia).
  all: match goal with |- (?a mod 2 ^ 16 < _)%Z => pose proof (Z.mod_pos_bound a (2 ^ 16) ltac:(lia)) end; lia.
Qed.
(** The checksum covers all 64 bits of every word: the four numbers fed to it are its 16-bit digits. *)
Theorem C09_checksum_words : forall z, (0 <= z < 2 ^ 64)%Z -> exists a b c d, words16 z = [a; b; c; d] /\
  word16 a /\ word16 b /\ word16 c /\ word16 d /\ (z = a + 2 ^ 16 * (b + 2 ^ 16 * (c + 2 ^ 16 * d)))%Z.
Proof.
  intros z H. do 4 eexists. split; [reflexivity|]. unfold word16.
  repeat (split; [apply Z.mod_pos_bound; lia|]). change (2 ^ 32)%Z with (2 ^ 16 * 2 ^ 16)%Z. change (2 ^ 48)%Z with (2 ^ 16 * 2 ^ 16 * 2 ^ 16)%Z.
  rewrite <- !Z.div_div by lia. rewrite (Z.mod_small (z / 2 ^ 16 / 2 ^ 16 / 2 ^ 16)).
  - rewrite (Z.add_comm _ (2 ^ 16 * (z / 2 ^ 16 / 2 ^ 16 / 2 ^ 16))), <- Z.div_mod by lia.
    rewrite (Z.add_comm _ (2 ^ 16 * (z / 2 ^ 16 / 2 ^ 16))), <- Z.div_mod by lia.
    rewrite (Z.add_comm _ (2 ^ 16 * (z / 2 ^ 16))), <- Z.div_mod by lia. reflexivity.
  - rewrite !Z.div_div by lia. split; [apply Z.div_pos; lia|apply Z.div_lt_upper_bound; lia].
Qed.
Lemma all_words16 : forall l, Forall word16 (flat_map words16 l).
Proof. induction l; [constructor|]. change (flat_map words16 (a :: l)) with (words16 a ++ flat_map words16 l). apply Forall_app. split; auto. apply words16_ok. Qed.
Lemma checksum_total : forall l, exists c, checksum l = Ok c.
Proof. intros l. unfold checksum. rewrite C06_fletcher32_spec by apply all_words16. eauto. Qed.
Lemma name_round_trip : forall d, is_datatype d -> exists s, data_name d = Ok s /\ index_of s DataNames 0 = Ok d.
Proof.
  intros d H. unfold is_datatype in H.
  assert (K : (d = 0 \/ d = 1 \/ d = 2 \/ d = 3 \/ d = 4 \/ d = 5 \/ d = 6 \/ d = 7 \/ d = 8 \/ d = 9 \/ d = 10)%Z) by lia.
  decompose [or] K; subst d; (eexists; split; [vm_compute; reflexivity|vm_compute; reflexivity]).
Qed.

(** ** Rows of words *)
Definition double_c (c : C) : Prop := double (re c) /\ double (im c).
Definition double_v (v : vec3) : Prop := double (fst (fst v)) /\ double (snd (fst v)) /\ double (snd v).
Lemma row_words_length : forall n r, length r = n -> length (modes_words n (Some r)) = (2 * n)%nat.
Proof. intros n r <-. cbn [modes_words]. induction r; cbn [flat_map app length] in *; auto. rewrite IHr. lia. Qed.
Lemma row_words_back : forall n r, Forall double_c r ->
  unpair (map unbits (modes_words n (Some r))) = map (fun c => (Fin (re c), Fin (im c))) r.
Proof.
  intros n r H. cbn [modes_words]. induction H as [|c r [D1 D2] _ IH]; [reflexivity|].
  cbn [flat_map app map unpair]. rewrite (proj2 (C09_words_of_doubles _ D1)), (proj2 (C09_words_of_doubles _ D2)), IH. reflexivity.
Qed.
Lemma fin_c_back : forall r, map fin_c (map (fun c => (Fin (re c), Fin (im c))) r) = r.
Proof. induction r as [|[a b] r IH]; cbn [map]; [reflexivity|]. rewrite IH. reflexivity. Qed.
Lemma vec_words_back : forall v, double_v v ->
  map unbits (vec_words (Some v)) = [Fin (fst (fst v)); Fin (snd (fst v)); Fin (snd v)].
Proof.
  intros v (D1 & D2 & D3). cbn [vec_words map].
  rewrite (proj2 (C09_words_of_doubles _ D1)), (proj2 (C09_words_of_doubles _ D2)), (proj2 (C09_words_of_doubles _ D3)). reflexivity.
Qed.
Lemma times_back : forall ts, Forall double ts -> map unbits (map (fun x => bits (Fin x)) ts) = map Fin ts.
Proof. induction 1 as [|x l H _ IH]; [reflexivity|]. cbn [map]. rewrite (proj2 (C09_words_of_doubles _ H)), IH. reflexivity. Qed.

(** ** Conjugate pairs are a real-linear isometry *)
Definition diffs (a b : list C) : list C := map (fun p => (snd p - fst p)%C) (combine a b).
Definition distance (a b : list C) : R := sqrt (rsum (fun p => norm2 (snd p - fst p)%C) (combine a b)).
Lemma diffs_modes : forall lo hi a b f g, (0 <= lo)%Z -> has_modes lo hi a f -> has_modes lo hi b g ->
  has_modes lo hi (diffs a b) (fun l m => (g l m - f l m)%C).
Proof.
  intros lo hi a b f g Hlo [La Ha] [Lb Hb]. split.
  - unfold diffs. rewrite map_length, combine_length. lia.
  - intros l m V. specialize (Ha l m V). specialize (Hb l m V). unfold diffs.
    rewrite nth_error_map. set (i := Z.to_nat _) in *. clearbody i.
    assert (E : nth_error (combine a b) i = Some (f l m, g l m)).
    { clear -Ha Hb. revert b i Ha Hb. induction a as [|x a IH]; intros [|y b] [|i] Ha Hb; simpl in *; try discriminate; auto. congruence. }
    rewrite E. reflexivity.
Qed.
Lemma from_pairs_distance : forall lo hi a b A B, (0 <= lo)%Z -> length a = length (LM_range lo hi) -> length b = length (LM_range lo hi) ->
  from_pairs lo hi a = Ok A -> from_pairs lo hi b = Ok B -> distance A B = distance a b.
Proof.
  intros lo hi a b A B Hlo La Lb EA EB.
  pose proof (has_modes_mode lo hi Hlo a La) as Ma. pose proof (has_modes_mode lo hi Hlo b Lb) as Mb.
  destruct (from_pairs_modes lo hi Hlo a _ Ma) as (A' & EA' & MA). destruct (from_pairs_modes lo hi Hlo b _ Mb) as (B' & EB' & MB).
  assert (A' = A) by congruence. assert (B' = B) by congruence. subst A' B'.
  pose proof (diffs_modes lo hi a b _ _ Hlo Ma Mb) as Md. pose proof (diffs_modes lo hi A B _ _ Hlo MA MB) as MD.
  destruct (from_pairs_modes lo hi Hlo _ _ Md) as (D & ED & MD').
  assert (D = diffs A B).
  { apply (has_modes_unique lo hi Hlo _ _ _ _ MD' MD). intros l m V. cbn beta.
    destruct (0 <? m)%Z; [cx; ring|]. destruct (m <? 0)%Z; [cx; ring|]. reflexivity. }
  subst D.
  assert (Ld : length (diffs a b) = length (LM_range lo hi)) by (destruct Md; auto).
  pose proof (C08_norm_preserved_back lo hi _ _ Hlo Ld ED) as N. rewrite !row_norm_rsum in N.
  unfold distance. unfold diffs in N. rewrite !rsum_map in N. rewrite N. reflexivity.
Qed.

Section Thms.
  Variable qlog : quat -> vec3.
  Variable qexp : vec3 -> quat.
  Variable to_corotating : hwave -> res (hwave * list vec3).
  Variable size_of : pfile -> Z.
  Variable as_quat_array : arr -> option attr.
  Variable diff_nd : arr -> res bool.
  Notation save := (save qlog to_corotating size_of).
  Notation load := (load qexp size_of as_quat_array diff_nd).
  Notation format := "corotating_paired_xor"%string.

  Definition file_of (w : hwave) (outs : list (list C)) (log : list vec3) : pfile :=
    mkpfile format (spec_xor (map (fun x => bits (Fin x)) (w_times w)))
      (enc spec_xor (2 * w_n_modes w) (map (fun r => modes_words (w_n_modes w) (Some r)) outs))
      (w_ell_min w) (w_ell_max w)
      (match log with [] => None | _ => Some (enc spec_xor 3 (map (fun v => vec_words (Some v)) log)) end).

  Lemma describe_total : forall w f, is_datatype (w_dataType w) -> exists j,
    describe size_of w f = Ok j /\ j_format j = format /\ index_of (j_type j) DataNames 0 = Ok (w_dataType w) /\
    j_size j = size_of f /\ j_n_times j = Z.of_nat (length (w_times w)) /\
    (forall n c, In (n, c) (j_sums j) -> exists d, dataset f n = Ok d /\ checksum d = Ok c) /\
    (forall n d, dataset f n = Ok d -> In n (map fst (j_sums j))).
  Proof.
    intros w f T. unfold describe.
    destruct (checksum_total (p_time f)) as [ct E1]. destruct (checksum_total (concat (p_modes f))) as [cm E2].
    destruct (name_round_trip _ T) as (s & E3 & E4). rewrite E1, E2. cbn [rbind].
    destruct (p_log f) as [l|] eqn:EL.
    - destruct (checksum_total (concat l)) as [cl E5]. rewrite E5. cbn [rmap rbind]. rewrite E3. cbn [rbind].
      eexists. split; [reflexivity|]. cbn [j_format j_type j_size j_n_times j_sums].
      split; [reflexivity|]. split; [exact E4|]. split; [reflexivity|]. split; [reflexivity|]. split.
      + intros n c [H|[H|[H|[]]]]; injection H as <- <-; unfold dataset; cbn [String.eqb Ascii.eqb Bool.eqb]; eauto.
        rewrite EL. eauto.
      + intros n d H. unfold dataset in H. cbn [map fst].
        destruct (String.eqb_spec n "time"); [subst; simpl; auto|]. destruct (String.eqb_spec n "modes"); [subst; simpl; auto|].
        destruct (String.eqb_spec n "log_frame"); [subst; simpl; auto|discriminate].
    - cbn [rbind]. rewrite E3. cbn [rbind].
      eexists. split; [reflexivity|]. cbn [j_format j_type j_size j_n_times j_sums].
      split; [reflexivity|]. split; [exact E4|]. split; [reflexivity|]. split; [reflexivity|]. split.
      + intros n c [H|[H|[]]]; injection H as <- <-; unfold dataset; cbn [String.eqb Ascii.eqb Bool.eqb]; eauto.
      + intros n d H. unfold dataset in H. cbn [map fst].
        destruct (String.eqb_spec n "time"); [subst; simpl; auto|]. destruct (String.eqb_spec n "modes"); [subst; simpl; auto|].
        destruct (String.eqb_spec n "log_frame"); [subst; rewrite EL in H; discriminate|discriminate].
  Qed.
  Lemma check_sums_pass : forall ignore f sums, (forall n c, In (n, c) sums -> exists d, dataset f n = Ok d /\ checksum d = Ok c) ->
    check_sums ignore f sums = Ok Datatypes.tt.
  Proof.
    induction sums as [|[n c] sums IH]; intros H; [reflexivity|]. cbn [check_sums].
    destruct (H n c (or_introl eq_refl)) as (d & E1 & E2). rewrite E1. cbn [rbind]. rewrite E2. cbn [rbind].
    rewrite Z.eqb_refl. cbn [check rbind]. apply IH. intros; apply H; right; auto.
  Qed.

  Lemma concat_unpair_finite : forall outs : list (list C),
    forallb isfinite (flat_map (fun p : num * num => [fst p; snd p]) (concat (map (map (fun c => (Fin (re c), Fin (im c)))) outs))) = true.
  Proof.
    intros outs. rewrite <- concat_map. induction (concat outs); [reflexivity|]. cbn [map flat_map app forallb fst snd isfinite andb]. auto.
  Qed.

  Lemma loaded_valid : forall ts (outs : list (list C)) n log lo hi, strictly_up ts -> (0 <= lo <= hi)%Z -> n = length (LM_range lo hi) ->
    length outs = length ts -> (log = [] \/ length log = length ts) ->
    exists w', modes_ensure_validity as_quat_array diff_nd true true
      (loaded (map Fin ts) (map (map (fun c => (Fin (re c), Fin (im c)))) outs) n
         (map (fun v : vec3 => [Fin (fst (fst v)); Fin (snd (fst v)); Fin (snd v)]) log) lo hi) = Ok (true, w').
  Proof.
    intros ts outs n log lo hi U H N L LL.
    destruct (C17_modes_complete as_quat_array diff_nd true true
      (loaded (map Fin ts) (map (map (fun c => (Fin (re c), Fin (im c)))) outs) n
         (map (fun v : vec3 => [Fin (fst (fst v)); Fin (snd (fst v)); Fin (snd v)]) log) lo hi)) as (w' & E & _); eauto.
    - constructor; cbn [loaded m_ints m_lmin m_lmax m_LM m_base w_data]; auto; [lia|].
      eexists _, _, _. split; [reflexivity|]. split; [reflexivity|]. cbn [shape]. rewrite N. reflexivity.
    - constructor; cbn [loaded m_base w_t w_data w_frame w_hist w_ftype w_dtype w_rbool w_mbool w_numint].
      + exists [length (map Fin ts)], ts, (length ts). split; [reflexivity|]. split; [right; reflexivity|].
        split; [cbn; rewrite map_length; reflexivity|]. split.
        { intros i j x y Hij Hx Hy. apply nth_error_nth with (d := 0%R) in Hx as Hx'. apply nth_error_nth with (d := 0%R) in Hy as Hy'.
          rewrite <- Hx', <- Hy'. apply U. split; auto. apply nth_error_Some. congruence. }
        eexists. split; [reflexivity|]. split; [cbn; rewrite map_length; congruence|]. split.
        { unfold all_finite. cbn [vals]. apply finite_spec. apply concat_unpair_finite. }
        eexists. split; [reflexivity|]. split; [reflexivity|]. split.
        { unfold all_finite. cbn [vals]. rewrite map_map. apply Forall_forall. intros x Hx. apply in_map_iff in Hx.
          destruct Hx as (v & <- & _). cbn [forallb isfinite andb]. eauto. }
        cbn [vals]. rewrite !map_length. destruct LL as [->|]; auto.
      + exists 0%nat. reflexivity.
      + exists 4%Z. split; [reflexivity|lia].
      + exists 0%Z. split; [reflexivity|lia].
      + auto.
  Qed.

  Definition result (w : hwave) (rows : list (list C)) (log : list vec3) : hwave :=
    mkhwave (w_times w) rows (w_n_modes w) (w_ell_min w) (w_ell_max w) (w_dataType w) 4 true true (map qexp log) [] [] None None.

  Lemma written_loads : forall w outs log rows j ignore, well_formed w -> strictly_up (w_times w) -> Forall double (w_times w) ->
    length outs = length (w_times w) -> (forall r, In r outs -> length r = w_n_modes w /\ Forall double_c r) ->
    Forall double_v log -> (log = [] \/ length log = length (w_times w)) ->
    map_res (from_pairs (w_ell_min w) (w_ell_max w)) outs = Ok rows ->
    describe size_of w (file_of w outs log) = Ok j ->
    load ignore (file_of w outs log) (Some j) = Ok (result w rows log).
  Proof.
    intros w outs log rows j ignore W U DT LO HO DL LL EF EJ. set (f := file_of w outs log) in *.
    destruct (describe_total w f (wf_type w W)) as (j' & EJ' & J1 & J2 & J3 & J4 & J5 & _).
    assert (j' = j) by congruence. subst j'. clear EJ EJ'.
    pose proof (wf_times w W) as NT.
    unfold Paired_Model.load. rewrite J2. cbn [rbind]. rewrite J1. change (String.eqb format format) with true. cbn [check rbind].
    rewrite J3, Z.eqb_refl. cbn [check rbind]. change (p_format f) with format. change (String.eqb format format) with true. cbn [negb].
    assert (LT : length (p_time f) = length (w_times w)).
    { unfold f, file_of. cbn [p_time]. rewrite spec_xor_length, map_length. reflexivity. }
    rewrite J4, LT, Z.eqb_refl. cbn [check rbind]. rewrite check_sums_pass by exact J5. cbn [rbind].
    rewrite xor_reverse_eq. cbn [rbind].
    assert (E1 : spec_unxor (p_time f) = map (fun x => bits (Fin x)) (w_times w)) by apply unxor_xor.
    rewrite E1. rewrite (on_columns_total _ spec_unxor) by apply xor_reverse_eq. cbn [rbind].
    assert (RW : row_width f = (2 * w_n_modes w)%nat).
    { unfold row_width. destruct (p_modes f) as [|r0 rs] eqn:E.
      - apply (f_equal (@length _)) in E. unfold f, file_of in E. cbn [p_modes] in E. rewrite enc_length, map_length, LO in E.
        destruct (w_times w); [congruence|discriminate].
      - apply (enc_width spec_xor (2 * w_n_modes w) (map (fun r => modes_words (w_n_modes w) (Some r)) outs)).
        change (In r0 (p_modes f)). rewrite E. left; auto. }
    rewrite RW.
    assert (E2 : enc spec_unxor (2 * w_n_modes w) (p_modes f) = map (fun r => modes_words (w_n_modes w) (Some r)) outs).
    { unfold f, file_of. cbn [p_modes]. apply dec_enc. intros r Hr. apply in_map_iff in Hr. destruct Hr as (o & <- & Ho).
      apply row_words_length. apply HO; auto. }
    rewrite E2. rewrite (on_columns_total _ spec_unxor) by apply xor_reverse_eq. cbn [rbind].
    assert (E3 : enc spec_unxor 3 (match p_log f with Some l => l | None => [] end) = map (fun v => vec_words (Some v)) log).
    { unfold f, file_of. cbn [p_log]. destruct log as [|v log]; [reflexivity|]. apply dec_enc. intros r Hr.
      apply in_map_iff in Hr. destruct Hr as (v' & <- & _). reflexivity. }
    rewrite E3. cbv zeta. rewrite times_back by auto.
    assert (E4 : map (fun r => unpair (map unbits r)) (map (fun r => modes_words (w_n_modes w) (Some r)) outs)
                 = map (map (fun c => (Fin (re c), Fin (im c)))) outs).
    { rewrite map_map. apply map_ext_in. intros r Hr. apply row_words_back. apply HO; auto. }
    assert (E5 : map (map unbits) (map (fun v => vec_words (Some v)) log)
                 = map (fun v : vec3 => [Fin (fst (fst v)); Fin (snd (fst v)); Fin (snd v)]) log).
    { rewrite map_map. apply map_ext_in. intros v Hv. apply vec_words_back. rewrite Forall_forall in DL. apply DL; auto. }
    rewrite E4, E5. replace (2 * w_n_modes w / 2)%nat with (w_n_modes w) by (rewrite Nat.mul_comm, Nat.div_mul; auto).
    change (p_ell_min f) with (w_ell_min w). change (p_ell_max f) with (w_ell_max w).
    destruct (loaded_valid (w_times w) outs (w_n_modes w) log (w_ell_min w) (w_ell_max w) U (wf_ell w W) (wf_modes w W) LO LL) as (w' & EV).
    rewrite EV. cbn [rbind].
    assert (E6 : map_res (fun r => from_pairs (w_ell_min w) (w_ell_max w) (map fin_c r)) (map (map (fun c => (Fin (re c), Fin (im c)))) outs) = Ok rows).
    { rewrite <- EF. clear. induction outs as [|r outs IH]; [reflexivity|]. cbn [map map_res]. rewrite fin_c_back, IH. reflexivity. }
    rewrite E6. cbn [rbind]. unfold result. f_equal. f_equal.
    - rewrite map_map. cbn [fin]. apply map_id.
    - rewrite map_map. apply map_ext. intros [[a b] c]. reflexivity.
  Qed.

  (** The same for what [save] writes after its preparations. *)
  Lemma write_sets_file : forall w outs log, w_times w <> [] -> (log = [] \/ length log = length (w_times w)) ->
    write_sets w (spec_xor (map (fun x => bits (Fin x)) (w_times w)))
      (enc spec_xor (2 * w_n_modes w) (map (modes_words (w_n_modes w)) (map Some outs)))
      (enc spec_xor 3 (map vec_words (map Some log))) = Ok (file_of w outs log).
  Proof.
    intros w outs log NT LL. unfold write_sets, file_of. destruct (Nat.eqb_spec (length (w_times w)) 0) as [E|_].
    { destruct (w_times w); [congruence|discriminate]. }
    rewrite !map_map. destruct log as [|v log]; [reflexivity|].
    destruct (enc spec_xor 3 (map (fun x => vec_words (Some x)) (v :: log))) as [|e es] eqn:E.
    { apply (f_equal (@length _)) in E. rewrite enc_length, map_length in E. discriminate. }
    rewrite <- E. rewrite enc_length, map_length.
    destruct LL as [|LL]; [discriminate|]. rewrite LL, Nat.ltb_irrefl. reflexivity.
  Qed.

  (** ** Numbers written are doubles *)
  Lemma norm_nonzero : forall row, row_abs row <> 0%R -> exists z, In z row /\ z <> C0.
  Proof.
    induction row as [|z row IH]; unfold row_abs; intros H.
    - exfalso. apply H. cbn [rsum]. apply sqrt_0.
    - destruct (Req_dec (norm2 z) 0) as [E|E].
      + destruct IH as (z' & I & N).
        * intros E'. apply H. cbn [rsum]. rewrite E, Rplus_0_l. exact E'.
        * exists z'. split; [right|]; auto.
      + exists z. split; [left; auto|]. intros ->. apply E. unfold norm2. simpl. ring.
  Qed.
  Lemma component_bound : forall row z, In z row -> (Rabs (re z) <= row_abs row /\ Rabs (im z) <= row_abs row)%R.
  Proof.
    intros row z H.
    assert (B : (norm2 z <= rsum norm2 row)%R).
    { induction row as [|y row IH]; [destruct H|]. cbn [rsum].
      pose proof (rsum_nonneg norm2 row (fun z _ => norm2_nonneg z)). pose proof (norm2_nonneg y).
      destruct H as [->|H]; [lra|]. specialize (IH H). lra. }
    unfold row_abs. unfold norm2 in B at 1.
    split; (rewrite <- sqrt_Rsqr_abs; apply sqrt_le_1_alt; unfold Rsqr; nra).
  Qed.
  Lemma rounded_double : forall a u x y N b, (0 < a)%R -> is_unit a u -> rounded u x y -> (Rabs x <= N)%R -> (N <= b * a)%R -> (b <= IZR (2 ^ 52))%R ->
    (powerRZ 2 (-1074) <= a <= powerRZ 2 970)%R -> double y.
  Proof.
    intros a u x y N b Ha [[k Hk] [U1 U2]] (j & -> & H & _) HN Hb HB [R1 R2].
    assert (K1 : (-1074 <= k)%Z).
    { destruct (Z_le_gt_dec (-1074) k) as [|G]; auto. assert (P := pow2_lt k (-1074) ltac:(lia)). lra. }
    assert (K2 : (k < 971)%Z).
    { destruct (Z_lt_le_dec k 971) as [|G]; auto. assert (P := pow2_le _ _ G). change 971%Z with (1 + 970)%Z in P.
      rewrite pow2_add in P. change (powerRZ 2 1) with (2 * 1)%R in P. lra. }
    exists j, k. split; [|split; [lia|rewrite Hk; reflexivity]].
    assert (Pu : (0 < u)%R) by lra.
    assert (B : (Rabs (IZR j) * u <= N + u / 2)%R).
    { rewrite <- (Rabs_pos_eq u) at 1 by lra. rewrite <- Rabs_mult.
      replace (IZR j * u)%R with (x + (IZR j * u - x))%R by ring. eapply Rle_trans; [apply Rabs_triang|]. lra. }
    assert (B2 : (Rabs (IZR j) <= b + /2)%R).
    { apply Rmult_le_reg_r with u; auto. eapply Rle_trans; [exact B|].
      assert (0 <= b)%R. { assert (0 <= b * a)%R by (pose proof (Rabs_pos x); lra). apply Rmult_le_reg_r with a; lra. }
      assert (b * a <= b * u)%R by (apply Rmult_le_compat_l; auto). lra. }
    rewrite <- abs_IZR in B2. apply lt_IZR. change (2 ^ 52)%Z with 4503599627370496%Z in HB. change (2 ^ 53)%Z with 9007199254740992%Z. lra.
  Qed.

  Lemma Forall2_length : forall A B (P : A -> B -> Prop) a b, Forall2 P a b -> length a = length b.
  Proof. induction 1; simpl; auto. Qed.

  (** Norms at which the truncated modes are representable. *)
  Definition in_range_norm (tol : R) (n : nat) (N : R) : Prop :=
    (powerRZ 2 (-1074) <= tol * N / sqrt (INR n) <= powerRZ 2 970)%R.
  Lemma truncated_doubles : forall tol row, (0 < tol)%R -> (0 < length row)%nat -> in_range_norm tol (length row) (row_abs row) ->
    (sqrt (INR (length row)) <= IZR (2 ^ 52) * tol)%R ->
    exists out, truncate_row tol row = Some out /\ length out = length row /\ Forall double_c out /\
      (distance row out < sqrt 2 * tol * row_abs row)%R.
  Proof.
    intros tol row Ht Hl Hr Hn.
    assert (Hs : (0 < sqrt (INR (length row)))%R) by (apply sqrt_lt_R0, lt_0_INR; auto).
    pose proof (pow2_pos (-1074)) as P0. unfold in_range_norm in Hr.
    assert (Pa : (0 < tol * row_abs row / sqrt (INR (length row)))%R) by lra.
    assert (NZ : row_abs row <> 0%R). { intros E. rewrite E in Pa. unfold Rdiv in Pa. rewrite Rmult_0_r, Rmult_0_l in Pa. lra. }
    apply norm_nonzero in NZ.
    destruct (C49_each_component tol row Ht NZ) as (u & out & HU & E & F). exists out. split; [exact E|].
    split; [symmetry; apply (Forall2_length _ _ _ _ _ F)|]. split.
    - set (a := (tol * row_abs row / sqrt (INR (length row)))%R) in *.
      assert (Eb : (row_abs row = (sqrt (INR (length row)) / tol) * a)%R) by (unfold a; field; lra).
      assert (Hb : (sqrt (INR (length row)) / tol <= IZR (2 ^ 52))%R).
      { apply Rmult_le_reg_r with tol; auto. unfold Rdiv. rewrite Rmult_assoc, Rinv_l, Rmult_1_r by lra. exact Hn. }
      apply Forall_forall. intros y Hy. apply (In_nth _ _ C0) in Hy. destruct Hy as (i & Hi & <-).
      assert (FF : forall i, (i < length row)%nat -> rounded u (re (nth i row C0)) (re (nth i out C0)) /\ rounded u (im (nth i row C0)) (im (nth i out C0))).
      { clear -F. induction F as [|z z' r r' H F IH]; intros [|i] Hi; simpl in *; try lia; auto. apply IH. lia. }
      pose proof (Forall2_length _ _ _ _ _ F) as LF. destruct (FF i ltac:(lia)) as [G1 G2].
      destruct (component_bound row (nth i row C0)) as [B1 B2]; [apply nth_In; lia|].
      split; [eapply (rounded_double a u _ _ _ _ Pa HU G1 B1)|eapply (rounded_double a u _ _ _ _ Pa HU G2 B2)]; try eassumption; lra.
    - unfold distance. apply C49_total_error; auto.
  Qed.

  (** ** Rounding of the logarithm of the frame *)
  Lemma log_power_ok : forall tol, (10 * / IZR (2 ^ 62) <= tol < 20)%R ->
    exists k, (0 <= k <= 62)%Z /\ log_power tol = Ok (Some (powerRZ 2 k)) /\ (/ powerRZ 2 k <= tol / 10)%R /\ (powerRZ 2 k < 20 / tol)%R.
  Proof.
    intros tol [T1 T2]. rewrite <- pow2_Z in T1 by lia.
    assert (P62 : (0 < / powerRZ 2 62)%R) by (apply Rinv_0_lt_compat, pow2_pos).
    assert (Ht : (0 < tol)%R) by lra. unfold log_power. destruct (Rltb_spec 0 tol) as [_|N]; [|lra].
    destruct (floor_log2 (tol / 10) ltac:(lra)) as [L1 L2]. set (f := floorR (ln (tol / 10) / ln 2)) in *.
    assert (F1 : (-62 <= f)%Z).
    { destruct (Z_le_gt_dec (-62) f) as [|G]; auto. assert (P := pow2_le (f + 1) (-62) ltac:(lia)).
      change (-62)%Z with (- (62))%Z in P. rewrite powerRZ_neg' in P. lra. }
    assert (F2 : (f <= 0)%Z).
    { destruct (Z_le_gt_dec f 0) as [|G]; auto. assert (P := pow2_le 1 f ltac:(lia)). change (powerRZ 2 1) with (2 * 1)%R in P. lra. }
    exists (- f)%Z. cbv zeta. replace (- f <? 0)%Z with false by (symmetry; lia). replace (- f <? 63)%Z with true by (symmetry; lia).
    split; [lia|]. split; [reflexivity|]. rewrite powerRZ_neg'. pose proof (pow2_pos f) as Pf. rewrite Rinv_inv. split; [exact L1|].
    rewrite pow2_add in L2. change (powerRZ 2 1) with (2 * 1)%R in L2.
    apply Rmult_lt_reg_r with (powerRZ 2 f); auto. rewrite Rinv_l by lra. apply Rmult_lt_reg_r with (tol / 20)%R; [lra|].
    replace (20 / tol * powerRZ 2 f * (tol / 20))%R with (powerRZ 2 f) by (field; lra). lra.
  Qed.
  Definition near (e : R) (v v' : vec3) : Prop :=
    (Rabs (fst (fst v') - fst (fst v)) <= e /\ Rabs (snd (fst v') - snd (fst v)) <= e /\ Rabs (snd v' - snd v) <= e)%R.
  Definition within (b : R) (v : vec3) : Prop :=
    (Rabs (fst (fst v)) <= b /\ Rabs (snd (fst v)) <= b /\ Rabs (snd v) <= b)%R.
  Lemma round_component : forall tol k x, (0 < tol)%R -> (0 <= k <= 62)%Z -> (/ powerRZ 2 k <= tol / 10)%R -> (powerRZ 2 k < 20 / tol)%R ->
    (Rabs x <= IZR (2 ^ 52) * tol / 20)%R ->
    let y := (IZR (rint (x * powerRZ 2 k)) / powerRZ 2 k)%R in double y /\ (Rabs (y - x) <= tol / 20)%R.
  Proof.
    intros tol k x Ht Hk H1 H2 Hx y. pose proof (pow2_pos k) as P. set (p := powerRZ 2 k) in *.
    pose proof (rint_near (x * p)) as N. set (r := rint (x * p)) in *.
    assert (Pi : (0 < / p)%R) by (apply Rinv_0_lt_compat; auto). split.
    - exists r, (- k)%Z. split; [|split; [lia|unfold y; rewrite powerRZ_neg'; reflexivity]].
      assert (A : (Rabs (IZR r) <= Rabs (x * p) + 1 / 2)%R).
      { replace (IZR r) with (x * p + (IZR r - x * p))%R by ring. eapply Rle_trans; [apply Rabs_triang|]. lra. }
      rewrite Rabs_mult, (Rabs_pos_eq p) in A by lra.
      assert (B : (Rabs x * p <= IZR (2 ^ 52))%R).
      { eapply Rle_trans; [apply Rmult_le_compat; [apply Rabs_pos|lra|exact Hx|left; exact H2]|]. right. field. lra. }
      rewrite <- abs_IZR in A. apply lt_IZR. change (2 ^ 52)%Z with 4503599627370496%Z in B. change (2 ^ 53)%Z with 9007199254740992%Z. lra.
    - replace (y - x)%R with ((IZR r - x * p) * / p)%R by (unfold y; field; lra).
      rewrite Rabs_mult, (Rabs_pos_eq (/ p)) by lra.
      eapply Rle_trans; [apply Rmult_le_compat; [apply Rabs_pos|lra|exact N|exact H1]|]. lra.
  Qed.
  Lemma rounded_logs : forall tol k v, (0 < tol)%R -> (0 <= k <= 62)%Z -> (/ powerRZ 2 k <= tol / 10)%R -> (powerRZ 2 k < 20 / tol)%R ->
    within (IZR (2 ^ 52) * tol / 20) v -> double_v (round_vec (powerRZ 2 k) v) /\ near (tol / 20) v (round_vec (powerRZ 2 k) v).
  Proof.
    intros tol k v Ht Hk H1 H2 (W1 & W2 & W3).
    destruct (round_component tol k _ Ht Hk H1 H2 W1). destruct (round_component tol k _ Ht Hk H1 H2 W2). destruct (round_component tol k _ Ht Hk H1 H2 W3).
    unfold double_v, near, round_vec. cbn [fst snd]. tauto.
  Qed.

  (** ** What is written *)
  Lemma save_writes : forall w tol lf log paired outs, tol <> 0%R -> w_frameType w = 4%Z ->
    map_res (to_pairs (w_ell_min w) (w_ell_max w)) (w_rows w) = Ok paired -> map (truncate_row tol) paired = map Some outs ->
    match lf with
    | Some l => l = log
    | None => exists p, log_power tol = Ok (Some p) /\ log = map (fun q => round_vec p (qlog q)) (w_quats w)
    end ->
    w_times w <> [] -> (log = [] \/ length log = length (w_times w)) ->
    save w tol lf = let? j := describe size_of w (file_of w outs log) in Ok (file_of w outs log, j).
  Proof.
    intros w tol lf log paired outs T F EP ET EL NT LL. unfold Paired_Model.save. destruct (Req_EM_T tol 0) as [|_]; [contradiction|].
    rewrite F. cbn [Z.eqb Pos.eqb rbind]. rewrite F. cbn [Z.eqb Pos.eqb negb]. rewrite EP. cbn [rbind].
    unfold truncate. destruct (Req_EM_T tol 0) as [|_]; [contradiction|]. rewrite ET.
    assert (EL' : match lf with Some l => Ok (map Some l) | None => let? p := log_power tol in Ok (map (fun q => round_log p (qlog q)) (w_quats w)) end
                  = Ok (map Some log)).
    { destruct lf as [l|]; [congruence|]. destruct EL as (p & -> & ->). cbn [rbind]. rewrite map_map. reflexivity. }
    rewrite EL'. cbn [rbind]. rewrite xor_timeseries_eq. cbn [rbind].
    rewrite (on_columns_total _ spec_xor) by apply xor_timeseries_eq. cbn [rbind].
    rewrite (on_columns_total _ spec_xor) by apply xor_timeseries_eq. cbn [rbind].
    rewrite write_sets_file by auto. reflexivity.
  Qed.

  (** Close to the original to within the tolerance. *)
  Definition close (tol : R) (r r' : list C) : Prop := length r' = length r /\ (distance r r' < sqrt 2 * tol * row_abs r)%R.
  Lemma rows_encoded : forall lo hi n tol rows, (0 <= lo)%Z -> n = length (LM_range lo hi) -> (0 < n)%nat -> (0 < tol)%R ->
    (sqrt (INR n) <= IZR (2 ^ 52) * tol)%R ->
    (forall r, In r rows -> length r = n /\ in_range_norm tol n (row_abs r)) ->
    exists paired outs rows', map_res (to_pairs lo hi) rows = Ok paired /\ map (truncate_row tol) paired = map Some outs /\
      length outs = length rows /\ (forall r, In r outs -> length r = n /\ Forall double_c r) /\
      map_res (from_pairs lo hi) outs = Ok rows' /\ Forall2 (close tol) rows rows'.
  Proof.
    intros lo hi n tol rows Hlo Hn Pn Ht Hs. induction rows as [|r rows IH]; intros H.
    { exists [], [], []. split; [reflexivity|]. split; [reflexivity|]. split; [reflexivity|]. split; [intros ? []|]. split; [reflexivity|constructor]. }
    destruct IH as (paired & outs & rows' & E1 & E2 & E3 & E4 & E5 & E6); [intros; apply H; right; auto|].
    destruct (H r (or_introl eq_refl)) as [L R].
    destruct (C08_roundtrip lo hi r Hlo ltac:(congruence)) as (mid & M1 & M2).
    assert (LM : length mid = n).
    { destruct (to_pairs_modes lo hi Hlo r _ (has_modes_mode lo hi Hlo r ltac:(congruence))) as (mid' & Q & [Q2 _]). congruence. }
    assert (NM : row_abs mid = row_abs r).
    { unfold row_abs. rewrite <- !row_norm_rsum. rewrite (C08_norm_preserved lo hi r mid Hlo ltac:(congruence) M1). reflexivity. }
    destruct (truncated_doubles tol mid Ht ltac:(lia)) as (out & T1 & T2 & T3 & T4); [rewrite LM, NM; auto|rewrite LM; auto|].
    assert (LO : length out = length (LM_range lo hi)) by congruence.
    destruct (C08_roundtrip_back lo hi out Hlo LO) as (r' & B1 & _).
    exists (mid :: paired), (out :: outs), (r' :: rows').
    cbn [map_res]. rewrite M1, E1, B1, E5. cbn [rbind map]. rewrite T1, E2.
    split; [reflexivity|]. split; [reflexivity|]. split; [simpl; congruence|]. split; [|split; [reflexivity|]].
    - intros x [<-|Hx]; [split; [congruence|auto]|apply E4; auto].
    - constructor; auto. split.
      + destruct (from_pairs_modes lo hi Hlo out _ (has_modes_mode lo hi Hlo out LO)) as (r2 & Q & [Q2 _]). congruence.
      + rewrite (from_pairs_distance lo hi mid out r r' Hlo ltac:(congruence) LO M2 B1), <- NM. exact T4.
  Qed.

  (** ** Theorems *)
  (** Sizes for which all numbers that are written are representable. *)
  Record storable (w : hwave) (tol : R) : Prop := {
    st_times : Forall double (w_times w);
    st_modes : (sqrt (INR (w_n_modes w)) <= IZR (2 ^ 52) * tol)%R;
    st_norms : forall r, In r (w_rows w) -> in_range_norm tol (w_n_modes w) (row_abs r) }.
  (** Everything except modes and frames. *)
  Definition same_frame_data (w w' : hwave) : Prop :=
    w_times w' = w_times w /\ w_n_modes w' = w_n_modes w /\ w_ell_min w' = w_ell_min w /\ w_ell_max w' = w_ell_max w /\
    w_dataType w' = w_dataType w /\ w_frameType w' = 4%Z /\ w_r w' = true /\ w_m w' = true.

  Lemma result_same : forall w rows log, same_frame_data w (result w rows log).
  Proof. intros. repeat split. Qed.

  (** Saving a corotating waveform succeeds, and loading gives the same times, modes and type, mode values
      within the tolerance and frames whose logarithm is within 1/20 of it. *)
  Theorem C09_round_trip : forall w tol, well_formed w -> strictly_up (w_times w) -> w_frameType w = 4%Z ->
    (10 * / IZR (2 ^ 62) <= tol < 20)%R -> storable w tol ->
    (w_quats w = [] \/ length (w_quats w) = length (w_times w)) ->
    (forall q, In q (w_quats w) -> within (IZR (2 ^ 52) * tol / 20) (qlog q)) ->
    exists f j, save w tol None = Ok (f, j) /\
    forall ignore, exists w', load ignore f (Some j) = Ok w' /\ same_frame_data w w' /\
      Forall2 (close tol) (w_rows w) (w_rows w') /\
      Forall2 (fun q q' => exists v, near (tol / 20) (qlog q) v /\ q' = qexp v) (w_quats w) (w_quats w').
  Proof.
    intros w tol W U F T S Q WQ.
    assert (Ht : (0 < tol)%R).
    { assert (0 < / IZR (2 ^ 62))%R by (apply Rinv_0_lt_compat, IZR_lt; lia). lra. }
    destruct (log_power_ok tol T) as (k & Hk & EK & K1 & K2).
    destruct (rows_encoded (w_ell_min w) (w_ell_max w) (w_n_modes w) tol (w_rows w)) as (paired & outs & rows' & E1 & E2 & E3 & E4 & E5 & E6).
    { pose proof (wf_ell w W). lia. } { apply (wf_modes w W). } { apply (modes_positive w W). } { exact Ht. } { apply (st_modes w tol S). }
    { intros r Hr. split; [apply (wf_row w W); auto|apply (st_norms w tol S); auto]. }
    set (log := map (fun q => round_vec (powerRZ 2 k) (qlog q)) (w_quats w)).
    assert (LL : log = [] \/ length log = length (w_times w)).
    { unfold log. destruct Q as [->|Q]; [left; reflexivity|right; rewrite map_length; auto]. }
    assert (DL : Forall double_v log).
    { apply Forall_forall. intros v Hv. apply in_map_iff in Hv. destruct Hv as (q & <- & Hq). apply (rounded_logs tol); auto. }
    destruct (describe_total w (file_of w outs log) (wf_type w W)) as (j & EJ & _).
    exists (file_of w outs log), j. split.
    - rewrite (save_writes w tol None log paired outs); auto; [rewrite EJ; reflexivity|lra|eauto|apply (wf_times w W)].
    - intros ignore. exists (result w rows' log). split; [|split; [apply result_same|split; [exact E6|]]].
      + apply written_loads; auto; [apply (st_times w tol S)|]. rewrite E3. apply (wf_rows w W).
      + cbn [result w_quats]. unfold log. clear -WQ Ht Hk K1 K2. induction (w_quats w) as [|q qs IH]; constructor.
        * eexists. split; [|reflexivity]. apply rounded_logs; auto. apply WQ. left; auto.
        * apply IH. intros; apply WQ; right; auto.
  Qed.

  (** A logarithm of the frame handed to [save] is stored exactly and replaces the frame of the waveform. *)
  Theorem C09_given_log_frame : forall w tol log, well_formed w -> strictly_up (w_times w) -> w_frameType w = 4%Z ->
    (0 < tol)%R -> storable w tol -> (log = [] \/ length log = length (w_times w)) -> Forall double_v log ->
    exists f j, save w tol (Some log) = Ok (f, j) /\
    forall ignore, exists w', load ignore f (Some j) = Ok w' /\ same_frame_data w w' /\
      Forall2 (close tol) (w_rows w) (w_rows w') /\ w_quats w' = map qexp log.
  Proof.
    intros w tol log W U F Ht S LL DL.
    destruct (rows_encoded (w_ell_min w) (w_ell_max w) (w_n_modes w) tol (w_rows w)) as (paired & outs & rows' & E1 & E2 & E3 & E4 & E5 & E6).
    { pose proof (wf_ell w W). lia. } { apply (wf_modes w W). } { apply (modes_positive w W). } { exact Ht. } { apply (st_modes w tol S). }
    { intros r Hr. split; [apply (wf_row w W); auto|apply (st_norms w tol S); auto]. }
    destruct (describe_total w (file_of w outs log) (wf_type w W)) as (j & EJ & _).
    exists (file_of w outs log), j. split.
    - rewrite (save_writes w tol (Some log) log paired outs); auto; [rewrite EJ; reflexivity|lra|apply (wf_times w W)].
    - intros ignore. exists (result w rows' log). split; [|split; [apply result_same|split; [exact E6|reflexivity]]].
      apply written_loads; auto; [apply (st_times w tol S)|]. rewrite E3. apply (wf_rows w W).
  Qed.

  (** An inertial waveform is first rotated, and the logarithm found there is the one stored; other frames
      are refused. *)
  Theorem C09_frames : forall w tol lf, tol <> 0%R ->
    (w_frameType w = 1%Z -> forall w' l, to_corotating w = Ok (w', l) -> w_frameType w' = 4%Z -> save w tol lf = save w' tol (Some l)) /\
    (w_frameType w <> 1%Z -> w_frameType w <> 4%Z -> save w tol lf = Err ValueError).
  Proof.
    intros w tol lf T. unfold Paired_Model.save. destruct (Req_EM_T tol 0) as [|_]; [contradiction|]. split.
    - intros F w' l E F'. rewrite F, E, F'. reflexivity.
    - intros N1 N4. rewrite (proj2 (Z.eqb_neq _ _) N1). cbn [rbind]. rewrite (proj2 (Z.eqb_neq _ _) N4). reflexivity.
  Qed.

  (** ** Validation *)
  Definition unchanged_except (n : string) (f f' : pfile) : Prop :=
    p_format f' = p_format f /\ forall m, m <> n -> dataset f' m = dataset f m.
  (** One 16-bit word of a data set replaced by another one. *)
  Definition one_word_changed (d d' : list Z) : Prop :=
    exists pre x y post, flat_map words16 d = pre ++ x :: post /\ flat_map words16 d' = pre ++ y :: post /\ x <> y /\
      ~ (x = 0 /\ y = 65535)%Z /\ ~ (x = 65535 /\ y = 0)%Z.
  Lemma changed_sum : forall d d' c c', one_word_changed d d' -> checksum d = Ok c -> checksum d' = Ok c' -> c <> c'.
  Proof.
    intros d d' c c' (pre & x & y & post & E & E' & N & N1 & N2) H H'. unfold checksum in H, H'. rewrite E in H. rewrite E' in H'.
    pose proof (all_words16 d) as A. pose proof (all_words16 d') as A'. rewrite E in A. rewrite E' in A'.
    apply Forall_app in A'. destruct A' as [_ A']. inversion A'; subst.
    eapply C07_single_word_error; eauto.
  Qed.
  Lemma sums_detect : forall f f' n d d' sums, unchanged_except n f f' -> dataset f n = Ok d -> dataset f' n = Ok d' -> one_word_changed d d' ->
    (forall m c, In (m, c) sums -> exists e, dataset f m = Ok e /\ checksum e = Ok c) -> In n (map fst sums) ->
    check_sums false f' sums = Err ValueError.
  Proof.
    intros f f' n d d' sums [_ X] D D' O. induction sums as [|[m c] sums IH]; intros H I; [destruct I|].
    destruct (H m c (or_introl eq_refl)) as (e & E1 & E2). cbn [check_sums].
    destruct (String.string_dec m n) as [->|N].
    - assert (e = d) by congruence. subst e. rewrite D'. cbn [rbind]. destruct (checksum_total d') as [c' E3]. rewrite E3. cbn [rbind].
      pose proof (changed_sum _ _ _ _ O E2 E3) as NE. rewrite (proj2 (Z.eqb_neq _ _) NE). reflexivity.
    - rewrite X, E1 by auto. cbn [rbind]. rewrite E2. cbn [rbind]. rewrite Z.eqb_refl. cbn [check rbind].
      apply IH; [intros; apply H; right; auto|]. destruct I as [I|I]; [cbn in I; congruence|exact I].
  Qed.

  (** A file whose times, modes or frames differ in one 16-bit word from what was saved is rejected. *)
  Theorem C09_change_detected : forall w tol lf f j n d d' f', is_datatype (w_dataType w) ->
    (forall w' l, to_corotating w = Ok (w', l) -> is_datatype (w_dataType w')) -> save w tol lf = Ok (f, j) ->
    unchanged_except n f f' -> dataset f n = Ok d -> dataset f' n = Ok d' -> one_word_changed d d' ->
    load false f' (Some j) = Err ValueError.
  Proof.
    intros w tol lf f j n d d' f' DT DT' HS X D D' O.
    assert (HJ : exists w1, is_datatype (w_dataType w1) /\ describe size_of w1 f = Ok j /\ p_format f = format).
    { assert (WF : forall w t m l f, write_sets w t m l = Ok f -> p_format f = format).
      { intros w0 t m l f0. unfold write_sets. destruct (Nat.eqb _ _); [discriminate|]. destruct l; [intros H; injection H as <-; reflexivity|].
        destruct (_ <? _)%nat; [discriminate|]. intros H; injection H as <-; reflexivity. }
      unfold Paired_Model.save in HS. destruct (Req_EM_T tol 0) as [E0|E0].
      - apply rbind_ok in HS. destruct HS as (f0 & W0 & HS). apply rbind_ok in HS. destruct HS as (j0 & J0 & HS).
        assert (f0 = f /\ j0 = j) as [-> ->] by (split; congruence). exists w. split; [auto|]. split; [auto|]. eapply WF; eauto.
      - apply rbind_ok in HS. destruct HS as ([w1 lf1] & W1 & HS).
        destruct (negb (w_frameType w1 =? 4)%Z); [discriminate|].
        do 5 (apply rbind_ok in HS; destruct HS as (? & _ & HS)).
        apply rbind_ok in HS. destruct HS as (f0 & W0 & HS). apply rbind_ok in HS. destruct HS as (j0 & J0 & HS).
        assert (f0 = f /\ j0 = j) as [-> ->] by (split; congruence). exists w1. split; [|split; [auto|eapply WF; eauto]].
        destruct (w_frameType w =? 1)%Z.
        + apply rbind_ok in W1. destruct W1 as ([w2 l2] & W2 & W3). assert (w2 = w1) by congruence. subst. eauto.
        + assert (w = w1) by congruence. subst; auto. }
    destruct HJ as (w1 & T1 & EJ & FF).
    destruct (describe_total w1 f T1) as (j' & EJ' & J1 & J2 & J3 & J4 & J5 & J6). assert (j' = j) by congruence. subst j'.
    unfold Paired_Model.load. rewrite J2. cbn [rbind]. rewrite J1. change (String.eqb format format) with true. cbn [check rbind].
    destruct (j_size j =? size_of f')%Z; [|reflexivity]. cbn [check rbind].
    rewrite (proj1 X), FF. change (String.eqb format format) with true. cbn [negb].
    destruct (j_n_times j =? Z.of_nat (length (p_time f')))%Z; [|reflexivity]. cbn [check rbind].
    rewrite (sums_detect f f' n d d' (j_sums j) X D D' O J5); [reflexivity|]. eapply J6; eauto.
  Qed.

  (** Loading with validation: the size, the number of times and the format named in the JSON file must be
      those of the data file.  Ignoring validation gives the same waveform whenever validation passes. *)
  Theorem C09_validated : forall f j w', load false f (Some j) = Ok w' ->
    j_format j = format /\ p_format f = format /\ j_size j = size_of f /\ j_n_times j = Z.of_nat (length (p_time f)) /\
    (forall n c, In (n, c) (j_sums j) -> exists d, dataset f n = Ok d /\ checksum d = Ok c) /\
    load true f (Some j) = Ok w'.
  Proof.
    intros f j w' H. unfold Paired_Model.load in *. destruct (index_of (j_type j) DataNames 0) as [d|e]; [|discriminate]. cbn [rbind] in *.
    destruct (String.eqb_spec (j_format j) format) as [E1|]; [|discriminate]. cbn [check rbind] in *.
    destruct (Z.eqb_spec (j_size j) (size_of f)) as [E2|]; [|discriminate]. cbn [check rbind] in *.
    destruct (String.eqb_spec (p_format f) format) as [E3|]; [|discriminate]. cbn [negb] in *.
    destruct (Z.eqb_spec (j_n_times j) (Z.of_nat (length (p_time f)))) as [E4|]; [|discriminate]. cbn [check rbind] in *.
    assert (S : (forall n c, In (n, c) (j_sums j) -> exists d, dataset f n = Ok d /\ checksum d = Ok c) /\ check_sums false f (j_sums j) = Ok Datatypes.tt).
    { destruct (check_sums false f (j_sums j)) as [u|] eqn:EC; [|discriminate]. destruct u. split; auto. clear -EC.
      induction (j_sums j) as [|[n c] sums IH]; intros m k I; [destruct I|]. cbn [check_sums] in EC.
      apply rbind_ok in EC. destruct EC as (e & A1 & EC). apply rbind_ok in EC. destruct EC as (c' & A2 & EC).
      destruct (Z.eqb_spec c c') as [->|]; [|discriminate]. cbn [check rbind] in EC.
      destruct I as [I|I]; [injection I as <- <-; eauto|apply IH; auto]. }
    destruct S as [S1 S2]. rewrite S2 in H. rewrite (check_sums_pass true f (j_sums j) S1).
    split; [auto|]. split; [auto|]. split; [auto|]. split; [auto|]. split; [exact S1|exact H].
  Qed.
  (** Conversely, ignoring validation the contents of the JSON file other than the data type do not matter. *)
  Theorem C09_ignored : forall f j j' w', load true f (Some j) = Ok w' -> j_type j' = j_type j ->
    (forall n, In n (map fst (j_sums j')) -> exists d, dataset f n = Ok d) -> load true f (Some j') = Ok w'.
  Proof.
    intros f j j' w' H T S. unfold Paired_Model.load in *. rewrite T. destruct (index_of (j_type j) DataNames 0) as [d|e]; [|discriminate]. cbn [rbind] in *.
    assert (CH : forall b, check true b = Ok Datatypes.tt) by (intros []; reflexivity). rewrite ?CH in H; rewrite ?CH; cbn [rbind] in *.
    destruct (negb (String.eqb (p_format f) format)); [discriminate|]. rewrite ?CH in H; rewrite ?CH; cbn [rbind] in *.
    assert (CS : forall sums, (forall n, In n (map fst sums) -> exists d, dataset f n = Ok d) -> check_sums true f sums = Ok Datatypes.tt).
    { clear -CH. induction sums as [|[n c] sums IH]; intros S; [reflexivity|]. cbn [check_sums].
      destruct (S n (or_introl eq_refl)) as [e E]. rewrite E. cbn [rbind]. destruct (checksum_total e) as [c' E']. rewrite E'. cbn [rbind].
      rewrite CH. cbn [rbind]. apply IH. intros; apply S; right; auto. }
    rewrite (CS (j_sums j')) by exact S. destruct (check_sums true f (j_sums j)) as [[]|]; [exact H|discriminate].
  Qed.
  (** Without the JSON file nothing can be loaded: an error either way. *)
  Theorem C09_missing_json : forall f, load false f None = Err ValueError /\ (forall w', load true f None <> Ok w').
  Proof.
    intros f. split; [reflexivity|]. intros w' H. unfold Paired_Model.load in H. cbn [invalid rbind] in H.
    destruct (negb (String.eqb (p_format f) format)); [discriminate|].
    apply rbind_ok in H. destruct H as (? & _ & H). cbn [rbind] in H.
    do 3 (apply rbind_ok in H; destruct H as (? & _ & H)). discriminate.
  Qed.

  (** ** What does not work *)
  Lemma words_of_option : forall tol n paired o, (forall r, In r paired -> length r = n) -> In o (map (truncate_row tol) paired) ->
    length (modes_words n o) = (2 * n)%nat.
  Proof.
    intros tol n paired o H I. apply in_map_iff in I. destruct I as (r & <- & Hr). specialize (H r Hr).
    unfold truncate_row. destruct (Rltb 0 (absolute_tolerance tol r)).
    - apply row_words_length. rewrite map_length. exact H.
    - cbn [modes_words]. apply repeat_length.
  Qed.
  Lemma map_res_In : forall A B (f : A -> res B) l l' x, map_res f l = Ok l' -> In x l -> exists y, f x = Ok y /\ In y l'.
  Proof.
    induction l as [|a l IH]; intros l' x H I; [destruct I|]. cbn [map_res] in H.
    apply rbind_ok in H. destruct H as (y & E & H). apply rbind_ok in H. destruct H as (t & Et & H).
    assert (l' = y :: t) by congruence. subst l'. destruct I as [->|I]; [exists y; split; [auto|left; auto]|].
    destruct (IH t x Et I) as (z & Z1 & Z2). exists z. split; [auto|right; auto].
  Qed.
  Lemma map_res_back : forall A B (f : A -> res B) l l' y, map_res f l = Ok l' -> In y l' -> exists x, In x l /\ f x = Ok y.
  Proof.
    induction l as [|a l IH]; intros l' y H I; cbn [map_res] in H.
    - assert (l' = []) by congruence. subst. destruct I.
    - apply rbind_ok in H. destruct H as (z & E & H). apply rbind_ok in H. destruct H as (t & Et & H).
      assert (l' = z :: t) by congruence. subst l'. destruct I as [->|I]; [exists a; split; [left; auto|auto]|].
      destruct (IH t y Et I) as (x & X1 & X2). exists x. split; [right; auto|auto].
  Qed.
  Lemma repeat_nan : forall n, unpair (map unbits (repeat (bits NaN) (2 * n))) = repeat (NaN, NaN) n.
  Proof.
    induction n; [reflexivity|]. replace (2 * S n)%nat with (S (S (2 * n))) by lia. cbn [repeat map unpair].
    rewrite IHn. rewrite (proj2 bits_nan). reflexivity.
  Qed.

  Lemma write_sets_modes : forall w t m l f, write_sets w t m l = Ok f -> p_modes f = m.
  Proof.
    intros w t m l f. unfold write_sets. destruct (Nat.eqb _ _); [discriminate|]. destruct l; [intros H; injection H as <-; reflexivity|].
    destruct (_ <? _)%nat; [discriminate|]. intros H; injection H as <-; reflexivity.
  Qed.

  Lemma modes_data_kept : forall al a w b w', modes_ensure_validity as_quat_array diff_nd al a w = Ok (b, w') ->
    w_data (m_base w') = w_data (m_base w).
  Proof.
    intros al a w b w' H. unfold modes_ensure_validity in H. cbv zeta in H.
    set (w1 := if al && negb (LM_eqb (m_LM w) (LM_range (m_lmin w) (m_lmax w))) then _ else w) in H.
    assert (E1 : m_base w1 = m_base w) by (unfold w1; destruct (al && _); reflexivity). clearbody w1.
    do 10 (apply rbind_ok in H; destruct H as (? & _ & H)).
    match type of H with (if ?c then _ else _) = _ => destruct c end.
    - assert (w' = w1) by congruence. subst. congruence.
    - apply rbind_ok in H. destruct H as ([b1 wb] & EB & H).
      destruct (base_result _ _ _ _ _ _ _ EB) as (t & f & _ & _ & E).
      assert (E' : m_base w' = wb) by (injection H as _ <-; reflexivity). rewrite E', E. cbn [w_data]. congruence.
  Qed.

  (** An instant at which all modes vanish makes the file unreadable. *)
  Theorem C09_zero_sample_refuted : forall w tol lf f j ignore w', well_formed w -> w_frameType w = 4%Z -> (0 < tol)%R ->
    In (repeat C0 (w_n_modes w)) (w_rows w) -> save w tol lf = Ok (f, j) -> load ignore f (Some j) <> Ok w'.
  Proof.
    intros w tol lf f j ignore w' W F T I HS HL.
    pose proof (modes_positive w W) as PN. set (n := w_n_modes w) in *.
    assert (Hlo : (0 <= w_ell_min w)%Z) by (pose proof (wf_ell w W); lia).
    (* the file *)
    assert (HF : exists paired, map_res (to_pairs (w_ell_min w) (w_ell_max w)) (w_rows w) = Ok paired /\
       p_modes f = enc spec_xor (2 * n) (map (modes_words n) (map (truncate_row tol) paired))).
    { unfold Paired_Model.save in HS. destruct (Req_EM_T tol 0) as [|_]; [lra|]. rewrite F in HS. cbn [Z.eqb Pos.eqb rbind] in HS.
      rewrite F in HS. cbn [Z.eqb Pos.eqb negb] in HS.
      apply rbind_ok in HS. destruct HS as (paired & EP & HS). exists paired. split; [exact EP|].
      apply rbind_ok in HS. destruct HS as (log & _ & HS). rewrite xor_timeseries_eq in HS. cbn [rbind] in HS.
      rewrite (on_columns_total _ spec_xor) in HS by apply xor_timeseries_eq. cbn [rbind] in HS.
      apply rbind_ok in HS. destruct HS as (lw & _ & HS). apply rbind_ok in HS. destruct HS as (f0 & EW & HS).
      apply rbind_ok in HS. destruct HS as (j0 & _ & HS). assert (f0 = f) by congruence. subst f0.
      unfold truncate in EW. destruct (Req_EM_T tol 0) as [|_]; [lra|]. fold n in EW. eapply write_sets_modes; exact EW. }
    destruct HF as (paired & EP & EM).
    assert (LP : forall r, In r paired -> length r = n).
    { intros r Hr. destruct (map_res_back _ _ _ _ _ _ EP Hr) as (x & Hx & Ex).
      assert (Lx : length x = length (LM_range (w_ell_min w) (w_ell_max w))) by (rewrite (wf_row w W x Hx); apply (wf_modes w W)).
      destruct (to_pairs_modes _ _ Hlo x _ (has_modes_mode _ _ Hlo x Lx)) as (r2 & Q & [Q2 _]).
      assert (r2 = r) by congruence. subst. rewrite Q2. symmetry. apply (wf_modes w W). }
    assert (IN : In None (map (truncate_row tol) paired)).
    { destruct (map_res_In _ _ _ _ _ _ EP I) as (z & Z1 & Z2). apply in_map_iff. exists z. split; [|exact Z2].
      assert (Lx : length (repeat C0 n) = length (LM_range (w_ell_min w) (w_ell_max w))) by (rewrite repeat_length; apply (wf_modes w W)).
      pose proof (C08_norm_preserved _ _ _ _ Hlo Lx Z1) as NP. rewrite !row_norm_rsum in NP.
      assert (Z0 : rsum norm2 (repeat C0 n) = 0%R).
      { apply rsum_const0. intros x Hx. apply repeat_spec in Hx. subst. unfold norm2. simpl. lra. }
      unfold truncate_row, absolute_tolerance, row_abs. rewrite NP, Z0, sqrt_0, Rmult_0_l. destruct (Rltb_spec 0 0); [lra|reflexivity]. }
    assert (RW : row_width f = (2 * n)%nat).
    { unfold row_width. destruct (p_modes f) as [|r0 rs] eqn:E.
      - apply (f_equal (@length _)) in EM. rewrite enc_length, !map_length in EM. destruct paired; [destruct IN|discriminate].
      - apply (enc_width spec_xor (2 * n) (map (modes_words n) (map (truncate_row tol) paired))). rewrite <- EM. left; auto. }
    unfold Paired_Model.load in HL.
    apply rbind_ok in HL. destruct HL as (dt & _ & HL). destruct (negb (String.eqb (p_format f) format)); [discriminate|].
    do 3 (apply rbind_ok in HL; destruct HL as (? & _ & HL)).
    rewrite RW in HL. rewrite (on_columns_total _ spec_unxor) in HL by apply xor_reverse_eq. cbn [rbind] in HL.
    rewrite EM, dec_enc in HL.
    2: { intros r Hr. apply in_map_iff in Hr. destruct Hr as (o & <- & Ho). eapply words_of_option; eauto. }
    apply rbind_ok in HL. destruct HL as (lw & _ & HL). cbv zeta in HL.
    apply rbind_ok in HL. destruct HL as (d & _ & HL). apply rbind_ok in HL. destruct HL as ([b m] & EV & _).
    set (L := loaded _ _ _ _ _ _) in EV.
    destruct (modes_part_sound _ _ _ _ _ _ _ EV (or_intror eq_refl)) as (_ & wb & _ & bb & EB).
    pose proof (C17_modes_assertions _ _ _ _ _ _ EV) as (_ & _ & OB).
    assert (DM : w_data (m_base m) = w_data (m_base L)).
    { eapply modes_data_kept. exact EV. }
    destruct OB as [(sh & ts & k & _ & _ & _ & _ & dd & ED & _ & FD & _) _ _ _ _].
    rewrite DM in ED. unfold L, loaded in ED. cbn [m_base w_data] in ED. injection ED as <-. unfold all_finite in FD. cbn [vals] in FD.
    rewrite Forall_forall in FD. destruct (FD NaN) as [r R]; [|discriminate].
    apply in_flat_map. exists (NaN, NaN). split; [|left; reflexivity].
    apply in_concat. exists (repeat (NaN, NaN) n). split.
    - apply in_map_iff. exists (repeat (bits NaN) (2 * n)). split; [apply repeat_nan|].
      apply in_map_iff. exists None. split; [reflexivity|exact IN].
    - destruct n; [lia|]. left. reflexivity.
  Qed.

  (** A waveform with one rotor for several times is valid but cannot be saved. *)
  Theorem C09_constant_frame_refuted : forall w tol q, well_formed w -> (2 <= length (w_times w))%nat -> w_quats w = [q] ->
    (w_frameType w = 4%Z \/ tol = 0%R) -> forall f, save w tol None <> Ok f.
  Proof.
    intros w tol q W L Q F f HS. unfold Paired_Model.save in HS. destruct (Req_EM_T tol 0) as [E0|E0].
    - apply rbind_ok in HS. destruct HS as (f0 & HS & _). rewrite Q in HS. cbn [map] in HS. unfold write_sets in HS.
      destruct (Nat.eqb_spec (length (w_times w)) 0); [lia|]. cbn [length] in HS.
      replace (1 <? length (w_times w))%nat with true in HS by (symmetry; apply Nat.ltb_lt; lia). discriminate.
    - destruct F as [F|]; [|contradiction]. rewrite F in HS. cbn [Z.eqb Pos.eqb rbind] in HS. rewrite F in HS. cbn [Z.eqb Pos.eqb negb] in HS.
      apply rbind_ok in HS. destruct HS as (p & _ & HS). apply rbind_ok in HS. destruct HS as (log & EL & HS).
      apply rbind_ok in EL. destruct EL as (pw & _ & EL). rewrite Q in EL. cbn [map] in EL. assert (log = [round_log pw (qlog q)]) by congruence. subst log.
      do 2 (apply rbind_ok in HS; destruct HS as (? & _ & HS)).
      rewrite (on_columns_total _ spec_xor) in HS by apply xor_timeseries_eq. cbn [rbind] in HS.
      apply rbind_ok in HS. destruct HS as (f0 & HS & _). unfold write_sets in HS.
      destruct (Nat.eqb_spec (length (w_times w)) 0); [lia|].
      match type of HS with match ?e with _ => _ end = _ => assert (LE : length e = 1%nat) by (rewrite enc_length; reflexivity); destruct e as [|e0 es]; [discriminate|] end.
      cbn [length] in LE, HS. rewrite LE in HS. replace (1 <? length (w_times w))%nat with true in HS by (symmetry; apply Nat.ltb_lt; lia). discriminate.
  Qed.

  (** With zero tolerance [save] leaves out the conversions that [load] reverses: already a single sample of
      one mode comes back changed, without any error. *)
  Definition one_sample : hwave := mkhwave [0%R] [[C0; C0; C1]] 3 1 1 7 4 true true [] [] [] None None.
  Lemma one_sample_ok : well_formed one_sample /\ strictly_up (w_times one_sample).
  Proof.
    split.
    - constructor; cbn [one_sample w_ell_min w_ell_max w_n_modes w_rows w_times w_dataType].
      + lia.
      + reflexivity.
      + reflexivity.
      + intros r [<-|[]]. reflexivity.
      + discriminate.
      + unfold is_datatype; lia.
    - intros i j Hij. cbn in Hij. lia.
  Qed.
  Theorem C09_zero_tolerance_refuted : exists f j, save one_sample 0 None = Ok (f, j) /\
    exists w', load false f (Some j) = Ok w' /\ w_rows w' <> w_rows one_sample.
  Proof.
    destruct one_sample_ok as [W U].
    pose proof (C08_roundtrip_back 1 1 [C0; C0; C1] ltac:(lia) eq_refl) as (r & ER & _).
    destruct (describe_total one_sample (file_of one_sample [[C0; C0; C1]] []) (wf_type _ W)) as (j & EJ & _).
    exists (file_of one_sample [[C0; C0; C1]] []), j. split.
    - unfold Paired_Model.save. destruct (Req_EM_T 0 0) as [_|]; [|contradiction].
      assert (EW : write_sets one_sample (map (fun x => bits (Fin x)) (w_times one_sample))
                     (map (fun r => modes_words (w_n_modes one_sample) (Some r)) (w_rows one_sample))
                     (map vec_words (map (fun q => Some (qlog q)) (w_quats one_sample))) = Ok (file_of one_sample [[C0; C0; C1]] [])) by reflexivity.
      rewrite EW. cbn [rbind]. rewrite EJ. reflexivity.
    - exists (result one_sample [r] []). split.
      + apply written_loads; auto.
        * repeat constructor. apply double_0.
        * intros x [<-|[]]. split; [reflexivity|]. assert (double 1) by (apply (double_Z 1); reflexivity). repeat constructor; cbn; auto using double_0.
        * cbn [one_sample w_ell_min w_ell_max map_res]. rewrite ER. reflexivity.
      + cbn [result w_rows one_sample]. intros E. injection E as E. subst r.
        pose proof (from_pairs_modes 1 1 ltac:(lia) [C0; C0; C1] _ (has_modes_mode 1 1 ltac:(lia) [C0; C0; C1] eq_refl)) as (r2 & Q & [_ Q2]).
        rewrite ER in Q. injection Q as <-. specialize (Q2 1%Z 1%Z ltac:(split; lia)). cbn in Q2.
        injection Q2 as Q2.
        assert (S : (sqrt 2 * sqrt 2 = 2)%R) by (apply sqrt_sqrt; lra). assert (P : (0 < sqrt 2)%R) by (apply sqrt_lt_R0; lra).
        unfold inv_sqrt2 in Q2. assert (sqrt 2 = 1)%R; [|nra].
        apply Rmult_eq_reg_l with (/ sqrt 2)%R; [|apply Rinv_neq_0_compat; lra]. rewrite Rinv_l by lra. lra.
  Qed.
End Thms.

(** A waveform to which the round trip applies. *)
Definition sample : hwave := mkhwave [0; 1]%R [[C0; C1; C0]; [Ci; C0; C0]] 3 1 1 7 4 true true [q1; q1] [] [] None None.
Example C09_case : well_formed sample /\ strictly_up (w_times sample) /\ storable sample (/ 1000) /\
  (10 * / IZR (2 ^ 62) <= / 1000 < 20)%R /\ (forall q, In q (w_quats sample) -> within (IZR (2 ^ 52) * / 1000 / 20) (qx q, qy q, qz q)) /\
  ~ Forall (fun r => r = [C0; C1; C0]) (w_rows sample).
Proof.
  split; [|split; [|split; [|split; [|split]]]].
  - constructor; cbn [sample w_ell_min w_ell_max w_n_modes w_rows w_times w_dataType].
    + lia.
    + reflexivity.
    + reflexivity.
    + intros r [<-|[<-|[]]]; reflexivity.
    + discriminate.
    + unfold is_datatype; lia.
  - intros i j Hij. cbn in *. assert (i = 0%nat /\ j = 1%nat) as [-> ->] by lia. cbn. lra.
  - assert (S3 : (1 <= sqrt (INR 3) <= 2)%R).
    { cbn [INR]. split; [rewrite <- sqrt_1 at 1; apply sqrt_le_1_alt; lra|]. replace 2%R with (sqrt (2 * 2)) by (apply sqrt_square; lra). apply sqrt_le_1_alt. lra. }
    constructor; cbn [sample w_times w_n_modes w_rows].
    + repeat constructor; [apply double_0|apply (double_Z 1); reflexivity].
    + change (2 ^ 52)%Z with 4503599627370496%Z. lra.
    + intros r Hr. assert (N : row_abs r = 1%R).
      { destruct Hr as [<-|[<-|[]]]; unfold row_abs; rewrite <- sqrt_1; f_equal; cbn [rsum]; unfold norm2; cbn; ring. }
      rewrite N. unfold in_range_norm. pose proof (pow2_le (-1074) (-20) ltac:(lia)) as P1. pose proof (pow2_le 0 970 ltac:(lia)) as P2.
      assert (P3 : powerRZ 2 (-20) = (/ 1048576)%R) by (change (-20)%Z with (- (20))%Z; rewrite powerRZ_neg', pow2_Z by lia; reflexivity).
      rewrite P3 in P1. change (powerRZ 2 0) with 1%R in P2.
      assert (I : (/ 2 <= / sqrt (INR 3) <= 1)%R).
      { split; [apply Rinv_le_contravar; lra|]. rewrite <- Rinv_1. apply Rinv_le_contravar; lra. }
      unfold Rdiv. rewrite Rmult_1_r. set (u := (/ sqrt (INR 3))%R) in *. lra.
  - change (2 ^ 62)%Z with 4611686018427387904%Z. lra.
  - intros q [<-|[<-|[]]]; unfold within; cbn [fst snd q1 qx qy qz]; rewrite Rabs_R0; change (2 ^ 52)%Z with 4503599627370496%Z; lra.
  - intros H. inversion H; subst. inversion H3; subst. apply (f_equal (fun l => re (nth 1 l C0))) in H4. cbn in H4. lra.
Qed.
