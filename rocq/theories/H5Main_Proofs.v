(** * Round trip of waveform files: theorems (property C48) *)
From Coq Require Import String Ascii ZArith Reals List Bool Lia Lra Permutation Sorted.
From Verif Require Import Common Cplx Quat Times_Model Times_Proofs Modes_Model Modes_Proofs Tables_Model Tables_Proofs
  Validity_Model Validity_Proofs H5_Model H5Names_Proofs H5_Proofs.
Import ListNotations.
Open Scope list_scope.

(** Arrays of matching sizes, with at least one time. *)
Record well_formed (w : hwave) : Prop := {
  wf_ell : (0 <= w_ell_min w <= w_ell_max w)%Z;
  wf_modes : w_n_modes w = length (LM_range (w_ell_min w) (w_ell_max w));
  wf_rows : length (w_rows w) = length (w_times w);
  wf_row : forall r, In r (w_rows w) -> length r = w_n_modes w;
  wf_times : w_times w <> [];
  wf_type : is_datatype (w_dataType w) }.

(** ** The group that is written *)
Lemma write_modes_spec : forall mk mkd LM is k k', write_modes mk mkd LM is k = Ok k' ->
  k' = k ++ map (fun i => (mk (nth i LM (0, 0)%Z), mkd i)) is.
Proof.
  induction is as [|i is IH]; simpl; intros k k' H.
  - rewrite app_nil_r. congruence.
  - destruct (nth_error LM i) as [lm|] eqn:E; [|discriminate].
    apply rbind_ok in H. destruct H as (k1 & C & H). apply create_ok in C. destruct C as [_ ->].
    apply IH in H. rewrite H, <- app_assoc. simpl. rewrite (nth_error_nth _ _ _ E). reflexivity.
Qed.
Lemma write_modes_succeeds : forall mk mkd LM is k, (forall i, In i is -> (i < length LM)%nat) ->
  NoDup is -> (forall i j, In i is -> In j is -> mk (nth i LM (0, 0)%Z) = mk (nth j LM (0, 0)%Z) -> i = j) ->
  (forall i, In i is -> assoc (mk (nth i LM (0, 0)%Z)) k = None) ->
  exists k', write_modes mk mkd LM is k = Ok k'.
Proof.
  induction is as [|i is IH]; simpl; intros k B ND I F; [eauto|]. inversion ND; subst.
  destruct (nth_error LM i) as [lm|] eqn:E; [|apply nth_error_None in E; specialize (B i (or_introl eq_refl)); lia].
  pose proof (nth_error_nth _ _ (0, 0)%Z E) as E'.
  unfold create. rewrite <- E', F by auto. cbn [rbind]. apply IH; auto.
  intros j Hj. rewrite assoc_app, F by auto. simpl.
  destruct (String.eqb_spec (mk (nth i LM (0, 0)%Z)) (mk (nth j LM (0, 0)%Z))) as [Q|Q]; [|reflexivity].
  apply I in Q; auto. subst. contradiction.
Qed.

Section Thms.
  Variable show : hwave -> string.
  Variable born : string -> list string.
  Variable listing : list string -> list string.
  Hypothesis listing_perm : forall l, Permutation (listing l) l.
  Variable from_history : string -> string -> option (list R).
  Variable as_quat_array : arr -> option attr.
  Variable diff_nd : arr -> res bool.

  Notation read := (read_from_h5 born listing from_history as_quat_array diff_nd).
  Notation write := (write_to_h5 show).

  Definition tables (w : hwave) : list (string * node) :=
    map (fun i => (mode_name (nth i (LM_range (w_ell_min w) (w_ell_max w)) (0, 0)%Z),
                   table (w_times w) (column i (w_rows w)))) (seq 0 (w_n_modes w)).
  Definition text (w : hwave) (file : string) : string :=
    (join nl (w_history w) ++ nl ++ nl ++ "write_to_h5(" ++ show w ++ ", " ++ file ++ ")" ++ nl)%string.
  Definition clean_versions (w : hwave) : list (string * string) :=
    map (fun hm => (ascii_ignore (fst hm), ascii_ignore (snd hm))) (w_versions w).
  Definition version_node (w : hwave) : list (string * node) :=
    match w_versions w with [] => [] | _ => [("VersionHist.ver"%string, Pairs (clean_versions w))] end.
  Definition reserved : list string := ["FrameType"; "DataType"; "RIsScaledOut"; "MIsScaledOut"]%string.

  Lemma fill_spec : forall w file attrs g g', fill show w file attrs true g = Ok g' ->
    g_kids g' = g_kids g ++ ("History.txt"%string, Text (text w file)) :: version_node w ++ tables w /\
    (forall n, In n reserved -> assoc n attrs = None ->
       assoc n (g_attrs g') = assoc n [("FrameType"%string, AInt (w_frameType w));
          ("DataType"%string, match waveforms_to_GWFrames (w_dataType w) with Ok c => AInt c | Err _ => AInt 0 end);
          ("RIsScaledOut"%string, AInt (if w_r w then 1 else 0)); ("MIsScaledOut"%string, AInt (if w_m w then 1 else 0))]) /\
    (forall n, assoc n attrs = None -> ~ In n reserved -> n <> "OutputFormatVersion"%string -> assoc n (g_attrs g') = assoc n (g_attrs g)) /\
    (forall n v, NoDup (map fst attrs) -> assoc n attrs = Some v -> assoc n (g_attrs g') = Some v).
  Proof.
    intros w file attrs g g' H. unfold fill in H.
    apply rbind_ok in H. destruct H as (k1 & C1 & H). apply create_ok in C1. destruct C1 as [_ C1].
    apply rbind_ok in H. destruct H as (code & EC & H). rewrite EC.
    apply rbind_ok in H. destruct H as (k2 & C2 & H).
    apply rbind_ok in H. destruct H as (k3 & C3 & H).
    assert (E2 : k2 = k1 ++ version_node w).
    { unfold version_node. destruct (w_versions w) as [|v vs] eqn:EV.
      - rewrite app_nil_r. congruence.
      - apply create_ok in C2. destruct C2 as [_ ->]. unfold clean_versions. rewrite EV. reflexivity. }
    apply write_modes_spec in C3.
    assert (H' : mkgroup (put_all attrs (put "MIsScaledOut" (AInt (if w_m w then 1 else 0))
       (put "RIsScaledOut" (AInt (if w_r w then 1 else 0)) (put "DataType" (AInt code)
       (put "FrameType" (AInt (w_frameType w)) (put "OutputFormatVersion" (AStr "scri.SpEC") (g_attrs g))))))) k3 = g') by congruence.
    clear H. subst g'. cbn [g_kids g_attrs]. split; [|split; [|split]].
    - rewrite C3, E2, C1. fold (text w file). rewrite <- !app_assoc. reflexivity.
    - intros n Hn A. rewrite assoc_put_all_other by auto. cbn [reserved In] in Hn.
      destruct Hn as [<-|[<-|[<-|[<-|[]]]]].
      + rewrite !assoc_put_other by discriminate. apply assoc_put_same.
      + rewrite !assoc_put_other by discriminate. apply assoc_put_same.
      + rewrite !assoc_put_other by discriminate. apply assoc_put_same.
      + apply assoc_put_same.
    - intros n A Hn Ho. rewrite assoc_put_all_other by auto. cbn [reserved In] in Hn.
      rewrite !assoc_put_other by (intros <-; tauto). reflexivity.
    - intros n v ND A. apply assoc_put_all_in; auto.
  Qed.

  (** ** The modes that are read *)
  Definition plain (g : group) : Prop :=
    (forall n, In n (map fst (g_kids g)) -> matched n = false) /\ assoc "Frame" (g_kids g) = None
    /\ assoc "History.txt" (g_kids g) = None.

  Lemma LM_nonneg : forall a b lm, (0 <= a)%Z -> In lm (LM_range a b) -> (0 <= fst lm)%Z.
  Proof. intros a b [l m] H I. apply LM_range_In in I. cbn. lia. Qed.

  Lemma tables_names : forall w, well_formed w ->
    map fst (tables w) = map mode_name (LM_range (w_ell_min w) (w_ell_max w)).
  Proof.
    intros w W. unfold tables. rewrite map_map. cbn [fst]. rewrite (wf_modes w W).
    rewrite <- map_map. f_equal.
    apply (nth_ext _ _ (0, 0)%Z (0, 0)%Z); [rewrite map_length, seq_length; reflexivity|].
    intros n Hn. rewrite map_length, seq_length in Hn.
    set (LM := LM_range _ _) in *.
    rewrite (nth_indep _ (0, 0)%Z (nth 0 LM (0, 0)%Z)) by (rewrite map_length, seq_length; auto).
    rewrite (map_nth (fun i => nth i LM (0, 0)%Z)). rewrite seq_nth by auto. reflexivity.
  Qed.
  Lemma names_nodup : forall w, well_formed w -> NoDup (map fst (tables w)).
  Proof.
    intros w W. rewrite tables_names by auto. pose proof (LM_nodup (w_ell_min w) (w_ell_max w)) as ND.
    assert (P : forall lm, In lm (LM_range (w_ell_min w) (w_ell_max w)) -> (0 <= fst lm)%Z)
      by (intros lm; apply LM_nonneg, (wf_ell w W)).
    induction (LM_range (w_ell_min w) (w_ell_max w)) as [|x l IH]; simpl; [constructor|]. inversion ND; subst.
    constructor; [|apply IH; auto; intros; apply P; right; auto].
    intros K. apply in_map_iff in K. destruct K as (y & E & Hy).
    apply mode_name_inj in E; [subst; contradiction| |]; apply P; simpl; auto.
  Qed.

  Definition kids_of (w : hwave) (file : string) (old : list (string * node)) : list (string * node) :=
    old ++ ("History.txt"%string, Text (text w file)) :: version_node w ++ tables w.

  Lemma assoc_unmatched : forall A n (l : list (string * A)), (forall k, In k (map fst l) -> matched k = false) ->
    matched n = true -> assoc n l = None.
  Proof. intros A n l H M. apply assoc_notin. intros K. apply H in K. congruence. Qed.
  Lemma version_unmatched : forall w k, In k (map fst (version_node w)) -> k = "VersionHist.ver"%string.
  Proof. intros w k. unfold version_node. destruct (w_versions w); simpl; [tauto|]. intros [<-|[]]; reflexivity. Qed.

  Lemma table_lookup : forall w file old i, well_formed w -> (forall n, In n (map fst old) -> matched n = false) ->
    (i < w_n_modes w)%nat ->
    assoc (mode_name (nth i (LM_range (w_ell_min w) (w_ell_max w)) (0, 0)%Z)) (kids_of w file old)
    = Some (table (w_times w) (column i (w_rows w))).
  Proof.
    intros w file old i W U Hi. set (lm := nth i _ _).
    assert (M : matched (mode_name lm) = true).
    { destruct lm as [l m] eqn:E. apply matched_mode_name. change l with (fst (l, m)). rewrite <- E.
      apply (LM_nonneg (w_ell_min w) (w_ell_max w)); [apply (wf_ell w W)|]. apply nth_In. rewrite <- (wf_modes w W). auto. }
    unfold kids_of. rewrite assoc_app, assoc_unmatched by auto.
    change (("History.txt"%string, Text (text w file)) :: version_node w ++ tables w)
      with ([("History.txt"%string, Text (text w file))] ++ version_node w ++ tables w).
    rewrite assoc_app, assoc_unmatched; [|intros k [<-|[]]; reflexivity|auto].
    rewrite assoc_app, assoc_unmatched; [|intros k K; apply version_unmatched in K; subst; reflexivity|auto].
    apply assoc_in_nodup; [apply names_nodup; auto|]. unfold tables.
    apply in_map_iff. exists i. split; [reflexivity|]. apply in_seq. lia.
  Qed.

  Lemma mode_sets_written : forall w file old, well_formed w -> (forall n, In n (map fst old) -> matched n = false) ->
    mode_sets listing (kids_of w file old)
    = Ok (map named (LM_range (w_ell_min w) (w_ell_max w)), w_ell_min w, w_ell_max w).
  Proof.
    intros w file old W U. set (LM := LM_range (w_ell_min w) (w_ell_max w)).
    assert (NN : forall lm, In lm LM -> (0 <= fst lm)%Z) by (intros lm; apply LM_nonneg, (wf_ell w W)).
    assert (P : Permutation (filter matched (listing (map fst (kids_of w file old)))) (map mode_name LM)).
    { rewrite (filter_perm _ matched _ _ (listing_perm _)). unfold kids_of. rewrite map_app, filter_app.
      replace (filter matched (map fst old)) with (@nil string).
      2: { symmetry. clear -U. induction (map fst old) as [|n l IH]; simpl; auto. rewrite U by (left; auto). apply IH. intros; apply U; right; auto. }
      simpl map. cbn [filter]. change (matched "History.txt") with false. cbn [app]. rewrite map_app, filter_app.
      replace (filter matched (map fst (version_node w))) with (@nil string)
        by (unfold version_node; destruct (w_versions w); reflexivity).
      rewrite tables_names by auto. fold LM. cbn [app].
      replace (filter matched (map mode_name LM)) with (map mode_name LM); [reflexivity|].
      clear -NN. induction LM as [|[l m] LM IH]; [reflexivity|]. cbn [map filter].
      rewrite matched_mode_name by (apply (NN (l, m)); left; auto). f_equal. apply IH. intros; apply NN; right; auto. }
    apply Permutation_map_inv in P. destruct P as (LM' & E & P).
    unfold mode_sets. rewrite E.
    assert (NE : LM' <> []).
    { intros ->. apply Permutation_nil in P || apply Permutation_sym, Permutation_nil in P.
      assert (I : In (w_ell_min w, 0%Z) LM) by (apply LM_range_In; pose proof (wf_ell w W); lia). rewrite P in I. destruct I. }
    destruct (map mode_name LM') as [|s ss] eqn:EM; [destruct LM'; [congruence|discriminate]|]. rewrite <- EM. clear E s ss EM.
    rewrite (map_res_ok _ _ _ (fun n => (match key n with Ok k => k | Err _ => (0, 0)%Z end, n))).
    2: { intros n Hn. apply in_map_iff in Hn. destruct Hn as ([l m] & <- & H).
         rewrite key_mode_name; [reflexivity|]. apply (NN (l, m)). eapply Permutation_in; [apply Permutation_sym; exact P|exact H]. }
    cbn [rbind]. rewrite map_map.
    replace (map (fun x => (match key (mode_name x) with Ok k => k | Err _ => (0, 0)%Z end, mode_name x)) LM') with (map named LM').
    2: { apply map_ext_in. intros [l m] H. rewrite key_mode_name; [reflexivity|].
         apply (NN (l, m)). eapply Permutation_in; [apply Permutation_sym; exact P|exact H]. }
    rewrite sort_named. rewrite (zsort_LM (w_ell_min w) (w_ell_max w)) by (apply Permutation_sym; exact P).
    fold LM. rewrite map_map. replace (map (fun x => fst (named x)) LM) with LM by (symmetry; apply map_id).
    destruct (LM_extremes _ _ (wf_ell w W)) as [E1 E2]. fold LM in E1, E2. rewrite E1, E2. fold LM.
    replace (LM_eqb LM LM) with true by (symmetry; apply LM_eqb_eq; reflexivity). reflexivity.
  Qed.

  (** ** Times and columns *)
  Lemma table_rows : forall ts c, length c = length ts ->
    map (fun p : R * R * R => fst (fst p)) (map (fun p => (fst p, re (snd p), im (snd p))) (combine ts c)) = ts /\
    map (fun p : R * R * R => mkC (snd (fst p)) (snd p)) (map (fun p => (fst p, re (snd p), im (snd p))) (combine ts c)) = c.
  Proof.
    induction ts as [|t ts IH]; destruct c as [|x c]; simpl; intros H; try discriminate; auto.
    destruct (IH c) as [E1 E2]; [lia|]. rewrite E1, E2. destruct x; auto.
  Qed.
  Lemma column_length : forall i rows, length (column i rows) = length rows.
  Proof. intros. unfold column. apply map_length. Qed.
  Lemma transpose : forall rows n, (forall r, In r rows -> length r = n) ->
    map (fun k => map (fun c => nth k c C0) (map (fun i => column i rows) (seq 0 n))) (seq 0 (length rows)) = rows.
  Proof.
    intros rows n H. apply (nth_ext _ _ [] []); [rewrite map_length, seq_length; reflexivity|].
    intros k Hk. rewrite map_length, seq_length in Hk.
    set (f := fun k => map (fun c => nth k c C0) (map (fun i => column i rows) (seq 0 n))).
    rewrite (nth_indep _ [] (f 0%nat)) by (rewrite map_length, seq_length; auto). rewrite (map_nth f), seq_nth by auto.
    unfold f. rewrite map_map. cbn [plus].
    assert (L : length (nth k rows []) = n) by (apply H, nth_In; auto).
    apply (nth_ext _ _ C0 C0); [rewrite map_length, seq_length; auto|].
    intros i Hi. rewrite map_length, seq_length in Hi.
    set (g := fun i => nth k (column i rows) C0).
    rewrite (nth_indep _ C0 (g 0%nat)) by (rewrite map_length, seq_length; auto). rewrite (map_nth g), seq_nth by auto.
    unfold g, column. cbn [plus]. rewrite (nth_indep _ C0 ((fun r => nth i r C0) [])) by (rewrite map_length; auto).
    apply (map_nth (fun r => nth i r C0)).
  Qed.
  Lemma monotone_mask : forall T, T <> [] -> exists m, index_is_monotonic T = Ok m /\ length m = length T /\
    ((strictly_up T \/ strictly_down T) -> forall A (l : list A), length l = length T -> mask_select m l = l) /\
    (~ (strictly_up T \/ strictly_down T) -> (length (mask_select m T) < length T)%nat).
  Proof.
    intros T N. destruct (C10_flags_are_records T N) as (m & E & L & R). exists m. split; [exact E|]. split; [exact L|]. split.
    - intros M A l Hl. apply mask_select_all; [lia|]. intros i Hi.
      destruct (C10_keeps_monotone T N M) as [K _]. unfold spec_monotonic_indices in K. rewrite E in K. cbn [rmap] in K.
      assert (K' : mask_select m (seq 0 (length T)) = seq 0 (length T)) by congruence.
      assert (I : In i (mask_select m (seq 0 (length m)))) by (rewrite L, K'; apply in_seq; lia).
      apply mask_select_seq_In in I. rewrite Nat.sub_0_r in I. apply I.
    - intros M.
      assert (X : forall A (l : list A), length m = length l -> (length (mask_select m l) <= length l)%nat /\
         (length (mask_select m l) = length l -> forall i, (i < length l)%nat -> nth i m false = true)).
      { clear. intros A l. revert m. induction l as [|x l IH]; intros [|b m] Hl; simpl in *; try discriminate.
        - split; [lia|]. intros _ i Hi. lia.
        - destruct (IH m) as [I1 I2]; [lia|]. destruct b; simpl.
          + split; [lia|]. intros Q [|i] Hi; auto. apply I2; lia.
          + split; [lia|]. intros Q. lia. }
      destruct (X _ T L) as [X1 X2]. destruct (Nat.eq_dec (length (mask_select m T)) (length T)) as [Q|Q]; [|lia].
      exfalso. apply M. specialize (X2 Q). destruct (Rltb 0 (last T 0 - hd 0 T)).
      + left. intros i j Hij. assert (Hj : (j < length T)%nat) by lia. apply (proj1 (R j Hj) (X2 j Hj) i). lia.
      + right. intros i j Hij. assert (Hj : (j < length T)%nat) by lia. apply (proj1 (R j Hj) (X2 j Hj) i). lia.
  Qed.

  Lemma mono_dec : forall T, T <> [] -> (strictly_up T \/ strictly_down T) \/ ~ (strictly_up T \/ strictly_down T).
  Proof.
    intros T N. destruct (C10_flags_are_records T N) as (m & E & L & R).
    destruct (forallb (fun b => b) m) eqn:F.
    - left. rewrite forallb_forall in F.
      assert (X : forall i, (i < length T)%nat -> nth i m false = true) by (intros i Hi; apply F, nth_In; lia).
      destruct (Rltb 0 (last T 0 - hd 0 T)).
      + left. intros i j Hij. assert (Hj : (j < length T)%nat) by lia. apply (proj1 (R j Hj) (X j Hj) i). lia.
      + right. intros i j Hij. assert (Hj : (j < length T)%nat) by lia. apply (proj1 (R j Hj) (X j Hj) i). lia.
    - right. intros M. destruct (C10_keeps_monotone T N M) as [K _]. unfold spec_monotonic_indices in K. rewrite E in K. cbn [rmap] in K.
      assert (K' : mask_select m (seq 0 (length T)) = seq 0 (length T)) by congruence.
      assert (F' : forallb (fun b => b) m = true); [|congruence]. apply forallb_forall. intros b Hb.
      apply (In_nth _ _ false) in Hb. destruct Hb as (i & Hi & <-).
      assert (I : In i (mask_select m (seq 0 (length m)))) by (rewrite L, K'; apply in_seq; lia).
      apply mask_select_seq_In in I. rewrite Nat.sub_0_r in I. apply I.
  Qed.

  Lemma rows_of_written : forall w file old i, well_formed w -> (forall n, In n (map fst old) -> matched n = false) ->
    (i < w_n_modes w)%nat ->
    rows_of (kids_of w file old) (mode_name (nth i (LM_range (w_ell_min w) (w_ell_max w)) (0, 0)%Z))
    = Ok (map (fun p => (fst p, re (snd p), im (snd p))) (combine (w_times w) (column i (w_rows w)))).
  Proof.
    intros w file old i W U Hi. unfold rows_of. rewrite table_lookup by auto. unfold table.
    destruct (map _ (combine (w_times w) (column i (w_rows w)))) eqn:E; [|reflexivity]. exfalso.
    apply (f_equal (@length _)) in E. rewrite map_length, combine_length, column_length, (wf_rows w W) in E. simpl in E.
    pose proof (wf_times w W). destruct (w_times w); [congruence|]. simpl in E. lia.
  Qed.


  Lemma names_by_index : forall w, well_formed w ->
    map mode_name (LM_range (w_ell_min w) (w_ell_max w))
    = map (fun i => mode_name (nth i (LM_range (w_ell_min w) (w_ell_max w)) (0, 0)%Z)) (seq 0 (w_n_modes w)).
  Proof. intros w W. rewrite <- tables_names by auto. unfold tables. rewrite map_map. reflexivity. Qed.
  Lemma modes_positive : forall w, well_formed w -> (0 < w_n_modes w)%nat.
  Proof.
    intros w W. rewrite (wf_modes w W).
    assert (I : In (w_ell_min w, 0%Z) (LM_range (w_ell_min w) (w_ell_max w))) by (apply LM_range_In; pose proof (wf_ell w W); lia).
    destruct (LM_range (w_ell_min w) (w_ell_max w)); [destruct I|simpl; lia].
  Qed.

  Lemma read_modes_written : forall w file old, well_formed w -> (forall n, In n (map fst old) -> matched n = false) ->
    let r := read_modes (kids_of w file old) (map mode_name (LM_range (w_ell_min w) (w_ell_max w))) in
    ((strictly_up (w_times w) \/ strictly_down (w_times w)) -> r = Ok (w_times w, w_rows w)) /\
    (~ (strictly_up (w_times w) \/ strictly_down (w_times w)) -> r = Err ValueError).
  Proof.
    intros w file old W U r. subst r. rewrite names_by_index by auto.
    pose proof (modes_positive w W) as P.
    destruct (monotone_mask (w_times w) (wf_times w W)) as (m & E & L & Y & N).
    assert (CL : forall i, length (column i (w_rows w)) = length (w_times w))
      by (intros; rewrite column_length; apply (wf_rows w W)).
    unfold read_modes.
    destruct (map (fun i => mode_name _) (seq 0 (w_n_modes w))) as [|n0 ns] eqn:EM.
    { apply (f_equal (@length _)) in EM. rewrite map_length, seq_length in EM. simpl in EM. lia. }
    assert (E0 : n0 = mode_name (nth 0 (LM_range (w_ell_min w) (w_ell_max w)) (0, 0)%Z)).
    { destruct (w_n_modes w); [lia|]. simpl in EM. congruence. }
    assert (R0 := rows_of_written w file old 0 W U P). rewrite <- E0 in R0. rewrite R0. cbn [rbind].
    destruct (table_rows (w_times w) (column 0 (w_rows w)) (CL 0%nat)) as [-> _]. rewrite E. cbn [rbind].
    split; intros M.
    - specialize (Y M). rewrite (Y R) by auto. rewrite <- EM.
      rewrite (map_res_ok _ _ _ (fun n => match rows_of (kids_of w file old) n with
         Ok rows => map (fun p : R * R * R => mkC (snd (fst p)) (snd p)) rows | Err _ => [] end)).
      + cbn [rbind]. f_equal. f_equal. rewrite map_map.
        match goal with |- context [map (fun c => nth _ c C0) ?cs] =>
          assert (EC : cs = map (fun i => column i (w_rows w)) (seq 0 (w_n_modes w))) end.
        { apply map_ext_in. intros i Hi. apply in_seq in Hi. rewrite rows_of_written by (auto; lia). apply table_rows. auto. }
        rewrite EC, <- (wf_rows w W). apply transpose. apply (wf_row w W).
      + intros n Hn. apply in_map_iff in Hn. destruct Hn as (i & <- & Hi). apply in_seq in Hi.
        rewrite rows_of_written by (auto; lia). cbn [rbind].
        rewrite map_length, combine_length, CL, Nat.min_id, Nat.eqb_refl, L, Nat.eqb_refl.
        rewrite (Y C) by (rewrite !map_length, combine_length, CL, Nat.min_id; reflexivity). reflexivity.
    - specialize (N M). cbn [map_res]. rewrite R0. cbn [rbind].
      rewrite map_length, combine_length, CL, Nat.min_id.
      destruct (Nat.eqb_spec (length (w_times w)) (length (mask_select m (w_times w)))); [lia|]. reflexivity.
  Qed.

  (** ** The final check *)
  Lemma test_total : forall n v, exists n', test false n v = Ok n'.
  Proof. intros n v. unfold test. destruct v; eauto. Qed.
  Lemma base_total : forall w, exists b w', base_ensure_validity as_quat_array diff_nd true false (m_base (embed w)) = Ok (b, w').
  Proof.
    intros w. unfold base_ensure_validity, embed. cbv zeta. cbn [m_base w_t w_frame w_data w_hist w_ftype w_dtype w_rbool w_mbool w_numint].
    Ltac tstep := match goal with |- context [rbind (test false ?n ?v) _] =>
       let n' := fresh "n" in let E := fresh "E" in destruct (test_total n v) as [n' E]; rewrite E; clear E; cbn [rbind] end.
    tstep. cbn [as_arr rbind]. tstep.
    unfold alter_t. cbn [ndim shape length Nat.eqb andb nth_error].
    tstep. unfold times_increasing. cbn [ndim shape length Nat.eqb].
    set (sz := (size _ <=? 1)%nat). destruct sz; cbn [rbind].
    all: tstep; tstep; cbn [set_t set_frame set_hist w_t w_frame w_data w_hist w_ftype w_dtype w_rbool w_mbool w_numint alter_frame_none];
      tstep; cbn [as_arr rbind alter_frame_float dtype_eqb dt andb]; tstep; tstep; tstep; tstep;
      cbn [as_arr rbind]; tstep; unfold shape_at; cbn [shape nth_error rbind]; tstep; tstep;
      cbn [set_t set_frame set_hist w_t w_frame w_data w_hist w_ftype w_dtype w_rbool w_mbool w_numint];
      tstep; destruct (length (w_history w)); cbn [alter_hist hist_first rbind];
      repeat tstep; eauto.
  Qed.
  Lemma embed_valid : forall w, (0 <= w_ell_min w <= w_ell_max w)%Z ->
    w_n_modes w = length (LM_range (w_ell_min w) (w_ell_max w)) ->
    rmap fst (modes_ensure_validity as_quat_array diff_nd true false (embed w)) = Ok true.
  Proof.
    intros w H N. unfold modes_ensure_validity. cbv zeta.
    destruct (base_total w) as (b & w' & E).
    change (fst (m_ints (embed w))) with true. change (snd (m_ints (embed w))) with true. cbn [test rbind].
    change (m_lmin (embed w)) with (w_ell_min w). change (m_lmax (embed w)) with (w_ell_max w).
    change (m_LM (embed w)) with (LM_range (w_ell_min w) (w_ell_max w)).
    replace (0 <=? w_ell_min w)%Z with true by (symmetry; lia). cbn [test rbind].
    replace (w_ell_min w - 1 <=? w_ell_max w)%Z with true by (symmetry; lia). cbn [test rbind].
    assert (EL : LM_eqb (LM_range (w_ell_min w) (w_ell_max w)) (LM_range (w_ell_min w) (w_ell_max w)) = true)
      by (apply LM_eqb_eq; reflexivity).
    rewrite EL. cbn [negb andb].
    change (m_LM (embed w)) with (LM_range (w_ell_min w) (w_ell_max w)). rewrite EL. cbn [test rbind].
    change (w_data (m_base (embed w))) with (Arr (mkarr DComplex [length (w_rows w); w_n_modes w] (map (fun c => Fin (re c)) (concat (w_rows w))))).
    cbn [as_arr rbind dt dtype_eqb test ndim shape length Nat.leb shape_at nth_error]. rewrite <- N, Nat.eqb_refl. cbn [test rbind Nat.eqb negb].
    rewrite E. reflexivity.
  Qed.

  (** ** Groups inside a file *)
  Lemma put_lookup : forall p g k k' a, put_at p g k = Ok k' -> lookup p (mkgroup a k') = Ok g.
  Proof.
    induction p as [|n p IH]; intros g k k' a H; [discriminate|]. cbn [lookup g_kids].
    destruct p as [|n' p].
    - apply create_ok in H. destruct H as [N ->]. rewrite assoc_app, N. simpl. rewrite String.eqb_refl. destruct g; reflexivity.
    - change (put_at (n :: n' :: p) g k) with (match assoc n k with
        | None => let? k1 := put_at (n' :: p) g [] in Ok (k ++ [(n, Grp [] k1)])
        | Some (Grp a1 k1) => let? k2 := put_at (n' :: p) g k1 in Ok (put n (Grp a1 k2) k)
        | Some _ => Err ValueError end) in H.
      destruct (assoc n k) as [v|] eqn:N.
      + destruct v; try discriminate. apply rbind_ok in H. destruct H as (k2 & P & H).
        assert (H' : k' = put n (Grp attrs k2) k) by congruence. subst k'. rewrite assoc_put_same. exact (IH _ _ _ _ P).
      + apply rbind_ok in H. destruct H as (k2 & P & H). assert (H' : k' = k ++ [(n, Grp [] k2)]) by congruence. subst k'.
        rewrite assoc_app, N. simpl assoc. rewrite String.eqb_refl. exact (IH _ _ _ _ P).
  Qed.
  (** Two paths of which neither is inside the other. *)
  Inductive apart : list string -> list string -> Prop :=
    | apart_here : forall n n' r r', n <> n' -> apart (n :: r) (n' :: r')
    | apart_below : forall n r r', apart r r' -> apart (n :: r) (n :: r').
  Lemma put_elsewhere : forall p q, apart p q -> forall g k k' a, put_at p g k = Ok k' ->
    lookup q (mkgroup a k') = lookup q (mkgroup a k).
  Proof.
    induction 1 as [n n' r r' N|n r r' A IH]; intros g k k' a H.
    - cbn [lookup g_kids]. replace (assoc n' k') with (assoc n' k); [reflexivity|]. destruct r as [|m r].
      + apply create_ok in H. destruct H as [_ ->]. rewrite assoc_app. destruct (assoc n' k); auto. simpl.
        destruct (String.eqb_spec n n'); [congruence|reflexivity].
      + cbn [put_at] in H. fold put_at in H. destruct (assoc n k) as [v|] eqn:E.
        * destruct v; try discriminate. apply rbind_ok in H. destruct H as (k2 & P & H).
          assert (H' : k' = put n (Grp attrs k2) k) by congruence. subst k'. rewrite assoc_put_other; auto.
        * apply rbind_ok in H. destruct H as (k2 & P & H). assert (H' : k' = k ++ [(n, Grp [] k2)]) by congruence. subst k'.
          rewrite assoc_app. destruct (assoc n' k); auto. simpl. destruct (String.eqb_spec n n'); [congruence|reflexivity].
    - cbn [lookup g_kids]. destruct r as [|m r]; [inversion A|].
      change (put_at (n :: m :: r) g k) with (match assoc n k with
        | None => let? k1 := put_at (m :: r) g [] in Ok (k ++ [(n, Grp [] k1)])
        | Some (Grp a1 k1) => let? k2 := put_at (m :: r) g k1 in Ok (put n (Grp a1 k2) k)
        | Some _ => Err ValueError end) in H.
      destruct (assoc n k) as [v|] eqn:E.
      + destruct v; try discriminate. apply rbind_ok in H. destruct H as (k2 & P & H).
        assert (H' : k' = put n (Grp attrs k2) k) by congruence. subst k'. rewrite assoc_put_same. exact (IH _ _ _ _ P).
      + apply rbind_ok in H. destruct H as (k2 & P & H). assert (H' : k' = k ++ [(n, Grp [] k2)]) by congruence. subst k'.
        rewrite assoc_app, E. simpl. rewrite String.eqb_refl. rewrite (IH _ _ _ [] P).
        destruct r' as [|m' r']; [inversion A|]. reflexivity.
  Qed.

  (** ** File names *)
  (** The file and the group a waveform is written to. *)
  Definition place (w : hwave) (name file grp : string) : Prop :=
    exists desc, descriptor_string (w_dataType w) (w_r w) (w_m w) = Ok desc /\ write_target desc name = Ok (file, grp).

  Lemma split_last_suffix : forall a s, has_slash s = false ->
    split_last (a ++ s)%string = (fst (split_last a), (snd (split_last a) ++ s)%string).
  Proof.
    induction a as [|c a IH]; intros s H; [apply split_last_noslash; auto|].
    change (String c a ++ s)%string with (String c (a ++ s)). cbn [split_last]. rewrite IH by auto.
    destruct (split_last a) as [x y]. cbn [fst snd]. destruct (is_empty x && negb (Ascii.eqb c slash)); reflexivity.
  Qed.
  Lemma target_spec : forall desc name file grp, contains ".h5" name = true -> write_target desc name = Ok (file, grp) ->
    free_of_h5 grp /\ exists b, name = (b ++ ".h5" ++ grp)%string /\ exists X, file = (X ++ ".h5")%string /\
    file = (let f := (b ++ ".h5")%string in
            if is_empty (dirname f) then (desc ++ "_") ++ basename f else path_join (dirname f) ((desc ++ "_") ++ basename f))%string.
  Proof.
    intros desc name file grp C H. unfold write_target in H. rewrite C in H. cbn [andb] in H.
    apply rbind_ok in H. destruct H as ([f0 g0] & E & H).
    assert (B : g0 = grp /\ (if is_empty (dirname f0) then desc ++ "_" ++ basename f0 else path_join (dirname f0) (desc ++ "_" ++ basename f0))%string = file)
      by (split; congruence). clear H. destruct B as [-> B].
    assert (K : free_of_h5 grp /\ exists b, name = (b ++ ".h5" ++ grp)%string /\ f0 = (b ++ ".h5")%string).
    { destruct (ends_with ".h5" name) eqn:EW; cbn [negb] in E.
      - assert (f0 = name /\ grp = EmptyString) as [-> ->] by (split; congruence). split; [apply free_empty|].
        unfold ends_with in EW. destruct (rcut ".h5" name) as [[a b]|] eqn:RC; [|discriminate]. destruct b; [|discriminate].
        apply rcut_some in RC. exists a. split; [exact RC|]. rewrite RC. reflexivity.
      - destruct (cut ".h5" name) as [[a b]|] eqn:CU; [|discriminate]. destruct (contains ".h5" b) eqn:CB; [discriminate|].
        assert (f0 = (a ++ ".h5")%string /\ grp = b) as [-> ->] by (split; congruence).
        split; [apply contains_free; auto|]. exists a. split; [apply cut_some; auto|reflexivity]. }
    destruct K as [F (b & N & ->)]. split; [exact F|]. exists b. split; [exact N|].
    assert (BN : basename (b ++ ".h5")%string = (basename b ++ ".h5")%string).
    { unfold basename. rewrite split_last_suffix by reflexivity. reflexivity. }
    cbv zeta. rewrite app_assoc_s. rewrite BN in *.
    destruct (is_empty (dirname (b ++ ".h5")%string)) eqn:ED.
    - exists (desc ++ "_" ++ basename b)%string. split; [|symmetry; exact B]. rewrite <- B, !app_assoc_s. reflexivity.
    - unfold path_join in *. rewrite ED in *. destruct (all_slashes (dirname (b ++ ".h5")%string)).
      + exists (dirname (b ++ ".h5") ++ desc ++ "_" ++ basename b)%string. split; [|symmetry; exact B]. rewrite <- B, !app_assoc_s. reflexivity.
      + exists (dirname (b ++ ".h5") ++ "/" ++ desc ++ "_" ++ basename b)%string. split; [|symmetry; exact B].
        rewrite <- B, !app_assoc_s. reflexivity.
  Qed.
  Lemma read_target_spec : forall desc name file grp, contains ".h5" name = true -> write_target desc name = Ok (file, grp) ->
    read_target (file ++ grp) = (file, grp).
  Proof.
    intros desc name file grp C H. destruct (target_spec _ _ _ _ C H) as (F & b & _ & X & -> & _).
    unfold read_target. rewrite app_assoc_s, rcut_last by auto. reflexivity.
  Qed.

  (** ** Reading a written group *)
  Definition result (w : hwave) (f g : group) (file name : string) : hwave :=
    mkhwave (w_times w) (w_rows w) (w_n_modes w) (w_ell_min w) (w_ell_max w) (w_dataType w) (w_frameType w) (w_r w) (w_m w) []
      (born name ++ [""%string] ++ [depth 2 "<previous_history>"] ++ map (depth 1) (lines (text w file)) ++ [depth 2 "</previous_history>"])
      (versions f) (com_vector from_history "space_translation" g (Some (text w file)))
      (com_vector from_history "boost_velocity" g (Some (text w file))).

  Lemma assoc_kids_of : forall w file old n, well_formed w -> assoc n old = None -> matched n = false ->
    n <> "History.txt"%string -> assoc n (kids_of w file old) = assoc n (version_node w).
  Proof.
    intros w file old n W A M H. unfold kids_of. rewrite assoc_app, A. cbn [assoc].
    destruct (String.eqb_spec "History.txt" n); [congruence|]. rewrite assoc_app.
    destruct (assoc n (version_node w)); auto. apply assoc_notin. rewrite tables_names by auto. intros K.
    apply in_map_iff in K. destruct K as ([l m] & <- & I). rewrite matched_mode_name in M; [discriminate|].
    apply (LM_nonneg _ _ (l, m)) in I; auto. apply (wf_ell w W).
  Qed.

  Lemma read_written : forall w file old g g' d f name grp kw,
    well_formed w -> plain old -> fill show w file g true old = Ok g' -> (forall n, In n reserved -> assoc n g = None) ->
    read_target name = (file, grp) -> assoc file d = Some f ->
    (if is_empty grp then f = g' else lookup (components grp) f = Ok g') ->
    ((strictly_up (w_times w) \/ strictly_down (w_times w)) -> read d name kw = Ok (result w f g' file name)) /\
    (~ (strictly_up (w_times w) \/ strictly_down (w_times w)) -> read d name kw = Err ValueError).
  Proof.
    intros w file old g g' d f name grp kw W (PL & PF & PH) FI RES RT AF LK.
    destruct (fill_spec _ _ _ _ _ FI) as (K & A & _ & _). fold (kids_of w file (g_kids old)) in K.
    destruct (C13_round_trip _ (wf_type w W)) as (code & TC & CT). rewrite TC in A.
    unfold read_from_h5. rewrite RT, AF. cbn [rbind].
    assert (LK' : (if is_empty grp then Ok f else lookup (components grp) f) = Ok g')
      by (destruct (is_empty grp); [f_equal; exact LK|exact LK]).
    rewrite LK'. cbn [rbind]. clear LK LK'.
    assert (EH : assoc "History.txt" (g_kids g') = Some (Text (text w file))).
    { rewrite K. unfold kids_of. rewrite assoc_app, PH. reflexivity. }
    assert (EF : assoc "Frame" (g_kids g') = None).
    { rewrite K, assoc_kids_of by (auto; discriminate). unfold version_node. destruct (w_versions w); reflexivity. }
    rewrite EH. cbn [rbind]. rewrite EF. cbn [rbind].
    unfold frame_type, data_type, scaled, get_attr.
    rewrite !A by (try (apply RES); cbn [reserved In]; tauto).
    cbn [assoc String.eqb Ascii.eqb Bool.eqb rbind as_int as_bool or_else]. rewrite CT. cbn [or_else rbind].
    assert (BR : forall b : bool, negb ((if b then 1 else 0) =? 0)%Z = b) by (destruct b; reflexivity). rewrite !BR.
    rewrite K. rewrite mode_sets_written by auto. cbn [rbind]. rewrite map_length.
    assert (MN : forall l, map snd (map named l) = map mode_name l) by (intros l; rewrite map_map; reflexivity). rewrite MN.
    destruct (read_modes_written w file (g_kids old) W PL) as [Y N]. split; intros M.
    - rewrite (Y M). cbn [rbind]. rewrite <- (wf_modes w W).
      rewrite embed_valid; [|apply (wf_ell w W)|apply (wf_modes w W)]. cbn [rbind]. reflexivity.
    - rewrite (N M). reflexivity.
  Qed.

  (** ** Theorems *)
  (** The file is new or overwritten, or a group of its own is created. *)
  Definition separate (d : fs) (file grp mode : string) : Prop :=
    grp <> ""%string \/ mode = "w"%string \/ assoc file d = None.
  (** Everything the file format holds. *)
  Definition same_content (w w' : hwave) : Prop :=
    w_times w' = w_times w /\ w_rows w' = w_rows w /\ w_n_modes w' = w_n_modes w /\
    w_ell_min w' = w_ell_min w /\ w_ell_max w' = w_ell_max w /\ w_dataType w' = w_dataType w /\
    w_frameType w' = w_frameType w /\ w_r w' = w_r w /\ w_m w' = w_m w.
  Definition no_reserved (attrs : list (string * aval)) : Prop :=
    forall n, In n ["FrameType"; "DataType"; "RIsScaledOut"; "MIsScaledOut"]%string -> assoc n attrs = None.

  Lemma empty_plain : plain empty_group.
  Proof. split; [intros n []|split; reflexivity]. Qed.
  Lemma opened : forall mode old f, open_for_write mode old = Ok f -> mode = "w"%string \/ old = None -> f = empty_group.
  Proof.
    intros mode old f H D. unfold open_for_write in H. destruct D as [-> | ->].
    - cbn in H. congruence.
    - destruct (String.eqb mode "w"); [congruence|]. destruct (String.eqb mode "a"); [congruence|].
      destruct (String.eqb mode "r+"); [discriminate|]. destruct (String.eqb mode "w-" || String.eqb mode "x"); [congruence|].
      destruct (String.eqb mode "r"); discriminate.
  Qed.
  Lemma is_empty_spec : forall s, is_empty s = true <-> s = ""%string.
  Proof. destruct s; simpl; split; congruence. Qed.

  Lemma written : forall d d' w name mode attrs nrar file grp, place w name file grp -> separate d file grp mode ->
    write d w name mode attrs nrar = Ok d' ->
    exists f0 f g, open_for_write mode (assoc file d) = Ok f0 /\ d' = put file f d /\
      fill show w file attrs nrar empty_group = Ok g /\
      (if is_empty grp then f0 = empty_group /\ f = g
       else put_at (components grp) g (g_kids f0) = Ok (g_kids f) /\ g_attrs f = g_attrs f0).
  Proof.
    intros d d' w name mode attrs nrar file grp (desc & D & T) S H. unfold write_to_h5 in H. rewrite D in H. cbn [rbind] in H.
    rewrite T in H. cbn [rbind] in H.
    apply rbind_ok in H. destruct H as (f0 & O0 & H). apply rbind_ok in H. destruct H as (f & F & H).
    assert (H' : d' = put file f d) by congruence. clear H. exists f0, f. destruct (is_empty grp) eqn:EG.
    - assert (f0 = empty_group).
      { eapply opened; [exact O0|]. destruct S as [S|S]; [|exact S]. destruct grp; [congruence|discriminate]. }
      subst f0. exists f. auto.
    - apply rbind_ok in F. destruct F as (g & G & F). apply rbind_ok in F. destruct F as (k & K & F).
      exists g. assert (F' : f = mkgroup (g_attrs f0) k) by congruence. subst f. cbn [g_kids g_attrs]. auto.
  Qed.
  Lemma written_lookup : forall f0 f g grp, (if is_empty grp then f0 = empty_group /\ f = g
       else put_at (components grp) g (g_kids f0) = Ok (g_kids f) /\ g_attrs f = g_attrs f0) ->
    if is_empty grp then f = g else lookup (components grp) f = Ok g.
  Proof.
    intros f0 f g grp H. destruct (is_empty grp); [tauto|]. destruct H as [P _]. destruct f as [a k]. eapply put_lookup; eauto.
  Qed.

  (** Writing a waveform and reading it back under the name of the file that was made, followed by
      the group, gives the same content exactly when the times are strictly monotone, whatever the
      keyword arguments; otherwise the file cannot be read.  The frame is not stored. *)
  Theorem C48_round_trip : forall d d' w name mode attrs file grp,
    well_formed w -> contains ".h5" name = true -> place w name file grp -> separate d file grp mode ->
    no_reserved attrs -> write d w name mode attrs true = Ok d' ->
    (strictly_up (w_times w) \/ strictly_down (w_times w)) ->
    exists w', (forall kw, read d' (file ++ grp) kw = Ok w') /\ same_content w w' /\ w_quats w' = [] /\
    exists before after,
      w_history w' = before ++ map (fun l => ("# " ++ l)%string) (flat_map lines (w_history w)) ++ after.
  Proof.
    intros d d' w name mode attrs file grp W C P S NR H M.
    destruct (written _ _ _ _ _ _ _ _ _ P S H) as (f0 & f & g & O0 & -> & F & G).
    pose proof P as (desc & D & T).
    exists (result w f g file (file ++ grp)). split; [|split; [|split]].
    - intros kw. eapply (read_written w file empty_group attrs g _ f (file ++ grp) grp kw); auto.
      + apply empty_plain.
      + eapply read_target_spec; eauto.
      + apply assoc_put_same.
      + eapply written_lookup; eauto.
    - repeat split.
    - reflexivity.
    - cbn [result w_history]. destruct (w_history w) as [|x l] eqn:EH.
      + exists [], (born (file ++ grp) ++ [""%string] ++ [depth 2 "<previous_history>"] ++ map (depth 1) (lines (text w file)) ++ [depth 2 "</previous_history>"]).
        reflexivity.
      + destruct (lines_join (x :: l) (nl ++ "write_to_h5(" ++ show w ++ ", " ++ file ++ ")" ++ nl)%string) as [t' E]; [discriminate|].
        exists (born (file ++ grp) ++ [""%string] ++ [depth 2 "<previous_history>"]), (map (depth 1) t' ++ [depth 2 "</previous_history>"]).
        unfold text. rewrite EH, E, map_app. rewrite <- !app_assoc. reflexivity.
  Qed.
  Theorem C48_not_monotone_rejected : forall d d' w name mode attrs file grp kw,
    well_formed w -> contains ".h5" name = true -> place w name file grp -> separate d file grp mode ->
    no_reserved attrs -> write d w name mode attrs true = Ok d' ->
    ~ (strictly_up (w_times w) \/ strictly_down (w_times w)) ->
    read d' (file ++ grp) kw = Err ValueError.
  Proof.
    intros d d' w name mode attrs file grp kw W C P S NR H M.
    destruct (written _ _ _ _ _ _ _ _ _ P S H) as (f0 & f & g & O0 & -> & F & G).
    pose proof P as (desc & D & T).
    eapply (read_written w file empty_group attrs g _ f (file ++ grp) grp kw); auto.
    - apply empty_plain.
    - eapply read_target_spec; eauto.
    - apply assoc_put_same.
    - eapply written_lookup; eauto.
  Qed.

  Lemma all_ascii_ignore : forall s, all_ascii (ascii_ignore s) = true.
  Proof. induction s as [|c s IH]; simpl; auto. destruct (is_ascii c) eqn:E; simpl; [rewrite E|]; auto. Qed.
  Lemma ascii_ignore_id : forall s, all_ascii s = true -> ascii_ignore s = s.
  Proof. induction s as [|c s IH]; simpl; intros H; auto. apply andb_true_iff in H. destruct H as [-> H]. rewrite IH; auto. Qed.

  (** The version history survives (in ASCII) in a file without groups, and is lost in a group. *)
  Theorem C48_versions : forall d d' w name mode attrs file grp w' kw,
    well_formed w -> contains ".h5" name = true -> place w name file grp ->
    mode = "w"%string \/ assoc file d = None ->
    no_reserved attrs -> write d w name mode attrs true = Ok d' -> read d' (file ++ grp) kw = Ok w' ->
    (forall a b, In (a, b) (w_versions w) -> all_ascii a = true /\ all_ascii b = true) ->
    w_versions w' = if is_empty grp then w_versions w else [].
  Proof.
    intros d d' w name mode attrs file grp w' kw W C P S NR H RD AS.
    destruct (written _ _ _ _ _ _ _ _ _ P (or_intror S) H) as (f0 & f & g & O0 & -> & F & G).
    pose proof P as (desc & D & T). pose proof (opened _ _ _ O0 S) as ->.
    assert (RW : (strictly_up (w_times w) \/ strictly_down (w_times w)) -> w_versions w' = versions f).
    { intros M. assert (X : read (put file f d) (file ++ grp) kw = Ok (result w f g file (file ++ grp))).
      { eapply (read_written w file empty_group attrs g _ f (file ++ grp) grp kw); auto.
        - apply empty_plain. - eapply read_target_spec; eauto. - apply assoc_put_same. - eapply written_lookup; eauto. }
      rewrite X in RD. assert (E : w' = result w f g file (file ++ grp)) by congruence. rewrite E. reflexivity. }
    assert (M : strictly_up (w_times w) \/ strictly_down (w_times w)).
    { destruct (mono_dec (w_times w) (wf_times w W)) as [M|M]; [exact M|].
      rewrite (C48_not_monotone_rejected d (put file f d) w name mode attrs file grp kw) in RD; auto; [discriminate|right; exact S]. }
    rewrite (RW M). unfold versions. destruct (is_empty grp).
    - destruct G as [_ ->]. destruct (fill_spec _ _ _ _ _ F) as (K & _). rewrite K. cbn [g_kids empty_group app].
      change (assoc "VersionHist.ver" (("History.txt"%string, Text (text w file)) :: version_node w ++ tables w))
        with (assoc "VersionHist.ver" (version_node w ++ tables w)). rewrite assoc_app.
      unfold version_node, clean_versions. destruct (w_versions w) as [|v vs] eqn:EV.
      + cbn [assoc]. rewrite assoc_notin; [reflexivity|]. rewrite tables_names by auto. intros K2.
        apply in_map_iff in K2. destruct K2 as ([l m] & E & I). apply (f_equal matched) in E.
        rewrite matched_mode_name in E; [discriminate|]. apply (LM_nonneg _ _ (l, m)) in I; auto. apply (wf_ell w W).
      + rewrite <- EV in *. cbn [assoc String.eqb Ascii.eqb Bool.eqb].
        replace (forallb _ _) with true.
        * rewrite <- (map_id (w_versions w)) at 2. apply map_ext_in. intros [a b] I. destruct (AS a b I).
          cbn [fst snd]. rewrite !ascii_ignore_id; auto.
        * symmetry. apply forallb_forall. intros [a b] I. apply in_map_iff in I. destruct I as ([a' b'] & E & _).
          cbn [fst snd] in E. injection E as <- <-. cbn [fst snd]. rewrite !all_ascii_ignore. reflexivity.
    - destruct G as [G _]. cbn [empty_group g_kids] in G. destruct (components grp) as [|n [|n' r]]; [discriminate| |].
      + apply create_ok in G. destruct G as [_ ->]. cbn [app assoc]. destruct (String.eqb n "VersionHist.ver"); reflexivity.
      + cbn [put_at assoc] in G. fold put_at in G. apply rbind_ok in G. destruct G as (k & _ & G).
        assert (E : g_kids f = [(n, Grp [] k)]) by (cbn [app] in G; congruence). rewrite E. cbn [assoc].
        destruct (String.eqb n "VersionHist.ver"); reflexivity.
  Qed.

  (** Center-of-mass vectors passed as attributes are returned with the waveform. *)
  Theorem C48_com_vectors : forall d d' w name mode attrs file grp w' kw u v,
    well_formed w -> contains ".h5" name = true -> place w name file grp -> separate d file grp mode ->
    no_reserved attrs -> NoDup (map fst attrs) -> write d w name mode attrs true = Ok d' ->
    read d' (file ++ grp) kw = Ok w' ->
    assoc "space_translation" attrs = Some (AVec u) -> assoc "boost_velocity" attrs = Some (AVec v) ->
    w_space w' = Some u /\ w_boost w' = Some v.
  Proof.
    intros d d' w name mode attrs file grp w' kw u v W C P S NR ND H RD Eu Ev.
    destruct (written _ _ _ _ _ _ _ _ _ P S H) as (f0 & f & g & O0 & -> & F & G).
    pose proof P as (desc & D & T).
    destruct (mono_dec (w_times w) (wf_times w W)) as [M|M].
    2: { rewrite (C48_not_monotone_rejected d (put file f d) w name mode attrs file grp kw) in RD; auto. discriminate. }
    assert (X : read (put file f d) (file ++ grp) kw = Ok (result w f g file (file ++ grp))).
    { eapply (read_written w file empty_group attrs g _ f (file ++ grp) grp kw); auto.
      - apply empty_plain. - eapply read_target_spec; eauto. - apply assoc_put_same. - eapply written_lookup; eauto. }
    rewrite X in RD. assert (E : w' = result w f g file (file ++ grp)) by congruence. rewrite E. cbn [result w_space w_boost].
    destruct (fill_spec _ _ _ _ _ F) as (_ & _ & _ & A). unfold com_vector.
    rewrite (A _ _ ND Eu), (A _ _ ND Ev). auto.
  Qed.

  (** Writing into another group of an existing file does not change what is read from this one. *)
  Theorem C48_other_group : forall d d' w name mode attrs nrar file grp grp' kw,
    place w name file grp -> grp <> ""%string -> In mode ["a"; "r+"]%string -> assoc file d <> None ->
    write d w name mode attrs nrar = Ok d' ->
    free_of_h5 grp' -> apart (components grp) (components grp') ->
    ~ (exists r, components grp = "VersionHist.ver"%string :: r) -> (exists X, file = (X ++ ".h5")%string) -> grp' <> ""%string ->
    read d' (file ++ grp') kw = read d (file ++ grp') kw.
  Proof.
    intros d d' w name mode attrs nrar file grp grp' kw P NE MO EX H FR AP NV (X & EF) NE'.
    destruct (written _ _ _ _ _ _ _ _ _ P (or_introl NE) H) as (f0 & f & g & O0 & -> & F & G).
    unfold read_from_h5.
    assert (RT : read_target (file ++ grp') = (file, grp')).
    { unfold read_target. rewrite EF, app_assoc_s, rcut_last by auto. reflexivity. }
    rewrite RT, assoc_put_same. destruct (assoc file d) as [f1|] eqn:E1; [|congruence].
    assert (f0 = f1).
    { unfold open_for_write in O0. destruct MO as [<-|[<-|[]]]; cbn in O0; congruence. } subst f1.
    cbn [rbind]. destruct (is_empty grp) eqn:EG; [apply is_empty_spec in EG; congruence|].
    destruct (is_empty grp') eqn:EG'; [apply is_empty_spec in EG'; congruence|].
    destruct G as [PT GA]. destruct f as [a k]. destruct f0 as [a0 k0]. cbn [g_kids g_attrs] in *. subst a0.
    rewrite (put_elsewhere _ _ AP _ _ _ a PT).
    assert (V : versions (mkgroup a k) = versions (mkgroup a k0)).
    { unfold versions. cbn [g_kids]. destruct (components grp) as [|n r]; [discriminate|].
      assert (N : n <> "VersionHist.ver"%string) by (intros ->; apply NV; eauto).
      assert (Q : lookup ["VersionHist.ver"%string] (mkgroup a k) = lookup ["VersionHist.ver"%string] (mkgroup a k0)).
      { eapply put_elsewhere; [apply apart_here; exact N|exact PT]. }
      assert (Q2 : assoc "VersionHist.ver" k = assoc "VersionHist.ver" k0); [|rewrite Q2; reflexivity].
      destruct r as [|m r].
      - apply create_ok in PT. destruct PT as [_ ->]. rewrite assoc_app. destruct (assoc "VersionHist.ver" k0); auto. simpl.
        destruct (String.eqb_spec n "VersionHist.ver"); [congruence|reflexivity].
      - cbn [put_at] in PT. fold put_at in PT. destruct (assoc n k0) as [v|].
        + destruct v; try discriminate. apply rbind_ok in PT. destruct PT as (k2 & _ & PT).
          assert (PT' : k = put n (Grp attrs0 k2) k0) by congruence. subst k. apply assoc_put_other; auto.
        + apply rbind_ok in PT. destruct PT as (k2 & _ & PT). assert (PT' : k = k0 ++ [(n, Grp [] k2)]) by congruence. subst k.
          rewrite assoc_app. destruct (assoc "VersionHist.ver" k0); auto. simpl.
          destruct (String.eqb_spec n "VersionHist.ver"); [congruence|reflexivity]. }
    rewrite V. reflexivity.
  Qed.

  Lemma descriptor_ok : forall d r m, is_datatype d -> exists desc, descriptor_string d r m = Ok desc /\ has_slash desc = false.
  Proof.
    intros d r m H. unfold is_datatype in H.
    assert (K : In d [0; 1; 2; 3; 4; 5; 6; 7; 8; 9; 10]%Z) by (simpl; lia).
    simpl in K. repeat (destruct K as [<-|K]; [destruct r, m; eexists; split; vm_compute; reflexivity|]). destruct K.
  Qed.

  (** Where the file goes: the directory of the given name, and its base name with the descriptive
      prefix; the group is what follows ".h5". *)
  Theorem C48_file_name : forall w b g, is_datatype (w_dataType w) -> free_of_h5 b -> free_of_h5 g ->
    let given := (b ++ ".h5")%string in
    exists desc file, descriptor_string (w_dataType w) (w_r w) (w_m w) = Ok desc /\
      place w (given ++ g) file g /\
      dirname file = dirname given /\ basename file = (desc ++ "_" ++ basename given)%string.
  Proof.
    intros w b g T Fb Fg given. destruct (descriptor_ok (w_dataType w) (w_r w) (w_m w) T) as (desc & D & NS).
    assert (NS' : has_slash (desc ++ "_") = false) by (rewrite has_slash_app, NS; reflexivity).
    destruct (prefixed given (desc ++ "_") NS') as [P1 P2].
    exists desc. eexists. split; [exact D|]. split; [|split; [exact P1|rewrite P2; apply app_assoc_s]].
    exists desc. split; [exact D|]. unfold write_target.
    assert (CU : cut ".h5" (given ++ g) = Some (b, g)) by (unfold given; rewrite app_assoc_s; apply cut_first; auto).
    assert (RC : rcut ".h5" (given ++ g) = Some (b, g)) by (unfold given; rewrite app_assoc_s; apply rcut_last; auto).
    unfold contains at 1. rewrite CU. unfold ends_with. rewrite RC.
    replace (contains ".h5" g) with false by (symmetry; apply contains_free; auto).
    rewrite app_assoc_s. destruct g as [|c g]; cbn [andb negb rbind].
    - rewrite app_nil_s. reflexivity.
    - reflexivity.
  Qed.
  (** A name with a second ".h5" before its end is refused. *)
  Theorem C48_two_files_refused : forall d w b g g' mode attrs nrar, is_datatype (w_dataType w) ->
    free_of_h5 b -> ends_with ".h5" (b ++ ".h5" ++ g ++ ".h5" ++ g') = false ->
    write d w (b ++ ".h5" ++ g ++ ".h5" ++ g') mode attrs nrar = Err ValueError.
  Proof.
    intros d w b g g' mode attrs nrar T Fb EW. destruct (descriptor_ok (w_dataType w) (w_r w) (w_m w) T) as (desc & D & NS).
    unfold write_to_h5. rewrite D. cbn [rbind]. unfold write_target. unfold contains at 1. rewrite cut_first by auto.
    rewrite EW. cbn [andb negb].
    replace (contains ".h5" (g ++ ".h5" ++ g')) with true; [reflexivity|].
    symmetry. destruct (contains ".h5" (g ++ ".h5" ++ g')) eqn:E; [reflexivity|].
    apply contains_free in E. destruct (E g g' eq_refl).
  Qed.

  Lemma fill_succeeds : forall w file attrs, well_formed w -> exists g, fill show w file attrs true empty_group = Ok g.
  Proof.
    intros w file attrs W. unfold fill. cbn [empty_group g_kids g_attrs create assoc rbind app].
    destruct (C13_round_trip _ (wf_type w W)) as (code & TC & _). rewrite TC. cbn [rbind].
    set (k1 := [("History.txt"%string, _)]).
    assert (V : exists k2, match w_versions w with [] => Ok k1 | v => create "VersionHist.ver"
       (Pairs (map (fun hm => (ascii_ignore (fst hm), ascii_ignore (snd hm))) v)) k1 end = Ok k2 /\
       forall n, In n (map fst k2) -> matched n = false).
    { destruct (w_versions w); eexists; (split; [reflexivity|]); intros n; cbn; intros I; repeat (destruct I as [<-|I]; [reflexivity|]); destruct I. }
    destruct V as (k2 & -> & U). cbn [rbind].
    set (LM := LM_range (w_ell_min w) (w_ell_max w)).
    assert (LMin : forall i, (i < w_n_modes w)%nat -> (0 <= fst (nth i LM (0, 0)%Z))%Z).
    { intros i Hi. apply (LM_nonneg (w_ell_min w) (w_ell_max w)); [apply (wf_ell w W)|]. apply nth_In. rewrite (wf_modes w W) in Hi. exact Hi. }
    destruct (write_modes_succeeds mode_name (fun i => table (w_times w) (column i (w_rows w))) LM (seq 0 (w_n_modes w)) k2) as [k3 E].
    - intros i Hi. apply in_seq in Hi. rewrite (wf_modes w W) in Hi. fold LM in Hi. lia.
    - apply seq_NoDup.
    - intros i j Hi Hj E. apply in_seq in Hi. apply in_seq in Hj. apply mode_name_inj in E; [|apply LMin; lia|apply LMin; lia].
      rewrite (wf_modes w W) in Hi, Hj. fold LM in Hi, Hj.
      eapply (proj1 (NoDup_nth LM (0, 0)%Z)); [apply LM_nodup|lia|lia|exact E].
    - intros i Hi. apply in_seq in Hi. apply assoc_unmatched; auto. specialize (LMin i ltac:(lia)).
      destruct (nth i LM (0, 0)%Z) as [l m]. apply matched_mode_name. exact LMin.
    - rewrite E. cbn [rbind]. eauto.
  Qed.
  Lemma put_at_empty : forall p g, p <> [] -> exists k, put_at p g [] = Ok k.
  Proof.
    induction p as [|n p IH]; intros g N; [congruence|]. destruct p as [|n' p]; [eexists; reflexivity|].
    destruct (IH g ltac:(discriminate)) as [k E]. exists [(n, Grp [] k)].
    change (rbind (put_at (n' :: p) g []) (fun k => Ok ([] ++ [(n, Grp [] k)])) = Ok [(n, Grp [] k)]). rewrite E. reflexivity.
  Qed.
  (** Every well-formed waveform can be written to a new file, with or without a group. *)
  Theorem C48_write_succeeds : forall d w name mode attrs file grp, well_formed w -> place w name file grp ->
    (mode = "w"%string \/ (In mode ["a"; "w-"; "x"]%string /\ assoc file d = None)) ->
    grp = ""%string \/ components grp <> [] ->
    exists d', write d w name mode attrs true = Ok d'.
  Proof.
    intros d w name mode attrs file grp W (desc & D & T) MO GR. unfold write_to_h5. rewrite D. cbn [rbind]. rewrite T. cbn [rbind].
    assert (OP : open_for_write mode (assoc file d) = Ok empty_group).
    { unfold open_for_write. destruct MO as [->|[MO ->]]; [reflexivity|]. destruct MO as [<-|[<-|[<-|[]]]]; reflexivity. }
    rewrite OP. cbn [rbind]. destruct (fill_succeeds w file attrs W) as [g E]. rewrite E. cbn [rbind].
    destruct (is_empty grp) eqn:EG; cbn [rbind]; [eauto|].
    destruct GR as [->|GR]; [discriminate|]. destruct (put_at_empty _ g GR) as [k EK]. cbn [empty_group g_kids]. rewrite EK. cbn [rbind]. eauto.
  Qed.

  (** A file written with [use_NRAR_format=False] cannot be read back. *)
  Theorem C48_other_format_unreadable : forall d d' w name mode attrs file grp kw,
    contains ".h5" name = true -> place w name file grp -> separate d file grp mode ->
    write d w name mode attrs false = Ok d' ->
    exists e, read d' (file ++ grp) kw = Err e.
  Proof.
    intros d d' w name mode attrs file grp kw C P S H.
    destruct (written _ _ _ _ _ _ _ _ _ P S H) as (f0 & f & g & O0 & -> & F & G).
    pose proof P as (desc & D & T). unfold read_from_h5.
    rewrite (read_target_spec _ _ _ _ C T), assoc_put_same. cbn [rbind].
    assert (LK' : (if is_empty grp then Ok f else lookup (components grp) f) = Ok g).
    { pose proof (written_lookup _ _ _ _ G) as L. destruct (is_empty grp); [f_equal; exact L|exact L]. }
    rewrite LK'. cbn [rbind]. unfold fill in F.
    apply rbind_ok in F. destruct F as (k1 & C1 & F). apply create_ok in C1. destruct C1 as [_ C1].
    apply rbind_ok in F. destruct F as (code & EC & F).
    apply rbind_ok in F. destruct F as (k2 & C2 & F).
    apply rbind_ok in F. destruct F as (k3 & C3 & F).
    apply rbind_ok in C3. destruct C3 as (k4 & C4 & C3). apply create_ok in C4. destruct C4 as [_ C4].
    apply rbind_ok in C3. destruct C3 as (k5 & C5 & C3). apply create_ok in C5. destruct C5 as [N5 C5].
    apply rbind_ok in C3. destruct C3 as (dd & C6 & C3). apply create_ok in C3. destruct C3 as [_ C3].
    assert (K : g_kids g = k3) by (assert (E := f_equal (fun r => match r with Ok x => g_kids x | Err _ => [] end) F); cbn in E; congruence).
    assert (U2 : forall n, In n (map fst k2) -> matched n = false).
    { intros n I. cbn [empty_group g_kids app] in C1. destruct (w_versions w).
      - assert (k2 = k1) by congruence. subst k2 k1. destruct I as [<-|[]]; reflexivity.
      - apply create_ok in C2. destruct C2 as [_ C2]. subst k2 k1. cbn in I. destruct I as [<-|[<-|[]]]; reflexivity. }
    assert (U : forall n, In n (map fst k3) -> matched n = false).
    { intros n I. subst k3 k5 k4. rewrite !map_app in I. cbn [map fst] in I. rewrite !in_app_iff in I.
      destruct I as [[[I|I]|I]|I]; [auto| | |]; destruct I as [<-|[]]; reflexivity. }
    assert (EF : assoc "Frame" (g_kids g) = Some (match w_quats w with [] => NoData | q => Quats q end)).
    { rewrite K. subst k3 k5. rewrite !assoc_app. rewrite N5. reflexivity. }
    assert (MS : mode_sets listing (g_kids g) = Err ValueError).
    { rewrite K. unfold mode_sets. replace (filter matched (listing (map fst k3))) with (@nil string); [reflexivity|].
      assert (U' : forall n, In n (listing (map fst k3)) -> matched n = false)
        by (intros n I; apply U; eapply Permutation_in; [apply listing_perm|exact I]).
      clear -U'. induction (listing (map fst k3)) as [|n l IH]; simpl; auto. rewrite U' by (left; auto). apply IH. intros; apply U'; right; auto. }
    rewrite EF, MS. destruct (assoc "History.txt" (g_kids g)) as [[]|]; cbn [rbind]; eauto;
      (destruct (w_quats w) eqn:EQ; cbn [rbind]; [eauto|]);
      destruct (frame_type g kw); cbn [rbind]; eauto; destruct (data_type g kw file); cbn [rbind]; eauto;
      destruct (scaled _ g (k_r kw)); cbn [rbind]; eauto; destruct (scaled _ g (k_m kw)); cbn [rbind]; eauto.
  Qed.
  (** What such a file holds: times, frame, and one column for each mode under its signed order. *)
  Definition signed (m : Z) : string := if (0 <=? m)%Z then ("+" ++ dec m)%string else ("-" ++ dec (- m))%string.
  Lemma write_modes_keeps : forall mk mkd LM is k k' n v, write_modes mk mkd LM is k = Ok k' -> assoc n k = Some v -> assoc n k' = Some v.
  Proof. intros mk mkd LM is k k' n v H A. rewrite (write_modes_spec _ _ _ _ _ _ H), assoc_app, A. reflexivity. Qed.
  Lemma write_modes_stored : forall mk mkd LM is k k' i, write_modes mk mkd LM is k = Ok k' -> In i is ->
    exists lm, nth_error LM i = Some lm /\ assoc (mk lm) k' = Some (mkd i).
  Proof.
    induction is as [|j is IH]; intros k k' i H I; [destruct I|]. cbn [write_modes] in H.
    destruct (nth_error LM j) as [lm|] eqn:E; [|discriminate]. apply rbind_ok in H. destruct H as (k1 & C & H).
    destruct I as [->|I]; [|eauto]. exists lm. split; [exact E|]. apply create_ok in C. destruct C as [N ->].
    eapply write_modes_keeps; [exact H|]. rewrite assoc_app, N. cbn. rewrite String.eqb_refl. reflexivity.
  Qed.
  Lemma signed_plus : forall m, plus_dec m = signed m.
  Proof.
    intros m. unfold plus_dec, signed. destruct (Z.ltb_spec m 0), (Z.leb_spec 0 m); try lia; [|reflexivity].
    destruct m as [|p|p]; try lia. rewrite dec_neg. reflexivity.
  Qed.
  Theorem C48_other_format_contents : forall d d' w name mode attrs file grp,
    place w name file grp -> separate d file grp mode -> write d w name mode attrs false = Ok d' ->
    exists f g dk, assoc file d' = Some f /\ (if is_empty grp then f = g else lookup (components grp) f = Ok g) /\
      assoc "Time" (g_kids g) = Some (Times (w_times w)) /\
      assoc "Frame" (g_kids g) = Some (match w_quats w with [] => NoData | q => Quats q end) /\
      assoc "Data" (g_kids g) = Some (Grp [] dk) /\ length dk = w_n_modes w /\
      forall i, (i < w_n_modes w)%nat -> exists l m, nth_error (LM_range (w_ell_min w) (w_ell_max w)) i = Some (l, m) /\
        assoc ("l" ++ dec l ++ "_m" ++ signed m)%string dk = Some (Column (map (fun r => nth i r C0) (w_rows w))).
  Proof.
    intros d d' w name mode attrs file grp P S H.
    destruct (written _ _ _ _ _ _ _ _ _ P S H) as (f0 & f & g & O0 & -> & F & G).
    pose proof (written_lookup _ _ _ _ G) as LK. unfold fill in F.
    apply rbind_ok in F. destruct F as (k1 & C1 & F).
    apply rbind_ok in F. destruct F as (code & EC & F).
    apply rbind_ok in F. destruct F as (k2 & C2 & F).
    apply rbind_ok in F. destruct F as (k3 & C3 & F).
    apply rbind_ok in C3. destruct C3 as (k4 & C4 & C3). apply create_ok in C4. destruct C4 as [N4 C4].
    apply rbind_ok in C3. destruct C3 as (k5 & C5 & C3). apply create_ok in C5. destruct C5 as [N5 C5].
    apply rbind_ok in C3. destruct C3 as (dd & C6 & C3). apply create_ok in C3. destruct C3 as [N3 C3].
    assert (K : g_kids g = k3) by (assert (E := f_equal (fun r => match r with Ok x => g_kids x | Err _ => [] end) F); cbn in E; congruence).
    exists f, g, dd. rewrite assoc_put_same. split; [reflexivity|]. split; [exact LK|].
    rewrite K, C3, !assoc_app, N3. rewrite C5 in *. rewrite !assoc_app, N5. rewrite C4 in *. rewrite !assoc_app, N4. cbn.
    split; [reflexivity|]. split; [reflexivity|]. split; [reflexivity|]. split.
    - rewrite (write_modes_spec _ _ _ _ _ _ C6). cbn [app]. rewrite map_length, seq_length. reflexivity.
    - intros i Hi. destruct (write_modes_stored _ _ _ _ _ _ i C6) as ([l m] & E & A); [apply in_seq; lia|].
      exists l, m. split; [exact E|]. cbn [fst snd] in A. rewrite signed_plus in A. exact A.
  Qed.

  (** Writing to a group that exists is refused, whatever it holds. *)
  Lemma put_at_occupied : forall p g f g', p <> [] -> lookup p f = Ok g' -> put_at p g (g_kids f) = Err ValueError.
  Proof.
    induction p as [|n p IH]; intros g f g' N L; [congruence|]. cbn [lookup] in L.
    destruct (assoc n (g_kids f)) as [v|] eqn:A; [|discriminate]. destruct p as [|n' p].
    - cbn [put_at]. unfold create. rewrite A. reflexivity.
    - destruct v; try discriminate. cbn [put_at]. rewrite A.
      specialize (IH g (mkgroup attrs kids) g' ltac:(discriminate) L). cbn [g_kids] in IH. 
      change (rbind (put_at (n' :: p) g kids) (fun k' => Ok (put n (Grp attrs k') (g_kids f))) = Err ValueError). rewrite IH. reflexivity.
  Qed.
  Theorem C48_occupied_group : forall d w name attrs file grp f g, well_formed w -> place w name file grp ->
    assoc file d = Some f -> components grp <> [] -> lookup (components grp) f = Ok g ->
    write d w name "a" attrs true = Err ValueError.
  Proof.
    intros d w name attrs file grp f g W (desc & D & T) A N L. unfold write_to_h5. rewrite D. cbn [rbind]. rewrite T. cbn [rbind].
    rewrite A. cbn [open_for_write rbind]. destruct (fill_succeeds w file attrs W) as [g1 E].
    destruct grp as [|c grp]; [destruct N; reflexivity|]. cbn [is_empty].
    change (open_for_write "a" (Some f)) with (@Ok group f). cbn [rbind]. rewrite E. cbn [rbind].
    rewrite (put_at_occupied _ g1 _ _ N L). reflexivity.
  Qed.


  (** Without a stored or given data type it is guessed from the file name, but the ".h5" of the
      name already contains the name "h": no Weyl component or shear is ever recognized. *)
  Lemma guess_h5 : forall file, contains "h" (lower file) = true -> (7 <= guess_type file)%Z.
  Proof.
    intros file H. unfold guess_type.
    change (List.rev (combine DataType DataNames)) with
      [(10, "psin"); (9, "news"); (8, "hdot"); (7, "h"); (6, "sigma"); (5, "Psi4"); (4, "Psi3"); (3, "Psi2"); (2, "Psi1"); (1, "Psi0");
       (0, "UnknownDataType")]%Z%string.
    cbn [find snd].
    destruct (contains (lower "psin") (lower file)); [lia|].
    destruct (contains (lower "news") (lower file)); [lia|].
    destruct (contains (lower "hdot") (lower file)); [lia|].
    change (lower "h") with "h"%string. rewrite H. lia.
  Qed.

  Lemma lower_app : forall a b, lower (a ++ b) = (lower a ++ lower b)%string.
  Proof. induction a; simpl; intros; auto. rewrite IHa. reflexivity. Qed.
  Lemma contains_inside : forall p a b, contains p (a ++ p ++ b) = true.
  Proof.
    intros p a b. unfold contains. destruct (cut p (a ++ p ++ b)) as [x|] eqn:E; [reflexivity|].
    destruct (cut_none _ _ E a b eq_refl).
  Qed.
  Theorem C48_guessed_type_refuted : forall d name kw w', contains ".h5" name = true ->
    (forall f g, assoc (fst (read_target name)) d = Some f ->
       (if is_empty (snd (read_target name)) then g = f else lookup (components (snd (read_target name))) f = Ok g) ->
       assoc "DataType" (g_attrs g) = None) ->
    k_dataType kw = None -> read d name kw = Ok w' ->
    ~ In (w_dataType w') [psi0; psi1; psi2; psi3; psi4; sigma].
  Proof.
    intros d name kw w' C NA NK H.
    assert (L : (7 <= guess_type (fst (read_target name)))%Z).
    { apply guess_h5. unfold read_target. unfold contains in C. destruct (cut ".h5" name) as [[a b]|] eqn:CU; [|discriminate].
      destruct (rcut ".h5" name) as [[a' b']|] eqn:RC.
      - cbn [fst]. rewrite lower_app.
        change (lower ".h5") with ("." ++ ("h" ++ "5"))%string. rewrite <- app_assoc_s. apply contains_inside.
      - apply cut_some in CU. exfalso. revert a CU RC. clear. intros a CU RC. subst name.
        induction a as [|c a IH].
        + change ("" ++ ".h5" ++ b)%string with (String "." ("h5" ++ b)) in RC. cbn [rcut] in RC.
          destruct (rcut ".h5" ("h5" ++ b)) as [[x y]|]; [discriminate|].
          change (strip ".h5" (String "." ("h5" ++ b))) with (strip ".h5" (".h5" ++ b)) in RC. rewrite strip_app in RC. discriminate.
        + change (String c a ++ ".h5" ++ b)%string with (String c (a ++ ".h5" ++ b)) in RC. cbn [rcut] in RC.
          destruct (rcut ".h5" (a ++ ".h5" ++ b)) as [[x y]|]; [discriminate|]. apply IH; reflexivity. }
    unfold read_from_h5 in H. destruct (read_target name) as [file root]. cbn [fst snd] in *.
    apply rbind_ok in H. destruct H as (f & AF & H). apply rbind_ok in H. destruct H as (g & LK & H).
    assert (NG : assoc "DataType" (g_attrs g) = None).
    { apply (NA f); [destruct (assoc file d); congruence|]. destruct (is_empty root); [congruence|exact LK]. }
    apply rbind_ok in H. destruct H as (old & _ & H). apply rbind_ok in H. destruct H as (q & _ & H).
    apply rbind_ok in H. destruct H as (ft & _ & H). apply rbind_ok in H. destruct H as (dt & ED & H).
    apply rbind_ok in H. destruct H as (r & _ & H). apply rbind_ok in H. destruct H as (m & _ & H).
    apply rbind_ok in H. destruct H as ([[sorted lo] hi] & _ & H). apply rbind_ok in H. destruct H as ([t rows] & _ & H).
    apply rbind_ok in H. destruct H as (ok & _ & H). destruct ok; [|discriminate].
    assert (E : w_dataType w' = dt).
    { assert (X := f_equal (fun r => match r with Ok x => w_dataType x | Err _ => 0%Z end) H). cbn in X. congruence. }
    unfold data_type, get_attr in ED. rewrite NG, NK in ED. cbn in ED. rewrite E. assert (dt = guess_type file) by congruence. subst dt.
    rewrite H0. cbn [In]. unfold psi0, psi1, psi2, psi3, psi4, sigma. lia.
  Qed.
End Thms.

(** ** Cases *)
Definition case_wave (ts : list R) (fr : list quat) : hwave :=
  mkhwave ts (map (fun _ => [C0; C1; Ci; C1; C0]) ts) 5 2 2 7 4 true true fr ["first line"%string; ("second" ++ nl ++ "third")%string]
    [("3c5a"%string, "initial"%string)] None None.
Definition case_file := "out/rhOverM_wave.h5"%string.
Definition case_group := "/Extrapolated_N2.dir"%string.
Example C48_case : well_formed (case_wave [0; 1; 3]%R [q1]) /\ strictly_up (w_times (case_wave [0; 1; 3]%R [q1])) /\
  contains ".h5" "out/wave.h5/Extrapolated_N2.dir" = true /\
  place (case_wave [0; 1; 3]%R [q1]) "out/wave.h5/Extrapolated_N2.dir" case_file case_group /\
  place (case_wave [0; 1; 3]%R [q1]) "out/wave.h5" case_file "" /\
  no_reserved [("space_translation"%string, AVec [1; 2; 3]%R)] /\
  components case_group = ["Extrapolated_N2.dir"%string] /\
  apart (components case_group) (components "/OutermostExtraction.dir") /\
  mode_name (2, -1)%Z = "Y_l2_m-1.dat"%string /\ mode_name (12, 10)%Z = "Y_l12_m10.dat"%string.
Proof.
  split; [|split; [|split; [|split; [|split; [|split; [|split; [|split; [|split]]]]]]]]; try reflexivity.
  - constructor; cbn.
    + lia.
    + reflexivity.
    + reflexivity.
    + intros r [<-|[<-|[<-|[]]]]; reflexivity.
    + discriminate.
    + unfold is_datatype. lia.
  - intros i j Hij. cbn in Hij |- *.
    destruct i as [|[|[|i]]], j as [|[|[|j]]]; cbn; try lia; lra.
  - eexists. split; vm_compute; reflexivity.
  - eexists. split; vm_compute; reflexivity.
  - intros n [<-|[<-|[<-|[<-|[]]]]]; reflexivity.
  - constructor. discriminate.
Qed.

Lemma case_well_formed : forall ts fr, ts <> [] -> well_formed (case_wave ts fr).
Proof.
  intros ts fr N. constructor; cbn [case_wave w_ell_min w_ell_max w_n_modes w_rows w_times w_dataType].
  - lia.
  - reflexivity.
  - apply map_length.
  - intros r Hr. apply in_map_iff in Hr. destruct Hr as (x & <- & _). reflexivity.
  - exact N.
  - unfold is_datatype. lia.
Qed.
Lemma case_place : forall ts fr, place (case_wave ts fr) "out/wave.h5" case_file "".
Proof. intros. eexists. split; vm_compute; reflexivity. Qed.

(** A file of decreasing times is accepted, and the frame of a corotating waveform is lost. *)
Theorem C48_valid_and_complete_refuted : forall show born listing from_history q dn kw,
  (forall l, Permutation (listing l) l) ->
  exists w d' w', write_to_h5 show [] w "out/wave.h5" "w" [] true = Ok d' /\
    read_from_h5 born listing from_history q dn d' case_file kw = Ok w' /\
    (w_quats w <> [] /\ w_quats w' = [] /\ w_frameType w' = w_frameType w) /\
    w_times w' = w_times w /\ (2 <= length (w_times w'))%nat /\ strictly_down (w_times w').
Proof.
  intros show born listing from_history q dn kw LP.
  assert (M : strictly_down [1; 0]%R).
  { intros i j Hij. cbn in Hij |- *. destruct i as [|[|i]], j as [|[|j]]; cbn; try lia; lra. }
  pose (w := case_wave [1; 0]%R [q1; q1]).
  assert (W : well_formed w) by (apply case_well_formed; discriminate).
  destruct (C48_write_succeeds show [] w "out/wave.h5" "w" [] case_file "" W (case_place _ _)) as [d' Hd]; [left; reflexivity|left; reflexivity|].
  destruct (C48_round_trip show born listing LP from_history q dn [] d' w "out/wave.h5" "w" [] case_file "") as (w' & R & SC & Q & _);
    [exact W|reflexivity|apply case_place|right; left; reflexivity|intros n _; reflexivity|exact Hd|right; exact M|].
  destruct SC as (S1 & _ & _ & _ & _ & _ & S7 & _).
  exists w, d', w'. split; [exact Hd|]. split; [exact (R kw)|]. split; [split; [discriminate|auto]|].
  split; [exact S1|]. rewrite S1. split; [cbn; lia|exact M].
Qed.
Example C48_guess_case : guess_type "rMPsi4_Asymptotic_GeometricUnits.h5" = h /\ guess_type "rMPsi4_Asymptotic" = psi4.
Proof. split; vm_compute; reflexivity. Qed.
