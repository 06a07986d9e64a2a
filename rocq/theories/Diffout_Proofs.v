(** * The files written by extrapolate: what is removed, what is written and what is lost *)
From Coq Require Import String Ascii ZArith Reals List Bool Lia Lra Permutation.
From Verif Require Import Common Cplx Quat Times_Model Times_Proofs Intersect_Proofs Tables_Model Extrap_Model
  Validity_Model Validity_Proofs H5_Model H5Names_Proofs H5_Proofs H5Main_Proofs Finite_Model Driver_Model Accept_Proofs Driver_Proofs Diffout_Model.
Import ListNotations.
Open Scope string_scope.

(** ** Removal *)
Lemma delete_same : forall f d, assoc f (delete f d) = None.
Proof. intros f d. induction d as [|[n g] d IH]; [reflexivity|]. cbn. destruct (String.eqb n f) eqn:E; cbn; [exact IH|]. rewrite E. exact IH. Qed.
Lemma delete_other : forall f g d, f <> g -> assoc g (delete f d) = assoc g d.
Proof.
  intros f g d N. induction d as [|[n x] d IH]; [reflexivity|]. cbn. destruct (String.eqb_spec n f) as [-> |]; cbn.
  - destruct (String.eqb_spec f g); [congruence|exact IH].
  - destruct (String.eqb n g); [reflexivity|exact IH].
Qed.

Lemma f2_length : forall A B (P : A -> B -> Prop) l k, Forall2 P l k -> length l = length k.
Proof. intros A B P l k H. induction H; cbn; congruence. Qed.

Section Stage.
Variable show : hwave -> string.
Variable compare : hwave -> hwave -> res hwave.
Variable format : string -> Z -> string.
Variable format2 : string -> Z -> Z -> string.
Notation stage := (output_stage show compare format format2).
Notation write := (write_to_h5 show).

(** ** No output directory *)
(** Nothing is written, and nothing changes unless the old format goes to groups of one file. *)
Theorem C92_no_output : forall ef df nrar l d, (nrar = false \/ (forall a b, ef <> a ++ ".h5/" ++ b)) -> stage "" ef df nrar l d = Ok d.
Proof.
  intros ef df nrar l d H. unfold output_stage. cbn [directory is_empty]. unfold remove_old. destruct H as [-> |H]; [rewrite andb_false_r; reflexivity|].
  destruct (negb _ && nrar)%bool; [|reflexivity]. destruct (cut ".h5/" ef) as [[a b]|] eqn:E; [|reflexivity]. exfalso. apply (H a b). apply cut_some. exact E.
Qed.
(** Then a file of the current directory is deleted although no files of any kind should be output. *)
Theorem C92_deleted_refuted : forall ef df a b l d, cut ".h5/" ef = Some (a, b) -> a <> "" -> ends_with ".dat" ef = false ->
  exists d', stage "" ef df true l d = Ok d' /\ assoc (a ++ ".h5") d' = None /\ forall f, f <> a ++ ".h5" -> assoc f d' = assoc f d.
Proof.
  intros ef df a b l d C NA ND. eexists. split; [reflexivity|]. unfold remove_old. rewrite ND, C. cbn [negb andb]. destruct a as [|c a]; [congruence|]. cbn [is_empty].
  split; [apply delete_same|]. intros f N. apply delete_other. congruence.
Qed.

(** ** Extrapolated files *)
(** Names ending in .dat cannot be written. *)
Theorem C92_dat_refuted : forall dir ef df nrar N w l d, directory dir <> "" -> ends_with ".dat" (directory dir ++ format ef N) = true -> stage dir ef df nrar ((N, w) :: l) d = Err AttributeError.
Proof. intros dir ef df nrar N w l d HD HE. unfold output_stage. destruct (directory dir); [congruence|]. cbn [is_empty write_orders write_one]. unfold write_one. rewrite HE. reflexivity. Qed.
(** Otherwise they are those of C60. *)
Lemma orders_output : forall name nrar l d i, (forall N w, In (N, w) l -> ends_with ".dat" (name N) = false) -> write_orders show name nrar d i l = output show name nrar d i l.
Proof.
  intros name nrar. induction l as [|[N w] l IH]; intros d i H; [reflexivity|]. cbn [write_orders output]. unfold write_one. rewrite (H N w) by (left; reflexivity).
  destruct (write _ _ _ _ _ _) as [d1|]; [|reflexivity]. cbn [rbind]. apply IH. intros N' w' I. apply (H N' w'). right. exact I.
Qed.

(** ** Differences *)
(** The specification: names and contents of the difference files, for each order after the first the comparison with the order before *)
Definition steps (l : list (Z * hwave)) : list ((Z * hwave) * (Z * hwave)) := combine (tl l) l.
Definition compared (name : Z -> Z -> string) (l : list (Z * hwave)) (cs : list (string * hwave)) : Prop :=
  Forall2 (fun s c => fst c = name (fst (fst s)) (fst (snd s)) /\ compare (snd (fst s)) (snd (snd s)) = Ok (snd c)) (steps l) cs.
Fixpoint write_all (nrar : bool) (d : fs) (cs : list (string * hwave)) : res fs :=
  match cs with [] => Ok d | (n, c) :: r => let? d := write_one show d c n "w" nrar in write_all nrar d r end.

Lemma steps_nth : forall l i, (Datatypes.S i < length l)%nat -> exists x y, nth_error l (Datatypes.S i) = Some x /\ nth_error l i = Some y /\ nth_error (steps l) i = Some (x, y).
Proof.
  intros l i. unfold steps. destruct l as [|z l]; cbn [length]; [lia|]. cbn [tl]. revert z l. induction i as [|i IH]; intros z [|x l] H; cbn [length] in H; try lia.
  - exists x, z. repeat split.
  - destruct (IH x l ltac:(lia)) as (u & v & A & B & D). exists u, v. repeat split; assumption.
Qed.
Lemma steps_length : forall l, length (steps l) = (length l - 1)%nat.
Proof. intros [|x l]; [reflexivity|]. unfold steps. cbn [tl length]. rewrite combine_length. cbn [length]. lia. Qed.
Lemma write_all_app : forall nrar a b d, write_all nrar d (a ++ b) = let? d := write_all nrar d a in write_all nrar d b.
Proof. intros nrar. induction a as [|[n c] a IH]; intros b d; [reflexivity|]. cbn [app write_all]. destruct (write_one _ _ _ _ _ _); [|reflexivity]. cbn [rbind]. apply IH. Qed.
(** The loop writes the differences of the highest orders first. *)
Lemma differences_are : forall name nrar l cs d, compared name l cs -> write_differences show compare name nrar l d (rev (seq 0 (length l))) = write_all nrar d (rev cs).
Proof.
  intros name nrar l cs d HC. assert (LC := HC). unfold compared in LC. apply f2_length in LC. rewrite steps_length in LC.
  assert (G : forall k d, (k <= length l)%nat -> write_differences show compare name nrar l d (rev (seq 0 k)) = write_all nrar d (rev (firstn (k - 1) cs))).
  { induction k as [|k IH]; intros d0 Hk; [reflexivity|]. rewrite seq_S, rev_app_distr. cbn [Nat.add rev app]. destruct k as [|k]; [reflexivity|]. cbn [write_differences].
    destruct (steps_nth l k ltac:(lia)) as ([N w] & [M v] & A & B & D). rewrite A, B.
    replace (Datatypes.S (Datatypes.S k) - 1)%nat with (Datatypes.S k) by lia. replace (Datatypes.S k - 1)%nat with k in IH by lia.
    destruct (nth_error cs k) as [[n c]|] eqn:EC; [|apply nth_error_None in EC; lia].
    assert (P : fst (n, c) = name N M /\ compare w v = Ok (snd (n, c))).
    { clear - HC D EC. unfold compared in HC. revert k D EC. induction HC as [|s e ss es H HF IHF]; intros [|k] D EC; try discriminate; cbn in D, EC.
      - injection D as ->. injection EC as ->. exact H.
      - apply (IHF k); assumption. }
    cbn [fst snd] in P. destruct P as [-> P]. rewrite P. cbn [rbind].
    assert (FS : firstn (Datatypes.S k) cs = (firstn k cs ++ [(name N M, c)])%list).
    { clear - EC. revert k EC. induction cs as [|x cs IH]; intros [|k] EC; try discriminate; cbn in EC |- *; [injection EC as ->; reflexivity|]. f_equal. apply IH. exact EC. }
    rewrite FS, rev_app_distr. cbn [rev app write_all]. destruct (write_one _ _ _ _ _ _) as [d1|]; [|reflexivity]. cbn [rbind]. apply IH. lia. }
  rewrite G by lia. rewrite LC, firstn_all. reflexivity.
Qed.

(** One order alone, or no name for the differences: no difference is written. *)
Theorem C92_no_differences : forall dir ef df nrar l d, directory dir <> "" -> (df = "" \/ (length l <= 1)%nat) ->
  stage dir ef df nrar l d = write_orders show (fun N => directory dir ++ format ef N) nrar (remove_old ef nrar d) 0 l.
Proof.
  intros dir ef df nrar l d HD H. unfold output_stage. destruct (directory dir) as [|c r] eqn:ED; [congruence|]. cbn [is_empty]. destruct (write_orders _ _ _ _ _ _) as [d1|]; [|reflexivity]. cbn [rbind].
  destruct H as [-> |H]; [reflexivity|]. destruct (is_empty df); [reflexivity|]. destruct l as [|x [|y l]]; [reflexivity|reflexivity|cbn in H; lia].
Qed.
(** Differences whose names end in .dat cannot be written, even after all orders have been. *)
Theorem C92_dat_differences_refuted : forall dir ef df nrar l cs d d1, directory dir <> "" -> df <> "" -> (2 <= length l)%nat ->
  write_orders show (fun N => directory dir ++ format ef N) nrar (remove_old ef nrar d) 0 l = Ok d1 -> compared (fun N M => directory dir ++ format2 df N M) l cs ->
  (forall c, In c cs -> ends_with ".dat" (fst c) = true) -> stage dir ef df nrar l d = Err AttributeError.
Proof.
  intros dir ef df nrar l cs d d1 HD HF HL E HC HE. unfold output_stage. assert (LC := f2_length _ _ _ _ _ HC). rewrite steps_length in LC. destruct (directory dir) as [|c r] eqn:ED; [congruence|]. cbn [is_empty].
  rewrite E. cbn [rbind]. destruct df as [|c' df]; [congruence|]. cbn [is_empty]. rewrite (differences_are _ _ _ _ _ HC). destruct (rev cs) as [|[n x] k] eqn:ER; [apply (f_equal (@length _)) in ER; rewrite rev_length in ER; cbn in ER; lia|].
  assert (Q : In (n, x) cs) by (apply in_rev; rewrite ER; left; reflexivity). apply HE in Q. cbn [fst] in Q. cbn [write_all]. unfold write_one. rewrite Q. reflexivity.
Qed.
(** If all differences go to groups of one file, as the orders may (C60), only the comparison of the first two orders is left in the end. *)
Theorem C92_one_file_refuted : forall name nrar l n c cs file d d', compared name l ((n, c) :: cs) -> (exists grp, place c n file grp) ->
  write_differences show compare name nrar l d (rev (seq 0 (length l))) = Ok d' ->
  exists e, write [] c n "w" [] nrar = Ok e /\ assoc file d' = assoc file e.
Proof.
  intros name nrar l n c cs file d d' HC [grp HP] E. rewrite (differences_are _ _ _ _ _ HC) in E. cbn [rev] in E. rewrite write_all_app in E. destruct (write_all nrar d (rev cs)) as [d1|]; [|discriminate]. cbn [rbind write_all] in E.
  destruct (write_one show d1 c n "w" nrar) as [d2|] eqn:E2; [|discriminate]. cbn [rbind] in E. injection E as <-. unfold write_one in E2. destruct (ends_with ".dat" n); [discriminate|].
  destruct (write_same_file show d1 [] d2 c n "w" [] nrar file grp HP (or_intror eq_refl) E2) as (e & E3 & Q). exists e. split; [exact E3|]. symmetry. exact Q.
Qed.

(** With an output directory that file is deleted as well, although the results go elsewhere. *)
Theorem C92_deleted_with_output_refuted : forall dir ef df a b l cs d d', directory dir <> "" -> cut ".h5/" ef = Some (a, b) -> a <> "" -> ends_with ".dat" ef = false ->
  compared (fun N M => directory dir ++ format2 df N M) l cs ->
  (forall N w, In (N, w) l -> exists file grp, place w (directory dir ++ format ef N) file grp /\ file <> a ++ ".h5") ->
  (forall n c, In (n, c) cs -> exists file grp, place c n file grp /\ file <> a ++ ".h5") ->
  stage dir ef df true l d = Ok d' -> assoc (a ++ ".h5") d' = None.
Proof.
  intros dir ef df a b l cs d d' HD C NA ND HC HO HDF E. unfold output_stage in E. destruct (directory dir) as [|c0 r] eqn:ED; [congruence|]. cbn [is_empty] in E. rewrite <- ED in *.
  assert (D0 : assoc (a ++ ".h5") (remove_old ef true d) = None).
  { unfold remove_old. rewrite ND, C. cbn [negb andb]. destruct a as [|c1 a]; [congruence|]. cbn [is_empty]. apply delete_same. }
  destruct (write_orders show (fun N => directory dir ++ format ef N) true (remove_old ef true d) 0 l) as [d1|] eqn:E1; [|discriminate]. cbn [rbind] in E.
  assert (D1 : assoc (a ++ ".h5") d1 = None).
  { clear E. revert E1 D0. generalize (remove_old ef true d) as e. generalize 0%nat as i. clear - HO. induction l as [|[N w] l IH]; intros i e E D0; cbn [write_orders] in E; [injection E as <-; exact D0|].
    destruct (write_one _ _ _ _ _ _) as [e1|] eqn:W; [|discriminate]. cbn [rbind] in E. apply (IH (fun N' w' I => HO N' w' (or_intror I)) (Datatypes.S i) e1 E).
    unfold write_one in W. destruct (ends_with ".dat" _); [discriminate|]. destruct (HO N w (or_introl eq_refl)) as (file & grp & P & NE). rewrite (write_elsewhere _ _ _ _ _ _ _ _ _ _ (a ++ ".h5") P W) by congruence. exact D0. }
  destruct (is_empty df); [injection E as <-; exact D1|]. rewrite (differences_are _ _ _ _ _ HC) in E.
  assert (HR : forall n c, In (n, c) (rev cs) -> exists file grp, place c n file grp /\ file <> a ++ ".h5") by (intros n c I; apply HDF, in_rev; exact I).
  clear - E D1 HR. revert d1 E D1. induction (rev cs) as [|[n c] k IH]; intros e E De; cbn [write_all] in E; [injection E as <-; exact De|].
  destruct (write_one show e c n "w" true) as [e2|] eqn:W; [|discriminate]. cbn [rbind] in E. apply (IH (fun n' c' I => HR n' c' (or_intror I)) e2 E).
  unfold write_one in W. destruct (ends_with ".dat" n); [discriminate|]. destruct (HR n c (or_introl eq_refl)) as (file & grp & P & NE). rewrite (write_elsewhere _ _ _ _ _ _ _ _ _ _ (a ++ ".h5") P W) by congruence. exact De.
Qed.

Section Read.
Variable born : string -> list string.
Variable listing : list string -> list string.
Hypothesis listing_perm : forall l, Permutation (listing l) l.
Variable from_history : string -> string -> option (list R).
Variable as_quat_array : Validity_Model.arr -> option Validity_Model.attr.
Variable diff_nd : Validity_Model.arr -> res bool.
Notation read := (read_from_h5 born listing from_history as_quat_array diff_nd).

(** A waveform that goes to the file [f], in any state of the directory *)
Definition fits (c : string * hwave) (f : string) : Prop :=
  place (snd c) (fst c) f "" /\ contains ".h5" (fst c) = true /\ ends_with ".dat" (fst c) = false /\ well_formed (snd c) /\ strictly_up (w_times (snd c)).
Definition readable (d : fs) (c : string * hwave) (f : string) : Prop := forall kw, exists w', read d f kw = Ok w' /\ same_content (snd c) w'.
Lemma readable_local : forall c f d e, fits c f -> assoc f d = assoc f e -> readable e c f -> readable d c f.
Proof.
  intros c f d e (P & C & _) H HR kw. destruct (HR kw) as (w' & E & S1). exists w'. split; [|exact S1]. rewrite <- E.
  apply (read_local born listing from_history as_quat_array diff_nd). destruct P as (desc & D & T). pose proof (read_target_spec desc (fst c) f "" C T) as RT. rewrite app_nil_s in RT. rewrite RT. cbn [fst]. exact H.
Qed.
Lemma write_all_ok : forall cs files d, Forall2 fits cs files -> NoDup files ->
  exists d', write_all true d cs = Ok d' /\ (forall f, ~ In f files -> assoc f d' = assoc f d) /\ Forall2 (readable d') cs files.
Proof.
  intros cs files d HF. revert d. induction HF as [|[n c] f cs files F HF IH]; intros d ND; [exists d; repeat split; constructor|].
  inversion ND as [|? ? Hnin ND']; subst. assert (F' := F). destruct F' as (P & C & A & W & U). cbn [fst snd] in *. cbn [write_all]. unfold write_one. rewrite A.
  destruct (C48_write_succeeds show d c n "w" [] f "" W P (or_introl eq_refl) (or_introl eq_refl)) as (d1 & E1). rewrite E1. cbn [rbind].
  destruct (IH d1 ND') as (d' & E & K & RD). exists d'. split; [exact E|]. split.
  - intros g Hg. rewrite K by (intros I; apply Hg; right; exact I). apply (write_elsewhere _ _ _ _ _ _ _ _ _ _ g P E1). intros ->. apply Hg. left. reflexivity.
  - constructor; [|exact RD]. apply (readable_local _ f d' d1 F); [apply K; exact Hnin|]. intros kw. cbn [snd].
    destruct (C48_round_trip show born listing listing_perm from_history as_quat_array diff_nd d d1 c n "w" [] f "") as (w' & R1 & SC & _); auto.
    { right. left. reflexivity. }
    { intros m _. reflexivity. }
    exists w'. split; [|exact SC]. specialize (R1 kw). rewrite app_nil_s in R1. exact R1.
Qed.
Lemma f2_rev : forall A B (P : A -> B -> Prop) l k, Forall2 P l k -> Forall2 P (rev l) (rev k).
Proof. intros A B P l k H. induction H; cbn; [constructor|]. apply Forall2_app; [assumption|]. constructor; [assumption|constructor]. Qed.
(** Differences in files of their own are all written, whatever is there before, and reading them gives the comparisons. *)
Theorem C92_differences : forall name l cs files d, compared name l cs -> Forall2 fits cs files -> NoDup files ->
  exists d', write_differences show compare name true l d (rev (seq 0 (length l))) = Ok d' /\ (forall f, ~ In f files -> assoc f d' = assoc f d) /\ Forall2 (readable d') cs files.
Proof.
  intros name l cs files d HC HF ND. rewrite (differences_are _ _ _ _ _ HC). destruct (write_all_ok (rev cs) (rev files) d (f2_rev _ _ _ _ _ HF) (NoDup_rev ND)) as (d' & E & K & RD).
  exists d'. split; [exact E|]. split; [intros f Hf; apply K; intros I; apply Hf, in_rev; exact I|]. apply f2_rev in RD. rewrite !rev_involutive in RD. exact RD.
Qed.
(** In a directory that has none of the orders' files (but possibly the first), all files are written and can be read. *)
Theorem C92_all_files : forall dir ef df l cs files dfiles d, directory dir <> "" -> df <> "" -> compared (fun N M => directory dir ++ format2 df N M) l cs ->
  Forall2 (fun p f => fits (directory dir ++ format ef (fst p), snd p) f) l files -> Forall2 fits cs dfiles -> NoDup (files ++ dfiles) ->
  (forall f, In f (tl files) -> assoc f d = None) ->
  exists d', stage dir ef df true l d = Ok d' /\ Forall2 (fun p f => readable d' (directory dir ++ format ef (fst p), snd p) f) l files /\ Forall2 (readable d') cs dfiles /\
    forall f, ~ In f (files ++ dfiles) -> assoc f d' = assoc f (remove_old ef true d).
Proof.
  intros dir ef df l cs files dfiles d HD HF HC FO FD ND HA. unfold output_stage. destruct (directory dir) as [|c r] eqn:ED; [congruence|]. cbn [is_empty]. rewrite <- ED in *. clear HD.
  assert (RO : forall f, assoc f d = None -> assoc f (remove_old ef true d) = None).
  { intros f Hf. unfold remove_old. destruct (_ && _)%bool; [|exact Hf]. destruct (cut ".h5/" ef) as [[a b]|]; [|exact Hf]. destruct (is_empty a); [exact Hf|].
    destruct (string_dec (a ++ ".h5") f) as [<- |N]; [apply delete_same|rewrite delete_other by exact N; exact Hf]. }
  rewrite orders_output.
  2: { intros N w I. clear - FO I. induction FO as [|p f l files F FO IH]; [destruct I|]. destruct I as [-> |I]; [apply F|apply IH; exact I]. }
  destruct (C60_fresh_directory show (fun N => directory dir ++ format ef N) born listing listing_perm from_history as_quat_array diff_nd l files (remove_old ef true d) 0) as (d1 & E1 & K1 & R1).
  { clear - FO. induction FO as [|p f l files (P & C & A & W & U) FO IH]; constructor; [|exact IH]. cbn [fst snd] in *. split; [exact P|split; [exact C|split; [exact W|exact U]]]. }
  { clear - ND. induction files as [|f files IH]; [constructor|]. inversion ND as [|? ? H1 H2]; subst. constructor; [|apply IH; exact H2]. intros I. apply H1, in_or_app. left. exact I. }
  { intros f I. apply RO, HA. exact I. }
  rewrite E1. cbn [rbind]. destruct df as [|c' df]; [congruence|]. cbn [is_empty].
  assert (NF : NoDup dfiles /\ forall f, In f files -> ~ In f dfiles).
  { clear - ND. induction files as [|f files IH]; [split; [exact ND|intros f []]|]. inversion ND as [|? ? H1 H2]; subst. destruct (IH H2) as [A B]. split; [exact A|]. intros g [<- |I]; [intros J; apply H1, in_or_app; right; exact J|apply B; exact I]. }
  destruct NF as [NF DJ]. destruct (C92_differences _ _ _ _ d1 HC FD NF) as (d2 & E2 & K2 & R2). exists d2. split; [exact E2|]. split; [|split; [exact R2|]].
  - assert (DJ' := DJ). clear - FO R1 K2 DJ'. revert R1. induction FO as [|p f l files F FO IH]; intros R1; constructor.
    + apply (readable_local _ f d2 d1 F); [apply K2, DJ'; left; reflexivity|]. inversion R1 as [|? ? ? ? H1 H2]; subst. exact H1.
    + apply IH; [intros g I; apply DJ'; right; exact I|]. inversion R1; assumption.
  - intros f Hf. rewrite K2 by (intros I; apply Hf, in_or_app; right; exact I). apply K1. intros I. apply Hf, in_or_app. left. exact I.
Qed.
End Read.
End Stage.

(** ** Cases: three orders *)
Definition case_format (_ : string) (N : Z) : string := "Extrapolated_N" ++ dec N ++ ".h5".
Definition case_format2 (_ : string) (N M : Z) : string := "ExtrapConvergence_N" ++ dec N ++ "-N" ++ dec M ++ ".h5".
Definition case_orders : list (Z * hwave) := [(2%Z, case_wave [0; 1; 3] []); (3%Z, case_wave [0; 1; 3] []); (4%Z, case_wave [0; 1; 3] [])]%R.
Definition case_differences : list (string * hwave) := [("out/ExtrapConvergence_N3-N2.h5", case_wave [0; 1; 3] []); ("out/ExtrapConvergence_N4-N3.h5", case_wave [0; 1; 3] [])]%R.
Example C92_case : directory "out" = "out/" /\ compared (fun w _ => Ok w) (fun N M => directory "out" ++ case_format2 "ExtrapConvergence_N{N}-N{Nm1}.h5" N M) case_orders case_differences /\
  Forall2 (fun p f => fits (directory "out" ++ case_format "Extrapolated_N{N}.h5" (fst p), snd p) f) case_orders
    ["out/rhOverM_Extrapolated_N2.h5"; "out/rhOverM_Extrapolated_N3.h5"; "out/rhOverM_Extrapolated_N4.h5"] /\
  Forall2 fits case_differences ["out/rhOverM_ExtrapConvergence_N3-N2.h5"; "out/rhOverM_ExtrapConvergence_N4-N3.h5"] /\
  NoDup (["out/rhOverM_Extrapolated_N2.h5"; "out/rhOverM_Extrapolated_N3.h5"; "out/rhOverM_Extrapolated_N4.h5"] ++ ["out/rhOverM_ExtrapConvergence_N3-N2.h5"; "out/rhOverM_ExtrapConvergence_N4-N3.h5"]).
Proof.
  assert (U : strictly_up [0; 1; 3]%R). { intros i j Hij. cbn in Hij |- *. destruct i as [|[|[|]]], j as [|[|[|]]]; try lia; cbn; lra. }
  assert (W : well_formed (case_wave [0; 1; 3]%R [])) by (apply case_well_formed; discriminate).
  split; [reflexivity|]. split; [|split; [|split]].
  - unfold compared. cbn [steps case_orders tl combine case_differences]. repeat constructor; cbn [fst snd]; vm_compute; reflexivity.
  - unfold case_orders. repeat (apply Forall2_cons; [|]); [| | |constructor];
    (split; [eexists; split; vm_compute; reflexivity|split; [vm_compute; reflexivity|split; [vm_compute; reflexivity|split; [exact W|exact U]]]]).
  - unfold case_differences. repeat (apply Forall2_cons; [|]); [| |constructor];
    (split; [eexists; split; vm_compute; reflexivity|split; [vm_compute; reflexivity|split; [vm_compute; reflexivity|split; [exact W|exact U]]]]).
  - cbn [app]. repeat (apply NoDup_cons; [cbn; intuition discriminate|]). constructor.
Qed.
(** Two differences in groups of one file *)
Example C92_case_one_file : forall show, let name := fun N M => "out/Differences.h5/N" ++ dec N ++ "-N" ++ dec M ++ ".dir" in
  compared (fun w _ => Ok w) name case_orders [(name 3%Z 2%Z, case_wave [0; 1; 3] []); (name 4%Z 3%Z, case_wave [0; 1; 3] [])]%R /\
  place (case_wave [0; 1; 3]%R []) (name 3%Z 2%Z) "out/rhOverM_Differences.h5" "/N3-N2.dir" /\ place (case_wave [0; 1; 3]%R []) (name 4%Z 3%Z) "out/rhOverM_Differences.h5" "/N4-N3.dir" /\
  exists d, write_differences show (fun w _ => Ok w) name true case_orders [] [2; 1; 0]%nat = Ok d.
Proof.
  intros show name. assert (W : well_formed (case_wave [0; 1; 3]%R [])) by (apply case_well_formed; discriminate).
  assert (P1 : place (case_wave [0; 1; 3]%R []) (name 3%Z 2%Z) "out/rhOverM_Differences.h5" "/N3-N2.dir") by (eexists; split; vm_compute; reflexivity).
  assert (P2 : place (case_wave [0; 1; 3]%R []) (name 4%Z 3%Z) "out/rhOverM_Differences.h5" "/N4-N3.dir") by (eexists; split; vm_compute; reflexivity).
  split; [unfold compared; cbn [steps case_orders tl combine]; repeat constructor|]. split; [exact P1|]. split; [exact P2|].
  cbn [write_differences case_orders nth_error rbind]. unfold write_one.
  destruct (C48_write_succeeds show [] _ _ "w" [] _ _ W P2 (or_introl eq_refl)) as [d1 E1]; [right; vm_compute; discriminate|].
  replace (ends_with ".dat" (name 4%Z 3%Z)) with false by reflexivity. rewrite E1. cbn [rbind].
  destruct (C48_write_succeeds show d1 _ _ "w" [] _ _ W P1 (or_introl eq_refl)) as [d2 E2]; [right; vm_compute; discriminate|].
  replace (ends_with ".dat" (name 3%Z 2%Z)) with false by reflexivity. rewrite E2. eexists. reflexivity.
Qed.
Example C92_case_deleted : cut ".h5/" "Results.h5/N{N}.dir" = Some ("Results", "N{N}.dir") /\ ends_with ".dat" "Results.h5/N{N}.dir" = false.
Proof. split; reflexivity. Qed.
Example C92_case_deleted_with_output : let name := fun N => directory "out" ++ "Results.h5/N" ++ dec N ++ ".dir" in
  forall N w, In (N, w) case_orders -> exists file grp, place w (name N) file grp /\ file <> "Results" ++ ".h5".
Proof. intros name N w [E|[E|[E|[]]]]; injection E as <- <-; eexists; eexists; (split; [eexists; split; vm_compute; reflexivity|discriminate]). Qed.
