(** * Names inside and of HDF5 waveform files (property C48) *)
From Coq Require Import String Ascii ZArith List Bool Lia Permutation DecimalString DecimalZ DecimalPos DecimalFacts.
From Verif Require Import Common Modes_Model Modes_Proofs H5_Model.
Import ListNotations.
Open Scope string_scope.

Lemma app_nil_s : forall s, s ++ "" = s.
Proof. induction s; simpl; congruence. Qed.
Lemma app_assoc_s : forall a b c : string, (a ++ b) ++ c = a ++ b ++ c.
Proof. induction a; simpl; intros; congruence. Qed.
Lemma strip_app : forall p s, strip p (p ++ s) = Some s.
Proof. induction p; simpl; intros; auto. rewrite Ascii.eqb_refl. auto. Qed.
Lemma strip_some : forall p s r, strip p s = Some r -> s = p ++ r.
Proof.
  induction p as [|a p IH]; simpl; intros s r H; [congruence|]. destruct s as [|b s]; [discriminate|].
  destruct (Ascii.eqb_spec a b); [|discriminate]. subst. f_equal. auto.
Qed.

Fixpoint all_chars (f : ascii -> bool) (s : string) : bool :=
  match s with EmptyString => true | String c s' => f c && all_chars f s' end.
Definition head_not (f : ascii -> bool) (s : string) : Prop :=
  match s with String c _ => f c = false | EmptyString => True end.

Lemma take_while_app : forall f a s, all_chars f a = true -> head_not f s -> take_while f (a ++ s) = (a, s).
Proof.
  induction a as [|c a IH]; simpl; intros s H N.
  - destruct s; simpl in *; [reflexivity|]. rewrite N. reflexivity.
  - apply andb_true_iff in H. destruct H as [H1 H2]. rewrite H1, IH; auto.
Qed.

(** ** Decimal numerals *)
Lemma uint_digits : forall u, all_chars is_digit (NilEmpty.string_of_uint u) = true.
Proof. induction u; simpl; auto. Qed.
Lemma uint_digits' : forall u, all_chars is_digit (NilZero.string_of_uint u) = true.
Proof. intros u. destruct u; simpl; auto; apply uint_digits. Qed.
Lemma uint_nonempty : forall u, is_empty (NilZero.string_of_uint u) = false.
Proof. destruct u; reflexivity. Qed.
Lemma digit_signed : forall s, all_chars is_digit s = true -> all_chars is_signed s = true.
Proof.
  induction s; simpl; intros H; auto. apply andb_true_iff in H. destruct H.
  unfold is_signed at 1. rewrite H, IHs; auto.
Qed.
Lemma dec_pos : forall z, (0 <= z)%Z -> exists u, dec z = NilZero.string_of_uint u /\ Z.of_uint u = z /\ u <> Decimal.Nil.
Proof.
  intros z H. pose proof (DecimalZ.of_to z) as E. unfold dec.
  destruct z as [|p|p]; [| |lia].
  - exists (Decimal.D0 Decimal.Nil). repeat split. discriminate.
  - exists (Pos.to_uint p). split; [reflexivity|]. split; [assumption|]. apply DecimalPos.Unsigned.to_uint_nonnil.
Qed.
Lemma digits_read : forall u, u <> Decimal.Nil -> nat_digits (NilZero.string_of_uint u) = Ok (Z.of_uint u).
Proof. intros u H. unfold nat_digits. rewrite NilZero.usu; auto. Qed.
Lemma py_int_digits : forall u, u <> Decimal.Nil -> py_int (NilZero.string_of_uint u) = Ok (Z.of_uint u).
Proof.
  intros u H. pose proof (uint_digits' u) as D. pose proof (uint_nonempty u) as N. pose proof (digits_read u H) as E.
  unfold py_int. destruct (NilZero.string_of_uint u) as [|c r]; [discriminate|].
  simpl in D. apply andb_true_iff in D. destruct D as [D _].
  destruct (Ascii.eqb_spec c "+"%char) as [->|_]; [discriminate|].
  destruct (Ascii.eqb_spec c "-"%char) as [->|_]; [discriminate|]. exact E.
Qed.
Lemma dec_neg : forall p, dec (Zneg p) = String "-" (dec (Zpos p)).
Proof. reflexivity. Qed.
Lemma py_int_dec : forall z, py_int (dec z) = Ok z.
Proof.
  intros z. destruct (Z_le_gt_dec 0 z) as [H|H].
  - destruct (dec_pos z H) as (u & -> & E & N). rewrite py_int_digits by auto. congruence.
  - destruct z as [|p|p]; try lia. rewrite dec_neg.
    destruct (dec_pos (Zpos p) ltac:(lia)) as (u & -> & E & N). simpl. rewrite digits_read by auto. simpl. rewrite E. reflexivity.
Qed.
Lemma dec_signed : forall z, all_chars is_signed (dec z) = true /\ is_empty (dec z) = false.
Proof.
  intros z. destruct (Z_le_gt_dec 0 z) as [H|H].
  - destruct (dec_pos z H) as (u & -> & _). split; [apply digit_signed, uint_digits'|apply uint_nonempty].
  - destruct z as [|p|p]; try lia. rewrite dec_neg.
    destruct (dec_pos (Zpos p) ltac:(lia)) as (u & -> & _). split; [|reflexivity]. simpl. apply digit_signed, uint_digits'.
Qed.
Lemma dec_digits : forall z, (0 <= z)%Z -> all_chars is_digit (dec z) = true.
Proof. intros z H. destruct (dec_pos z H) as (u & -> & _). apply uint_digits'. Qed.

(** ** Names of mode data sets *)
Lemma search_mode_name : forall l m, (0 <= l)%Z -> search (mode_name (l, m)) = Some (dec l, dec m).
Proof.
  intros l m H. assert (E : match_at (mode_name (l, m)) = Some (dec l, dec m)).
  { unfold match_at, mode_name. cbn [fst snd]. rewrite strip_app.
    rewrite take_while_app by (try apply dec_digits; auto; reflexivity).
    rewrite (proj2 (dec_signed l)), strip_app.
    rewrite take_while_app by (try apply (proj1 (dec_signed m)); auto; reflexivity).
    rewrite (proj2 (dec_signed m)).
    replace (strip ".dat" ".dat") with (Some "") by reflexivity. reflexivity. }
  destruct (mode_name (l, m)); cbn [search]; rewrite E; reflexivity.
Qed.
Lemma key_mode_name : forall l m, (0 <= l)%Z -> key (mode_name (l, m)) = Ok (l, m).
Proof. intros l m H. unfold key. rewrite search_mode_name by auto. rewrite !py_int_dec. reflexivity. Qed.
Lemma matched_mode_name : forall l m, (0 <= l)%Z -> matched (mode_name (l, m)) = true.
Proof. intros l m H. unfold matched. rewrite search_mode_name by auto. reflexivity. Qed.
Lemma mode_name_inj : forall a b, (0 <= fst a)%Z -> (0 <= fst b)%Z -> mode_name a = mode_name b -> a = b.
Proof.
  intros [l m] [l' m'] H H' E. cbn [fst] in *.
  pose proof (key_mode_name l m H) as K. pose proof (key_mode_name l' m' H') as K'. rewrite E in K. congruence.
Qed.

(** ** Cutting file names at ".h5" *)
Definition free_of_h5 (s : string) : Prop := forall a b, s <> a ++ ".h5" ++ b.
Lemma cut_some : forall p s a b, cut p s = Some (a, b) -> s = a ++ p ++ b.
Proof.
  induction s as [|c s IH]; intros a b; cbn [cut].
  - destruct (strip p "") eqn:E; [|discriminate]. intros H; injection H as <- <-. apply strip_some in E. exact E.
  - destruct (strip p (String c s)) eqn:E.
    + intros H; injection H as <- <-. apply strip_some in E. exact E.
    + destruct (cut p s) as [[x y]|] eqn:E2; [|discriminate]. intros H; injection H as <- <-.
      simpl. f_equal. apply IH. reflexivity.
Qed.
Lemma rcut_some : forall p s a b, rcut p s = Some (a, b) -> s = a ++ p ++ b.
Proof.
  induction s as [|c s IH]; intros a b; cbn [rcut].
  - destruct (strip p "") eqn:E; [|discriminate]. intros H; injection H as <- <-. apply strip_some in E. exact E.
  - destruct (rcut p s) as [[x y]|] eqn:E2.
    + intros H; injection H as <- <-. simpl. f_equal. apply IH. reflexivity.
    + destruct (strip p (String c s)) eqn:E; [|discriminate]. intros H; injection H as <- <-. apply strip_some in E. exact E.
Qed.
Lemma cut_none : forall p s, cut p s = None -> forall a b, s <> a ++ p ++ b.
Proof.
  induction s as [|c s IH]; intros E a b D.
  - destruct a; [|discriminate]. simpl in D. destruct p; [discriminate E|discriminate D].
  - cbn [cut] in E. destruct (strip p (String c s)) eqn:E1; [discriminate|].
    destruct (cut p s) as [[x y]|] eqn:E2; [discriminate|].
    destruct a as [|c' a].
    + simpl in D. rewrite D, strip_app in E1. discriminate.
    + simpl in D. injection D as _ D. exact (IH eq_refl a b D).
Qed.
Lemma free_cut : forall s, free_of_h5 s -> cut ".h5" s = None.
Proof. intros s F. destruct (cut ".h5" s) as [[a b]|] eqn:E; [|reflexivity]. apply cut_some in E. destruct (F a b E). Qed.
Lemma free_rcut : forall s, free_of_h5 s -> rcut ".h5" s = None.
Proof. intros s F. destruct (rcut ".h5" s) as [[a b]|] eqn:E; [|reflexivity]. apply rcut_some in E. destruct (F a b E). Qed.
Lemma free_tail : forall c s, free_of_h5 (String c s) -> free_of_h5 s.
Proof. intros c s F a b E. apply (F (String c a) b). change (String c s = String c (a ++ ".h5" ++ b)). f_equal. exact E. Qed.

(** ".h5" has no overlap with itself. *)
Lemma strip_h5_inside : forall a b, a <> "" -> free_of_h5 a -> strip ".h5" (a ++ ".h5" ++ b) = None.
Proof.
  intros a b N F. destruct (strip ".h5" (a ++ ".h5" ++ b)) as [r|] eqn:E; [|reflexivity]. exfalso.
  apply strip_some in E. destruct a as [|c1 [|c2 [|c3 a]]]; [congruence| | |]; simpl in E.
  - discriminate.
  - discriminate.
  - injection E as -> -> -> E. apply (F "" a). reflexivity.
Qed.
Lemma cut_first : forall a b, free_of_h5 a -> cut ".h5" (a ++ ".h5" ++ b) = Some (a, b).
Proof.
  induction a as [|c a IH]; intros b F.
  - simpl. destruct b; reflexivity.
  - assert (S : strip ".h5" (String c a ++ ".h5" ++ b) = None) by (apply strip_h5_inside; [discriminate|assumption]).
    change (String c a ++ ".h5" ++ b) with (String c (a ++ ".h5" ++ b)) in *. cbn [cut]. rewrite S.
    rewrite IH by (eapply free_tail; eauto). reflexivity.
Qed.
Lemma rcut_last : forall a b, free_of_h5 b -> rcut ".h5" (a ++ ".h5" ++ b) = Some (a, b).
Proof.
  induction a as [|c a IH]; intros b F.
  - change ("" ++ ".h5" ++ b) with (String "." (String "h" (String "5" b))). cbn [rcut].
    rewrite (free_rcut _ F).
    destruct (strip ".h5" (String "5" b)) eqn:E1; [apply strip_some in E1; discriminate|].
    destruct (strip ".h5" (String "h" (String "5" b))) eqn:E2; [apply strip_some in E2; discriminate|].
    reflexivity.
  - change (String c a ++ ".h5" ++ b) with (String c (a ++ ".h5" ++ b)). cbn [rcut]. rewrite IH by auto. reflexivity.
Qed.
Lemma free_empty : free_of_h5 "".
Proof. intros a b. destruct a; discriminate. Qed.
Lemma contains_cut : forall p s, contains p s = false -> cut p s = None.
Proof. intros p s. unfold contains. destruct (cut p s); [discriminate|reflexivity]. Qed.
Lemma contains_free : forall s, contains ".h5" s = false <-> free_of_h5 s.
Proof.
  intros s. split.
  - intros H. apply contains_cut in H. exact (cut_none _ _ H).
  - intros F. unfold contains. rewrite free_cut by auto. reflexivity.
Qed.

(** ** Directory and base name *)
Lemma split_last_app : forall s, fst (split_last s) ++ snd (split_last s) = s.
Proof.
  induction s as [|c s IH]; [reflexivity|]. cbn [split_last]. destruct (split_last s) as [a b]. cbn [fst snd] in IH.
  destruct a; simpl in *; [|congruence]. destruct (Ascii.eqb c slash); simpl; congruence.
Qed.
Fixpoint has_slash (s : string) : bool :=
  match s with EmptyString => false | String c s' => Ascii.eqb c slash || has_slash s' end.
Lemma split_last_noslash : forall s, has_slash s = false -> split_last s = ("", s).
Proof.
  induction s as [|c s IH]; intros H; [reflexivity|]. simpl in H. apply orb_false_iff in H. destruct H as [H1 H2].
  cbn [split_last]. rewrite IH by auto. rewrite H1. reflexivity.
Qed.
Lemma split_last_dir : forall d b, has_slash b = false -> split_last (d ++ "/" ++ b) = (d ++ "/", b).
Proof.
  induction d as [|c d IH]; intros b H.
  - change ("" ++ "/" ++ b) with (String slash b). cbn [split_last]. rewrite split_last_noslash by auto. reflexivity.
  - change (String c d ++ "/" ++ b) with (String c (d ++ "/" ++ b)). cbn [split_last]. rewrite IH by auto.
    destruct d; reflexivity.
Qed.
Lemma has_slash_app : forall a b, has_slash (a ++ b) = has_slash a || has_slash b.
Proof. induction a; simpl; intros; auto. rewrite IHa, orb_assoc. reflexivity. Qed.
Lemma split_last_snd : forall s, has_slash (snd (split_last s)) = false.
Proof.
  induction s as [|c s IH]; [reflexivity|]. cbn [split_last]. destruct (split_last s) as [a b]. cbn [snd] in IH.
  destruct a; simpl; [|assumption]. destruct (Ascii.eqb c slash) eqn:E; simpl; [assumption|]. rewrite E. assumption.
Qed.
Lemma all_slashes_app : forall a b, all_slashes (a ++ b) = all_slashes a && all_slashes b.
Proof. induction a; simpl; intros; auto. rewrite IHa, andb_assoc. reflexivity. Qed.
Lemma rstrip_id : forall s, all_slashes s = false -> all_slashes (rstrip_slashes s) = false /\
  exists x c, rstrip_slashes s = x ++ String c "" /\ Ascii.eqb c slash = false.
Proof.
  induction s as [|c s IH]; intros H; [discriminate|]. cbn [rstrip_slashes]. rewrite H.
  destruct (all_slashes s) eqn:A.
  - simpl in H. rewrite A, andb_true_r in H.
    assert (E : rstrip_slashes s = "") by (destruct s; [reflexivity|cbn [rstrip_slashes]; rewrite A; reflexivity]).
    rewrite E. split; [simpl; rewrite H; reflexivity|]. exists "", c. auto.
  - destruct (IH eq_refl) as (B & x & c' & E & D). split; [simpl; rewrite B; apply andb_false_r|].
    exists (String c x), c'. rewrite E. auto.
Qed.
Lemma rstrip_strip : forall x c, Ascii.eqb c slash = false -> rstrip_slashes ((x ++ String c "") ++ "/") = x ++ String c "".
Proof.
  induction x as [|d x IH]; intros c H.
  - simpl. rewrite H. reflexivity.
  - change ((String d x ++ String c "") ++ "/") with (String d ((x ++ String c "") ++ "/")).
    cbn [rstrip_slashes]. rewrite IH by auto.
    replace (all_slashes (String d ((x ++ String c "") ++ "/"))) with false; [reflexivity|].
    simpl. rewrite !all_slashes_app. simpl. rewrite H. rewrite !andb_false_r. reflexivity.
Qed.
(** Putting a prefix on the base name keeps the directory. *)
Lemma prefixed : forall f p, has_slash p = false ->
  let t := if is_empty (dirname f) then p ++ basename f else path_join (dirname f) (p ++ basename f) in
  dirname t = dirname f /\ basename t = p ++ basename f.
Proof.
  intros f p H t. subst t. assert (HB : has_slash (p ++ basename f) = false).
  { rewrite has_slash_app, H. apply split_last_snd. }
  destruct (is_empty (dirname f)) eqn:E.
  - destruct (dirname f) eqn:D; [|discriminate]. unfold dirname, basename in *. rewrite split_last_noslash by auto.
    split; reflexivity.
  - unfold path_join. rewrite E. unfold dirname in *. cbv zeta in *.
    destruct (all_slashes (fst (split_last f))) eqn:A.
    + rewrite A. set (h := fst (split_last f)) in *.
      assert (X : exists h', h = h' ++ "/").
      { clear HB. clearbody h. revert A E. clear. induction h as [|c h IH]; intros A E; [discriminate|].
        simpl in A. apply andb_true_iff in A. destruct A as [A1 A2]. apply Ascii.eqb_eq in A1. subst c.
        destruct h as [|c h]; [exists ""; reflexivity|]. destruct (IH A2 eq_refl) as [h' ->].
        exists (String slash h'). reflexivity. }
      destruct X as [h' X]. unfold basename in *. rewrite X in *. rewrite app_assoc_s. rewrite !split_last_dir by auto.
      cbn [fst snd]. rewrite A. auto.
    + destruct (rstrip_id _ A) as (B & x & c & X & D). rewrite B. unfold basename in *.
      rewrite split_last_dir by auto. cbn [fst snd]. split; [|reflexivity].
      rewrite X. rewrite !all_slashes_app. simpl. rewrite D, !andb_false_r. simpl.
      rewrite rstrip_strip by auto. reflexivity.
Qed.

(** ** Lines *)
Lemma pieces_app : forall d s t, pieces d (s ++ String d t) = (pieces d s ++ pieces d t)%list.
Proof.
  induction s as [|c s IH]; intros t.
  - cbn [append pieces]. rewrite Ascii.eqb_refl. reflexivity.
  - change (String c s ++ String d t) with (String c (s ++ String d t)). cbn [pieces].
    rewrite IH. destruct (Ascii.eqb c d); [reflexivity|].
    destruct (pieces d s) eqn:E; [|reflexivity].
    exfalso. destruct s as [|e s]; simpl in E; [discriminate|]. destruct (Ascii.eqb e d); [discriminate|].
    destruct (pieces d s); discriminate.
Qed.
Definition one_line (s : string) : Prop := lines s = [s].
Lemma lines_join : forall l t, l <> [] -> exists t', lines (join nl l ++ nl ++ t) = (flat_map lines l ++ t')%list.
Proof.
  induction l as [|x l IH]; intros t N; [congruence|]. destruct l as [|y l].
  - exists (lines t). simpl. rewrite List.app_nil_r. unfold lines. apply pieces_app.
  - destruct (IH t) as [t' E]; [discriminate|]. exists t'.
    change (join nl (x :: y :: l)) with (x ++ nl ++ join nl (y :: l)).
    rewrite !app_assoc_s. unfold lines at 1. change (nl ++ join nl (y :: l) ++ nl ++ t) with (String newline (join nl (y :: l) ++ nl ++ t)).
    rewrite pieces_app. change (pieces newline (join nl (y :: l) ++ nl ++ t)) with (lines (join nl (y :: l) ++ nl ++ t)).
    rewrite E. simpl. unfold lines. rewrite List.app_assoc. reflexivity.
Qed.
