(** * C59: which finite-radius data are accepted, and as what *)
From Coq Require Import String Ascii ZArith Reals List Bool Lia.
From Verif Require Import Common Cplx Quat Times_Model Tables_Model Extrap_Model H5_Model H5Names_Proofs H5_Proofs H5Main_Proofs
  Finite_Model Driver_Model.
Import ListNotations.
Open Scope string_scope.

Lemma map_res_inv : forall A B (f : A -> res B) l ys, map_res f l = Ok ys -> Forall2 (fun x y => f x = Ok y) l ys.
Proof.
  induction l as [|x l IH]; intros ys H; cbn [map_res] in H; [injection H as <-; constructor|].
  destruct (f x) as [y|] eqn:E; [|discriminate]. cbn [rbind] in H.
  destruct (map_res f l) as [t|]; [|discriminate]. cbn [rbind] in H. injection H as <-. constructor; auto.
Qed.

Lemma Forall2_len : forall A B (P : A -> B -> Prop) l l', Forall2 P l l' -> List.length l = List.length l'.
Proof. induction 1; cbn; congruence. Qed.

Lemma shape_eqb_spec : forall a b, shape_eqb a b = true <-> a = b.
Proof.
  unfold shape_eqb. induction a as [|x a IH]; intros [|y b]; cbn; split; intros H; try discriminate; auto.
  - apply andb_true_iff in H. destruct H as [H1 H2]. apply andb_true_iff in H2. destruct H2 as [H2 H3].
    apply Nat.eqb_eq in H2. subst. f_equal. apply IH. apply andb_true_iff. auto.
  - injection H as -> ->. apply andb_true_iff. split; [apply Nat.eqb_refl|]. rewrite Nat.eqb_refl.
    specialize (proj2 (IH b) eq_refl) as X. apply andb_true_iff in X. cbn. tauto.
Qed.

(** ** Validation *)
(** Specification: [n] times, [m] modes with admissible ell in the named group. *)
Definition good (f : hfile) (L : Z * Z) (n m : nat) (name : string) : Prop :=
  exists g, assoc name f = Some g /\
    assoc "ArealRadius.dat" g = Some [n; 2]%nat /\ assoc "AverageLapse.dat" g = Some [n; 2]%nat /\
    List.length (filter (counted L) (map fst g)) = m /\
    (forall d s, In (d, s) g -> matched d = true -> s = [n; 3]%nat).

(** What counts as a mode: names Y_l<ell>_m<m>.dat with ell in the range. *)
Theorem C59_counted : forall L l m, (0 <= l)%Z -> counted L (mode_name (l, m)) = true <-> (fst L <= l < snd L)%Z.
Proof.
  intros L l m Hl. unfold counted. rewrite search_mode_name by auto. rewrite py_int_dec.
  rewrite andb_true_iff, Z.leb_le, Z.ltb_lt. tauto.
Qed.

Lemma validate_single_spec : forall f name n m L, validate_single f name m n L = Ok true <-> good f L n m name.
Proof.
  intros f name n m L. unfold validate_single, good, member, shape_of.
  destruct (assoc name f) as [g|]; cbn [rbind].
  2:{ split; [discriminate|]. intros (g & H & _). discriminate. }
  destruct (assoc "ArealRadius.dat" g) as [a|] eqn:Ea; cbn [rbind].
  2:{ split; [discriminate|]. intros (g' & H & H1 & _). injection H as <-. congruence. }
  destruct (assoc "AverageLapse.dat" g) as [b|] eqn:Eb; cbn [rbind].
  2:{ split; [discriminate|]. intros (g' & H & _ & H1 & _). injection H as <-. congruence. }
  split.
  - intros H. injection H as H. rewrite !andb_true_iff in H. destruct H as [[[H1 H2] H3] H4].
    apply shape_eqb_spec in H1, H2. apply Nat.eqb_eq in H3. subst.
    exists g. repeat split; auto. intros d s Hin Hm. rewrite forallb_forall in H4. specialize (H4 _ Hin). cbn in H4.
    rewrite Hm in H4. cbn in H4. apply shape_eqb_spec in H4. auto.
  - intros (g' & H & H1 & H2 & H3 & H4). injection H as <-. f_equal. rewrite Ea in H1. rewrite Eb in H2.
    injection H1 as ->. injection H2 as ->. rewrite !andb_true_iff. repeat split.
    + apply shape_eqb_spec. auto.
    + apply shape_eqb_spec. auto.
    + apply Nat.eqb_eq. auto.
    + apply forallb_forall. intros [d s] Hin. cbn. destruct (matched d) eqn:Em; auto. cbn. apply shape_eqb_spec. eauto.
Qed.

(** The check passes exactly when all waveforms have the same number of times and of modes. *)
Theorem C59_valid : forall f filename names,
  validate_group f filename names = Ok true <->
  exists d n m, datatype_from_filename filename = Ok d /\ names <> [] /\
    forall name, In name names -> good f (LModes d) n m name.
Proof.
  intros f filename names. unfold validate_group. split.
  - intros H. destruct (datatype_from_filename filename) as [d|]; [|discriminate]. cbn [rbind] in H.
    destruct names as [|n0 rest]; [discriminate|].
    destruct (member f n0) as [g0|]; [|discriminate]. cbn [rbind] in H.
    destruct (shape_of g0 _) as [a|]; [|discriminate]. cbn [rbind] in H.
    destruct a as [|n a]; [discriminate|]. cbn [rbind] in H.
    destruct (map_res _ _) as [v|] eqn:Ev; [|discriminate]. cbn [rbind] in H. injection H as H.
    exists d, n, (n_modes (LModes d) g0). split; auto. split; [discriminate|].
    intros name Hin. apply map_res_inv in Ev. apply validate_single_spec.
    apply In_nth with (d := "") in Hin as (k & Hk & <-).
    pose proof (Forall2_len _ _ _ _ _ Ev) as HL. rewrite forallb_forall in H.
    assert (Hv : nth k v false = true) by (apply H, nth_In; lia).
    clear - Ev Hk Hv. revert k Hk Hv.
    induction Ev as [|x y l l' Hxy Hll IH]; intros k Hk Hv; [simpl in Hk; lia|].
    destruct k; cbn [nth] in *; [congruence|]. apply IH; auto. simpl in Hk. lia.
  - intros (d & n & m & Hd & Hne & Hall). rewrite Hd. cbn [rbind].
    destruct names as [|n0 rest]; [contradiction|].
    destruct (Hall n0 (or_introl eq_refl)) as (g0 & Hg & Ha & Hb & Hm & Hs).
    unfold member, shape_of. rewrite Hg. cbn [rbind]. rewrite Ha. cbn [rbind].
    unfold n_modes at 1. rewrite Hm.
    rewrite (map_res_ok _ _ _ (fun _ => true)).
    + cbn [rbind]. f_equal. apply forallb_forall. intros b Hin. apply in_map_iff in Hin. destruct Hin as (? & <- & _). auto.
    + intros x Hx. apply validate_single_spec. auto.
Qed.

(** The modes counted are those that a field of the spin weight of the data can have, below ell = 200. *)
Theorem C59_counted_modes : forall d s, spin_weight d = Ok s -> (1 <= d <= 9)%Z -> LModes d = (Z.abs s, 200%Z).
Proof.
  intros d s H Hd.
  assert (D : (d = 1 \/ d = 2 \/ d = 3 \/ d = 4 \/ d = 5 \/ d = 6 \/ d = 7 \/ d = 8 \/ d = 9)%Z) by lia.
  decompose [or] D; subst d; vm_compute in H; injection H as <-; reflexivity.
Qed.
(** Equal numbers of modes do not mean the same modes: 21 modes with ell from 2 to 4, and 21 modes with ell = 10. *)
Definition group_with (lm : list (Z * Z)) : shapes :=
  (("ArealRadius.dat", [5; 2]) :: ("AverageLapse.dat", [5; 2]) :: map (fun p => (mode_name p, [5; 3])) lm)%nat%list.
Definition LM_of (lo hi : Z) : list (Z * Z) := Modes_Model.LM_range lo hi.
Theorem C59_other_modes_refuted :
  validate_group [("R0100.dir", group_with (LM_of 2 4)); ("R0200.dir", group_with (LM_of 10 10))]
    "rh_FiniteRadii_CodeUnits.h5" ["R0100.dir"; "R0200.dir"] = Ok true /\
  (forall p, In p (LM_of 2 4) -> ~ In p (LM_of 10 10)).
Proof.
  split; [vm_compute; reflexivity|]. intros [l m] H H'. unfold LM_of in *.
  apply Modes_Proofs.LM_range_In in H. apply Modes_Proofs.LM_range_In in H'. lia.
Qed.

(** ** Data type *)
(** Specification: the first of these texts that occurs in the lower-case stem decides. *)
Definition type_of_stem (stem : string) : res Z :=
  match find (fun p => contains (fst p) (lower stem))
          [("hdot", hdot); ("h", h); ("psi4", psi4); ("psi3", psi3); ("psi2", psi2); ("psi1", psi1); ("psi0", psi0)] with
  | Some (_, d) => Ok d
  | None => Err ValueError
  end.
Fixpoint has_char (c : ascii) (s : string) : bool :=
  match s with EmptyString => false | String x s' => Ascii.eqb x c || has_char c s' end.
Definition under : ascii := "_".

Lemma cut_under : forall p rest, has_char under p = false -> cut "_" (p ++ "_" ++ rest) = Some (p, rest).
Proof.
  induction p as [|c p IH]; intros rest H; [destruct rest; reflexivity|].
  cbn [has_char] in H. apply orb_false_iff in H. destruct H as [H1 H2].
  change (String c p ++ "_" ++ rest) with (String c (p ++ "_" ++ rest)). cbn [cut strip].
  unfold under in H1. rewrite Ascii.eqb_sym in H1. rewrite H1. rewrite IH by auto. reflexivity.
Qed.
Lemma cut_no_under : forall s, has_char under s = false -> cut "_" s = None.
Proof.
  induction s as [|c s IH]; intros H; [reflexivity|]. cbn [has_char] in H. apply orb_false_iff in H. destruct H as [H1 H2].
  cbn [cut strip]. unfold under in H1. rewrite Ascii.eqb_sym in H1. rewrite H1. rewrite IH by auto. reflexivity.
Qed.
Lemma type_chain : forall part,
  (if contains "hdot" (lower part) then Ok hdot
  else if contains "h" (lower part) then Ok h
  else if contains "psi4" (lower part) then Ok psi4
  else if contains "psi3" (lower part) then Ok psi3
  else if contains "psi2" (lower part) then Ok psi2
  else if contains "psi1" (lower part) then Ok psi1
  else if contains "psi0" (lower part) then Ok psi0
  else Err ValueError) = type_of_stem part.
Proof.
  intros. unfold type_of_stem. cbn [find fst].
  repeat match goal with |- context [contains ?a ?b] => destruct (contains a b); [reflexivity|] end. reflexivity.
Qed.

(** In any directory, the part of the file name before its first underscore decides. *)
Theorem C59_type : forall dir stem rest, has_char under stem = false -> has_slash stem = false -> has_slash rest = false ->
  datatype_from_filename (dir ++ "/" ++ stem ++ "_" ++ rest) = type_of_stem stem /\
  datatype_from_filename (stem ++ "_" ++ rest) = type_of_stem stem.
Proof.
  intros dir stem rest Hu Hs Hr.
  assert (Hns : has_slash (stem ++ "_" ++ rest) = false).
  { rewrite has_slash_app, Hs. cbn. auto. }
  split; unfold datatype_from_filename, basename.
  - rewrite split_last_dir by auto. cbn [snd]. rewrite cut_under by auto. apply type_chain.
  - rewrite split_last_noslash by auto. cbn [snd]. rewrite cut_under by auto. apply type_chain.
Qed.
(** The names that [FindPossibleExtrapolationsToRun] looks for are typed as intended, in any directory
    and with any ending. *)
Theorem C59_usual_names : forall dir rest, has_slash rest = false ->
  Forall (fun p => datatype_from_filename (dir ++ "/" ++ fst p ++ "_" ++ rest) = Ok (snd p))
    [("rh", h); ("rhdot", hdot); ("rPsi4", psi4); ("r2Psi3", psi3); ("r3Psi2", psi2); ("r4Psi1", psi1); ("r5Psi0", psi0)].
Proof.
  intros dir rest Hr.
  repeat constructor; cbn [fst snd];
    match goal with |- datatype_from_filename (_ ++ "/" ++ ?stem ++ _) = _ =>
      rewrite (proj1 (C59_type dir stem rest eq_refl eq_refl Hr)); vm_compute; reflexivity end.
Qed.
(** Without an underscore the extension is part of the stem: every such ".h5" file is taken for strain or
    its derivative, whatever its name. *)
Theorem C59_no_underscore_refuted : forall name, has_char under (basename (name ++ ".h5")) = false ->
  datatype_from_filename (name ++ ".h5") = Ok h \/ datatype_from_filename (name ++ ".h5") = Ok hdot.
Proof.
  intros name Hu. unfold datatype_from_filename. rewrite (cut_no_under _ Hu). rewrite type_chain. unfold type_of_stem. cbn [find fst].
  assert (Hc : contains "h" (lower (basename (name ++ ".h5"))) = true).
  { unfold basename. rewrite split_last_suffix by reflexivity. cbn [snd]. rewrite lower_app.
    change (lower ".h5") with ("." ++ "h" ++ "5"). rewrite <- app_assoc_s. apply contains_inside. }
  rewrite Hc. destruct (contains "hdot" _); auto.
Qed.
Example C59_no_underscore_case : datatype_from_filename "/data/rPsi4.h5" = Ok h.
Proof. vm_compute. reflexivity. Qed.

(** ** Decoder *)
Theorem C59_decoder : forall fmt d, choose_decoder fmt = Ok d <-> d = Rpdmb /\ exists s, fmt = Some s /\ In s rpdmb_formats.
Proof.
  intros fmt d. unfold choose_decoder.
  assert (Hmem : forall s l, mem s l = true <-> In s l).
  { intros s l. unfold mem. rewrite existsb_exists. split.
    - intros (x & Hx & E). apply String.eqb_eq in E. subst. auto.
    - intros Hi. exists s. split; auto. apply String.eqb_refl. }
  destruct fmt as [s|].
  - destruct (mem s rpdmb_formats) eqn:E.
    + split; [intros H; injection H as <-; split; auto; exists s; split; auto; apply Hmem; auto|].
      intros (-> & _). reflexivity.
    + split; [discriminate|]. intros (_ & s' & H & Hi). injection H as <-. apply Hmem in Hi. congruence.
  - split; [discriminate|]. intros (_ & s & H & _). discriminate.
Qed.
(** Files in the XOR format, for which there is a branch, are rejected. *)
Theorem C59_rpxmb_refuted : forall s, In s rpxmb_formats -> choose_decoder (Some s) = Err ValueError.
Proof. intros s H. cbn [rpxmb_formats In] in H. repeat destruct H as [<-|H]; try reflexivity. contradiction. Qed.

(** ** Selection *)
Lemma filter_map_all : forall A B (f : A -> option B) l, (forall x, In x l -> f x <> None) ->
  Forall2 (fun x y => f x = Some y) l (filter_map f l).
Proof.
  induction l as [|x l IH]; intros H; cbn [filter_map]; [constructor|].
  destruct (f x) eqn:E; [|destruct (H x); auto; left; auto]. constructor; auto. apply IH. intros; apply H; right; auto.
Qed.
(** With no list given: every group is read, and the radii are those in the names, in the same order. *)
Theorem C59_all_radii : forall re_search rotating listing names radii,
  select re_search rotating listing (Strings []) = Ok (names, radii) ->
  names = (if rotating then listing else remove_first "VersionHist.ver" listing) /\
  ((forall n, In n names -> radius_of n <> None) -> Forall2 (fun n r => radius_of n = Some r) names radii).
Proof.
  intros re_search rotating listing names radii H. cbn [select] in H. injection H as <- <-. split; auto.
  apply filter_map_all.
Qed.
Lemma cut_char : forall c s rest, has_char c s = false -> cut (String c EmptyString) (s ++ String c rest) = Some (s, rest).
Proof.
  induction s as [|x s IH]; intros rest H.
  - simpl. rewrite Ascii.eqb_refl. destruct rest; reflexivity.
  - cbn [has_char] in H. apply orb_false_iff in H. destruct H as [H1 H2].
    change (String x s ++ String c rest) with (String x (s ++ String c rest)). cbn [cut strip].
    rewrite Ascii.eqb_sym in H1. rewrite H1. rewrite IH by auto. reflexivity.
Qed.
Lemma cut_dir : forall r rest, has_char "." r = false -> cut ".dir" (r ++ ".dir" ++ rest) = Some (r, rest).
Proof.
  induction r as [|x r IH]; intros rest H; [destruct rest; reflexivity|].
  cbn [has_char] in H. apply orb_false_iff in H. destruct H as [H1 H2].
  change (String x r ++ ".dir" ++ rest) with (String x (r ++ ".dir" ++ rest)). cbn [cut].
  cbn [strip]. rewrite Ascii.eqb_sym in H1. rewrite H1. rewrite IH by auto. reflexivity.
Qed.
(** The radius in a name R<r>.dir is its text. *)
Theorem C59_radius_of : forall r rest, has_char "." r = false -> radius_of ("R" ++ r ++ ".dir" ++ rest) = Some r.
Proof.
  intros r rest H. unfold radius_of.
  change ("R" ++ r ++ ".dir" ++ rest) with ("" ++ String "R" (r ++ ".dir" ++ rest)).
  rewrite cut_char by reflexivity. rewrite cut_dir by auto. reflexivity.
Qed.

Lemma flat_map_single : forall (p : string -> bool) (n : string) l, 
  flat_map (fun r : string => if p r then [n] else []) l = repeat n (List.length (filter p l)).
Proof. induction l as [|x l IH]; cbn; auto. destruct (p x); cbn; rewrite IH; reflexivity. Qed.
(** With a list of texts: each group is read once for every text that matches its name, in the order of
    the file, and the list is returned as given. *)
Theorem C59_matching : forall re_search rotating listing l, l <> [] ->
  exists names, select re_search rotating listing (Strings l) = Ok (names, l) /\
  (forall n, In n names <-> In n (if rotating then listing else remove_first "VersionHist.ver" listing) /\ exists r, In r l /\ re_search r n = true) /\
  (NoDup listing -> forall n, In n (if rotating then listing else remove_first "VersionHist.ver" listing) ->
     count_occ string_dec names n = List.length (filter (fun r => re_search r n) l)) /\
  ((forall n, In n (if rotating then listing else remove_first "VersionHist.ver" listing) ->
      List.length (filter (fun r => re_search r n) l) = 1%nat) ->
    names = (if rotating then listing else remove_first "VersionHist.ver" listing)).
Proof.
  intros re_search rotating listing l Hne. destruct l as [|r0 l0]; [contradiction|]. set (l := r0 :: l0) in *.
  cbn [select]. fold l. set (base := if rotating then listing else remove_first "VersionHist.ver" listing).
  eexists. split; [reflexivity|].
  assert (E : forall bs, flat_map (fun n => flat_map (fun r => if re_search r n then [n] else []) l) bs =
              flat_map (fun n => repeat n (List.length (filter (fun r => re_search r n) l))) bs).
  { intros bs. apply flat_map_ext. intros n. apply flat_map_single. }
  rewrite E. split; [|split].
  - intros n. rewrite in_flat_map. split.
    + intros (x & Hx & Hr). apply repeat_spec in Hr as Hr'. subst x. split; auto.
      destruct (filter (fun r => re_search r n) l) as [|r fl] eqn:Ef; [destruct Hr|].
      exists r. apply (proj1 (filter_In (fun r => re_search r n) r l)). rewrite Ef. left. auto.
    + intros (Hx & r & Hr & Hs). exists n. split; auto.
      assert (Hi : In r (filter (fun r => re_search r n) l)) by (apply filter_In; auto).
      destruct (filter (fun r => re_search r n) l); [destruct Hi|]. left. auto.
  - intros ND n Hn.
    assert (NDb : NoDup base).
    { unfold base. destruct rotating; auto. clear - ND. induction listing as [|x t IH]; cbn [remove_first]; auto.
      inversion ND as [|? ? Hx Ht]; subst. destruct (String.eqb x "VersionHist.ver"); auto. constructor; auto.
      intros Hi. apply Hx. clear - Hi. induction t as [|y t IH]; cbn [remove_first] in Hi; auto.
      destruct (String.eqb y "VersionHist.ver"); [right; auto|]. destruct Hi; [left; auto|right; auto]. }
    clearbody base. clear - NDb Hn. induction base as [|x t IH]; [destruct Hn|].
    inversion NDb as [|? ? Hx Ht]; subst. cbn [flat_map]. rewrite count_occ_app.
    destruct (string_dec x n) as [->|D].
    + rewrite count_occ_repeat_eq by reflexivity.
      replace (count_occ string_dec (flat_map _ t) n) with 0%nat; [lia|].
      symmetry. apply count_occ_not_In. intros Hi. apply in_flat_map in Hi. destruct Hi as (y & Hy & Hr).
      apply repeat_spec in Hr. subst y. contradiction.
    + rewrite count_occ_repeat_neq by auto. destruct Hn as [->|Hn]; [contradiction|]. rewrite IH by auto. lia.
  - intros H1. clearbody base. clear - H1. induction base as [|x t IH]; auto. cbn [flat_map].
    rewrite H1 by (left; auto). cbn. f_equal. apply IH. intros; apply H1; right; auto.
Qed.
(** Integer positions, which the documentation offers, always raise. *)
Theorem C59_positions_refuted : forall re_search rotating listing l r, l <> [] ->
  select re_search rotating listing (Indices l) <> Ok r.
Proof.
  intros re_search rotating listing [|i l] r Hne; [contradiction|]. cbn [select].
  destruct (map_res _ _); cbn [rbind]; discriminate.
Qed.

(** ... with TypeError if they are positions of the list, counted from either end, and IndexError if not. *)
Theorem C59_positions_error : forall re_search (rotating : bool) listing l, l <> [] ->
  let names := if rotating then listing else remove_first "VersionHist.ver" listing in
  let n := Z.of_nat (List.length names) in
  ((forall i, In i l -> (- n <= i < n)%Z) -> select re_search rotating listing (Indices l) = Err TypeError) /\
  ((exists i, In i l /\ ~ (- n <= i < n)%Z) -> select re_search rotating listing (Indices l) = Err IndexError).
Proof.
  intros re_search rotating listing l Hne names n.
  assert (G : forall i : Z, ((- n <= i < n)%Z -> exists x, list_get names i = Ok x) /\
                        (~ (- n <= i < n)%Z -> list_get names i = Err IndexError)).
  { intros i. unfold list_get. fold n. destruct (Z.ltb_spec i 0); split; intros Hi.
    - destruct ((0 <=? i + n) && (i + n <? n))%Z eqn:E; [|lia].
      destruct (nth_error names (Z.to_nat (i + n))) eqn:E2; [eauto|]. apply nth_error_None in E2. lia.
    - destruct ((0 <=? i + n) && (i + n <? n))%Z eqn:E; [lia|reflexivity].
    - destruct ((0 <=? i) && (i <? n))%Z eqn:E; [|lia].
      destruct (nth_error names (Z.to_nat i)) eqn:E2; [eauto|]. apply nth_error_None in E2. lia.
    - destruct ((0 <=? i) && (i <? n))%Z eqn:E; [lia|reflexivity]. }
  assert (S : select re_search rotating listing (Indices l) = (let? _ := map_res (list_get names) l in @Err (list string * list string) TypeError)).
  { destruct l; [contradiction|]. reflexivity. }
  rewrite S. split.
  - intros H. clear S Hne. assert (E : exists ys, map_res (list_get names) l = Ok ys).
    { induction l as [|i l IH]; [eexists; reflexivity|]. cbn [map_res].
      destruct (proj1 (G i) (H i (or_introl eq_refl))) as [x ->]. destruct IH as [ys ->]; [intros; apply H; right; auto|].
      eexists. reflexivity. }
    destruct E as [ys ->]. reflexivity.
  - intros (i & Hi & N). clear S Hne. assert (E : map_res (list_get names) l = Err IndexError).
    { induction l as [|k l IH]; [contradiction|]. cbn [map_res]. destruct Hi as [->|Hi].
      - rewrite (proj2 (G i) N). reflexivity.
      - destruct (Z_le_dec (- n) k) as [H1|H1].
        + destruct (Z_lt_dec k n) as [H2|H2].
          * destruct (proj1 (G k) (conj H1 H2)) as [x ->]. cbn [rbind]. rewrite IH by auto. reflexivity.
          * rewrite (proj2 (G k)) by lia. reflexivity.
        + rewrite (proj2 (G k)) by lia. reflexivity. }
    rewrite E. reflexivity.
Qed.

(** ** Reading *)
(** A file and a group: what "name.h5/group" means, and several ".h5" are an error. *)
Theorem C59_file_and_group : forall a b, free_of_h5 a -> free_of_h5 b -> b <> "" ->
  split_file (a ++ ".h5" ++ b) = Ok (a ++ ".h5", if String.eqb b "/" then None else Some b) /\
  split_file (a ++ ".h5") = Ok (a ++ ".h5", None).
Proof.
  intros a b Fa Fb Hb. unfold split_file. split.
  - assert (Hc : contains ".h5" (a ++ ".h5" ++ b) = true) by (apply contains_inside). rewrite Hc.
    unfold ends_with. rewrite rcut_last by auto. destruct b as [|c b]; [contradiction|]. cbn [negb andb].
    rewrite cut_first by auto. rewrite (proj2 (contains_free _) Fb). reflexivity.
  - assert (E : a ++ ".h5" = a ++ ".h5" ++ "") by reflexivity.
    unfold ends_with. rewrite E, rcut_last by apply free_empty. cbn [negb]. rewrite andb_false_r. reflexivity.
Qed.
Theorem C59_several_h5_refuted : forall a b c, free_of_h5 a -> free_of_h5 c -> c <> "" ->
  split_file (a ++ ".h5" ++ b ++ ".h5" ++ c) = Err ValueError.
Proof.
  intros a b c Fa Fc Hc. unfold split_file.
  assert (H1 : contains ".h5" (a ++ ".h5" ++ b ++ ".h5" ++ c) = true) by (apply contains_inside). rewrite H1.
  unfold ends_with.
  replace (a ++ ".h5" ++ b ++ ".h5" ++ c) with ((a ++ ".h5" ++ b) ++ ".h5" ++ c) at 1 by (rewrite !app_assoc_s; reflexivity).
  rewrite rcut_last by auto. destruct c as [|x c]; [contradiction|]. cbn [negb andb].
  rewrite cut_first by auto. rewrite contains_inside. reflexivity.
Qed.

(** Success means: mass not zero, the file exists, the selected waveforms passed the check (in the NRAR
    format; the other format is not checked), and each was read, in order. *)
Theorem C59_accepted : forall W re_search open_file sub_listing (read : string -> option string -> string -> R -> res W) M filename radii Ws out,
  read_finite_radius_data re_search open_file sub_listing read M filename radii = Ok (Ws, out) ->
  M <> 0%R /\ exists file group f listing names,
    split_file filename = Ok (file, group) /\ open_file file = Some f /\
    (match group with None => listing = map fst f | Some g => sub_listing file g = Ok listing end) /\
    select re_search (match group with None => false | _ => true end) listing radii = Ok (names, out) /\
    (group = None -> validate_group f file names = Ok true) /\
    Forall2 (fun n w => read file group n M = Ok w) names Ws.
Proof.
  intros W re_search open_file sub_listing read M filename radii Ws out H. unfold read_finite_radius_data in H.
  destruct (Req_EM_T M 0) as [|HM]; [discriminate|]. split; auto.
  destruct (split_file filename) as [[file group]|]; [|discriminate]. cbn [rbind] in H.
  destruct (open_file file) as [f|] eqn:Ef; [|discriminate].
  destruct (match group with None => Ok (map fst f) | Some g => sub_listing file g end) as [listing|] eqn:El; [|discriminate].
  cbn [rbind] in H.
  destruct (select _ _ listing radii) as [[names rs]|] eqn:Es; [|discriminate]. cbn [rbind] in H.
  destruct (match group with None => _ | Some _ => _ end) as [u|] eqn:Ev in H; [|discriminate]. cbn [rbind] in H.
  destruct (map_res _ names) as [ws|] eqn:Em; [|discriminate]. cbn [rbind] in H. injection H as <- <-.
  exists file, group, f, listing, names. split; auto. split; auto. split.
  { destruct group; congruence. }
  split; auto. split.
  - intros ->. destruct (validate_group f file names) as [[]|]; try discriminate. reflexivity.
  - apply map_res_inv. auto.
Qed.

(** A file with two radii, as SpEC writes it. *)
Example C59_case :
  let f := [("R0100.dir", group_with (LM_of 2 3)); ("R0200.dir", group_with (LM_of 2 3)); ("VersionHist.ver", [])] in
  validate_group f "/data/rh_FiniteRadii_CodeUnits.h5" ["R0100.dir"; "R0200.dir"] = Ok true /\
  select contains false (map fst f) (Strings []) = Ok (["R0100.dir"; "R0200.dir"], ["0100"; "0200"]) /\
  select contains false (map fst f) (Strings ["0200"]) = Ok (["R0200.dir"], ["0200"]).
Proof. repeat split; vm_compute; reflexivity. Qed.
