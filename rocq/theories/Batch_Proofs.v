(** C81 (batches of extrapolations: templates, finding the data, marker files on disk), C82 (the mass of the horizons). *)
From Coq Require Import String Ascii Reals ZArith List Bool Lia Lra.
From Verif Require Import Common Times_Model Times_Proofs Extrap_Model Extrap_Proofs Batch_Model.
Import ListNotations.
Open Scope string_scope.

(** * Strings *)
Lemma app_assoc_s : forall a b c, ((a ++ b) ++ c = a ++ (b ++ c))%string.
Proof. induction a as [|x a IH]; intros b c; [reflexivity|]. cbn. rewrite IH. reflexivity. Qed.
Lemma app_nil_s : forall a, (a ++ "" = a)%string.
Proof. induction a as [|x a IH]; [reflexivity|]. cbn. rewrite IH. reflexivity. Qed.
Lemma app_cancel : forall a b c, (a ++ b = a ++ c -> b = c)%string.
Proof. induction a as [|x a IH]; intros b c H; [exact H|]. injection H as H. apply IH, H. Qed.
Lemma length_app : forall a b, (String.length (a ++ b) = String.length a + String.length b)%nat.
Proof. induction a as [|x a IH]; intros b; [reflexivity|]. cbn. rewrite IH. reflexivity. Qed.
Lemma app_cancel_r : forall a b c, (a ++ c = b ++ c -> a = b)%string.
Proof.
  induction a as [|x a IH]; intros [|y b] c Q; [reflexivity| | |].
  - exfalso. apply (f_equal String.length) in Q. cbn in Q. rewrite length_app in Q. lia.
  - exfalso. apply (f_equal String.length) in Q. cbn in Q. rewrite length_app in Q. lia.
  - cbn in Q. injection Q as -> Q. f_equal. exact (IH b c Q).
Qed.
Lemma prefix_iff : forall p s, prefix p s = true <-> exists r, s = p ++ r.
Proof.
  induction p as [|c p IH]; intros s; [split; [intros _; exists s; reflexivity|intros _; destruct s; reflexivity]|]. destruct s as [|d s]; [split; [discriminate|intros [r Hr]; discriminate]|]. cbn.
  destruct (ascii_dec c d) as [->|N].
  - rewrite IH. split; intros [r Hr]; exists r; [rewrite Hr; reflexivity|injection Hr as Hr; exact Hr].
  - split; [discriminate|]. intros [r Hr]. injection Hr as Hd _. congruence.
Qed.
Lemma prefix_app : forall p r, prefix p (p ++ r) = true.
Proof. intros p r. apply prefix_iff. exists r. reflexivity. Qed.
Fixpoint no_slash (s : string) : bool := match s with EmptyString => true | String c s' => negb (c =? "/")%char && no_slash s' end.
Lemma no_slash_app : forall a b, no_slash (a ++ b) = no_slash a && no_slash b.
Proof. induction a as [|x a IH]; intros b; [reflexivity|]. cbn. rewrite IH. apply andb_assoc. Qed.
(** The last component of a path is determined. *)
Lemma slash_not : forall a n b, no_slash n = true -> n <> (a ++ "/" ++ b)%string.
Proof. intros a n b H E. rewrite E, no_slash_app in H. apply andb_true_iff in H. destruct H as [_ H]. discriminate. Qed.
Lemma last_component : forall a a' n n', no_slash n = true -> no_slash n' = true -> (a ++ "/" ++ n = a' ++ "/" ++ n')%string -> a = a' /\ n = n'.
Proof.
  induction a as [|x a IH]; intros [|x' a'] n n' H H' E.
  - injection E as E. split; [reflexivity|exact E].
  - exfalso. injection E as _ E. exact (slash_not a' n n' H E).
  - exfalso. injection E as _ E. symmetry in E. exact (slash_not a n' n H' E).
  - cbn in E. injection E as -> E. destruct (IH a' n n' H H' E) as [-> ->]. split; reflexivity.
Qed.

(** * Templates *)
(** A template is text and fields in braces. *)
Inductive piece := Lit (s : string) | Fld (n : string).
Fixpoint render (ps : list piece) : string :=
  match ps with [] => "" | Lit s :: r => s ++ render r | Fld n :: r => "{" ++ n ++ "}" ++ render r end.
Fixpoint plain (s : string) : bool := match s with EmptyString => true | String c s' => negb (c =? "{")%char && negb (c =? "}")%char && plain s' end.
Fixpoint simple (s : string) : bool := match s with EmptyString => true | String c s' => negb (special c) && negb (c =? "}")%char && simple s' end.
Definition good_piece (p : piece) : Prop := match p with Lit s => plain s = true | Fld n => simple n = true /\ all_digits n = false end.
(** Known fields become text, the others stay. *)
Definition fill (keys : list (string * string)) (p : piece) : piece :=
  match p with Lit s => Lit s | Fld n => match find_key keys n with Some v => Lit v | None => Fld n end end.
Lemma rmap_app : forall a b (r : res string), rmap (append a) (rmap (append b) r) = rmap (append (a ++ b)) r.
Proof. intros a b [s|e]; cbn; [rewrite app_assoc_s|]; reflexivity. Qed.
Lemma format_text : forall keys s r, plain s = true -> format_from keys (s ++ r) None = rmap (append s) (format_from keys r None).
Proof.
  induction s as [|c s IH]; intros r H; [cbn; destruct (format_from keys r None); reflexivity|]. cbn [simple plain] in H. rewrite !andb_true_iff, !negb_true_iff in H. destruct H as [[H1 H2] H3].
  cbn [append format_from]. rewrite H1, H2, (IH r H3). destruct (format_from keys r None); reflexivity.
Qed.
Lemma format_name : forall keys n acc r, simple n = true ->
  format_from keys (n ++ "}" ++ r) (Some acc) = rbind (field_value keys (acc ++ n)) (fun v => rbind (format_from keys r None) (fun x => Ok (v ++ x))).
Proof.
  induction n as [|c n IH]; intros acc r H; [cbn [append format_from]; rewrite app_nil_s; reflexivity|]. cbn [simple plain] in H. rewrite !andb_true_iff, !negb_true_iff in H. destruct H as [[H1 H2] H3].
  cbn [append format_from]. rewrite H2, H1. rewrite (IH _ r H3), app_assoc_s. reflexivity.
Qed.
Lemma format_field : forall keys n r, simple n = true -> format_from keys ("{" ++ n ++ "}" ++ r) None = rbind (field_value keys n) (fun v => rbind (format_from keys r None) (fun x => Ok (v ++ x))).
Proof.
  intros keys n r H. assert (E : format_from keys ("{" ++ n ++ "}" ++ r) None = format_from keys (n ++ "}" ++ r) (Some "")).
  { destruct n as [|c n]; [reflexivity|]. cbn [simple plain] in H. rewrite !andb_true_iff, !negb_true_iff in H. destruct H as [[H1 _] _].
    assert (c <> "{"%char) by (intros ->; discriminate). cbn [append format_from]. change (("{" =? "{")%char) with true. cbv iota. destruct (Ascii.eqb_spec c "{"); [contradiction|]. reflexivity. }
  rewrite E. rewrite format_name by exact H. reflexivity.
Qed.
(** Known fields are replaced, all others and the text stay as they are. *)
Theorem C81_template : forall keys ps, Forall good_piece ps -> safe_format (render ps) keys = Ok (render (map (fill keys) ps)).
Proof.
  intros keys ps H. unfold safe_format. induction H as [|p ps Hp Hps IH]; [reflexivity|]. destruct p as [s|n]; cbn [render map fill good_piece] in *.
  - rewrite format_text by exact Hp. rewrite IH. reflexivity.
  - destruct Hp as [Hs Hd]. rewrite format_field by exact Hs. unfold field_value. rewrite Hd. cbn [rbind]. rewrite IH. cbn [rbind]. destruct (find_key keys n); cbn [render]; [reflexivity|]. rewrite !app_assoc_s. reflexivity.
Qed.
Lemma find_key_app : forall k1 k2 n, find_key (k1 ++ k2)%list n = match find_key k1 n with Some v => Some v | None => find_key k2 n end.
Proof. induction k1 as [|[k v] k1 IH]; intros k2 n; [reflexivity|]. cbn. destruct (k =? n); [reflexivity|apply IH]. Qed.
Lemma find_key_in : forall ks n v, find_key ks n = Some v -> In (n, v) ks.
Proof. induction ks as [|[k x] ks IH]; intros n v H; [discriminate|]. cbn in H. destruct (String.eqb_spec k n) as [->|N]; [injection H as ->; left; reflexivity|right; apply IH, H]. Qed.
(** Filling a template in two steps is filling it at once, if the values of the first step have no braces. *)
Theorem C81_template_steps : forall k1 k2 ps, Forall good_piece ps -> (forall n v, In (n, v) k1 -> plain v = true) ->
  exists t, safe_format (render ps) k1 = Ok t /\ safe_format t k2 = safe_format (render ps) (k1 ++ k2).
Proof.
  intros k1 k2 ps H HV. eexists. split; [apply C81_template, H|]. rewrite !C81_template; [|exact H|].
  - f_equal. f_equal. rewrite map_map. apply map_ext. intros [s|n]; [reflexivity|]. cbn [fill]. rewrite find_key_app. destruct (find_key k1 n); reflexivity.
  - apply Forall_map. eapply Forall_impl; [|exact H]. intros [s|n] Hp; [exact Hp|]. cbn [fill]. destruct (find_key k1 n) as [v|] eqn:E; [|exact Hp]. cbn. apply (HV n), find_key_in, E.
Qed.
(** Escaped braces do not survive the first step. *)
Theorem C81_template_steps_refuted : exists s k, safe_format s [] = Ok "{a}" /\ safe_format "{a}" k = Ok "x" /\ safe_format s ([] ++ k) = Ok "{a}".
Proof. exists "{{a}}", [("a", "x")]. repeat split. Qed.
(** A script with an empty pair of braces, such as an empty dictionary, cannot be a template. *)
Theorem C81_template_braces_refuted : forall s r keys, plain s = true -> safe_format (s ++ "{}" ++ r) keys = Err IndexError.
Proof. intros s r keys H. unfold safe_format. rewrite format_text by exact H. change ("{}" ++ r) with ("{" ++ "" ++ "}" ++ r). rewrite format_field by reflexivity. reflexivity. Qed.
Example C81_case_template : safe_format "{SomeKey} {SomeOtherKey}" [("SomeKey", "Hello"); ("SomeMissingKey", "Bla")] = Ok "Hello {SomeOtherKey}"
  /\ render [Fld "SomeKey"; Lit " "; Fld "SomeOtherKey"] = "{SomeKey} {SomeOtherKey}" /\ Forall good_piece [Fld "SomeKey"; Lit " "; Fld "SomeOtherKey"].
Proof. split; [reflexivity|]. split; [reflexivity|]. repeat constructor. Qed.

(** * Finding the data *)
Definition occurs (old s : string) : Prop := exists a b, s = a ++ old ++ b.
Lemma remove_skip : forall old a s k, String.length a = k -> remove_from old (a ++ s) k = remove_from old s 0.
Proof. induction a as [|c a IH]; intros s k <-; [reflexivity|]. cbn. apply IH. reflexivity. Qed.
Lemma remove_head : forall old s, old <> "" -> remove_all old (old ++ s) = remove_all old s.
Proof.
  intros [|c old] s H; [congruence|]. unfold remove_all. cbn [append remove_from]. change (String c (old ++ s)) with (String c old ++ s). rewrite prefix_app. cbn [String.length]. rewrite Nat.sub_succ, Nat.sub_0_r. apply remove_skip. reflexivity.
Qed.
Lemma remove_absent : forall old s, ~ occurs old s -> remove_all old s = s.
Proof.
  intros old s. unfold remove_all. induction s as [|c s IH]; intros H; [reflexivity|]. cbn [remove_from]. destruct (prefix old (String c s)) eqn:P.
  - exfalso. apply prefix_iff in P. destruct P as [r Hr]. apply H. exists "", r. exact Hr.
  - rewrite IH; [reflexivity|]. intros (a & b & E). apply H. exists (String c a), b. rewrite E. reflexivity.
Qed.
Lemma remove_length : forall old s k, (String.length (remove_from old s k) <= String.length s - k)%nat.
Proof.
  intros old. induction s as [|c s IH]; intros k; [cbn; lia|]. cbn [remove_from]. destruct k as [|k].
  - destruct (prefix old (String c s)); cbn [String.length]; [specialize (IH (String.length old - 1)%nat); lia|specialize (IH 0%nat); lia].
  - specialize (IH k). cbn [String.length]. lia.
Qed.
Lemma remove_present : forall old s, old <> "" -> occurs old s -> (String.length (remove_all old s) < String.length s)%nat.
Proof.
  intros old s Ho. unfold remove_all. induction s as [|c s IH]; intros (a & b & E).
  - exfalso. destruct a, old; try discriminate. congruence.
  - cbn [remove_from]. destruct (prefix old (String c s)) eqn:P.
    + assert (L := remove_length old s (String.length old - 1)%nat). cbn [String.length]. lia.
    + destruct a as [|d a]; [exfalso; cbn in E; rewrite E in P; rewrite prefix_app in P; discriminate|]. injection E as <- E. cbn [String.length]. apply -> Nat.succ_lt_mono. apply IH. exists a, b. exact E.
Qed.
(** The subdirectory reported is the part below the top directory exactly if the name of the top directory does not come again. *)
Theorem C81_subdirectory : forall top sub, remove_all (top ++ "/") (top ++ "/" ++ sub) = sub <-> ~ occurs (top ++ "/") sub.
Proof.
  intros top sub. assert (N : top ++ "/" <> "") by (destruct top; discriminate). rewrite <- app_assoc_s, remove_head by exact N. split.
  - intros E O. assert (L := remove_present _ _ N O). rewrite E in L. lia.
  - apply remove_absent.
Qed.
Theorem C81_subdirectory_refuted : remove_all ("/runs" ++ "/") "/runs/q1/runs/Lev3" = "q1Lev3".
Proof. reflexivity. Qed.

(** Which directories match: the last name is Lev and digits (a newline may follow). *)
Definition lev_name (n : string) : Prop := exists d e, n = "Lev" ++ d ++ e /\ all_digits d = true /\ (e = "" \/ e = String (ascii_of_nat 10) "").
Lemma digits_end_iff : forall s, digits_end s = true <-> exists d e, s = d ++ e /\ all_digits d = true /\ (e = "" \/ e = String (ascii_of_nat 10) "").
Proof.
  induction s as [|c s IH]; [split; [intros _; exists "", ""; auto|reflexivity]|]. cbn [digits_end]. rewrite orb_true_iff, !andb_true_iff, IH. split.
  - intros [[D (d & e & -> & Hd & He)]|[C S]].
    + exists (String c d), e. split; [reflexivity|]. split; [cbn; rewrite D; exact Hd|exact He].
    + apply Ascii.eqb_eq in C. apply String.eqb_eq in S. subst. exists "", (String (ascii_of_nat 10) ""). auto.
  - intros (d & e & E & Hd & He). destruct d as [|x d].
    + right. destruct He as [-> | ->]; [discriminate|]. injection E as -> ->. split; reflexivity.
    + injection E as -> E. cbn in Hd. apply andb_true_iff in Hd. destruct Hd as [Hx Hd]. left. split; [exact Hx|]. exists d, e. auto.
Qed.
Lemma digits_no_slash : forall d, all_digits d = true -> no_slash d = true.
Proof. induction d as [|c d IH]; intros H; [reflexivity|]. cbn in *. apply andb_true_iff in H. destruct H as [Hc Hd]. rewrite (IH Hd), andb_true_r. destruct (Ascii.eqb_spec c "/") as [->|]; [discriminate|reflexivity]. Qed.
Lemma lev_name_no_slash : forall d e, all_digits d = true -> (e = "" \/ e = String (ascii_of_nat 10) "") -> no_slash ("Lev" ++ d ++ e) = true.
Proof. intros d e Hd He. rewrite !no_slash_app, (digits_no_slash d Hd). destruct He as [-> | ->]; reflexivity. Qed.
Lemma substring_app : forall a b, substring (String.length a) (String.length b) (a ++ b) = b.
Proof.
  induction a as [|c a IH]; intros b; [|cbn; apply IH]. cbn [append String.length]. induction b as [|x b IHb]; [reflexivity|]. cbn. f_equal. exact IHb.
Qed.
Lemma lev_iff : forall s, lev s = true <-> exists p n, s = p ++ "/" ++ n /\ lev_name n.
Proof.
  induction s as [|c s IH].
  - split; [discriminate|]. intros ([|] & n & E & _); discriminate.
  - cbn [lev]. rewrite orb_true_iff, andb_true_iff, IH. split.
    + intros [[P D]|(p & n & -> & Hn)]; [|exists (String c p), n; auto]. apply prefix_iff in P. destruct P as [r Hr]. rewrite Hr in D. exists "", ("Lev" ++ r). split; [exact Hr|].
      assert (Q : substring 4 (String.length ("/Lev" ++ r) - 4) ("/Lev" ++ r) = r). { rewrite length_app. change (String.length "/Lev") with 4%nat. replace (4 + String.length r - 4)%nat with (String.length r) by lia. exact (substring_app "/Lev" r). }
      rewrite Q in D. apply digits_end_iff in D. destruct D as (d & e & -> & Hd & He). exists d, e. auto.
    + intros (p & n & E & Hn). destruct p as [|x p].
      * left. destruct Hn as (d & e & -> & Hd & He). change (String c s = "/Lev" ++ (d ++ e)) in E. rewrite E. split; [apply prefix_app|].
        assert (Q : forall r, substring 4 (String.length ("/Lev" ++ r) - 4) ("/Lev" ++ r) = r). { intros r. rewrite length_app. change (String.length "/Lev") with 4%nat. replace (4 + String.length r - 4)%nat with (String.length r) by lia. exact (substring_app "/Lev" r). }
        rewrite Q. apply digits_end_iff. exists d, e. auto.
      * right. injection E as _ E. exists p, n. auto.
Qed.
Lemma lev_last : forall p n, no_slash n = true -> lev (p ++ "/" ++ n) = true <-> lev_name n.
Proof.
  intros p n Hn. rewrite lev_iff. split; [|intros H; exists p, n; auto]. intros (p' & n' & E & H). assert (Hn' : no_slash n' = true) by (destruct H as (d & e & -> & Hd & He); apply lev_name_no_slash; assumption).
  apply last_component in E; [|assumption..]. destruct E as [_ ->]. exact H.
Qed.

(** The directory reached from [t] by a list of names, and the files in it *)
Inductive at_dir : tree -> list string -> list string -> Prop :=
| here : forall fs subs, at_dir (Dir fs subs) [] fs
| below : forall fs subs n s ns fs', In (n, s) subs -> at_dir s ns fs' -> at_dir (Dir fs subs) (n :: ns) fs'.
Definition good_name (n : string) : bool := no_slash n && negb (n =? "").
(** Names without slash, different within every directory *)
Inductive good_tree : tree -> Prop := good_dir : forall fs subs, NoDup (map fst subs) -> (forall n s, In (n, s) subs -> good_name n = true /\ good_tree s) -> good_tree (Dir fs subs).
(** Names joined by slashes *)
Definition below_path (top : string) (ns : list string) : string := fold_left (fun p n => p ++ "/" ++ n) ns top.
Definition relative (ns : list string) : string := match ns with [] => "" | n :: ns' => below_path n ns' end.
Lemma below_app : forall ns p q, below_path (p ++ q) ns = p ++ below_path q ns.
Proof. induction ns as [|n ns IH]; intros p q; [reflexivity|]. cbn [below_path fold_left]. rewrite app_assoc_s. apply (IH p (q ++ "/" ++ n)). Qed.
Lemma below_relative : forall top n ns, below_path top (n :: ns) = top ++ "/" ++ relative (n :: ns).
Proof. intros top n ns. cbn [below_path fold_left relative]. change (below_path (top ++ "/" ++ n) ns = top ++ "/" ++ below_path n ns). rewrite <- app_assoc_s, below_app, app_assoc_s. reflexivity. Qed.
Lemma tree_ind2 : forall P : tree -> Prop, (forall fs subs, (forall n s, In (n, s) subs -> P s) -> P (Dir fs subs)) -> forall t, P t.
Proof.
  intros P H. fix F 1. intros [fs subs]. apply H. induction subs as [|[n s] subs IH]; intros m u I; [destruct I|]. destruct I as [E|I]; [injection E as _ <-; apply F|exact (IH m u I)].
Qed.
Definition good_top (top : string) : Prop := ends_with_slash top = false /\ top <> "".
Lemma ends_app : forall p n, good_name n = true -> ends_with_slash (p ++ n) = false.
Proof.
  assert (B : forall n, good_name n = true -> ends_with_slash n = false).
  { induction n as [|c n IH]; intros H; [discriminate|]. unfold good_name in *. cbn [no_slash] in H. rewrite !andb_true_iff in H. destruct H as [[H1 H2] _]. destruct n as [|d n]; [cbn; apply negb_true_iff; exact H1|]. cbn [ends_with_slash]. apply IH. rewrite H2. reflexivity. }
  induction p as [|c p IH]; intros n H; [apply B, H|]. specialize (IH n H). cbn [append]. destruct (p ++ n) eqn:E; [|cbn [ends_with_slash]; exact IH]. exfalso. destruct p; [|discriminate]. cbn in E. subst n. discriminate.
Qed.
Lemma join_good : forall p n, good_top p -> join p n = p ++ "/" ++ n.
Proof. intros p n [H1 H2]. unfold join. rewrite H1. destruct (String.eqb_spec p ""); [contradiction|reflexivity]. Qed.
Lemma join_top : forall p n, good_top p -> good_name n = true -> good_top (p ++ "/" ++ n).
Proof. intros p n H Hn. split; [rewrite <- app_assoc_s; apply ends_app, Hn|]. destruct p; discriminate. Qed.
Lemma walk_iff : forall t, good_tree t -> forall top p fs, good_top top -> In (p, fs) (walk top t) <-> exists ns, at_dir t ns fs /\ p = below_path top ns.
Proof.
  induction t as [fs0 subs IH] using tree_ind2. intros G top p fs HT. inversion G as [? ? ND GS]; subst. cbn [walk In]. rewrite in_flat_map. split.
  - intros [E|([n s] & I & W)].
    + injection E as <- <-. exists []. split; [constructor|reflexivity].
    + destruct (GS n s I) as [Hn Hs]. rewrite join_good in W by exact HT. apply (IH n s I Hs) in W; [|apply join_top; assumption]. destruct W as (ns & A & ->). exists (n :: ns). split; [exact (below _ _ n s ns fs I A)|reflexivity].
  - intros (ns & A & ->). inversion A as [|? ? n s ns' ? I A']; subst; [left; reflexivity|]. right. exists (n, s). split; [exact I|]. destruct (GS n s I) as [Hn Hs]. rewrite join_good by exact HT. apply (IH n s I Hs); [apply join_top; assumption|]. exists ns'. split; [exact A'|reflexivity].
Qed.
Lemma at_names : forall t ns fs, good_tree t -> at_dir t ns fs -> Forall (fun n => good_name n = true) ns.
Proof. intros t ns fs G A. induction A as [|fs subs n s ns fs' I A IH]; [constructor|]. inversion G as [? ? ND GS]; subst. destruct (GS n s I) as [Hn Hs]. constructor; [exact Hn|apply IH, Hs]. Qed.
Lemma below_last : forall ns top n, below_path top (ns ++ [n]) = below_path top ns ++ "/" ++ n.
Proof. intros ns top n. unfold below_path. rewrite fold_left_app. reflexivity. Qed.
Lemma listed_iff : forall x l, listed x l = true <-> In x l.
Proof. intros x l. unfold listed. rewrite existsb_exists. split; [intros (y & I & E); apply String.eqb_eq in E; subst; exact I|intros I; exists x; split; [exact I|apply String.eqb_refl]]. Qed.
Lemma list_end : forall (l : list string), l = [] \/ exists l' x, l = (l' ++ [x])%list.
Proof. induction l as [|a l IH]; [left; reflexivity|right]. destruct IH as [->|(l' & x & ->)]; [exists [], a; reflexivity|exists (a :: l'), x; reflexivity]. Qed.
(** What is found: a directory at or below the top whose path ends in /Lev and digits, with metadata and one of the six files. *)
Lemma found_iff : forall top t sub file, good_top top -> good_tree t ->
  In (sub, file) (find_possible top t) <-> exists ns fs, at_dir t ns fs /\ lev (below_path top ns) = true /\ In "metadata.txt" fs /\ In file data_files /\ In file fs /\ sub = remove_all (top ++ "/") (below_path top ns).
Proof.
  intros top t sub file HT G. unfold find_possible. rewrite in_flat_map. split.
  - intros ([p fs] & W & I). cbn [fst snd] in I. apply (walk_iff t G) in W; [|exact HT]. destruct W as (ns & A & ->). destruct (lev (below_path top ns) && listed "metadata.txt" fs)%bool eqn:E; [|destruct I].
    apply andb_true_iff in E. destruct E as [E1 E2]. apply listed_iff in E2. apply in_map_iff in I. destruct I as (f & E & I). injection E as <- <-. apply filter_In in I. destruct I as [I1 I2]. apply listed_iff in I2. exists ns, fs. auto 7.
  - intros (ns & fs & A & L & M & F & I & ->). exists (below_path top ns, fs). split; [apply (walk_iff t G); [exact HT|exists ns; auto]|]. cbn [fst snd]. rewrite L. apply listed_iff in M. rewrite M. cbn [andb]. apply in_map_iff. exists file. split; [reflexivity|]. apply filter_In. split; [exact F|]. apply listed_iff, I.
Qed.
(** For a top directory that is not itself a Lev directory and whose name does not come again below it. *)
Theorem C81_found : forall top t sub file, good_top top -> good_tree t -> lev top = false -> (forall ns fs, at_dir t ns fs -> ~ occurs (top ++ "/") (relative ns)) ->
  In (sub, file) (find_possible top t) <->
  exists ns n fs, at_dir t (ns ++ [n]) fs /\ sub = relative (ns ++ [n]) /\ lev_name n /\ In "metadata.txt" fs /\ In file data_files /\ In file fs.
Proof.
  intros top t sub file HT G HL HO. rewrite found_iff by assumption. split.
  - intros (ns & fs & A & L & M & F & I & ->). destruct (list_end ns) as [->|(ns' & n & ->)]; [exfalso; cbn in L; rewrite L in HL; discriminate|]. exists ns', n, fs. split; [exact A|].
    assert (Hn : no_slash n = true). { assert (Q := at_names t _ fs G A). apply Forall_app in Q. destruct Q as [_ Q]. inversion Q as [|? ? Q' _]; subst. unfold good_name in Q'. apply andb_true_iff in Q'. apply Q'. }
    split; [|split; [|auto]].
    + specialize (HO _ _ A). destruct (ns' ++ [n])%list as [|m ms] eqn:E; [destruct ns'; discriminate|]. rewrite below_relative. apply C81_subdirectory, HO.
    + rewrite below_last in L. apply lev_last in L; assumption.
  - intros (ns & n & fs & A & -> & L & M & F & I). exists (ns ++ [n])%list, fs. split; [exact A|]. split; [|split; [exact M|split; [exact F|split; [exact I|]]]].
    + rewrite below_last. apply lev_iff. eauto.
    + symmetry. specialize (HO _ _ A). destruct (ns ++ [n])%list as [|m ms] eqn:E; [destruct ns; discriminate|]. rewrite below_relative. apply C81_subdirectory, HO.
Qed.
(** A top directory that is a Lev directory, or is written with a slash at the end, gives paths that do not exist below it. *)
Theorem C81_found_refuted : let d := Dir ["metadata.txt"; "rh_FiniteRadii_CodeUnits.h5"] [] in
  find_possible "/runs/Lev3" d = [("/runs/Lev3", "rh_FiniteRadii_CodeUnits.h5")] /\
  find_possible "/runs/" (Dir [] [("Lev3", d)]) = [("/runs/Lev3", "rh_FiniteRadii_CodeUnits.h5")] /\
  find_possible "/runs" (Dir [] [("q1", Dir [] [("runs", Dir [] [("Lev3", d)])])]) = [("q1Lev3", "rh_FiniteRadii_CodeUnits.h5")].
Proof. split; [|split]; reflexivity. Qed.

Lemma first_component : forall n m r r', no_slash n = true -> no_slash m = true -> (r = "" \/ exists x, r = "/" ++ x) -> (r' = "" \/ exists x, r' = "/" ++ x) -> n ++ r = m ++ r' -> n = m.
Proof.
  induction n as [|c n IH]; intros [|d m] r r' Hn Hm Hr Hr' E.
  - reflexivity.
  - exfalso. cbn in E, Hm. destruct Hr as [-> |[x ->]]; [discriminate|]. injection E as <- _. discriminate.
  - exfalso. cbn in E, Hn. destruct Hr' as [-> |[x ->]]; [discriminate|]. injection E as -> _. discriminate.
  - cbn in Hn, Hm. apply andb_true_iff in Hn. apply andb_true_iff in Hm. injection E as -> E. f_equal. exact (IH m r r' (proj2 Hn) (proj2 Hm) Hr Hr' E).
Qed.
Lemma walk_shape : forall t top p fs, good_tree t -> good_top top -> In (p, fs) (walk top t) -> exists r, p = top ++ r /\ (r = "" \/ exists x, r = "/" ++ x).
Proof.
  intros t top p fs G HT W. apply (walk_iff t G) in W; [|exact HT]. destruct W as ([|n ns] & _ & ->); [exists ""; rewrite app_nil_s; auto|]. exists ("/" ++ relative (n :: ns)). rewrite below_relative. eauto.
Qed.
Lemma NoDup_app_ : forall A (l l' : list A), NoDup l -> NoDup l' -> (forall x, In x l -> ~ In x l') -> NoDup (l ++ l')%list.
Proof.
  induction l as [|a l IH]; intros l' H H' D; [exact H'|]. inversion H; subst. cbn. constructor; [rewrite in_app_iff; intros [I|I]; [contradiction|exact (D a (or_introl eq_refl) I)]|]. apply IH; [assumption|assumption|]. intros x I. apply D. right. exact I.
Qed.
Lemma walk_distinct : forall t, good_tree t -> forall top, good_top top -> NoDup (map fst (walk top t)).
Proof.
  induction t as [fs subs IH] using tree_ind2. intros G top HT. inversion G as [? ? ND GS]; subst. cbn [walk map]. constructor.
  - intros I. apply in_map_iff in I. destruct I as ([p f] & E & I). cbn in E. subst p. apply in_flat_map in I. destruct I as ([n s] & I & W). destruct (GS n s I) as [Hn Hs]. rewrite join_good in W by exact HT.
    apply walk_shape in W; [|exact Hs|apply join_top; assumption]. destruct W as (r & E & _). apply (f_equal String.length) in E. rewrite !length_app in E. cbn in E. lia.
  - clear G fs. induction subs as [|[n s] subs IHs]; [constructor|]. cbn [flat_map]. rewrite map_app. cbn [map fst] in ND. inversion ND as [|? ? Nn ND']; subst. destruct (GS n s (or_introl eq_refl)) as [Hn Hs]. apply NoDup_app_.
    + rewrite join_good by exact HT. apply (IH n s (or_introl eq_refl) Hs). apply join_top; assumption.
    + apply IHs; [intros m u I; exact (IH m u (or_intror I))|exact ND'|intros m u I; apply GS; right; exact I].
    + intros p I I'. apply in_map_iff in I. apply in_map_iff in I'. destruct I as ([q f] & E & I). destruct I' as ([q' f'] & E' & I'). cbn in E, E'. subst q q'. apply in_flat_map in I'. destruct I' as ([m u] & Im & W').
      destruct (GS m u (or_intror Im)) as [Hm Hu]. rewrite join_good in I, W' by exact HT. apply walk_shape in I; [|exact Hs|apply join_top; assumption]. apply walk_shape in W'; [|exact Hu|apply join_top; assumption].
      destruct I as (r & E & Hr). destruct W' as (r' & E' & Hr'). rewrite E in E'. rewrite !app_assoc_s in E'. apply app_cancel in E'. injection E' as E'. unfold good_name in *. apply andb_true_iff in Hn. apply andb_true_iff in Hm.
      assert (n = m) by (apply (first_component n m r r'); tauto). subst m. apply Nn. apply in_map_iff. exists (n, u). auto.
Qed.
Lemma NoDup_flat : forall A B (f : A -> list B) l, NoDup l -> (forall x, In x l -> NoDup (f x)) -> (forall x y b, In x l -> In y l -> In b (f x) -> In b (f y) -> x = y) -> NoDup (flat_map f l).
Proof.
  induction l as [|a l IH]; intros H H1 H2; [constructor|]. inversion H; subst. cbn. apply NoDup_app_; [apply H1; left; reflexivity| |].
  - apply IH; [assumption|intros x I; apply H1; right; exact I|intros x y b I J; apply H2; right; assumption].
  - intros b I J. apply in_flat_map in J. destruct J as (y & Iy & J). assert (a = y) by (apply (H2 a y b); [left; reflexivity|right; exact Iy|exact I|exact J]). subst y. contradiction.
Qed.
(** Nothing is listed twice. *)
Theorem C81_found_once : forall top t, good_top top -> good_tree t -> lev top = false -> (forall ns fs, at_dir t ns fs -> ~ occurs (top ++ "/") (relative ns)) -> NoDup (find_possible top t).
Proof.
  intros top t HT G HL HO. assert (W := walk_distinct t G top HT). unfold find_possible. apply NoDup_flat.
  - exact (NoDup_map_inv _ _ W).
  - intros [p fs] _. destruct (_ && _)%bool; [|constructor]. apply FinFun.Injective_map_NoDup; [intros a b E; injection E; auto|]. apply NoDup_filter. unfold data_files. repeat constructor; cbn [In]; intuition discriminate.
  - assert (K : forall p fs sub f, In (p, fs) (walk top t) -> In (sub, f) (if (lev p && listed "metadata.txt" fs)%bool then map (fun f => (remove_all (top ++ "/") p, f)) (filter (fun f => listed f fs) data_files) else []) -> p = top ++ "/" ++ sub).
    { intros p fs sub f Iw I. destruct (lev p && _)%bool eqn:E; [|destruct I]. apply andb_true_iff in E. apply in_map_iff in I. destruct I as (f' & Q & _). injection Q as <- _. apply (walk_iff t G) in Iw; [|exact HT]. destruct Iw as (ns & A & ->).
      destruct ns as [|n ns]; [cbn in E; rewrite HL in E; destruct E; discriminate|]. rewrite below_relative. rewrite (proj2 (C81_subdirectory top _) (HO _ _ A)). reflexivity. }
    intros [p fs] [p' fs'] [sub f] I I' J J'. cbn [fst snd] in J, J'. assert (E : p = p') by (rewrite (K _ _ _ _ I J), (K _ _ _ _ I' J'); reflexivity). subst p'. f_equal.
    clear - W I I'. induction (walk top t) as [|[q g] l IH]; [destruct I|]. cbn [map fst] in W. inversion W as [|? ? N W']; subst.
    destruct I as [I|I]; destruct I' as [I'|I']; [congruence| | |apply IH; assumption]; exfalso; apply N; apply in_map_iff; [injection I as -> ->; exists (p, fs')|injection I' as -> ->; exists (p, fs)]; auto.
Qed.
Example C81_case_found : let lev3 := Dir ["metadata.txt"; "Horizons.h5"; "rPsi4_FiniteRadii_CodeUnits.h5"; "rh_FiniteRadii_CodeUnits.h5"] [] in let lev2 := Dir ["rh_FiniteRadii_CodeUnits.h5"] [] in
  let t := Dir [] [("q1", Dir [] [("Lev3", lev3); ("Lev2", lev2); ("Level", lev3)])] in
  find_possible "/runs" t = [("q1/Lev3", "rh_FiniteRadii_CodeUnits.h5"); ("q1/Lev3", "rPsi4_FiniteRadii_CodeUnits.h5")] /\ good_top "/runs" /\ good_tree t /\ lev "/runs" = false.
Proof.
  cbv zeta. split; [reflexivity|]. split; [split; [reflexivity|discriminate]|]. split; [|reflexivity].
  assert (Leaf : forall fs, good_tree (Dir fs [])) by (intros fs; constructor; [constructor|intros n s []]).
  constructor; [repeat constructor; intros []|]. intros n s I. destruct I as [I|[]]. injection I as <- <-. split; [reflexivity|]. constructor.
  - cbn [map fst]. constructor; [|constructor; [|constructor; [intros []|constructor]]]; cbn [In]; intros H; repeat destruct H as [H|H]; discriminate || contradiction.
  - intros n s I. destruct I as [I|[I|[I|[]]]]; injection I as <- <-; (split; [reflexivity|apply Leaf]).
Qed.

(** * Runs on disk *)
Definition kinds : list string := [".started_"; ".error_"; ".finished_"].
Lemma kind_inj : forall k k' f f', In k kinds -> In k' kinds -> k ++ f = k' ++ f' -> k = k' /\ f = f'.
Proof.
  intros k k' f f' H H' E. cbn [kinds In] in H, H'. destruct H as [<-|[<-|[<-|[]]]]; destruct H' as [<-|[<-|[<-|[]]]]; cbn in E; try discriminate; (split; [reflexivity|]); repeat (injection E as E); exact E.
Qed.
Lemma kind_no_slash : forall k, In k kinds -> no_slash k = true.
Proof. intros k H. cbn in H. destruct H as [<-|[<-|[<-|[]]]]; reflexivity. Qed.
(** The three marker files of one pair *)
Definition marks (w : world) (out sub file : string) : markers :=
  mkmk (exists_file w (marker ".started_" out sub file)) (exists_file w (marker ".error_" out sub file)) (exists_file w (marker ".finished_" out sub file)).
Definition is_marker (p : string) : Prop := exists d k f, In k kinds /\ no_slash f = true /\ p = d ++ "/" ++ k ++ f.
(** The command returns a fixed value and does not touch marker files, remove directories or change the directory of its parent. *)
Definition behaves (child : world -> world * option Z) (code : option Z) : Prop := forall w,
  snd (child w) = code /\ (forall p, is_marker p -> files (fst (child w)) p = files w p) /\ (forall d, dirs w d = true -> dirs (fst (child w)) d = true) /\ cwd (fst (child w)) = cwd w.
Definition outcome_of (code : option Z) : outcome := match code with None => RaisedBefore | Some c => if (c =? 0)%Z then ReturnZero else ReturnNonzero end.
Definition code_of (code : option Z) : Z := match code with None => 0%Z | Some c => c end.

Lemma marker_path : forall k out sub f, marker k out sub f = (out ++ "/" ++ sub) ++ "/" ++ k ++ f.
Proof. intros. unfold marker. rewrite !app_assoc_s. reflexivity. Qed.
Lemma od_nonempty : forall out sub, out ++ "/" ++ sub <> "".
Proof. intros [|c out] sub; discriminate. Qed.
Lemma resolve_app : forall w d x, d <> "" -> resolve w (d ++ x) = resolve w d ++ x.
Proof.
  intros w [|c d] x H; [congruence|]. unfold resolve. cbn [append prefix]. destruct (ascii_dec "/" c) as [<-|N]; [destruct d, x; reflexivity|]. rewrite !app_assoc_s. reflexivity.
Qed.
Lemma resolve_abs : forall w out x, prefix "/" out = true -> resolve w (out ++ x) = out ++ x.
Proof. intros w out x H. apply prefix_iff in H. destruct H as [r ->]. rewrite app_assoc_s. unfold resolve. cbn. destruct (r ++ x); reflexivity. Qed.
Lemma resolve_cwd : forall w w' p, cwd w = cwd w' -> resolve w p = resolve w' p.
Proof. intros w w' p H. unfold resolve. rewrite H. reflexivity. Qed.
Lemma files_put : forall w p v q, files (put w p v) q = if q =? resolve w p then v else files w q.
Proof. reflexivity. Qed.
Lemma files_remove : forall w p q, files (remove_if w p) q = if q =? resolve w p then None else files w q.
Proof.
  intros w p q. unfold remove_if, exists_file. destruct (files w (resolve w p)) eqn:E; [reflexivity|]. destruct (String.eqb_spec q (resolve w p)) as [->|]; [exact E|reflexivity].
Qed.
Lemma cwd_remove : forall w p, cwd (remove_if w p) = cwd w /\ dirs (remove_if w p) = dirs w.
Proof. intros w p. unfold remove_if. destruct (exists_file w p); split; reflexivity. Qed.
Lemma prepared : forall w out sub file t, let od := out ++ "/" ++ sub in let r := resolve w od in
  exists w1, prepare w out sub file t = Ok w1 /\ cwd w1 = cwd w /\ dirs w1 r = true /\ (forall d, d <> r -> dirs w1 d = dirs w d) /\
    forall q, files w1 q = if q =? r ++ "/" ++ ".finished_" ++ file then None else if q =? r ++ "/" ++ ".error_" ++ file then None else if q =? r ++ "/" ++ ".started_" ++ file then Some t else files w q.
Proof.
  intros w out sub file t od r. unfold prepare. fold od. set (w1 := if dirs w (resolve w od) then w else _).
  assert (C1 : cwd w1 = cwd w) by (unfold w1; destruct (dirs w (resolve w od)); reflexivity). assert (F1 : files w1 = files w) by (unfold w1; destruct (dirs w (resolve w od)); reflexivity).
  assert (D1 : dirs w1 r = true) by (unfold w1; fold r; destruct (dirs w r) eqn:E; [exact E|cbn; rewrite String.eqb_refl; reflexivity]).
  assert (D2 : forall d, d <> r -> dirs w1 d = dirs w d). { intros d Hd. unfold w1. fold r. destruct (dirs w r); [reflexivity|]. cbn. destruct (String.eqb_spec d r); [contradiction|reflexivity]. }
  clearbody w1. unfold write_in. rewrite (resolve_cwd w1 w od C1). fold r. rewrite D1. cbn [rbind]. set (w2 := put w1 _ _). assert (C2 : cwd w2 = cwd w) by exact C1. set (w3 := remove_if w2 _).
  assert (C3 : cwd w3 = cwd w) by (unfold w3; rewrite (proj1 (cwd_remove _ _)); exact C2). eexists. split; [reflexivity|]. rewrite !(proj1 (cwd_remove _ _)), !(proj2 (cwd_remove _ _)). split; [exact C3|].
  unfold w3 at 1 2. rewrite !(proj2 (cwd_remove _ _)). split; [exact D1|]. split; [exact D2|]. intros q. rewrite files_remove. unfold w3 at 2. rewrite files_remove. unfold w2 at 2. rewrite files_put.
  rewrite (resolve_cwd w3 w _ C3), (resolve_cwd w2 w _ C2), (resolve_cwd w1 w _ C1), !(resolve_app w od) by apply od_nonempty. fold r. rewrite F1. reflexivity.
Qed.
Lemma eqb_neq_ : forall a b, a <> b -> (a =? b) = false.
Proof. intros a b H. destruct (String.eqb_spec a b); [contradiction|reflexivity]. Qed.
Lemma marker_other : forall r r' k k' f f', In k kinds -> In k' kinds -> no_slash f = true -> no_slash f' = true -> r ++ "/" ++ k ++ f = r' ++ "/" ++ k' ++ f' -> r = r' /\ k = k' /\ f = f'.
Proof.
  intros r r' k k' f f' K K' F F' E. apply last_component in E; [|rewrite no_slash_app, kind_no_slash; assumption|rewrite no_slash_app, kind_no_slash; assumption]. destruct E as [-> E]. split; [reflexivity|]. apply kind_inj; assumption.
Qed.
Lemma no_slash_sub : forall s k, no_slash s = true -> no_slash (substring 0 k s) = true.
Proof. induction s as [|c s IH]; intros [|k] H; try reflexivity. cbn in *. apply andb_true_iff in H. rewrite (proj1 H). apply IH, H. Qed.
Lemma script_other : forall r r' k f f', In k kinds -> no_slash f = true -> no_slash f' = true -> r ++ "/" ++ k ++ f <> r' ++ "/" ++ script_name (stem f').
Proof.
  intros r r' k f f' K F F' E. apply last_component in E; [|rewrite no_slash_app, kind_no_slash; assumption|].
  - destruct E as [_ E]. cbn in K. destruct K as [<-|[<-|[<-|[]]]]; discriminate.
  - unfold script_name. rewrite !no_slash_app. unfold stem. rewrite no_slash_sub by exact F'. reflexivity.
Qed.
(** The marker files in a directory [r] before the command is started *)
Lemma before_child : forall w out sub file template text t1 t2 child, let od := out ++ "/" ++ sub in let r := resolve w od in no_slash file = true ->
  safe_format template [("DataFile", file); ("Subdirectory", sub)] = Ok text ->
  exists w3, cwd w3 = r /\ dirs w3 r = true /\ (forall d, d <> r -> dirs w3 d = dirs w d) /\
    (forall r' k f, In k kinds -> no_slash f = true -> files w3 (r' ++ "/" ++ k ++ f) =
       if (r' =? r) && (f =? file) then (if k =? ".started_" then Some t1 else None) else files w (r' ++ "/" ++ k ++ f)) /\
    run_extrapolation w out sub file template t1 t2 child =
      (let (w4, code) := child w3 in
       let handler := fun w' => match write_in w' od (".error_" ++ file) t2 with Ok w'' => (back w'' (cwd w), Ok 0%Z) | Err e => (back w' (cwd w), Err e) end in
       match code with None => handler w4 | Some code =>
         if (code =? 0)%Z then match write_in w4 od (".finished_" ++ file) t2 with Ok w5 => (back w5 (cwd w), Ok 0%Z) | Err _ => handler w4 end
         else match write_in w4 od (".error_" ++ file) t2 with Ok w5 => (back w5 (cwd w), Ok code) | Err _ => handler w4 end end).
Proof.
  intros w out sub file template text t1 t2 child od r HF HS. destruct (prepared w out sub file t1) as (w1 & E1 & C1 & D1 & D1' & F1). fold od in E1, D1, D1', F1. fold r in D1, D1', F1.
  unfold run_extrapolation. fold od. rewrite E1. assert (W2 : write_in w1 od (script_name (stem file)) t1 = Ok (put w1 (od ++ "/" ++ script_name (stem file)) (Some t1))) by (unfold write_in; rewrite (resolve_cwd w1 w od C1); fold r; rewrite D1; reflexivity).
  rewrite W2, HS. set (w2 := put w1 _ _). assert (C2 : cwd w2 = cwd w) by exact C1. rewrite C2. exists (chdir w2 od).
  split; [unfold chdir; cbn [cwd]; exact (resolve_cwd w2 w od C2)|]. split; [exact D1|]. split; [exact D1'|]. split; [|reflexivity].
  intros r' k f K F. unfold chdir. cbn [files]. unfold w2. rewrite files_put, (resolve_cwd w1 w _ C1), (resolve_app w od) by apply od_nonempty. fold r.
  rewrite eqb_neq_ by (apply script_other; assumption). rewrite F1.
  destruct (String.eqb_spec r' r) as [->|Nr]; [destruct (String.eqb_spec f file) as [->|Nf]|]; cbn [andb].
  - cbn in K. destruct K as [<-|[<-|[<-|[]]]].
    + rewrite (eqb_neq_ (r ++ "/" ++ ".started_" ++ file) (r ++ "/" ++ ".finished_" ++ file)), (eqb_neq_ (r ++ "/" ++ ".started_" ++ file) (r ++ "/" ++ ".error_" ++ file)), String.eqb_refl; [reflexivity| |]; intros E; apply app_cancel in E; discriminate.
    + rewrite (eqb_neq_ (r ++ "/" ++ ".error_" ++ file) (r ++ "/" ++ ".finished_" ++ file)), String.eqb_refl; [reflexivity|]; intros E; apply app_cancel in E; discriminate.
    + rewrite String.eqb_refl. reflexivity.
  - rewrite !eqb_neq_; [reflexivity|..]; intros E; apply marker_other in E; try assumption; try (cbn; tauto); destruct E as (_ & _ & E); contradiction.
  - rewrite !eqb_neq_; [reflexivity|..]; intros E; apply marker_other in E; try assumption; try (cbn; tauto); destruct E as (E & _); contradiction.
Qed.
Definition same (o : option R) : bool := match o with Some _ => true | None => false end.
Lemma marks_at : forall w out sub file, let r := resolve w (out ++ "/" ++ sub) in
  marks w out sub file = mkmk (same (files w (r ++ "/" ++ ".started_" ++ file))) (same (files w (r ++ "/" ++ ".error_" ++ file))) (same (files w (r ++ "/" ++ ".finished_" ++ file))).
Proof. intros w out sub file r. unfold marks, exists_file, same. rewrite !marker_path, !(resolve_app w (out ++ "/" ++ sub)) by apply od_nonempty. reflexivity. Qed.
(** An absolute output directory: the markers of the pair are those of [Extrap_Model.run], no other pair is touched. *)
Theorem C81_run : forall w out sub file template text t1 t2 child code,
  prefix "/" out = true -> no_slash file = true -> safe_format template [("DataFile", file); ("Subdirectory", sub)] = Ok text -> behaves child code ->
  exists w', run_extrapolation w out sub file template t1 t2 child = (w', Ok (return_code (outcome_of code) (code_of code))) /\
    marks w' out sub file = run (marks w out sub file) (outcome_of code) /\ cwd w' = cwd w /\
    (code = Some 0%Z -> getmtime w' (marker ".finished_" out sub file) = Ok t2) /\
    (forall d, dirs w d = true -> dirs w' d = true) /\
    (forall p, is_marker p -> (forall k, In k kinds -> p <> marker k out sub file) -> files w' p = files w p).
Proof.
  intros w out sub file template text t1 t2 child code HA HF HS HB. destruct (before_child w out sub file template text t1 t2 child HF HS) as (w3 & C3 & D3 & D3' & F3 & E).
  set (od := out ++ "/" ++ sub) in *. assert (RA : forall w x, resolve w (od ++ x) = od ++ x) by (intros; unfold od; rewrite !app_assoc_s; apply resolve_abs, HA). assert (RO : forall w, resolve w od = od) by (intros; apply resolve_abs, HA). rewrite RO in *.
  destruct (HB w3) as (Hc & Hf & Hd & _). rewrite E. clear E. destruct (child w3) as [w4 c4]. cbn [fst snd] in *. subst c4.
  assert (WI : forall name, write_in w4 od name t2 = Ok (put w4 (od ++ "/" ++ name) (Some t2))) by (intros name; unfold write_in; rewrite RO, (Hd od D3); reflexivity).
  assert (IM : forall k f, In k kinds -> no_slash f = true -> forall r, is_marker (r ++ "/" ++ k ++ f)) by (intros k f K F r; exists r, k, f; auto).
  assert (F4 : forall r k f, In k kinds -> no_slash f = true -> files w4 (r ++ "/" ++ k ++ f) = if (r =? od) && (f =? file) then (if k =? ".started_" then Some t1 else None) else files w (r ++ "/" ++ k ++ f)) by (intros r k f K F; rewrite Hf by (apply IM; assumption); apply F3; assumption).
  set (kk := match code with Some 0%Z => ".finished_" | _ => ".error_" end). set (w' := back (put w4 (od ++ "/" ++ kk ++ file) (Some t2)) (cwd w)). exists w'.
  assert (KK : In kk kinds) by (unfold kk; destruct code as [[| |]|]; cbn; tauto).
  assert (F5 : forall q, files w' q = if q =? od ++ "/" ++ kk ++ file then Some t2 else files w4 q) by (intros q; unfold w', back; cbn [files]; rewrite files_put, RA; reflexivity).
  split; [|split; [|split; [|split; [|split]]]].
  - rewrite !WI. unfold w', kk. destruct code as [c|]; [|reflexivity]. destruct (Z.eqb_spec c 0) as [->|N]; [reflexivity|]. cbn [outcome_of code_of]. destruct (Z.eqb_spec c 0); [contradiction|]. destruct c; [contradiction|reflexivity|reflexivity].
  - rewrite !marks_at. fold od. rewrite !RO.
    generalize (same (files w (od ++ "/" ++ ".started_" ++ file))), (same (files w (od ++ "/" ++ ".error_" ++ file))), (same (files w (od ++ "/" ++ ".finished_" ++ file))). intros s e f.
    rewrite !F5, !F4, !String.eqb_refl by (cbn; tauto || assumption). cbn [andb].
    assert (NE : forall k, k <> kk -> (od ++ "/" ++ k ++ file =? od ++ "/" ++ kk ++ file) = (k =? kk)).
    { intros k Nk. rewrite (eqb_neq_ k kk Nk). apply eqb_neq_. intros Q. apply app_cancel in Q. injection Q as Q. apply Nk. exact (app_cancel_r _ _ _ Q). }
    unfold kk in *. destruct code as [[|p|p]|]; cbn [outcome_of Z.eqb]; rewrite ?String.eqb_refl, ?(NE ".started_"), ?(NE ".error_"), ?(NE ".finished_") by discriminate; cbn;
      destruct s, e, f; reflexivity.
  - reflexivity.
  - intros ->. unfold getmtime. rewrite marker_path. fold od. rewrite RA, F5. unfold kk. rewrite String.eqb_refl. reflexivity.
  - intros d Hdd. unfold w'. cbn. apply Hd. destruct (String.eqb_spec d od) as [->|N]; [exact D3|]. rewrite D3' by exact N. exact Hdd.
  - intros p (r & k & f & K & F & ->) Np. rewrite F5, F4 by assumption. rewrite eqb_neq_ by (assert (Q := marker_path kk out sub file); fold od in Q; rewrite <- Q; apply Np, KK).
    destruct (String.eqb_spec r od) as [->|]; [|reflexivity]. destruct (String.eqb_spec f file) as [->|]; [|reflexivity]. exfalso. apply (Np k K). rewrite marker_path. reflexivity.
Qed.

Lemma marks_same : forall w w' out sub file, prefix "/" out = true -> (forall k, In k kinds -> files w' (marker k out sub file) = files w (marker k out sub file)) -> marks w' out sub file = marks w out sub file.
Proof.
  intros w w' out sub file HA H. assert (RA : forall w k, resolve w (marker k out sub file) = marker k out sub file) by (intros; apply resolve_abs, HA). unfold marks, exists_file. rewrite !RA, !H by (cbn; tauto). reflexivity.
Qed.
Lemma marker_is : forall k out sub file, In k kinds -> no_slash file = true -> is_marker (marker k out sub file).
Proof. intros k out sub file K F. rewrite marker_path. exists (out ++ "/" ++ sub), k, file. auto. Qed.
(** ... in particular the status of every other pair stays as it was. *)
Theorem C81_run_others : forall w out sub file template text t1 t2 child code w' r sub' file',
  prefix "/" out = true -> no_slash file = true -> no_slash file' = true -> safe_format template [("DataFile", file); ("Subdirectory", sub)] = Ok text -> behaves child code ->
  run_extrapolation w out sub file template t1 t2 child = (w', r) -> (sub', file') <> (sub, file) -> marks w' out sub' file' = marks w out sub' file'.
Proof.
  intros w out sub file template text t1 t2 child code w' r sub' file' HA HF HF' HS HB E N. destruct (C81_run w out sub file template text t1 t2 child code HA HF HS HB) as (w'' & E' & _ & _ & _ & _ & O). rewrite E in E'. injection E' as <- _.
  apply marks_same; [exact HA|]. intros k K. apply O; [apply marker_is; assumption|]. intros k' K' Q. rewrite !marker_path in Q. apply marker_other in Q; try assumption. destruct Q as (Q & _ & ->). apply app_cancel in Q. injection Q as ->. contradiction.
Qed.
(** A relative output directory: the outcome is never recorded, because the current directory has changed. *)
Theorem C81_relative_refuted : forall w out sub file template text t1 t2 child code, let r := cwd w ++ "/" ++ out ++ "/" ++ sub in
  prefix "/" out = false -> out <> "" -> no_slash file = true -> safe_format template [("DataFile", file); ("Subdirectory", sub)] = Ok text -> behaves child code ->
  (forall w, dirs (fst (child w)) = dirs w) -> dirs w (r ++ "/" ++ out ++ "/" ++ sub) = false ->
  exists w', run_extrapolation w out sub file template t1 t2 child = (w', Err OSError) /\ is_unfinished (marks w' out sub file) = true /\ cwd w' = cwd w.
Proof.
  intros w out sub file template text t1 t2 child code r HA HE HF HS HB HD HN. destruct (before_child w out sub file template text t1 t2 child HF HS) as (w3 & C3 & D3 & D3' & F3 & E).
  assert (RR : forall w, resolve w (out ++ "/" ++ sub) = cwd w ++ "/" ++ out ++ "/" ++ sub). { intros v. unfold resolve. destruct (prefix "/" (out ++ "/" ++ sub)) eqn:P; [exfalso|reflexivity]. apply prefix_iff in P. destruct P as [x P]. destruct out as [|c o]; [congruence|]. injection P as -> _. assert (Q : prefix "/" (String "/" o) = true) by (apply prefix_iff; exists o; reflexivity). rewrite Q in HA. discriminate. }
  set (od := out ++ "/" ++ sub) in *. rewrite RR in *. fold r in C3, D3, D3', F3. destruct (HB w3) as (Hc & Hf & _ & Hw). assert (Hdd := HD w3). rewrite E. clear E. destruct (child w3) as [w4 c4]. cbn [fst snd] in *. subst c4.
  assert (WI : forall name, write_in w4 od name t2 = Err OSError). { intros name. unfold write_in. rewrite RR, Hw, C3, Hdd, D3'; [rewrite HN; reflexivity|]. intros Q. apply (f_equal String.length) in Q. rewrite !length_app in Q. cbn in Q. lia. }
  exists (back w4 (cwd w)). rewrite !WI. split; [destruct code as [c|]; [destruct (c =? 0)%Z; reflexivity|reflexivity]|]. split; [|reflexivity].
  rewrite marks_at. fold od. rewrite RR. change (cwd (back w4 (cwd w))) with (cwd w). fold r. change (files (back w4 (cwd w))) with (files w4). assert (IM : forall k, In k kinds -> is_marker (r ++ "/" ++ k ++ file)) by (intros k K; exists r, k, file; auto).
  rewrite !Hf, !F3, !String.eqb_refl by (try apply IM; cbn; tauto || assumption). reflexivity.
Qed.
(** A template that cannot be filled in leaves the pair started, and the exception is raised. *)
Theorem C81_bad_template_refuted : forall w out sub file template e t1 t2 child, prefix "/" out = true -> no_slash file = true -> safe_format template [("DataFile", file); ("Subdirectory", sub)] = Err e ->
  exists w', run_extrapolation w out sub file template t1 t2 child = (w', Err e) /\ is_unfinished (marks w' out sub file) = true.
Proof.
  intros w out sub file template e t1 t2 child HA HF HS. destruct (prepared w out sub file t1) as (w1 & E1 & C1 & D1 & D1' & F1). set (od := out ++ "/" ++ sub) in *.
  assert (RA : forall w x, resolve w (od ++ x) = od ++ x) by (intros; unfold od; rewrite !app_assoc_s; apply resolve_abs, HA). assert (RO : forall w, resolve w od = od) by (intros; apply resolve_abs, HA). rewrite RO in *.
  unfold run_extrapolation. fold od. rewrite E1. unfold write_in. rewrite RO, D1, HS. eexists. split; [reflexivity|]. rewrite marks_at. fold od. rewrite RO, !files_put, RA.
  assert (S : forall k, In k kinds -> (od ++ "/" ++ k ++ file =? od ++ "/" ++ script_name (stem file)) = false) by (intros k K; apply eqb_neq_, script_other; assumption). rewrite !S by (cbn; tauto). rewrite !F1.
  assert (NE : forall k k', k <> k' -> (od ++ "/" ++ k ++ file =? od ++ "/" ++ k' ++ file) = false) by (intros k k' N; apply eqb_neq_; intros Q; apply app_cancel in Q; injection Q as Q; exact (N (app_cancel_r _ _ _ Q))).
  rewrite !String.eqb_refl, (NE ".started_" ".finished_"), (NE ".started_" ".error_"), (NE ".error_" ".finished_") by discriminate. reflexivity.
Qed.

(** Many runs, one after the other *)
Record job := mkjob { j_sub : string; j_file : string; j_t1 : R; j_t2 : R; j_child : world -> world * option Z; j_code : option Z }.
Definition pair_of (j : job) : string * string := (j_sub j, j_file j).
Definition batch (out template : string) (jobs : list job) (w : world) : world :=
  fold_left (fun w j => fst (run_extrapolation w out (j_sub j) (j_file j) template (j_t1 j) (j_t2 j) (j_child j))) jobs w.
Definition good_job (template : string) (j : job) : Prop :=
  no_slash (j_file j) = true /\ behaves (j_child j) (j_code j) /\ exists text, safe_format template [("DataFile", j_file j); ("Subdirectory", j_sub j)] = Ok text.
Lemma batch_marks : forall out template jobs w, prefix "/" out = true -> Forall (good_job template) jobs -> NoDup (map pair_of jobs) ->
  (forall j, In j jobs -> marks (batch out template jobs w) out (j_sub j) (j_file j) = run (marks w out (j_sub j) (j_file j)) (outcome_of (j_code j))) /\
  (forall sub file, no_slash file = true -> ~ In (sub, file) (map pair_of jobs) -> marks (batch out template jobs w) out sub file = marks w out sub file).
Proof.
  intros out template jobs w HA. revert w. induction jobs as [|j jobs IH]; intros w HG HN; [split; [intros j []|reflexivity]|]. inversion HG as [|? ? (HF & HB & text & HS) HG']; subst. cbn [map] in HN. inversion HN as [|? ? Nj HN']; subst.
  unfold batch. cbn [fold_left]. destruct (C81_run w out (j_sub j) (j_file j) template text (j_t1 j) (j_t2 j) (j_child j) (j_code j) HA HF HS HB) as (w' & E & M & _). rewrite E. cbn [fst]. fold (batch out template jobs w').
  destruct (IH w' HG' HN') as [I1 I2]. split.
  - intros j' [<-|I]; [rewrite I2 by assumption; exact M|]. rewrite I1 by exact I. f_equal. apply (C81_run_others w out _ _ _ _ _ _ _ _ _ _ _ _ HA HF) with (3 := HB) (4 := E) (2 := HS).
    + rewrite Forall_forall in HG'. apply (HG' j' I).
    + intros Q. apply Nj. apply in_map_iff. exists j'. split; [exact Q|exact I].
  - intros sub file F N. cbn [map In] in N. rewrite I2 by tauto. apply (C81_run_others w out _ _ _ _ _ _ _ _ _ _ _ _ HA HF F HS HB E). intros Q. apply N. left. symmetry. exact Q.
Qed.
Lemma filter_none : forall A (f : A -> bool) l, (forall x, In x l -> f x = false) -> filter f l = [].
Proof. induction l as [|a l IH]; intros H; [reflexivity|]. cbn. rewrite (H a (or_introl eq_refl)). apply IH. intros x I. apply H. right. exact I. Qed.
(** After running all of them: none is unstarted or unfinished, the errored ones are those whose command failed; the status of all others is as before. *)
Theorem C81_batch : forall out template jobs w others, prefix "/" out = true -> Forall (good_job template) jobs -> NoDup (map pair_of jobs) ->
  (forall p, In p others -> no_slash (snd p) = true /\ ~ In p (map pair_of jobs)) ->
  let w' := batch out template jobs w in let l := map pair_of jobs in
  unstarted w' out l = [] /\ started_but_unfinished w' out l = [] /\ errored w' out l = map pair_of (filter (fun j => negb (match j_code j with Some c => (c =? 0)%Z | None => false end)) jobs) /\
  unstarted w' out others = unstarted w out others /\ started_but_unfinished w' out others = started_but_unfinished w out others /\ errored w' out others = errored w out others.
Proof.
  intros out template jobs w others HA HG HN HO w' l. destruct (batch_marks out template jobs w HA HG HN) as [M1 M2]. fold w' in M1, M2.
  assert (MO : forall p, In p others -> marks w' out (fst p) (snd p) = marks w out (fst p) (snd p)) by (intros [s f] I; destruct (HO _ I) as [F N]; apply M2; assumption).
  assert (MJ : forall p, In p l -> exists j, In j jobs /\ p = pair_of j /\ marks w' out (fst p) (snd p) = run (marks w out (fst p) (snd p)) (outcome_of (j_code j))).
  { intros p I. apply in_map_iff in I. destruct I as (j & <- & I). exists j. split; [exact I|]. split; [reflexivity|]. apply M1, I. }
  assert (U : forall w, unstarted w out = filter (fun p => is_unstarted (marks w out (fst p) (snd p)))) by reflexivity.
  assert (S : forall w, started_but_unfinished w out = filter (fun p => is_unfinished (marks w out (fst p) (snd p)))) by reflexivity.
  assert (X : forall w, errored w out = filter (fun p => is_errored (marks w out (fst p) (snd p)))) by reflexivity. rewrite !U, !S, !X.
  split; [|split; [|split; [|split; [|split]]]].
  - apply filter_none. intros p I. destruct (MJ p I) as (j & _ & _ & ->). unfold outcome_of. destruct (marks w out (fst p) (snd p)) as [[] [] []], (j_code j) as [c|]; try destruct (c =? 0)%Z; reflexivity.
  - apply filter_none. intros p I. destruct (MJ p I) as (j & _ & _ & ->). unfold outcome_of. destruct (marks w out (fst p) (snd p)) as [[] [] []], (j_code j) as [c|]; try destruct (c =? 0)%Z; reflexivity.
  - unfold l. clear - M1. assert (G : forall js, (forall j, In j js -> In j jobs) -> filter (fun p => is_errored (marks w' out (fst p) (snd p))) (map pair_of js) = map pair_of (filter (fun j => negb (match j_code j with Some c => (c =? 0)%Z | None => false end)) js)).
    { induction js as [|j js IH]; intros H; [reflexivity|]. cbn [map filter]. rewrite IH by (intros x I; apply H; right; exact I). cbn [pair_of fst snd]. rewrite (M1 j (H j (or_introl eq_refl))). unfold outcome_of.
      destruct (marks w out (j_sub j) (j_file j)) as [[] [] []], (j_code j) as [c|]; try destruct (c =? 0)%Z; reflexivity. }
    apply G. auto.
  - apply filter_ext_in. intros p I. rewrite (MO p I). reflexivity.
  - apply filter_ext_in. intros p I. rewrite (MO p I). reflexivity.
  - apply filter_ext_in. intros p I. rewrite (MO p I). reflexivity.
Qed.

(** Newer data: those finished pairs whose data or metadata changed after the end of the run; a finished pair without data raises. *)
Definition has_data (w : world) (inp : string) (p : string * string) : Prop := exists tm td, getmtime w (inp ++ "/" ++ fst p ++ "/metadata.txt") = Ok tm /\ getmtime w (inp ++ "/" ++ fst p ++ "/" ++ snd p) = Ok td.
Theorem C81_newer : forall w inp out l, (forall p, In p l -> exists_file w (marker ".finished_" out (fst p) (snd p)) = true -> has_data w inp p) ->
  exists l', newer_data w inp out l = Ok l' /\ forall p, In p l' <-> In p l /\ exists tf tm td, getmtime w (marker ".finished_" out (fst p) (snd p)) = Ok tf /\
    getmtime w (inp ++ "/" ++ fst p ++ "/metadata.txt") = Ok tm /\ getmtime w (inp ++ "/" ++ fst p ++ "/" ++ snd p) = Ok td /\ (tf < Rmax td tm)%R.
Proof.
  intros w inp out l. induction l as [|[sub file] l IH]; intros H; [exists []; split; [reflexivity|]; intros p; cbn; tauto|]. destruct IH as (l' & E & C); [intros p I; apply H; right; exact I|].
  cbn [newer_data]. destruct (exists_file w (marker ".finished_" out sub file)) eqn:X.
  - destruct (H (sub, file) (or_introl eq_refl) X) as (tm & td & Em & Ed). cbn [fst snd] in Em, Ed. assert (Ef : exists tf, getmtime w (marker ".finished_" out sub file) = Ok tf). { unfold exists_file in X. unfold getmtime. destruct (files w _); [eauto|discriminate]. } destruct Ef as [tf Ef].
    rewrite Ef, Em, Ed, E. cbn [rbind]. assert (Q : (Rltb tf td || Rltb tf tm)%bool = true <-> (tf < Rmax td tm)%R). { rewrite orb_true_iff. unfold Rmax. destruct (Rltb_spec tf td), (Rltb_spec tf tm), (Rle_dec td tm); intuition (try discriminate; lra). }
    eexists. split; [reflexivity|]. intros p. destruct (Rltb tf td || Rltb tf tm)%bool.
    + cbn [In]. rewrite C. split; [|intros [[<-|I] K]; auto]. intros [<-|[I K]]; [|auto]. split; [auto|]. exists tf, tm, td. cbn [fst snd]. tauto.
    + rewrite C. cbn [In]. split; [tauto|]. intros [[<-|I] K]; [|auto]. exfalso. destruct K as (a & b & c & Ka & Kb & Kc & L). cbn [fst snd] in *. rewrite Ef in Ka. rewrite Em in Kb. rewrite Ed in Kc. injection Ka as <-. injection Kb as <-. injection Kc as <-. apply Q in L. discriminate.
  - exists l'. split; [exact E|]. intros p. rewrite C. cbn [In]. split; [tauto|]. intros [[<-|I] K]; [|auto]. exfalso. destruct K as (tf & _ & _ & Ka & _). cbn [fst snd] in Ka. unfold exists_file in X. unfold getmtime in Ka. destruct (files w _); discriminate.
Qed.
Theorem C81_newer_missing_refuted : forall w inp out l sub file, In (sub, file) l -> exists_file w (marker ".finished_" out sub file) = true ->
  (files w (resolve w (inp ++ "/" ++ sub ++ "/metadata.txt")) = None \/ files w (resolve w (inp ++ "/" ++ sub ++ "/" ++ file)) = None) -> newer_data w inp out l = Err OSError.
Proof.
  intros w inp out l sub file I X M. induction l as [|[s f] l IH]; [destruct I|]. cbn [newer_data]. destruct I as [I|I].
  - injection I as -> ->. rewrite X. unfold exists_file in X. unfold getmtime. destruct (files w (resolve w (marker ".finished_" out sub file))); [|discriminate]. cbn [rbind]. destruct M as [-> | ->]; [reflexivity|]. destruct (files w (resolve w (inp ++ "/" ++ sub ++ "/metadata.txt"))); reflexivity.
  - rewrite (IH I). destruct (exists_file w (marker ".finished_" out s f)); [|reflexivity]. unfold getmtime. clear M X. do 3 (destruct (files w _); cbn [rbind]; [|reflexivity]). reflexivity.
Qed.

(** A first run that works and one that fails, in an empty output directory *)
Example C81_case_run : let w := mkworld (fun _ => None) (fun d => d =? "/out") "/home" in
  let ok : world -> world * option Z := fun w => (w, Some 0%Z) in let bad : world -> world * option Z := fun w => (w, Some 2%Z) in
  let jobs := [mkjob "q1/Lev3" "rh_FiniteRadii_CodeUnits.h5" 1 2 ok (Some 0%Z); mkjob "q1/Lev3" "rPsi4_FiniteRadii_CodeUnits.h5" 3 4 bad (Some 2%Z)] in
  let template := "extrapolate(DataFile='{DataFile}', dir='{Subdirectory}', x={x})" in
  Forall (good_job template) jobs /\ NoDup (map pair_of jobs) /\ unstarted w "/out" (map pair_of jobs) = map pair_of jobs /\
  errored (batch "/out" template jobs w) "/out" (map pair_of jobs) = [("q1/Lev3", "rPsi4_FiniteRadii_CodeUnits.h5")] /\
  snd (run_extrapolation w "out" "q1/Lev3" "rh_FiniteRadii_CodeUnits.h5" template 1 2 ok) = Err OSError.
Proof.
  cbv zeta. split; [|split; [|split; [|split]]]; try reflexivity.
  - repeat constructor; try (eexists; reflexivity); auto.
  - constructor; [|constructor; [intros []|constructor]]. intros [H|[]]. discriminate.
Qed.

(** * C82 *)
Open Scope R_scope.
Lemma argmax_spec : forall l, l <> [] -> (argmax_nat l < List.length l)%nat /\ (forall k, (k < List.length l)%nat -> (nth k l 0 <= nth (argmax_nat l) l 0)%nat) /\ (forall k, (k < argmax_nat l)%nat -> (nth k l 0 < nth (argmax_nat l) l 0)%nat).
Proof.
  induction l as [|x l IH]; intros H; [congruence|]. cbn [argmax_nat]. destruct (forallb (fun y => (y <=? x)%nat) l) eqn:F.
  - rewrite forallb_forall in F. split; [cbn; lia|]. split; [|intros k Hk; lia]. intros [|k] Hk; [reflexivity|]. cbn [nth]. apply Nat.leb_le, F, nth_In. cbn in Hk. lia.
  - assert (NE : l <> []) by (intros ->; discriminate). destruct (IH NE) as (I1 & I2 & I3). assert (B : exists y, In y l /\ (x < y)%nat).
    { clear - F. induction l as [|y l IHl]; [discriminate|]. cbn [forallb] in F. destruct (Nat.leb_spec y x) as [L|L]; [|exists y; split; [left; reflexivity|exact L]]. destruct (IHl F) as (z & I & G). exists z. split; [right; exact I|exact G]. }
    destruct B as (y & Iy & G). destruct (In_nth l y 0%nat Iy) as (k & Hk & Ek). assert (G' : (x < nth (argmax_nat l) l 0)%nat) by (specialize (I2 k Hk); lia). cbn [List.length nth]. split; [lia|]. split.
    + intros [|k'] Hk'; [lia|]. apply I2. lia.
    + intros [|k'] Hk'; [exact G'|]. apply I3. lia.
Qed.
Lemma fold_min : forall xs d, (forall x, In x xs -> fold_right Rmin d xs <= x) /\ fold_right Rmin d xs <= d /\ (fold_right Rmin d xs = d \/ In (fold_right Rmin d xs) xs).
Proof.
  induction xs as [|a xs IH]; intros d; [split; [intros x []|split; [cbn; lra|left; reflexivity]]|]. destruct (IH d) as (I1 & I2 & I3). cbn [fold_right]. unfold Rmin at 1 3 5 7. destruct (Rle_dec a (fold_right Rmin d xs)) as [L|L].
  - split; [intros x [->|I]; [lra|specialize (I1 x I); lra]|]. split; [lra|right; left; reflexivity].
  - split; [intros x [->|I]; [lra|exact (I1 x I)]|]. split; [exact I2|]. destruct I3 as [I3|I3]; [left; exact I3|right; right; exact I3].
Qed.
Lemma fold_max : forall xs d, (forall x, In x xs -> x <= fold_right Rmax d xs) /\ d <= fold_right Rmax d xs /\ (fold_right Rmax d xs = d \/ In (fold_right Rmax d xs) xs).
Proof.
  induction xs as [|a xs IH]; intros d; [split; [intros x []|split; [cbn; lra|left; reflexivity]]|]. destruct (IH d) as (I1 & I2 & I3). cbn [fold_right]. unfold Rmax at 1 3 5 7. destruct (Rle_dec a (fold_right Rmax d xs)) as [L|L].
  - split; [intros x [->|I]; [lra|exact (I1 x I)]|]. split; [exact I2|]. destruct I3 as [I3|I3]; [left; exact I3|right; right; exact I3].
  - split; [intros x [->|I]; [lra|specialize (I1 x I); lra]|]. split; [lra|right; left; reflexivity].
Qed.
Definition lowest (xs : list R) : R := fold_right Rmin (hd 0 xs) xs.
Definition highest (xs : list R) : R := fold_right Rmax (hd 0 xs) xs.
Lemma hd_in : forall xs : list R, xs <> [] -> In (hd 0 xs) xs.
Proof. intros [|x xs] H; [congruence|left; reflexivity]. Qed.
Lemma edges_order : forall xs, xs <> [] -> first_edge xs < last_edge xs /\ forall x, In x xs -> first_edge xs <= x <= last_edge xs.
Proof.
  intros xs H. destruct (fold_min xs (hd 0 xs)) as (A1 & _ & A3). destruct (fold_max xs (hd 0 xs)) as (B1 & _ & B3). unfold first_edge, last_edge. cbv zeta. set (lo := fold_right Rmin _ xs) in *. set (hi := fold_right Rmax _ xs) in *.
  assert (Q : lo <= hi) by (specialize (A1 _ (hd_in xs H)); specialize (B1 _ (hd_in xs H)); lra). destruct (Req_EM_T lo hi) as [E|N]; (split; [lra|intros x I; specialize (A1 x I); specialize (B1 x I); lra]).
Qed.
Lemma width : forall xs, last_edge xs - first_edge xs = if Req_EM_T (lowest xs) (highest xs) then 1 else highest xs - lowest xs.
Proof. intros xs. unfold first_edge, last_edge, lowest, highest. cbv zeta. destruct (Req_EM_T _ _) as [E|N]; lra. Qed.
Lemma some_bin : forall xs n x, xs <> [] -> (0 < n)%nat -> In x xs -> exists k, (k < n)%nat /\ in_bin xs n k x = true.
Proof.
  intros xs n x H Hn I. destruct (edges_order xs H) as [O B]. specialize (B x I). assert (PN : 0 < INR n) by (apply lt_0_INR; exact Hn).
  assert (S : forall j, (j <= n)%nat -> edge xs n j <= x \/ exists k, (k < j)%nat /\ edge xs n k <= x < edge xs n (S k)).
  { induction j as [|j IH]; intros Hj; [left; unfold edge; cbn [INR]; lra|]. destruct (IH ltac:(lia)) as [L|(k & Hk & L)]; [|right; exists k; split; [lia|exact L]]. destruct (Rlt_or_le x (edge xs n (S j))) as [G|G]; [right; exists j; split; [lia|lra]|left; exact G]. }
  assert (EN : edge xs n n = last_edge xs) by (unfold edge; field; lra). destruct (S n (le_n n)) as [L|(k & Hk & L)].
  - exists (n - 1)%nat. split; [lia|]. unfold in_bin. assert (E1 : (Datatypes.S (n - 1) = n)%nat) by lia. rewrite E1, Nat.eqb_refl, EN. rewrite EN in L.
    assert (E2 : edge xs n (n - 1) <= x). { rewrite <- E1 in EN at 2. unfold edge in *. rewrite S_INR in EN. assert (0 < (last_edge xs - first_edge xs) / INR n) by (apply Rdiv_lt_0_compat; lra). lra. }
    destruct (Rleb_spec (edge xs n (n - 1)) x); [|contradiction]. destruct (Rleb_spec x (last_edge xs)); [|exfalso; lra]. rewrite orb_true_r. reflexivity.
  - exists k. split; [exact Hk|]. unfold in_bin. destruct (Rleb_spec (edge xs n k) x); [|exfalso; lra]. destruct (Rltb_spec x (edge xs n (Datatypes.S k))); [reflexivity|exfalso; lra].
Qed.
Lemma in_bin_bounds : forall xs n k x, in_bin xs n k x = true -> edge xs n k <= x <= edge xs n (S k) /\ ((S k < n)%nat -> x < edge xs n (S k)).
Proof.
  intros xs n k x H. unfold in_bin in H. apply andb_true_iff in H. destruct H as [H1 H2]. destruct (Rleb_spec (edge xs n k) x); [|discriminate]. apply orb_true_iff in H2. destruct H2 as [H2|H2]; [destruct (Rltb_spec x (edge xs n (S k))); [split; lra|discriminate]|].
  apply andb_true_iff in H2. destruct H2 as [E H2]. apply Nat.eqb_eq in E. rewrite E. destruct (Rleb_spec x (edge xs n n)); [split; [lra|lia]|discriminate].
Qed.
Lemma add_same : forall a b, List.length a = List.length b -> add_columns a b = Ok (map (fun p => fst p + snd p) (combine a b)).
Proof. intros a b H. unfold add_columns. rewrite H, Nat.eqb_refl. reflexivity. Qed.
Lemma nth_count : forall m n k, (k < n)%nat -> nth k (map (count m n) (seq 0 n)) 0%nat = count m n k.
Proof. intros m n k H. rewrite (nth_indep _ 0%nat (count m n 0)) by (rewrite map_length, seq_length; exact H). rewrite map_nth, seq_nth by exact H. reflexivity. Qed.
(** The mass found is the lower edge of the first of the fullest of N bins; some sample lies within one width above it. *)
Theorem C82_mass : forall a b, List.length a = List.length b -> a <> [] -> let m := map (fun p => fst p + snd p) (combine a b) in let N := List.length m in
  exists k, (k < N)%nat /\ pick_Ch_mass a b = Ok (edge m N k) /\ (forall j, (j < N)%nat -> (count m N j <= count m N k)%nat) /\ (forall j, (j < k)%nat -> (count m N j < count m N k)%nat) /\
    let h := (if Req_EM_T (lowest m) (highest m) then 1 else highest m - lowest m) / INR N in
    exists x, In x m /\ 0 <= x - edge m N k <= h /\ ((S k < N)%nat -> x - edge m N k < h).
Proof.
  intros a b HL HN m N. assert (NL : N = List.length a) by (unfold N, m; rewrite map_length, combine_length, HL; apply Nat.min_id). assert (PN : (0 < N)%nat) by (rewrite NL; destruct a; [congruence|cbn; lia]).
  assert (Hm : m <> []) by (intros Q; unfold N in PN; rewrite Q in PN; cbn in PN; lia).
  destruct (argmax_spec (map (count m N) (seq 0 N))) as (A1 & A2 & A3); [intros Q; apply (f_equal (@List.length nat)) in Q; rewrite map_length, seq_length in Q; cbn in Q; lia|]. rewrite map_length, seq_length in A1, A2.
  set (k := argmax_nat (map (count m N) (seq 0 N))) in *. assert (B2 : forall j, (j < N)%nat -> (count m N j <= count m N k)%nat) by (intros j Hj; specialize (A2 j Hj); rewrite !nth_count in A2 by assumption; exact A2).
  exists k. cbv zeta. split; [exact A1|]. split; [|split; [exact B2|split]].
  - unfold pick_Ch_mass. rewrite add_same by exact HL. cbn [rbind]. fold m. fold N. destruct (Nat.eqb_spec N 0); [lia|]. reflexivity.
  - intros j Hj. specialize (A3 j Hj). rewrite !nth_count in A3 by lia. exact A3.
  - destruct (some_bin m N _ Hm PN (hd_in m Hm)) as (j & Hj & E). specialize (B2 j Hj). assert (C1 : (0 < count m N j)%nat). { unfold count. assert (I : In (hd 0 m) (filter (in_bin m N j) m)) by (apply filter_In; split; [apply hd_in, Hm|exact E]). destruct (filter _ m); [destruct I|cbn; lia]. }
    destruct (filter (in_bin m N k) m) as [|x f] eqn:F; [unfold count in B2 at 2; rewrite F in B2; cbn in B2; lia|]. assert (I : In x (filter (in_bin m N k) m)) by (rewrite F; left; reflexivity). apply filter_In in I. destruct I as [I1 I2]. exists x. split; [exact I1|].
    apply in_bin_bounds in I2. unfold edge in *. rewrite S_INR in I2. rewrite width in *. destruct I2 as [I2 I3]. split; [lra|]. intros G. specialize (I3 G). lra.
Qed.
(** Constant masses: the result is right for an even number of samples, too small by half a bin, 1 / (2 N), for an odd number. *)
Theorem C82_constant_refuted : forall a b mu, List.length a = List.length b -> a <> [] -> (forall p, In p (combine a b) -> fst p + snd p = mu) -> let N := List.length a in
  pick_Ch_mass a b = Ok (if Nat.even N then mu else mu - 1 / (2 * INR N)).
Proof.
  intros a b mu HL HN HC N. destruct (C82_mass a b HL HN) as (k & Hk & E & _ & _ & x & Ix & Bx & Sx). rewrite E. clear E. set (m := map (fun p => fst p + snd p) (combine a b)) in *. assert (NL : List.length m = N) by (unfold m, N; rewrite map_length, combine_length, HL; apply Nat.min_id). rewrite NL in *.
  assert (HM : forall y, In y m -> y = mu) by (intros y I; apply in_map_iff in I; destruct I as (p & <- & I); apply HC, I). assert (Hm : m <> []) by (intros Q; rewrite Q in NL; cbn in NL; unfold N in NL; destruct a; [congruence|discriminate]).
  assert (PN : 0 < INR N) by (apply lt_0_INR; destruct m; [congruence|cbn in NL; lia]).
  destruct (fold_min m (hd 0 m)) as (_ & _ & A3). destruct (fold_max m (hd 0 m)) as (_ & _ & B3). assert (H0 : hd 0 m = mu) by (apply HM, hd_in, Hm).
  assert (Lo : lowest m = mu) by (destruct A3 as [A3|A3]; [unfold lowest; rewrite A3; exact H0|apply HM, A3]). assert (Hi : highest m = mu) by (destruct B3 as [B3|B3]; [unfold highest; rewrite B3; exact H0|apply HM, B3]).
  assert (FE : first_edge m = mu - 1 / 2). { unfold first_edge. cbv zeta. fold (lowest m). fold (highest m). rewrite Lo, Hi. destruct (Req_EM_T mu mu) as [_|Q]; [reflexivity|congruence]. }
  assert (EE : forall j, edge m N j = mu - 1 / 2 + INR j / INR N). { intros j. unfold edge. rewrite width, Lo, Hi, FE. destruct (Req_EM_T mu mu) as [_|Q]; [unfold Rdiv; ring|congruence]. }
  (* the bin holds a sample, so it is the middle one *)
  rewrite (HM x Ix), Lo, Hi, EE in Bx. rewrite (HM x Ix), Lo, Hi, EE in Sx. destruct (Req_EM_T mu mu) as [_|Q]; [|congruence]. clear - Hk PN Bx Sx EE.
  assert (K1 : (2 * k <= N)%nat). { apply INR_le. rewrite mult_INR. cbn [INR]. assert (B1 : INR k / INR N <= 1 / 2) by lra. apply (Rmult_le_compat_r (INR N)) in B1; [|lra]. unfold Rdiv in B1. rewrite Rmult_assoc, Rinv_l in B1 by lra. lra. }
  assert (K2 : (N < 2 * k + 2)%nat).
  { destruct (Nat.eq_dec (S k) N) as [Q|Q]; [lia|]. specialize (Sx ltac:(lia)). apply INR_lt. rewrite plus_INR, mult_INR. cbn [INR]. assert (B1 : 1 / 2 < (INR k + 1) / INR N) by (unfold Rdiv in *; lra). apply (Rmult_lt_compat_r (INR N)) in B1; [|lra]. unfold Rdiv in B1. rewrite Rmult_assoc, (Rmult_assoc _ (/ INR N)), Rinv_l in B1 by lra. lra. }
  rewrite EE. f_equal. destruct (Nat.even N) eqn:Ev.
  - apply Nat.even_spec in Ev. destruct Ev as [j Ej]. assert (N = 2 * k)%nat by lia. assert (QN : INR N = 2 * INR k) by (rewrite H, mult_INR; cbn [INR]; ring). rewrite QN in *. field. lra.
  - assert (Od : Nat.odd N = true) by (rewrite <- Nat.negb_even, Ev; reflexivity). apply Nat.odd_spec in Od. destruct Od as [j Ej]. assert (N = 2 * k + 1)%nat by lia. assert (QN : INR N = 2 * INR k + 1) by (rewrite H, plus_INR, mult_INR; cbn [INR]; ring). rewrite QN in *. field. lra.
Qed.
Example C82_case : pick_Ch_mass [1 / 2; 1 / 2; 1 / 2] [1 / 2; 1 / 2; 1 / 2] = Ok (1 - 1 / 6) /\ pick_Ch_mass [1 / 2; 1 / 2] [1 / 4; 1 / 4] = Ok (3 / 4) /\ pick_Ch_mass [1] [] = Err ValueError /\ pick_Ch_mass [1; 2] [1; 2; 3] = Err ValueError.
Proof.
  split; [|split; [|split]].
  - rewrite (C82_constant_refuted _ _ 1); [f_equal; cbn; lra|reflexivity|discriminate|]. intros p I. cbn in I. repeat destruct I as [I|I]; try contradiction; subst p; cbn; lra.
  - rewrite (C82_constant_refuted _ _ (3 / 4)); [reflexivity|reflexivity|discriminate|]. intros p I. cbn in I. repeat destruct I as [I|I]; try contradiction; subst p; cbn; lra.
  - reflexivity.
  - reflexivity.
Qed.
(** The digits of field names and of the names of levels are the ten decimal digits. *)
Theorem C81_digit : forall c, is_digit c = true <-> In c (list_ascii_of_string "0123456789").
Proof.
  intros c. split.
  - destruct c as [[] [] [] [] [] [] [] []]; intros H; first [discriminate H | vm_compute; tauto].
  - intros H. cbn in H. repeat destruct H as [<- | H]; try reflexivity. contradiction.
Qed.
(** Columns of different lengths can be added exactly if one of them has a single entry, which is added to all of the other. *)
Theorem C82_columns : forall a b,
  match add_columns a b with
  | Ok m => (List.length a = List.length b \/ List.length a = 1%nat \/ List.length b = 1%nat) /\
      List.length m = (if (List.length a =? 1)%nat then List.length b else List.length a) /\
      forall k, (k < List.length m)%nat ->
        nth k m 0 = nth (if (List.length a =? 1)%nat then 0%nat else k) a 0 + nth (if (List.length b =? 1)%nat then 0%nat else k) b 0
  | Err e => e = ValueError /\ List.length a <> List.length b /\ List.length a <> 1%nat /\ List.length b <> 1%nat
  end.
Proof.
  intros a b. unfold add_columns. destruct (Nat.eqb_spec (List.length a) (List.length b)) as [E|N].
  - split; [auto|]. rewrite map_length, combine_length, <- E, Nat.min_id. split; [destruct (List.length a =? 1)%nat; auto|]. intros k Hk.
    rewrite (nth_indep _ 0 (fst (0, 0) + snd (0, 0))) by (rewrite map_length, combine_length, <- E, Nat.min_id; exact Hk).
    rewrite (map_nth (fun p => fst p + snd p)), List.combine_nth by exact E. cbn [fst snd]. destruct (Nat.eqb_spec (List.length a) 1) as [O|O]; [assert (k = 0%nat) by lia; subst k|]; reflexivity.
  - assert (G : forall (x : R) l k, (k < List.length l)%nat -> nth k (map (fun y => x + y) l) 0 = x + nth k l 0).
    { intros x l k Hk. rewrite (nth_indep _ 0 (x + 0)) by (rewrite map_length; exact Hk). exact (map_nth (fun y => x + y) l 0 k). }
    assert (G' : forall (x : R) l k, (k < List.length l)%nat -> nth k (map (fun y => y + x) l) 0 = nth k l 0 + x).
    { intros x l k Hk. rewrite (nth_indep _ 0 (0 + x)) by (rewrite map_length; exact Hk). exact (map_nth (fun y => y + x) l 0 k). }
    destruct a as [|x [|x' a]], b as [|y [|y' b]]; try (exfalso; apply N; reflexivity).
    + cbn. split; [auto|]. split; [reflexivity|]. intros; lia.
    + cbn; split; [reflexivity|]; lia.
    + cbn. split; [auto|]. split; [reflexivity|]. intros; lia.
    + split; [auto|]. rewrite map_length. split; [reflexivity|]. intros k Hk. rewrite G by exact Hk. reflexivity.
    + cbn; split; [reflexivity|]; lia.
    + split; [auto|]. rewrite map_length. split; [reflexivity|]. intros k Hk. rewrite G' by exact Hk. reflexivity.
    + split; [reflexivity|]. cbn in *. lia.
Qed.
