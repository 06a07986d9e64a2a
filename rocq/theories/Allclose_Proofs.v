(** * C64: equality of waveforms up to a tolerance, and the numbers of objects *)
From Coq Require Import String Ascii ZArith Reals List Bool Lia Lra.
From Verif Require Import Common Cplx Quat Times_Model H5_Model Compare_Model.
Import ListNotations.
Open Scope R_scope.

(** ** Specification *)
Definition modulus (c : C) : R := sqrt (re c ^ 2 + im c ^ 2).
Definition in_shape (s i : list nat) : Prop := Forall2 (fun n k => (k < n)%nat) s i.
Definition near (rtol atol : R) (x y : C) : Prop := modulus (mkC (re x - re y) (im x - im y)) <= atol + rtol * modulus y.
Definition ignored (exceptions : list string) (k : string) : Prop :=
  (exists p, k = (p ++ "__num")%string) \/ In k exceptions.
(** Attributes that can be compared: the other object has one of the same kind, arrays having one shape. *)
Definition comparable (self other : pyobj) (kv : string * value) : Prop :=
  fst kv = "history"%string \/ fst kv = "version_hist"%string \/
  match snd kv, attr (fst kv) (p_attrs other) with
  | VArr a, Some (VArr b) => nd_shape a = nd_shape b
  | VOther _, Some (VOther _) => True
  | _, _ => False
  end.
Definition prefix_of (a b : list string) : Prop := exists r, b = (a ++ r)%list.
Definition agree_on (self other : pyobj) (rtol atol : R) (beginnings : bool) (kv : string * value) : Prop :=
  if String.eqb (fst kv) "history" then
    beginnings = true -> prefix_of (p_history self) (p_history other) \/ prefix_of (p_history other) (p_history self)
  else if String.eqb (fst kv) "version_hist" then p_versions self = p_versions other
  else match snd kv, attr (fst kv) (p_attrs other) with
       | VArr a, Some (VArr b) => forall i, in_shape (nd_shape a) i -> near rtol atol (nd_at a i) (nd_at b i)
       | VOther x, Some (VOther y) => x = y
       | _, _ => False
       end.
Definition agree (self other : pyobj) (rtol atol : R) (beginnings : bool) (exceptions : list string) : Prop :=
  p_type self = p_type other /\
  forall kv, In kv (p_attrs self) -> ~ ignored exceptions (fst kv) -> agree_on self other rtol atol beginnings kv.

(** ** Helpers *)
Lemma close_spec : forall rtol atol x y, close rtol atol x y = true <-> near rtol atol x y.
Proof.
  intros rtol atol x y. unfold close, near, Cabs', modulus, Csub. cbn [re im].
  replace (re y ^ 2 + im y ^ 2) with (re y * re y + im y * im y) by ring.
  replace ((re x - re y) ^ 2 + (im x - im y) ^ 2) with ((re x - re y) * (re x - re y) + (im x - im y) * (im x - im y)) by ring.
  unfold Rleb. destruct (Rle_dec _ _); split; intro; try easy; try lra.
Qed.
Lemma bshape_same : forall s, bshape s s = Some s.
Proof. induction s as [|n s IH]; [reflexivity|]. cbn. rewrite IH, Nat.eqb_refl. reflexivity. Qed.
Lemma all_indices_spec : forall s i, In i (all_indices s) <-> in_shape s i.
Proof.
  unfold in_shape. induction s as [|n s IH]; intros i; cbn [all_indices].
  - split.
    + intros [<-|[]]. constructor.
    + intros H. inversion H. now left.
  - rewrite in_flat_map. split.
    + intros (j & Hj & Hi). apply in_map_iff in Hi. destruct Hi as (k & <- & Hk). apply in_seq in Hk.
      constructor; [lia|]. now apply IH.
    + intros H. inversion H as [|? k ? j Hk Hj]; subst. exists j. split; [now apply IH|].
      apply in_map_iff. exists k. split; [reflexivity|]. apply in_seq. lia.
Qed.
Lemma bindex_same : forall s i, in_shape s i -> bindex s i = i.
Proof.
  intros s i H. induction H as [|n k s i Hk _ IH]; [reflexivity|]. cbn. rewrite IH. f_equal.
  destruct (Nat.eqb_spec n 1); [lia|reflexivity].
Qed.
Lemma in_shape_rev : forall s i, in_shape s i -> in_shape (rev s) (rev i).
Proof.
  intros s i H. induction H as [|n k s i Hk _ IH]; [constructor|]. cbn. apply Forall2_app; [exact IH|]. repeat constructor. exact Hk.
Qed.
Lemma np_allclose_same : forall a b rtol atol, nd_shape a = nd_shape b ->
  exists e, np_allclose a b rtol atol = Ok e /\
    (e = true <-> forall i, in_shape (nd_shape a) i -> near rtol atol (nd_at a i) (nd_at b i)).
Proof.
  intros a b rtol atol E. unfold np_allclose. rewrite <- E, bshape_same. eexists. split; [reflexivity|].
  rewrite forallb_forall. split.
  - intros H i Hi. pose proof (in_shape_rev _ _ Hi) as Hr. specialize (H (rev i)). rewrite all_indices_spec in H.
    specialize (H Hr). rewrite bindex_same, rev_involutive in H by exact Hr. now apply close_spec.
  - intros H i Hi. rewrite all_indices_spec in Hi. rewrite bindex_same by exact Hi. apply close_spec. apply H.
    apply in_shape_rev in Hi. now rewrite rev_involutive in Hi.
Qed.
Lemma strip_app : forall p s r, strip p s = Some r <-> s = (p ++ r)%string.
Proof.
  induction p as [|c p IH]; intros s r; cbn.
  - split; [intros H; injection H; auto|intros ->; reflexivity].
  - destruct s as [|d s]; [split; discriminate|].
    destruct (Ascii.eqb_spec c d) as [->|N].
    + rewrite IH. split; [intros ->; reflexivity|intros H; injection H; auto].
    + split; [discriminate|]. intros H. injection H as -> _. congruence.
Qed.
Lemma rcut_app : forall p q, p <> ""%string -> rcut p (q ++ p) = Some (q, ""%string).
Proof.
  intros p q NE.
  assert (L : forall s a b, rcut p s = Some (a, b) -> (String.length b + String.length p <= String.length s)%nat).
  { induction s as [|c s IH]; intros a b H.
    - cbn in H. destruct (strip p "") as [r|] eqn:E; [|discriminate]. injection H as <- <-. apply strip_app in E.
      destruct p; [congruence|discriminate].
    - cbn [rcut] in H. destruct (rcut p s) as [[a' b']|] eqn:E.
      + injection H as <- <-. specialize (IH _ _ eq_refl). cbn. lia.
      + destruct (strip p (String c s)) as [r|] eqn:E2; [|discriminate]. injection H as <- <-. apply strip_app in E2. rewrite E2.
        assert (AL : forall x y, String.length (x ++ y) = (String.length x + String.length y)%nat).
        { induction x; intros y; cbn; [reflexivity|now rewrite IHx]. }
        rewrite AL. lia. }
  induction q as [|c q IH].
  - cbn [append]. assert (S : strip p p = Some ""%string).
    { apply strip_app. clear. induction p; [reflexivity|]. cbn. now rewrite <- IHp. }
    destruct p as [|c p]; [congruence|]. cbn [rcut]. destruct (rcut (String c p) p) as [[a b]|] eqn:E.
    + apply L in E. cbn in E. lia.
    + rewrite S. reflexivity.
  - cbn [append rcut]. rewrite IH. reflexivity.
Qed.
Lemma rcut_sound : forall p s a b, rcut p s = Some (a, b) -> s = (a ++ p ++ b)%string.
Proof.
  intros p. induction s as [|c s IH]; intros a b H.
  - cbn in H. destruct (strip p "") as [r|] eqn:E; [|discriminate]. injection H as <- <-. now apply strip_app in E.
  - cbn [rcut] in H. destruct (rcut p s) as [[a' b']|] eqn:E.
    + injection H as <- <-. cbn. f_equal. now apply IH.
    + destruct (strip p (String c s)) as [r|] eqn:E2; [|discriminate]. injection H as <- <-. now apply strip_app in E2.
Qed.
Lemma ends_with_spec : forall k, ends_with "__num" k = true <-> exists p, k = (p ++ "__num")%string.
Proof.
  intros k. unfold ends_with. split.
  - destruct (rcut "__num" k) as [[a b]|] eqn:E; [|discriminate]. destruct b; [|discriminate]. intros _.
    apply rcut_sound in E. exists a. exact E.
  - intros [p ->]. rewrite rcut_app by discriminate. reflexivity.
Qed.
Lemma mem_spec : forall k l, mem k l = true <-> In k l.
Proof.
  intros k l. unfold mem. rewrite existsb_exists. split.
  - intros (x & H & E). apply String.eqb_eq in E. now subst.
  - intros H. exists k. split; [exact H|apply String.eqb_refl].
Qed.
Lemma skip_spec : forall ex k, ends_with "__num" k || mem k ex = true <-> ignored ex k.
Proof. intros ex k. rewrite orb_true_iff, ends_with_spec, mem_spec. reflexivity. Qed.
Lemma strs_eqb_spec : forall a b, strs_eqb a b = true <-> a = b.
Proof.
  induction a as [|x a IH]; intros [|y b]; cbn; split; intro H; try easy.
  - apply andb_true_iff in H. destruct H as [H1 H2]. apply String.eqb_eq in H1. apply IH in H2. now subst.
  - injection H as <- <-. rewrite String.eqb_refl. now apply IH.
Qed.
Lemma pairs_eqb_spec : forall a b, pairs_eqb a b = true <-> a = b.
Proof.
  induction a as [|[x x'] a IH]; intros [|[y y'] b]; cbn; split; intro H; try easy.
  - rewrite !andb_true_iff in H. destruct H as [[H1 H2] H3]. apply String.eqb_eq in H1. apply String.eqb_eq in H2.
    apply IH in H3. now subst.
  - injection H as <- <- <-. rewrite !String.eqb_refl. now apply IH.
Qed.
Lemma prefix_spec : forall a b : list string, let n := Nat.min (length a) (length b) in
  firstn n a = firstn n b <-> prefix_of a b \/ prefix_of b a.
Proof.
  intros a b n. unfold prefix_of. split.
  - intros H. destruct (Nat.le_ge_cases (length a) (length b)) as [L|L].
    + left. exists (skipn n b). unfold n in *. rewrite Nat.min_l in * by lia. rewrite firstn_all in H.
      rewrite H at 1. symmetry. apply firstn_skipn.
    + right. exists (skipn n a). unfold n in *. rewrite Nat.min_r in * by lia. rewrite firstn_all in H.
      rewrite <- H at 1. symmetry. apply firstn_skipn.
  - intros [[r ->]|[r ->]]; unfold n; rewrite app_length.
    + rewrite Nat.min_l by lia. rewrite firstn_app, Nat.sub_diag, firstn_all. cbn. now rewrite app_nil_r.
    + rewrite Nat.min_r by lia. rewrite firstn_app, Nat.sub_diag, firstn_all. cbn. now rewrite app_nil_r.
Qed.
Lemma attr_equal_spec : forall self other rtol atol bg ex kv, comparable self other kv ->
  exists e, attr_equal self other rtol atol bg ex kv = Ok e /\
    (e = true <-> (ignored ex (fst kv) \/ agree_on self other rtol atol bg kv)).
Proof.
  intros self other rtol atol bg ex [k v] C. unfold attr_equal, agree_on. cbn [fst snd] in *.
  pose proof (skip_spec ex k) as SK. destruct (ends_with "__num" k || mem k ex).
  - exists true. split; [reflexivity|]. split; [intros _; left; now apply SK|reflexivity].
  - assert (NI : ~ ignored ex k) by (intros H; apply SK in H; discriminate).
    unfold comparable in C. cbn [fst snd] in C.
    destruct (String.eqb_spec k "history") as [->|N1].
    { eexists. split; [reflexivity|]. destruct bg; cbn [negb orb].
      - rewrite strs_eqb_spec. rewrite (prefix_spec (p_history self) (p_history other)). tauto.
      - split; [intros _; right; discriminate|reflexivity]. }
    destruct (String.eqb_spec k "version_hist") as [->|N2].
    { eexists. split; [reflexivity|]. rewrite pairs_eqb_spec. tauto. }
    destruct C as [C|[C|C]]; [congruence|congruence|].
    destruct v as [a|x]; destruct (attr k (p_attrs other)) as [[b|y]|]; try contradiction.
    + destruct (np_allclose_same a b rtol atol C) as (e & E1 & E2). rewrite E1. exists e. split; [reflexivity|]. tauto.
    + eexists. split; [reflexivity|]. rewrite Z.eqb_eq. tauto.
Qed.

(** ** Theorems *)
Lemma ignored_dec : forall ex k, {ignored ex k} + {~ ignored ex k}.
Proof.
  intros ex k. destruct (ends_with "__num" k || mem k ex) eqn:E.
  - left. now apply skip_spec.
  - right. intros H. apply skip_spec in H. congruence.
Qed.
(** The verdict is true exactly when the types agree and so does every attribute that is not
    ignored; it does not depend on [report_all]. *)
Theorem C64_verdict : forall self other report_all rtol atol bg ex,
  (forall kv, In kv (p_attrs self) -> comparable self other kv) ->
  exists e, allclose self other report_all rtol atol bg ex = Ok e /\ (e = true <-> agree self other rtol atol bg ex).
Proof.
  intros self other ra rtol atol bg ex HC.
  assert (L : forall todo eq, (forall kv, In kv todo -> comparable self other kv) -> (ra = false -> eq = true) ->
    exists e, attrs_loop self other ra rtol atol bg ex todo eq = Ok e /\
      (e = true <-> eq = true /\ forall kv, In kv todo -> ignored ex (fst kv) \/ agree_on self other rtol atol bg kv)).
  { induction todo as [|kv todo IH]; intros eq H HE; cbn [attrs_loop].
    - exists eq. split; [reflexivity|]. split; [intros ->; split; [reflexivity|intros ? []]|tauto].
    - destruct (attr_equal_spec self other rtol atol bg ex kv (H kv (or_introl eq_refl))) as (e & E1 & E2).
      rewrite E1. cbn [rbind]. cbv zeta.
      destruct (negb (ends_with "__num" (fst kv) || mem (fst kv) ex) && negb ra && negb (eq && e)) eqn:B.
      + exists false. split; [reflexivity|]. split; [discriminate|]. intros [Heq K].
        assert (e = true) by (apply E2; apply K; now left). subst. rewrite !andb_true_iff in B. destruct B as [_ B]. discriminate.
      + destruct (IH (eq && e)) as (e' & F1 & F2).
        * intros x Hx. apply H. now right.
        * intros Hra. subst ra. specialize (HE eq_refl). subst eq. cbn [andb negb] in *.
          destruct (ends_with "__num" (fst kv) || mem (fst kv) ex) eqn:SK.
          -- apply E2. left. now apply skip_spec.
          -- cbn in B. destruct e; [reflexivity|discriminate].
        * exists e'. split; [exact F1|]. rewrite F2, andb_true_iff, E2. split.
          -- intros [[H1 H2] H3]. split; [exact H1|]. intros x [<-|Hx]; auto.
          -- intros [H1 H2]. split; [split; [exact H1|apply H2; now left]|]. intros x Hx. apply H2. now right. }
  unfold allclose. destruct (String.eqb_spec (p_type self) (p_type other)) as [E|E].
  - rewrite andb_false_r. destruct (L (p_attrs self) true HC (fun _ => eq_refl)) as (e & E1 & E2). exists e.
    split; [exact E1|]. rewrite E2. unfold agree. split.
    + intros [_ H]. split; [exact E|]. intros kv Hk NI. destruct (H kv Hk); tauto.
    + intros [_ H]. split; [reflexivity|]. intros kv Hk. destruct (ignored_dec ex (fst kv)); [now left|right; now apply H].
  - destruct ra.
    + cbn [negb andb]. destruct (L (p_attrs self) false HC (fun H => ltac:(discriminate))) as (e & E1 & E2). exists e.
      split; [exact E1|]. rewrite E2. split; [intros [? _]; discriminate|intros [? _]; congruence].
    + cbn. exists false. split; [reflexivity|]. split; [discriminate|intros [? _]; congruence].
Qed.
(** An object is equal to itself. *)
Theorem C64_reflexive : forall self report_all rtol atol bg ex, 0 <= rtol -> 0 <= atol ->
  NoDup (map fst (p_attrs self)) -> allclose self self report_all rtol atol bg ex = Ok true.
Proof.
  intros self ra rtol atol bg ex H1 H2 ND.
  assert (A : forall kv, In kv (p_attrs self) -> attr (fst kv) (p_attrs self) = Some (snd kv)).
  { revert ND. generalize (p_attrs self). induction l as [|[n v] l IH]; intros ND kv H; [destruct H|].
    cbn in ND. inversion ND as [|? ? N1 N2]; subst. cbn [attr]. destruct H as [<-|H].
    - cbn [fst snd]. rewrite String.eqb_refl. reflexivity.
    - destruct (String.eqb_spec n (fst kv)) as [E|E]; [|now apply IH].
      exfalso. apply N1. rewrite E. now apply in_map. }
  destruct (C64_verdict self self ra rtol atol bg ex) as (e & E1 & E2).
  { intros kv H. right. right. rewrite (A kv H). destruct (snd kv); auto. }
  rewrite E1. f_equal. apply E2. split; [reflexivity|]. intros kv H _. unfold agree_on. rewrite (A kv H).
  destruct (String.eqb (fst kv) "history"). { intros _. left. exists []. symmetry. apply app_nil_r. }
  destruct (String.eqb (fst kv) "version_hist"); [reflexivity|].
  destruct (snd kv) as [a|x]; [|reflexivity]. intros i _. unfold near, modulus at 1. cbn [re im].
  replace ((re (nd_at a i) - re (nd_at a i)) ^ 2 + (im (nd_at a i) - im (nd_at a i)) ^ 2) with 0 by ring.
  rewrite sqrt_0. assert (0 <= modulus (nd_at a i)) by (apply sqrt_pos). nra.
Qed.
(** The verdict depends on the order of the two objects. *)
Theorem C64_symmetric_refuted : exists a b rtol atol, 0 <= rtol /\ 0 <= atol /\
  allclose a b true rtol atol false [] = Ok true /\ allclose b a true rtol atol false [] = Ok false.
Proof.
  set (o := fun x => mkpy "W" [("t"%string, VArr (mknd [1%nat] (fun _ => RtoC x)))] [] []).
  exists (o 0), (o 1), 1, 0. split; [lra|]. split; [lra|].
  assert (HC : forall x y kv, In kv (p_attrs (o x)) -> comparable (o x) (o y) kv).
  { intros x y kv [<-|[]]. right. right. reflexivity. }
  assert (M : forall x, 0 <= x -> modulus (RtoC x) = x).
  { intros x Hx. unfold modulus, RtoC. cbn [re im]. replace (x ^ 2 + 0 ^ 2) with (x * x) by ring. now apply sqrt_square. }
  assert (M1 : modulus (mkC (0 - 1) (0 - 0)) = 1).
  { unfold modulus. cbn [re im]. replace ((0 - 1) ^ 2 + (0 - 0) ^ 2) with 1 by ring. apply sqrt_1. }
  assert (M2 : modulus (mkC (1 - 0) (0 - 0)) = 1).
  { unfold modulus. cbn [re im]. replace ((1 - 0) ^ 2 + (0 - 0) ^ 2) with 1 by ring. apply sqrt_1. }
  split.
  - destruct (C64_verdict (o 0) (o 1) true 1 0 false [] (HC 0 1)) as (e & E1 & E2). rewrite E1. f_equal. apply E2.
    split; [reflexivity|]. intros kv [<-|[]] _. cbn. intros i _. unfold near. cbn [re im RtoC].
    change {| re := 1; im := 0 |} with (RtoC 1). rewrite M1, M by lra. lra.
  - destruct (C64_verdict (o 1) (o 0) true 1 0 false [] (HC 1 0)) as (e & E1 & E2). rewrite E1. f_equal.
    destruct e; [|reflexivity]. exfalso. destruct (proj1 E2 eq_refl) as [_ H].
    specialize (H _ (or_introl eq_refl)). cbn in H.
    assert (NI : ~ ignored [] "t"%string).
    { intros K. apply skip_spec in K. vm_compute in K. discriminate. }
    specialize (H NI [0%nat] ltac:(repeat constructor)). unfold near in H. cbn [re im RtoC] in H.
    change {| re := 0; im := 0 |} with (RtoC 0) in H. rewrite M2, M in H by lra. lra.
Qed.
(** Arrays of different shapes are not told apart by shape: an empty set of rotors is found equal to any
    single rotor, so a waveform without frame passes for one with a constant frame. *)
Theorem C64_empty_frame_refuted : forall a b rtol atol, nd_shape a = [0; 4]%nat -> nd_shape b = [1; 4]%nat ->
  np_allclose a b rtol atol = Ok true /\ np_allclose b a rtol atol = Ok true.
Proof. intros a b rtol atol Ea Eb. unfold np_allclose. rewrite Ea, Eb. split; reflexivity. Qed.
(** A single sample is compared with every sample of the other object. *)
Theorem C64_broadcast_refuted : forall a b n rtol atol, nd_shape a = [1%nat] -> nd_shape b = [n] -> n <> 1%nat ->
  exists e, np_allclose a b rtol atol = Ok e /\
    (e = true <-> forall k, (k < n)%nat -> near rtol atol (nd_at a [0%nat]) (nd_at b [k])).
Proof.
  intros a b n rtol atol Ea Eb Hn. unfold np_allclose. rewrite Ea, Eb. cbn [rev app bshape].
  assert (X : (1 =? n)%nat = false) by (apply Nat.eqb_neq; congruence). rewrite X. cbn [Nat.eqb].
  eexists. split; [reflexivity|]. rewrite forallb_forall. split.
  - intros H k Hk. specialize (H [k]). rewrite all_indices_spec in H. specialize (H ltac:(repeat constructor; exact Hk)).
    apply close_spec in H. cbn in H. destruct (Nat.eqb_spec n 1); [congruence|]. exact H.
  - intros H i Hi. apply all_indices_spec in Hi. inversion Hi as [|? k ? j Hk Hj]; subst. inversion Hj; subst.
    apply close_spec. cbn. destruct (Nat.eqb_spec n 1); [congruence|]. now apply H.
Qed.
(** An attribute the other object lacks is an error; one that only the other has is never looked at. *)
Theorem C64_missing_attribute : forall self other rtol atol bg ex k v,
  (forall kv, In kv (p_attrs self) -> fst kv <> k -> comparable self other kv) ->
  In (k, v) (p_attrs self) -> ~ ignored ex k -> k <> "history"%string -> k <> "version_hist"%string ->
  attr k (p_attrs other) = None -> allclose self other true rtol atol bg ex = Err KeyError.
Proof.
  intros self other rtol atol bg ex k v HC HI NI N1 N2 HN. unfold allclose. cbn [negb andb].
  revert HC HI. generalize (String.eqb (p_type self) (p_type other)). generalize (p_attrs self).
  induction l as [|kv l IH]; intros eq HC HI; [destruct HI|]. cbn [attrs_loop].
  destruct (string_dec (fst kv) k) as [E|E].
  - assert (X : attr_equal self other rtol atol bg ex kv = Err KeyError).
    { destruct kv as [k' v']. cbn [fst] in E. subst k'. unfold attr_equal.
      destruct (ends_with "__num" k || mem k ex) eqn:SK; [apply skip_spec in SK; contradiction|].
      destruct (String.eqb_spec k "history"); [congruence|]. destruct (String.eqb_spec k "version_hist"); [congruence|].
      rewrite HN. reflexivity. }
    rewrite X. reflexivity.
  - destruct (attr_equal_spec self other rtol atol bg ex kv (HC kv (or_introl eq_refl) E)) as (e & E1 & _).
    rewrite E1. cbn [rbind]. cbv zeta. rewrite andb_false_r. cbn [andb]. apply IH.
    + intros x Hx. apply HC. now right.
    + destruct HI as [->|HI]; [cbn in E; congruence|exact HI].
Qed.
Lemma Rsqr_0_uniq_sub : forall a b, (a - b) ^ 2 = 0 -> a = b.
Proof. intros a b H. destruct (Req_dec (a - b) 0) as [E|N]; [lra|]. exfalso. apply (pow_nonzero _ 2 N). exact H. Qed.
(** A number can be compared with an array only if the array has one element, and then exactly, whatever the tolerances. *)
Theorem C64_number_against_array : forall self other rtol atol bg ex k x b, ~ ignored ex k -> k <> "history"%string -> k <> "version_hist"%string ->
  attr k (p_attrs other) = Some (VArr b) ->
  (fold_right Nat.mul 1%nat (nd_shape b) <> 1%nat -> attr_equal self other rtol atol bg ex (k, VOther x) = Err ValueError) /\
  (nd_shape b = [1%nat] -> exists e, attr_equal self other rtol atol bg ex (k, VOther x) = Ok e /\ (e = true <-> nd_at b [0%nat] = RtoC (IZR x))).
Proof.
  intros self other rtol atol bg ex k x b NI N1 N2 HB. unfold attr_equal.
  destruct (ends_with "__num" k || mem k ex) eqn:E; [exfalso; apply NI; apply skip_spec; exact E|].
  destruct (String.eqb_spec k "history"); [contradiction|]. destruct (String.eqb_spec k "version_hist"); [contradiction|]. rewrite HB. split.
  - intros H. destruct (Nat.eqb_spec (fold_right Nat.mul 1%nat (nd_shape b)) 1); [contradiction|reflexivity].
  - intros H. rewrite H. cbn [fold_right Nat.mul Nat.add Nat.eqb map]. eexists. split; [reflexivity|]. rewrite close_spec. unfold near. split.
    + intros Hn. rewrite Rmult_0_l, Rplus_0_r in Hn. unfold modulus in Hn. cbn [re im] in Hn.
      set (d := nd_at b [0%nat]) in *. set (y := RtoC (IZR x)) in *. pose proof (sqrt_pos ((re y - re d) ^ 2 + (im y - im d) ^ 2)) as P.
      assert (Z : (re y - re d) ^ 2 + (im y - im d) ^ 2 = 0) by (apply sqrt_eq_0; [apply Rplus_le_le_0_compat; apply pow2_ge_0|lra]).
      pose proof (pow2_ge_0 (re y - re d)). pose proof (pow2_ge_0 (im y - im d)).
      assert (X1 : (re y - re d) ^ 2 = 0) by lra. assert (X2 : (im y - im d) ^ 2 = 0) by lra.
      apply C_eq; [apply Rsqr_0_uniq_sub in X1|apply Rsqr_0_uniq_sub in X2]; lra.
    + intros ->. rewrite Rmult_0_l, Rplus_0_r. unfold modulus. cbn [re im]. match goal with |- sqrt ?z <= _ => replace z with 0 by ring end. rewrite sqrt_0. lra.
Qed.
Theorem C64_extra_attribute_refuted : forall self other k v report_all rtol atol bg ex,
  ~ In k (map fst (p_attrs self)) ->
  allclose self (mkpy (p_type other) ((k, v) :: p_attrs other) (p_history other) (p_versions other)) report_all rtol atol bg ex =
  allclose self other report_all rtol atol bg ex.
Proof.
  intros self other k v ra rtol atol bg ex NI. unfold allclose. cbn [p_type].
  destruct (negb ra && negb (p_type self =? p_type other)%string); [reflexivity|].
  generalize (String.eqb (p_type self) (p_type other)). revert NI. generalize (p_attrs self).
  induction l as [|[n x] l IH]; intros NI eq; [reflexivity|]. cbn [attrs_loop].
  assert (X : attr_equal self (mkpy (p_type other) ((k, v) :: p_attrs other) (p_history other) (p_versions other)) rtol atol bg ex (n, x) =
              attr_equal self other rtol atol bg ex (n, x)).
  { unfold attr_equal. cbn [p_history p_versions p_attrs attr].
    destruct (String.eqb_spec k n) as [E|E]; [|reflexivity]. subst n. exfalso. apply NI. left. reflexivity. }
  rewrite X. destruct (attr_equal self other rtol atol bg ex (n, x)) as [e|]; [|reflexivity]. cbn [rbind]. cbv zeta.
  destruct (_ && _ && _); [reflexivity|]. apply IH. intros H. apply NI. now right.
Qed.

(** ** Numbers *)
Lemma numbers_nth : forall l c i, (i < length l)%nat ->
  nth i (numbers c l) 0%Z = (c + Z.of_nat (length (filter (fun x => match x with Construct => true | Unpickle => false end) (firstn i l))))%Z.
Proof.
  induction l as [|x l IH]; intros c i H; [cbn in H; lia|]. destruct i as [|i].
  - destruct x; cbn; lia.
  - cbn in H. destruct x; cbn [numbers nth firstn filter]; rewrite IH by lia; cbn [length]; lia.
Qed.
(** Two objects carry the same number exactly when the first, and all created between, were unpickled. *)
Theorem C64_numbers : forall l c i j, (i < j < length l)%nat ->
  (nth i (numbers c l) 0%Z = nth j (numbers c l) 0%Z <-> forall k, (i <= k < j)%nat -> nth k l Construct = Unpickle).
Proof.
  intros l c i j H. rewrite !numbers_nth by lia.
  set (f := fun x => match x with Construct => true | Unpickle => false end).
  assert (S : firstn j l = (firstn i l ++ firstn (j - i) (skipn i l))%list).
  { replace j with (i + (j - i))%nat at 1 by lia. generalize (j - i)%nat as n. clear. revert i.
    induction l as [|x l IH]; intros i n; [now rewrite skipn_nil, !firstn_nil|].
    destruct i as [|i]; [reflexivity|]. cbn. now rewrite IH. }
  rewrite S, filter_app, app_length.
  assert (Z0 : forall l', length (filter f l') = 0%nat <-> forall x, In x l' -> x = Unpickle).
  { induction l' as [|x l' IH]; [split; [intros _ ? []|reflexivity]|]. cbn. destruct x; cbn.
    - split; [discriminate|]. intros K. specialize (K Construct (or_introl eq_refl)). discriminate.
    - rewrite IH. split; intros K y Hy; [destruct Hy as [<-|Hy]; auto|apply K; now right]. }
  assert (N : forall k, (i <= k < j)%nat -> nth k l Construct = nth (k - i) (firstn (j - i) (skipn i l)) Construct).
  { intros k Hk.
    assert (F : forall n (q : list creation) p d, (p < n)%nat -> nth p (firstn n q) d = nth p q d).
    { induction n; intros q p d Hp; [lia|]. destruct q, p; cbn; try reflexivity. apply IHn. lia. }
    rewrite F by lia.
    assert (G : forall n (q : list creation) p d, nth p (skipn n q) d = nth (n + p) q d).
    { induction n; intros q p d; [reflexivity|]. destruct q; [now destruct p|]. cbn. apply IHn. }
    rewrite G. f_equal. lia. }
  split.
  - intros E. assert (E0 : length (filter f (firstn (j - i) (skipn i l))) = 0%nat) by lia.
    rewrite Z0 in E0. intros k Hk. rewrite N by exact Hk. apply E0. apply nth_In.
    rewrite firstn_length, skipn_length. lia.
  - intros K. assert (E0 : length (filter f (firstn (j - i) (skipn i l))) = 0%nat).
    { apply Z0. intros x Hx. apply (In_nth _ _ Construct) in Hx. destruct Hx as (p & Hp & <-).
      rewrite firstn_length, skipn_length in Hp.
      specialize (K (i + p)%nat ltac:(lia)). rewrite N in K by lia. replace (i + p - i)%nat with p in K by lia. exact K. }
    lia.
Qed.
Corollary C64_constructed_numbers : forall l c, (forall x, In x l -> x = Construct) -> NoDup (numbers c l).
Proof.
  intros l c H. assert (LN : forall l c, length (numbers c l) = length l).
  { induction l0 as [|[] l0 IH]; intros c0; cbn; auto. }
  apply (NoDup_nth _ 0%Z). intros i j Hi Hj E. rewrite LN in Hi, Hj.
  assert (X : forall i j, (i < j < length l)%nat -> nth i (numbers c l) 0%Z = nth j (numbers c l) 0%Z -> False).
  { intros i0 j0 Hij E0. rewrite (C64_numbers l c i0 j0 Hij) in E0. specialize (E0 i0 ltac:(lia)).
    rewrite (H (nth i0 l Construct)) in E0 by (apply nth_In; lia). discriminate. }
  destruct (Nat.lt_trichotomy i j) as [L|[L|L]]; [|exact L|]; exfalso.
  - apply (X i j); [lia|exact E].
  - apply (X j i); [lia|congruence].
Qed.
(** The number of an unpickled object is also that of the next object. *)
Theorem C64_unpickled_number_refuted : forall c before next,
  let l := (before ++ [Unpickle; next])%list in
  nth (length before) (numbers c l) 0%Z = nth (S (length before)) (numbers c l) 0%Z.
Proof.
  intros c before next l. apply C64_numbers; unfold l.
  - rewrite app_length. cbn. lia.
  - intros k Hk. assert (k = length before) by lia. subst k. rewrite app_nth2, Nat.sub_diag by lia. reflexivity.
Qed.

(** ** A case meeting the hypotheses *)
Example C64_case :
  let o := fun x => mkpy "WaveformModes" [("t"%string, VArr (mknd [2%nat] (fun i => RtoC (x + INR (hd 0%nat i)))));
    ("dataType"%string, VOther 7); ("history"%string, VOther 0); ("_WaveformBase__num"%string, VOther (if Rlt_dec 0 x then 1 else 2))] [] [] in
  (forall kv, In kv (p_attrs (o 0)) -> comparable (o 0) (o (1/1000)) kv) /\
  NoDup (map fst (p_attrs (o 0))) /\ ~ ignored [] "t" /\ ignored [] "_WaveformBase__num" /\
  numbers 5 [Construct; Unpickle; Unpickle; Construct; Construct] = [5; 6; 6; 6; 7]%Z.
Proof.
  cbv zeta. split; [|split; [|split; [|split]]].
  - intros kv H. cbn in H. decompose [or] H; subst; try contradiction; unfold comparable; cbn; auto.
  - cbn. repeat constructor; cbn; intuition discriminate.
  - intros K. apply skip_spec in K. vm_compute in K. discriminate.
  - apply skip_spec. reflexivity.
  - reflexivity.
Qed.
