(** * Round trip of waveform files (property C48) *)
From Coq Require Import String Ascii ZArith Reals List Bool Lia Permutation Sorted.
From Verif Require Import Common Cplx Quat Times_Model Times_Proofs Modes_Model Modes_Proofs Tables_Model Tables_Proofs
  Validity_Model Validity_Proofs H5_Model H5Names_Proofs.
Import ListNotations.
Open Scope list_scope.

(** ** Association lists *)
Lemma assoc_app : forall A n (l l' : list (string * A)),
  assoc n (l ++ l') = match assoc n l with Some v => Some v | None => assoc n l' end.
Proof. induction l as [|[k v] l IH]; intros; simpl; auto. destruct (String.eqb k n); auto. Qed.
Lemma create_ok : forall A n (v : A) l l', create n v l = Ok l' -> assoc n l = None /\ l' = l ++ [(n, v)].
Proof. unfold create. intros A n v l l'. destruct (assoc n l); [discriminate|]. intros H; split; congruence. Qed.
Lemma assoc_put_same : forall A n (v : A) l, assoc n (put n v l) = Some v.
Proof.
  induction l as [|[k u] l IH]; simpl; [rewrite String.eqb_refl; auto|].
  destruct (String.eqb k n) eqn:E; simpl; [rewrite String.eqb_refl|rewrite E]; auto.
Qed.
Lemma assoc_put_other : forall A n m (v : A) l, n <> m -> assoc m (put n v l) = assoc m l.
Proof.
  induction l as [|[k u] l IH]; simpl; intros N.
  - destruct (String.eqb_spec n m); [congruence|reflexivity].
  - destruct (String.eqb_spec k n) as [->|K]; simpl.
    + destruct (String.eqb_spec n m); [congruence|]. destruct (String.eqb_spec n m); [congruence|reflexivity].
    + destruct (String.eqb k m); auto.
Qed.
Lemma assoc_put_all_other : forall m l a, assoc m l = None -> assoc m (put_all l a) = assoc m a.
Proof.
  induction l as [|[k v] l IH]; simpl; intros a H; auto.
  destruct (String.eqb_spec k m) as [->|N]; [discriminate|]. rewrite IH by auto. apply assoc_put_other; auto.
Qed.
Lemma assoc_notin : forall A n (l : list (string * A)), ~ In n (map fst l) -> assoc n l = None.
Proof.
  induction l as [|[k v] l IH]; simpl; intros H; auto.
  destruct (String.eqb_spec k n); [subst; tauto|]. apply IH. tauto.
Qed.
Lemma assoc_put_all_in : forall n v l a, NoDup (map fst l) -> assoc n l = Some v -> assoc n (put_all l a) = Some v.
Proof.
  induction l as [|[k u] l IH]; simpl; intros a N H; [discriminate|]. inversion N; subst.
  destruct (String.eqb_spec k n) as [->|K].
  - injection H as ->. rewrite assoc_put_all_other; [apply assoc_put_same|]. apply assoc_notin. assumption.
  - apply IH; auto.
Qed.
Lemma assoc_in_nodup : forall A n (v : A) l, NoDup (map fst l) -> In (n, v) l -> assoc n l = Some v.
Proof.
  induction l as [|[k u] l IH]; simpl; intros N H; [tauto|]. inversion N; subst.
  destruct H as [H|H].
  - injection H as -> ->. rewrite String.eqb_refl. reflexivity.
  - destruct (String.eqb_spec k n) as [->|K]; [|auto]. exfalso. apply H2. apply (in_map fst) in H. exact H.
Qed.

(** ** Sorting by (ell, m) *)
Definition lex_le (a b : Z * Z) : Prop := (fst a < fst b \/ (fst a = fst b /\ snd a <= snd b))%Z.
Lemma lex_leb_spec : forall a b, lex_leb a b = true <-> lex_le a b.
Proof.
  intros a b. unfold lex_leb, lex_le. rewrite orb_true_iff, andb_true_iff, Z.ltb_lt, Z.eqb_eq, Z.leb_le. tauto.
Qed.
Lemma lex_antisym : forall a b, lex_le a b -> lex_le b a -> a = b.
Proof. intros [a1 a2] [b1 b2]. unfold lex_le. cbn [fst snd]. intros. f_equal; lia. Qed.
Lemma lex_trans : forall a b c, lex_le a b -> lex_le b c -> lex_le a c.
Proof. intros [a1 a2] [b1 b2] [c1 c2]. unfold lex_le. cbn [fst snd]. intros. lia. Qed.

Fixpoint zins (x : Z * Z) (l : list (Z * Z)) : list (Z * Z) :=
  match l with [] => [x] | y :: r => if lex_leb x y then x :: l else y :: zins x r end.
Definition zsort (l : list (Z * Z)) : list (Z * Z) := fold_right zins [] l.
Lemma zins_perm : forall x l, Permutation (zins x l) (x :: l).
Proof.
  induction l as [|y l IH]; simpl; auto. destruct (lex_leb x y); auto.
  rewrite IH. apply perm_swap.
Qed.
Lemma zsort_perm : forall l, Permutation (zsort l) l.
Proof. induction l as [|x l IH]; simpl; auto. rewrite zins_perm. auto. Qed.
Lemma zins_sorted : forall x l, StronglySorted lex_le l -> StronglySorted lex_le (zins x l).
Proof.
  induction l as [|y l IH]; simpl; intros H; [repeat constructor|]. inversion H; subst.
  destruct (lex_leb x y) eqn:E.
  - apply lex_leb_spec in E. constructor; auto. constructor; auto.
    eapply Forall_impl; [|eassumption]. intros z Z. eapply lex_trans; eauto.
  - constructor; auto. assert (lex_le y x).
    { destruct x, y. assert (N : ~ lex_le (z, z0) (z1, z2)) by (rewrite <- lex_leb_spec; congruence).
      unfold lex_le in *. cbn [fst snd] in *. lia. }
    rewrite zins_perm. constructor; auto.
Qed.
Lemma zsort_sorted : forall l, StronglySorted lex_le (zsort l).
Proof. induction l; simpl; [constructor|apply zins_sorted; auto]. Qed.
Lemma sorted_unique : forall l l', StronglySorted lex_le l -> StronglySorted lex_le l' -> Permutation l l' -> l = l'.
Proof.
  induction l as [|x l IH]; intros l' S S' P.
  - apply Permutation_nil in P. auto.
  - destruct l' as [|y l']; [apply Permutation_sym, Permutation_nil in P; discriminate|].
    inversion S as [|? ? S1 F1]; inversion S' as [|? ? S2 F2]; subst.
    assert (x = y).
    { assert (Hx : In x (y :: l')) by (eapply Permutation_in; [exact P|left; auto]).
      assert (Hy : In y (x :: l)) by (eapply Permutation_in; [apply Permutation_sym; exact P|left; auto]).
      rewrite Forall_forall in F1, F2.
      destruct Hx as [->|Hx]; auto. destruct Hy as [->|Hy]; auto. apply lex_antisym; auto. }
    subst y. f_equal. apply IH; auto. eapply Permutation_cons_inv; eauto.
Qed.
Lemma sorted_app : forall l l', StronglySorted lex_le l -> StronglySorted lex_le l' ->
  (forall a b, In a l -> In b l' -> lex_le a b) -> StronglySorted lex_le (l ++ l').
Proof.
  induction l as [|x l IH]; simpl; intros l' S S' H; auto. inversion S; subst. constructor; auto.
  apply Forall_app. split; auto. apply Forall_forall. intros b Hb. auto.
Qed.
Lemma block_sorted : forall x l, StronglySorted Z.le l -> StronglySorted lex_le (map (fun m => (x, m)) l).
Proof.
  induction l as [|a l IH]; simpl; intros S; [constructor|]. inversion S; subst. constructor; auto.
  apply Forall_map. eapply Forall_impl; [|eassumption]. intros b Hb. right. cbn. lia.
Qed.
Lemma zrange_sorted : forall n a, StronglySorted Z.le (zrange a (a + Z.of_nat n)).
Proof.
  induction n as [|n IH]; intros a.
  - rewrite zrange_empty by lia. constructor.
  - rewrite zrange_cons by lia. replace (a + Z.of_nat (S n))%Z with ((a + 1) + Z.of_nat n)%Z by lia.
    constructor; [apply IH|]. apply Forall_forall. intros b Hb. apply zrange_In in Hb. lia.
Qed.
Lemma zrange_sorted' : forall a b, StronglySorted Z.le (zrange a b).
Proof.
  intros a b. destruct (Z_le_gt_dec a b).
  - replace b with (a + Z.of_nat (Z.to_nat (b - a)))%Z by lia. apply zrange_sorted.
  - rewrite zrange_empty by lia. constructor.
Qed.
Lemma LM_sorted_n : forall n a, StronglySorted lex_le (LM_range a (a + Z.of_nat n - 1)).
Proof.
  induction n as [|n IH]; intros a.
  - rewrite LM_range_empty by lia. constructor.
  - replace (a + Z.of_nat (S n) - 1)%Z with ((a + Z.of_nat n - 1) + 1)%Z by lia. rewrite LM_range_snoc by lia.
    apply sorted_app; [apply IH|apply block_sorted, zrange_sorted'|].
    intros [l m] [l' m'] H H'. apply LM_range_In in H. apply in_map_iff in H'. destruct H' as (q & E & _).
    injection E as <- <-. left. cbn. lia.
Qed.
Lemma LM_sorted : forall a b, StronglySorted lex_le (LM_range a b).
Proof.
  intros a b. destruct (Z_le_gt_dec a b).
  - replace b with (a + Z.of_nat (Z.to_nat (b - a + 1)) - 1)%Z by lia. apply LM_sorted_n.
  - rewrite LM_range_empty by lia. constructor.
Qed.
Lemma zsort_LM : forall a b l, Permutation l (LM_range a b) -> zsort l = LM_range a b.
Proof.
  intros a b l P. apply sorted_unique; [apply zsort_sorted|apply LM_sorted|].
  rewrite zsort_perm. exact P.
Qed.
Definition named (lm : Z * Z) := (lm, mode_name lm).
Lemma insert_named : forall x l, insert (named x) (map named l) = map named (zins x l).
Proof. induction l as [|y l IH]; simpl; auto. destruct (lex_leb x y); simpl; auto. rewrite <- IH. reflexivity. Qed.
Lemma sort_named : forall l, sort (map named l) = map named (zsort l).
Proof.
  induction l as [|x l IH]; auto. change (insert (named x) (sort (map named l)) = map named (zins x (zsort l))).
  rewrite IH. apply insert_named.
Qed.

Lemma LM_nodup : forall a b, NoDup (LM_range a b).
Proof.
  intros a b. destruct (Z_le_gt_dec a b).
  - replace b with (a + Z.of_nat (Z.to_nat (b - a + 1)) - 1)%Z by lia.
    generalize (Z.to_nat (b - a + 1)). clear. induction n as [|n IH].
    + rewrite LM_range_empty by lia. constructor.
    + replace (a + Z.of_nat (S n) - 1)%Z with ((a + Z.of_nat n - 1) + 1)%Z by lia. rewrite LM_range_snoc by lia.
      revert IH. generalize (LM_range_In a (a + Z.of_nat n - 1)). generalize (LM_range a (a + Z.of_nat n - 1)).
      intros L HL ND. set (blk := map _ _).
      assert (NB : NoDup blk).
      { apply FinFun.Injective_map_NoDup; [|apply zrange_NoDup]. intros p q E; injection E; auto. }
      assert (D : forall x, In x L -> ~ In x blk).
      { intros [l m] H K. apply HL in H. apply in_map_iff in K. destruct K as (q & E & _). injection E as <- <-. lia. }
      clearbody blk. clear HL. induction L as [|x L IHL]; simpl; auto. inversion ND; subst. constructor.
      * rewrite in_app_iff. intros [K|K]; [auto|]. apply (D x); simpl; auto.
      * apply IHL; auto. intros y Hy. apply D. simpl; auto.
  - rewrite LM_range_empty by lia. constructor.
Qed.

(** ** Reading what was written *)
Lemma filter_perm : forall A (f : A -> bool) l l', Permutation l l' -> Permutation (filter f l) (filter f l').
Proof.
  induction 1; simpl; auto.
  - destruct (f x); auto.
  - destruct (f x), (f y); auto. apply perm_swap.
  - eapply perm_trans; eauto.
Qed.
Lemma map_res_ok : forall A B (f : A -> res B) g l, (forall x, In x l -> f x = Ok (g x)) -> map_res f l = Ok (map g l).
Proof.
  induction l as [|x l IH]; simpl; intros H; auto. rewrite H by auto. cbn [rbind]. rewrite IH by auto. reflexivity.
Qed.
Lemma fold_min_spec : forall d l, (forall x, In x l -> (fold_right Z.min d l <= x)%Z) /\ In (fold_right Z.min d l) (d :: l).
Proof.
  induction l as [|a l [IH1 IH2]]; simpl; [split; [tauto|auto]|]. split.
  - intros x [->|H]; [lia|]. specialize (IH1 x H). lia.
  - destruct (Z.min_spec a (fold_right Z.min d l)) as [[_ ->]|[_ ->]]; auto. destruct IH2; auto.
Qed.
Lemma fold_max_spec : forall d l, (forall x, In x l -> (x <= fold_right Z.max d l)%Z) /\ In (fold_right Z.max d l) (d :: l).
Proof.
  induction l as [|a l [IH1 IH2]]; simpl; [split; [tauto|auto]|]. split.
  - intros x [->|H]; [lia|]. specialize (IH1 x H). lia.
  - destruct (Z.max_spec a (fold_right Z.max d l)) as [[_ ->]|[_ ->]]; auto. destruct IH2; auto.
Qed.
Lemma LM_extremes : forall a b, (0 <= a <= b)%Z ->
  fold_right Z.min (fst (hd (0, 0)%Z (LM_range a b))) (map fst (LM_range a b)) = a /\
  fold_right Z.max (fst (hd (0, 0)%Z (LM_range a b))) (map fst (LM_range a b)) = b.
Proof.
  intros a b H.
  assert (Ia : In a (map fst (LM_range a b))) by (apply in_map_iff; exists (a, 0%Z); split; auto; apply LM_range_In; lia).
  assert (Ib : In b (map fst (LM_range a b))) by (apply in_map_iff; exists (b, 0%Z); split; auto; apply LM_range_In; lia).
  assert (R : forall x, In x (map fst (LM_range a b)) -> (a <= x <= b)%Z).
  { intros x Hx. apply in_map_iff in Hx. destruct Hx as ([l m] & <- & Hx). apply LM_range_In in Hx. cbn. lia. }
  assert (D : In (fst (hd (0, 0)%Z (LM_range a b))) (map fst (LM_range a b))).
  { destruct (LM_range a b); [destruct Ia|left; reflexivity]. }
  set (d := fst (hd (0, 0)%Z (LM_range a b))) in *. set (l := map fst (LM_range a b)) in *. clearbody d l.
  destruct (fold_min_spec d l) as [m1 m2]. destruct (fold_max_spec d l) as [M1 M2].
  specialize (m1 a Ia). specialize (M1 b Ib).
  assert (In (fold_right Z.min d l) l) by (destruct m2 as [<-|]; auto).
  assert (In (fold_right Z.max d l) l) by (destruct M2 as [<-|]; auto).
  apply R in H0. apply R in H1. lia.
Qed.
