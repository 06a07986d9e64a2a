(** Shared list/array helpers.  No code of /repo is modelled in this file; these are the
    primitive array semantics used by the models (numpy 1-d arrays as Coq lists). *)
From Coq Require Import ZArith List Lia Bool FinFun.
Import ListNotations.
Open Scope Z_scope.

(** Result of an operation that may raise a Python exception. *)
Inductive exn : Type :=
| ValueError | IndexError | TypeError | NameError | KeyError | AttributeError
| AssertionError | NotImplementedError | UnboundLocalError | OutOfBounds | OutOfFuel | OSError | PlainException | OverflowError.

Inductive res (A : Type) : Type :=
| Ok (a : A)
| Err (e : exn).
Arguments Ok {A} a.
Arguments Err {A} e.

Definition rbind {A B} (r : res A) (f : A -> res B) : res B :=
  match r with Ok a => f a | Err e => Err e end.
Definition rmap {A B} (f : A -> B) (r : res A) : res B :=
  match r with Ok a => Ok (f a) | Err e => Err e end.
Notation "'let?' x ':=' r 'in' k" := (rbind r (fun x => k))
  (at level 200, x pattern, r at level 100, k at level 200).

(** In-place write [l[i] = v] with a bounds check ([None] = out of bounds). *)
Fixpoint upd {A} (l : list A) (i : nat) (v : A) : option (list A) :=
  match l, i with
  | [], _ => None
  | _ :: t, O => Some (v :: t)
  | h :: t, S i => match upd t i v with Some t' => Some (h :: t') | None => None end
  end.

Lemma upd_length : forall A (l : list A) i v l', upd l i v = Some l' -> length l' = length l.
Proof.
  induction l; intros i v l' H; destruct i; simpl in H; try discriminate.
  - injection H as <-. reflexivity.
  - destruct (upd l i v) eqn:E; try discriminate. injection H as <-. simpl. f_equal. eauto.
Qed.

Lemma upd_ok : forall A (l : list A) i v, (i < length l)%nat -> exists l', upd l i v = Some l'.
Proof.
  induction l; intros i v H; simpl in H; [lia|].
  destruct i; simpl; [eauto|].
  destruct (IHl i v ltac:(lia)) as [l' ->]. eauto.
Qed.

Lemma upd_nth : forall A (l : list A) i v l' d j, upd l i v = Some l' ->
  nth j l' d = if Nat.eqb j i then v else nth j l d.
Proof.
  induction l; intros i v l' d j H; destruct i; simpl in H; try discriminate.
  - injection H as <-. destruct j; reflexivity.
  - destruct (upd l i v) eqn:E; try discriminate. injection H as <-.
    destruct j; simpl; [reflexivity|]. eauto.
Qed.

(** Python [range(a, b)] on integers. *)
Definition zrange (a b : Z) : list Z :=
  map (fun k => a + Z.of_nat k) (seq 0 (Z.to_nat (b - a))).

Lemma zrange_length : forall a b, length (zrange a b) = Z.to_nat (b - a).
Proof. intros. unfold zrange. rewrite map_length, seq_length. reflexivity. Qed.

Lemma zrange_In : forall a b x, In x (zrange a b) <-> a <= x < b.
Proof.
  intros. unfold zrange. rewrite in_map_iff. split.
  - intros (k & <- & H). apply in_seq in H. lia.
  - intros H. exists (Z.to_nat (x - a)). split; [lia|]. apply in_seq. lia.
Qed.

Lemma zrange_nth : forall a b i d, (i < Z.to_nat (b - a))%nat -> nth i (zrange a b) d = a + Z.of_nat i.
Proof.
  intros. unfold zrange.
  rewrite nth_indep with (d' := a + Z.of_nat 0) by (rewrite map_length, seq_length; lia).
  rewrite (map_nth (fun k => a + Z.of_nat k)). rewrite seq_nth by lia. f_equal.
Qed.

Lemma zrange_NoDup : forall a b, NoDup (zrange a b).
Proof.
  intros. unfold zrange. apply FinFun.Injective_map_NoDup; [|apply seq_NoDup].
  intros x y H. lia.
Qed.

Lemma zrange_empty : forall a b, b <= a -> zrange a b = [].
Proof. intros. unfold zrange. replace (Z.to_nat (b - a)) with 0%nat by lia. reflexivity. Qed.

Lemma zrange_split : forall a b c, a <= b <= c -> zrange a c = zrange a b ++ zrange b c.
Proof.
  intros. unfold zrange.
  replace (Z.to_nat (c - a)) with (Z.to_nat (b - a) + Z.to_nat (c - b))%nat by lia.
  rewrite seq_app, map_app. f_equal. simpl.
  replace (Z.to_nat (b - a)) with (Z.to_nat (b - a) + 0)%nat at 1 by lia.
  generalize 0%nat as s. generalize (Z.to_nat (c - b)) as n.
  induction n; intros; simpl; [reflexivity|]. f_equal; [lia|].
  replace (S (Z.to_nat (b - a) + s)) with (Z.to_nat (b - a) + S s)%nat by lia. apply IHn.
Qed.

Lemma zrange_cons : forall a b, a < b -> zrange a b = a :: zrange (a + 1) b.
Proof.
  intros. rewrite (zrange_split a (a+1) b) by lia.
  replace (zrange a (a+1)) with [a]; [reflexivity|].
  unfold zrange. replace (Z.to_nat (a + 1 - a)) with 1%nat by lia. simpl. f_equal. lia.
Qed.

Lemma zrange_snoc : forall a b, a <= b -> zrange a (b + 1) = zrange a b ++ [b].
Proof.
  intros. rewrite (zrange_split a b (b+1)) by lia. f_equal.
  rewrite zrange_cons by lia. rewrite zrange_empty by lia. reflexivity.
Qed.

(** Python/numpy slice [l[start:stop]] with step 1: negative bounds wrap once, then clamp. *)
Definition py_bound (n : Z) (dflt : Z) (b : option Z) : Z :=
  match b with
  | None => dflt
  | Some i => let i' := if i <? 0 then i + n else i in Z.max 0 (Z.min n i')
  end.

Definition py_slice {A} (start stop : option Z) (l : list A) : list A :=
  let n := Z.of_nat (length l) in
  let a := py_bound n 0 start in
  let b := py_bound n n stop in
  firstn (Z.to_nat (b - a)) (skipn (Z.to_nat a) l).

Lemma nth_firstn_lt : forall A (l : list A) n i d, (i < n)%nat -> nth i (firstn n l) d = nth i l d.
Proof.
  induction l; intros n i d H; destruct n; simpl; try lia; destruct i; simpl; auto.
  apply IHl. lia.
Qed.

Lemma nth_skipn : forall A (l : list A) n i d, nth i (skipn n l) d = nth (n + i) l d.
Proof.
  induction l; intros n i d; destruct n; simpl; auto. destruct i; reflexivity.
Qed.

(** Concrete (non-negative, in range) slices are what one expects. *)
Lemma py_slice_nonneg : forall A (l : list A) a b,
  0 <= a -> a <= b -> b <= Z.of_nat (length l) ->
  py_slice (Some a) (Some b) l = firstn (Z.to_nat (b - a)) (skipn (Z.to_nat a) l).
Proof.
  intros. unfold py_slice, py_bound.
  destruct (a <? 0) eqn:E; [apply Z.ltb_lt in E; lia|].
  destruct (b <? 0) eqn:E2; [apply Z.ltb_lt in E2; lia|].
  f_equal; f_equal; lia.
Qed.

Lemma nth_error_ext : forall A (l l' : list A),
  (forall i, nth_error l i = nth_error l' i) -> l = l'.
Proof.
  induction l; destruct l'; intros H; auto.
  - specialize (H 0%nat); discriminate.
  - specialize (H 0%nat); discriminate.
  - assert (H0 := H 0%nat). simpl in H0. injection H0 as ->. f_equal. apply IHl.
    intros i. apply (H (S i)).
Qed.
