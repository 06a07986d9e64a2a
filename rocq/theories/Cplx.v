(** Complex numbers over the standard library's reals, standing for numpy's complex128 in exact
    arithmetic (rounding is not modelled), and finite sums. *)
From Coq Require Import Reals Lra List Lia ZArith Ring Field.
Import ListNotations.
Open Scope R_scope.

Record C : Type := mkC { re : R; im : R }.
Declare Scope C_scope.
Delimit Scope C_scope with C.
Bind Scope C_scope with C.

Definition RtoC (x : R) : C := mkC x 0.
Definition C0 : C := mkC 0 0.
Definition C1 : C := mkC 1 0.
Definition Ci : C := mkC 0 1.
Definition Cadd (a b : C) : C := mkC (re a + re b) (im a + im b).
Definition Copp (a : C) : C := mkC (- re a) (- im a).
Definition Csub (a b : C) : C := mkC (re a - re b) (im a - im b).
Definition Cmul (a b : C) : C := mkC (re a * re b - im a * im b) (re a * im b + im a * re b).
Definition Conj (a : C) : C := mkC (re a) (- im a).
Definition Cscale (x : R) (a : C) : C := mkC (x * re a) (x * im a).
(** Squared modulus. *)
Definition norm2 (a : C) : R := re a * re a + im a * im a.
Definition Cinv (a : C) : C := mkC (re a / norm2 a) (- im a / norm2 a).
Definition Cdiv (a b : C) : C := Cmul a (Cinv b).

Infix "+" := Cadd : C_scope.
Infix "-" := Csub : C_scope.
Infix "*" := Cmul : C_scope.
Infix "/" := Cdiv : C_scope.
Notation "- x" := (Copp x) : C_scope.

Lemma C_eq : forall a b, re a = re b -> im a = im b -> a = b.
Proof. intros [x y] [z w]; cbn; intros; subst; reflexivity. Qed.

Ltac cx := apply C_eq; cbn; try (field; auto; fail); try ring; try lra.

Lemma C_ring : ring_theory C0 C1 Cadd Cmul Csub Copp eq.
Proof. constructor; intros; cx. Qed.
Add Ring CRing : C_ring.

Lemma norm2_pos : forall a, a <> C0 -> 0 < norm2 a.
Proof.
  intros [x y] H. unfold norm2. cbn. destruct (Req_dec x 0), (Req_dec y 0); subst.
  - exfalso. apply H. reflexivity.
  - assert (0 < y * y) by (apply Rsqr_pos_lt; auto). lra.
  - assert (0 < x * x) by (apply Rsqr_pos_lt; auto). lra.
  - assert (0 < x * x) by (apply Rsqr_pos_lt; auto). assert (0 < y * y) by (apply Rsqr_pos_lt; auto). lra.
Qed.
Lemma norm2_nonneg : forall a, 0 <= norm2 a.
Proof. intros [x y]. unfold norm2. cbn. pose proof (Rle_0_sqr x). pose proof (Rle_0_sqr y). unfold Rsqr in *. lra. Qed.
Lemma norm2_zero : forall a, norm2 a = 0 -> a = C0.
Proof.
  intros [x y]. unfold norm2. cbn. intros H. pose proof (Rle_0_sqr x). pose proof (Rle_0_sqr y). unfold Rsqr in *.
  assert (x * x = 0) by lra. assert (y * y = 0) by lra.
  apply C_eq; cbn; [destruct (Rmult_integral x x); auto|destruct (Rmult_integral y y); auto].
Qed.
Lemma C_field : field_theory C0 C1 Cadd Cmul Csub Copp Cdiv Cinv eq.
Proof.
  constructor.
  - exact C_ring.
  - intros H. apply (f_equal re) in H. cbn in H. lra.
  - reflexivity.
  - intros p H. apply norm2_pos in H. unfold norm2 in H. apply C_eq; cbn; unfold norm2; field; lra.
Qed.
Add Field CField : C_field.

Lemma Conj_involutive : forall a, Conj (Conj a) = a.
Proof. intros. cx. Qed.
Lemma Conj_add : forall a b, Conj (a + b)%C = (Conj a + Conj b)%C.
Proof. intros. cx. Qed.
Lemma Conj_sub : forall a b, Conj (a - b)%C = (Conj a - Conj b)%C.
Proof. intros. cx. Qed.
Lemma Conj_mul : forall a b, Conj (a * b)%C = (Conj a * Conj b)%C.
Proof. intros. cx. Qed.
Lemma Conj_opp : forall a, Conj (- a)%C = (- Conj a)%C.
Proof. intros. cx. Qed.
Lemma Conj_scale : forall x a, Conj (Cscale x a) = Cscale x (Conj a).
Proof. intros. cx. Qed.
Lemma Conj_RtoC : forall x, Conj (RtoC x) = RtoC x.
Proof. intros. cx. Qed.
Lemma Conj_C0 : Conj C0 = C0.
Proof. cx. Qed.
Lemma Cscale_mul : forall x a, Cscale x a = (RtoC x * a)%C.
Proof. intros. cx. Qed.
Lemma RtoC_add : forall x y, RtoC (x + y) = (RtoC x + RtoC y)%C.
Proof. intros. cx. Qed.
Lemma RtoC_mul : forall x y, RtoC (x * y) = (RtoC x * RtoC y)%C.
Proof. intros. cx. Qed.
Lemma RtoC_opp : forall x, RtoC (- x) = (- RtoC x)%C.
Proof. intros. cx. Qed.
Lemma RtoC_sub : forall x y, RtoC (x - y) = (RtoC x - RtoC y)%C.
Proof. intros. cx. Qed.
Lemma RtoC_inj : forall x y, RtoC x = RtoC y -> x = y.
Proof. intros x y H. apply (f_equal re) in H. exact H. Qed.
Lemma norm2_conj : forall a, norm2 (Conj a) = norm2 a.
Proof. intros. unfold norm2. cbn. ring. Qed.
Lemma norm2_opp : forall a, norm2 (- a)%C = norm2 a.
Proof. intros. unfold norm2. cbn. ring. Qed.
Lemma norm2_mul : forall a b, norm2 (a * b)%C = norm2 a * norm2 b.
Proof. intros. unfold norm2. cbn. ring. Qed.
Lemma norm2_scale : forall x a, norm2 (Cscale x a) = x * x * norm2 a.
Proof. intros. unfold norm2. cbn. ring. Qed.
Lemma Cmul_conj : forall a, (a * Conj a)%C = RtoC (norm2 a).
Proof. intros. unfold norm2. cx. Qed.
Lemma Cmul_zero : forall a b, (a * b)%C = C0 -> a = C0 \/ b = C0.
Proof.
  intros a b H. assert (N : norm2 a * norm2 b = 0) by (rewrite <- norm2_mul, H; unfold norm2; cbn; ring).
  destruct (Rmult_integral _ _ N); [left|right]; apply norm2_zero; auto.
Qed.

(** Integer powers of -1, as in `(-1.0) ** m`. *)
Definition sgn (m : Z) : R := if Z.even m then 1 else -1.
Lemma sgn_sq : forall m, sgn m * sgn m = 1.
Proof. intros. unfold sgn. destruct (Z.even m); ring. Qed.
Lemma sgn_add : forall a b, sgn (a + b) = sgn a * sgn b.
Proof. intros. unfold sgn. rewrite Z.even_add. destruct (Z.even a), (Z.even b); cbn; ring. Qed.
Lemma sgn_opp : forall a, sgn (- a) = sgn a.
Proof. intros. unfold sgn. rewrite Z.even_opp. reflexivity. Qed.
Lemma sgn_cases : forall m, sgn m = 1 \/ sgn m = -1.
Proof. intros. unfold sgn. destruct (Z.even m); auto. Qed.

(** Finite sums over lists. *)
Section Sums.
Context {A : Type}.
Fixpoint rsum (f : A -> R) (l : list A) : R := match l with [] => 0 | x :: l' => f x + rsum f l' end.
Fixpoint csum (f : A -> C) (l : list A) : C := match l with [] => C0 | x :: l' => (f x + csum f l')%C end.
Lemma rsum_ext : forall f g l, (forall x, In x l -> f x = g x) -> rsum f l = rsum g l.
Proof. induction l; cbn; intros; auto. rewrite H, IHl; auto. Qed.
Lemma csum_ext : forall f g l, (forall x, In x l -> f x = g x) -> csum f l = csum g l.
Proof. induction l; cbn; intros; auto. rewrite H, IHl; auto. Qed.
Lemma rsum_app : forall f l l', rsum f (l ++ l') = rsum f l + rsum f l'.
Proof. induction l; cbn; intros; [ring|rewrite IHl; ring]. Qed.
Lemma csum_app : forall f l l', csum f (l ++ l') = (csum f l + csum f l')%C.
Proof. induction l; cbn; intros; [ring|rewrite IHl; ring]. Qed.
Lemma rsum_add : forall f g l, rsum (fun x => f x + g x) l = rsum f l + rsum g l.
Proof. induction l; cbn; [ring|rewrite IHl; ring]. Qed.
Lemma csum_add : forall f g l, csum (fun x => f x + g x)%C l = (csum f l + csum g l)%C.
Proof. induction l; cbn; [ring|rewrite IHl; ring]. Qed.
Lemma rsum_scale : forall k f l, rsum (fun x => k * f x) l = k * rsum f l.
Proof. induction l; cbn; [ring|rewrite IHl; ring]. Qed.
Lemma csum_scale : forall k f l, csum (fun x => k * f x)%C l = (k * csum f l)%C.
Proof. induction l; cbn; [ring|rewrite IHl; ring]. Qed.
Lemma csum_opp : forall f l, csum (fun x => - f x)%C l = (- csum f l)%C.
Proof. induction l; cbn; [ring|rewrite IHl; ring]. Qed.
Lemma csum_conj : forall f l, Conj (csum f l) = csum (fun x => Conj (f x)) l.
Proof. induction l; cbn; [apply Conj_C0|rewrite Conj_add, IHl; reflexivity]. Qed.
Lemma re_csum : forall f l, re (csum f l) = rsum (fun x => re (f x)) l.
Proof. induction l; cbn; congruence. Qed.
Lemma im_csum : forall f l, im (csum f l) = rsum (fun x => im (f x)) l.
Proof. induction l; cbn; congruence. Qed.
Lemma csum_RtoC : forall f l, csum (fun x => RtoC (f x)) l = RtoC (rsum f l).
Proof. induction l; cbn; [reflexivity|rewrite IHl, RtoC_add; reflexivity]. Qed.
Lemma rsum_nonneg : forall f l, (forall x, In x l -> 0 <= f x) -> 0 <= rsum f l.
Proof. induction l; cbn; intros; [lra|]. pose proof (H a (or_introl eq_refl)). assert (0 <= rsum f l) by auto. lra. Qed.
Lemma rsum_zero : forall f l, (forall x, In x l -> 0 <= f x) -> rsum f l = 0 -> forall x, In x l -> f x = 0.
Proof.
  induction l; cbn; intros Hp Hs x Hx; [tauto|].
  pose proof (Hp a (or_introl eq_refl)). assert (0 <= rsum f l) by (apply rsum_nonneg; auto).
  destruct Hx as [<-|Hx]; [lra|]. apply IHl; auto. lra.
Qed.
Lemma rsum_const0 : forall f l, (forall x, In x l -> f x = 0) -> rsum f l = 0.
Proof. induction l; cbn; intros; auto. rewrite H, IHl by auto. ring. Qed.
Lemma csum_const0 : forall f l, (forall x, In x l -> f x = C0) -> csum f l = C0.
Proof. induction l; cbn; intros; auto. rewrite H, IHl by auto. ring. Qed.
End Sums.

Lemma rsum_map : forall A B (g : A -> B) f l, rsum f (map g l) = rsum (fun x => f (g x)) l.
Proof. induction l; cbn; congruence. Qed.
Lemma csum_map : forall A B (g : A -> B) f l, csum f (map g l) = csum (fun x => f (g x)) l.
Proof. induction l; cbn; congruence. Qed.
Lemma rsum_swap : forall A B (f : A -> B -> R) la lb,
  rsum (fun a => rsum (f a) lb) la = rsum (fun b => rsum (fun a => f a b) la) lb.
Proof. induction la; cbn; intros. - rewrite rsum_const0; auto. - rewrite IHla, <- rsum_add. reflexivity. Qed.
Lemma csum_swap : forall A B (f : A -> B -> C) la lb,
  csum (fun a => csum (f a) lb) la = csum (fun b => csum (fun a => f a b) la) lb.
Proof. induction la; cbn; intros. - rewrite csum_const0; auto. - rewrite IHla, <- csum_add. reflexivity. Qed.
(** A sum is unchanged by an involution-like reindexing that permutes the list. *)
From Coq Require Import Permutation.
Lemma rsum_perm : forall A (f : A -> R) l l', Permutation l l' -> rsum f l = rsum f l'.
Proof. induction 1; cbn; try congruence; ring. Qed.
Lemma csum_perm : forall A (f : A -> C) l l', Permutation l l' -> csum f l = csum f l'.
Proof. induction 1; cbn; try congruence; ring. Qed.
