(** C21, C22, C23, C52: expectation values of the rotation generators. *)
From Coq Require Import Reals ZArith List Bool Lia Lra Permutation.
From Verif Require Import Common Cplx Modes_Model Modes_Proofs Modal_Model Modal_Proofs Parity_Proofs Ops_Model.
Import ListNotations.
Open Scope Z_scope.

(** * Specification: the spin-l representation of the rotation generators
    A mode vector of one ell is a function of m, looked at on -l..l only.  The laws below pin the three
    operators down: they are Hermitian, obey the commutation relations and have Casimir l(l+1). *)
Definition cof (l m : Z) : R := sqrt (IZR ((l - m) * (l + m + 1))).
Definition raising (l : Z) (g : Z -> C) : Z -> C := fun m => Cscale (cof l (m - 1)) (g (m - 1)).
Definition lowering (l : Z) (g : Z -> C) : Z -> C := fun m => Cscale (cof l m) (g (m + 1)).
Definition gen (l : Z) (a : axis) (g : Z -> C) : Z -> C :=
  match a with
  | X => fun m => Cscale (/2) (raising l g m + lowering l g m)%C
  | Y => fun m => Cscale (-/2) (Ci * (raising l g m - lowering l g m))%C
  | Z3 => fun m => Cscale (IZR m) (g m)
  end.
Definition inner (l : Z) (f g : Z -> C) : C := csum (fun m => (Conj (f m) * g m)%C) (ms_of l).
(** Sum over the ell range. *)
Definition total (lo hi : Z) (F : Z -> C) : C := csum F (zrange lo (hi + 1)).

(** * Shifting sums over m *)
Lemma csum_filter : forall (F : Z -> C) (p : Z -> bool) l, csum (fun m => if p m then F m else C0) l = csum F (filter p l).
Proof. intros F p l. induction l as [|a l IH]; cbn; auto. destruct (p a); cbn; rewrite IH; auto. ring. Qed.
Definition inr (l m : Z) : bool := (- l <=? m) && (m <=? l).
Lemma inr_spec : forall l m, inr l m = true <-> - l <= m <= l.
Proof. intros. unfold inr. rewrite andb_true_iff, !Z.leb_le. tauto. Qed.

Lemma shift_sum : forall l k (F : Z -> C),
  csum (fun m => if inr l (m + k) then F m else C0) (ms_of l) = csum (fun m => if inr l (m - k) then F (m - k) else C0) (ms_of l).
Proof.
  intros l k F. rewrite csum_filter. rewrite (csum_filter (fun m => F (m - k)) (fun m => inr l (m - k))).
  rewrite <- (csum_map _ _ (fun m => m - k) F). apply csum_perm. apply NoDup_Permutation.
  - apply NoDup_filter, zrange_NoDup.
  - apply FinFun.Injective_map_NoDup; [intros x y; lia|]. apply NoDup_filter, zrange_NoDup.
  - intros x. rewrite in_map_iff. split.
    + intros H. apply filter_In in H as [H1 H2]. apply ms_of_In in H1. apply inr_spec in H2.
      exists (x + k). split; [lia|]. apply filter_In. rewrite ms_of_In, inr_spec. lia.
    + intros (y & <- & H). apply filter_In in H as [H1 H2]. apply ms_of_In in H1. apply inr_spec in H2.
      apply filter_In. rewrite ms_of_In, inr_spec. lia.
Qed.

Lemma cof_ladder : forall l m, ladder l m = cof l m.
Proof. intros. unfold ladder, cof. f_equal. f_equal. ring. Qed.
Lemma cof_neg : forall l m, cof l (- (m + 1)) = cof l m.
Proof. intros. unfold cof. f_equal. f_equal. ring. Qed.
Lemma cof_neg' : forall l m, cof l (- m) = cof l (m - 1).
Proof. intros. unfold cof. f_equal. f_equal. ring. Qed.
Lemma cof_neg1 : forall l m, cof l (- (m - 1)) = cof l (m - 2).
Proof. intros. unfold cof. f_equal. f_equal. ring. Qed.
Lemma cof_top : forall l, cof l l = 0%R.
Proof. intros. unfold cof. rewrite Z.sub_diag, Z.mul_0_l. apply sqrt_0. Qed.
Lemma cof_bot : forall l, cof l (- l - 1) = 0%R.
Proof. intros. unfold cof. replace (l + (- l - 1) + 1) with 0 by lia. rewrite Z.mul_0_r. apply sqrt_0. Qed.
Lemma cof_sq : forall l m, - l - 1 <= m <= l -> (cof l m * cof l m = IZR ((l - m) * (l + m + 1)))%R.
Proof. intros l m H. apply sqrt_def. apply IZR_le. apply Z.mul_nonneg_nonneg; lia. Qed.
Lemma cof_sq' : forall l m, - l <= m <= l + 1 -> (cof l (m - 1) * cof l (m - 1) = IZR ((l - m + 1) * (l + m)))%R.
Proof. intros l m H. rewrite cof_sq by lia. f_equal. ring. Qed.

(** * The generators satisfy the defining laws *)
Lemma inner_ext : forall l f g f' g', (forall m, - l <= m <= l -> f m = f' m) -> (forall m, - l <= m <= l -> g m = g' m) -> inner l f g = inner l f' g'.
Proof. intros l f g f' g' H H'. apply csum_ext. intros m Hm. apply ms_of_In in Hm. rewrite H, H' by auto. reflexivity. Qed.
Lemma inner_add : forall l f g h, inner l f (fun m => g m + h m)%C = (inner l f g + inner l f h)%C.
Proof. intros. unfold inner. rewrite <- csum_add. apply csum_ext. intros. ring. Qed.
Lemma inner_sub : forall l f g h, inner l f (fun m => g m - h m)%C = (inner l f g - inner l f h)%C.
Proof.
  intros. unfold inner. replace (csum (fun m => Conj (f m) * g m) (ms_of l) - csum (fun m => Conj (f m) * h m) (ms_of l))%C
   with (csum (fun m => Conj (f m) * g m) (ms_of l) + - csum (fun m => Conj (f m) * h m) (ms_of l))%C by ring.
  rewrite <- csum_opp, <- csum_add. apply csum_ext. intros. ring.
Qed.
Lemma inner_mul : forall l f g k, inner l f (fun m => k * g m)%C = (k * inner l f g)%C.
Proof. intros. unfold inner. rewrite <- csum_scale. apply csum_ext. intros. ring. Qed.
Lemma inner_scale : forall l f g k, inner l f (fun m => Cscale k (g m)) = Cscale k (inner l f g).
Proof. intros. rewrite Cscale_mul. rewrite <- inner_mul. apply inner_ext; auto. intros. apply Cscale_mul. Qed.
Lemma inner_conj : forall l f g, Conj (inner l f g) = inner l g f.
Proof. intros. unfold inner. rewrite csum_conj. apply csum_ext. intros. rewrite Conj_mul, Conj_involutive. ring. Qed.

(** Matrix elements of the raising operator, summed over the source or over the target. *)
Lemma raising_source : forall l f g, inner l f (raising l g) =
  csum (fun m => if m + 1 <=? l then Cscale (cof l m) (Conj (f (m + 1)%Z) * g m)%C else C0) (ms_of l).
Proof.
  intros l f g. transitivity (csum (fun m => if inr l (m + 1) then Cscale (cof l m) (Conj (f (m + 1)%Z) * g m)%C else C0) (ms_of l)).
  - rewrite (shift_sum l 1 (fun m => Cscale (cof l m) (Conj (f (m + 1)%Z) * g m)%C)). apply csum_ext. intros m Hm. apply ms_of_In in Hm. unfold raising.
    destruct (inr l (m - 1)) eqn:E.
    + replace (m - 1 + 1) with m by lia. rewrite !Cscale_mul. ring.
    + assert (m = - l). { destruct (Z.eq_dec m (- l)); auto. assert (inr l (m - 1) = true) by (apply inr_spec; lia). congruence. }
      subst. rewrite cof_bot. cx.
  - apply csum_ext. intros m Hm. apply ms_of_In in Hm. unfold inr.
    destruct (Z.leb_spec (- l) (m + 1)); [reflexivity|lia].
Qed.
Lemma lowering_source : forall l f g, inner l f (lowering l g) =
  csum (fun m => if - l <=? m - 1 then Cscale (cof l (m - 1)) (Conj (f (m - 1)%Z) * g m)%C else C0) (ms_of l).
Proof.
  intros l f g. transitivity (csum (fun m => if inr l (m + - (1)) then Cscale (cof l (m - 1)) (Conj (f (m - 1)%Z) * g m)%C else C0) (ms_of l)).
  - rewrite (shift_sum l (- (1)) (fun m => Cscale (cof l (m - 1)) (Conj (f (m - 1)%Z) * g m)%C)). apply csum_ext. intros m Hm. apply ms_of_In in Hm. unfold lowering.
    destruct (inr l (m - - (1))) eqn:E.
    + replace (m - - (1) - 1) with m by lia. replace (m - - (1)) with (m + 1) by lia. rewrite !Cscale_mul. ring.
    + assert (m = l). { destruct (Z.eq_dec m l); auto. assert (inr l (m - - (1)) = true) by (apply inr_spec; lia). congruence. }
      subst. rewrite cof_top. cx.
  - apply csum_ext. intros m Hm. apply ms_of_In in Hm. unfold inr. replace (m + - (1)) with (m - 1) by lia.
    destruct (Z.leb_spec (- l) (m - 1)); cbn [andb]; [|reflexivity]. destruct (Z.leb_spec (m - 1) l); [reflexivity|lia].
Qed.

Lemma raising_adjoint : forall l f g, inner l f (raising l g) = inner l (lowering l f) g.
Proof.
  intros l f g. rewrite raising_source. apply csum_ext. intros m Hm. apply ms_of_In in Hm. unfold lowering.
  destruct (Z.leb_spec (m + 1) l).
  - rewrite !Cscale_mul, Conj_mul, Conj_RtoC. ring.
  - replace m with l by lia. rewrite cof_top. cx.
Qed.
Lemma lowering_adjoint : forall l f g, inner l f (lowering l g) = inner l (raising l f) g.
Proof. intros l f g. rewrite <- inner_conj, <- raising_adjoint, inner_conj. reflexivity. Qed.

Theorem C23_generators_hermitian : forall l a f g, inner l f (gen l a g) = inner l (gen l a f) g.
Proof.
  intros l a f g. destruct a; cbn [gen].
  - rewrite inner_scale, inner_add, raising_adjoint, lowering_adjoint.
    rewrite <- (inner_conj l g (fun m => Cscale _ _)). rewrite inner_scale, inner_add, Conj_scale, Conj_add, !inner_conj. f_equal. ring.
  - rewrite inner_scale, inner_mul, inner_sub, raising_adjoint, lowering_adjoint.
    rewrite <- (inner_conj l g (fun m => Cscale _ _)). rewrite inner_scale, inner_mul, inner_sub, Conj_scale, Conj_mul, Conj_sub, !inner_conj. cx.
  - unfold inner. apply csum_ext. intros. rewrite Conj_scale. cx.
Qed.

Theorem C23_generators_commute : forall l g m, - l <= m <= l ->
  (gen l X (gen l Y g) m - gen l Y (gen l X g) m = Ci * gen l Z3 g m)%C /\
  (gen l Y (gen l Z3 g) m - gen l Z3 (gen l Y g) m = Ci * gen l X g m)%C /\
  (gen l Z3 (gen l X g) m - gen l X (gen l Z3 g) m = Ci * gen l Y g m)%C.
Proof.
  intros l g m Hm. cbn [gen]. unfold raising, lowering.
  replace (m - 1 + 1) with m by lia. replace (m + 1 - 1) with m by lia.
  pose proof (cof_sq l m ltac:(lia)) as S1. pose proof (cof_sq' l m ltac:(lia)) as S2.
  repeat (rewrite ?mult_IZR, ?plus_IZR, ?minus_IZR in S1, S2).
  assert (D : (cof l (m - 1) * cof l (m - 1) - cof l m * cof l m = 2 * IZR m)%R) by (rewrite S1, S2; ring).
  split; [|split]; apply C_eq; cbn; rewrite ?plus_IZR, ?minus_IZR; try ring.
  - replace (IZR m) with ((cof l (m - 1) * cof l (m - 1) - cof l m * cof l m) / 2)%R by lra. field.
  - replace (IZR m) with ((cof l (m - 1) * cof l (m - 1) - cof l m * cof l m) / 2)%R by lra. field.
Qed.

Lemma casimir : forall l g m, - l <= m <= l ->
  (gen l X (gen l X g) m + gen l Y (gen l Y g) m + gen l Z3 (gen l Z3 g) m = Cscale (IZR (l * (l + 1))) (g m))%C.
Proof.
  intros l g m Hm. cbn [gen]. unfold raising, lowering.
  replace (m - 1 + 1) with m by lia. replace (m + 1 - 1) with m by lia.
  pose proof (cof_sq l m ltac:(lia)) as S1. pose proof (cof_sq' l m ltac:(lia)) as S2.
  assert (D : (IZR (l * (l + 1)) = (cof l (m - 1) * cof l (m - 1) + cof l m * cof l m) / 2 + IZR m * IZR m)%R).
  { rewrite S1, S2. repeat (rewrite ?mult_IZR, ?plus_IZR, ?minus_IZR). field. }
  rewrite D. apply C_eq; cbn; field.
Qed.
Theorem C23_generators_casimir : forall l g m, - l <= m <= l ->
  (gen l X (gen l X g) m + gen l Y (gen l Y g) m + gen l Z3 (gen l Z3 g) m = Cscale (IZR (l * (l + 1))) (g m))%C.
Proof. exact casimir. Qed.

(** Second-order matrix elements, summed over the source. *)
Definition Sat (guard : Z -> bool) (k : Z) (c : Z -> R) (f g : Z -> C) (l : Z) : C :=
  csum (fun m => if guard m then Cscale (c m) (Conj (f (m + k)%Z) * g m)%C else C0) (ms_of l).

Lemma pp_source : forall l f g, inner l f (raising l (raising l g)) =
  Sat (fun m => m + 2 <=? l) 2 (fun m => cof l (m + 1) * cof l m)%R f g l.
Proof.
  intros l f g. rewrite raising_source. unfold Sat.
  transitivity (csum (fun m => if inr l (m + 1) then (fun m => Cscale (cof l m) (Conj (f (m + 1)%Z) * raising l g m)%C) m else C0) (ms_of l)).
  { apply csum_ext. intros m Hm. apply ms_of_In in Hm. unfold inr. destruct (Z.leb_spec (- l) (m + 1)); [reflexivity|lia]. }
  transitivity (csum (fun m => if inr l (m + 1) then (fun m => if m + 2 <=? l then Cscale (cof l (m + 1) * cof l m) (Conj (f (m + 2)%Z) * g m)%C else C0) m else C0) (ms_of l)).
  2:{ apply csum_ext. intros m Hm. apply ms_of_In in Hm. destruct (Z.leb_spec (m + 2) l).
      - replace (inr l (m + 1)) with true; auto. symmetry. apply inr_spec. lia.
      - destruct (inr l (m + 1)); auto. }
  rewrite (shift_sum l 1 (fun m => if m + 2 <=? l then _ else _)).
  apply csum_ext. intros m Hm. apply ms_of_In in Hm. cbv beta. unfold raising.
  replace (m - 1 + 1) with m by lia. replace (m - 1 + 2) with (m + 1) by lia.
  destruct (Z.leb_spec (m + 1) l).
  - replace (inr l (m + 1)) with true by (symmetry; apply inr_spec; lia).
    destruct (inr l (m - 1)) eqn:E; [cx|].
    assert (m = - l). { destruct (Z.eq_dec m (- l)); auto. assert (inr l (m - 1) = true) by (apply inr_spec; lia). congruence. }
    subst. rewrite cof_bot. cx.
  - destruct (inr l (m + 1)) eqn:E; [apply inr_spec in E; lia|]. destruct (inr l (m - 1)); auto.
Qed.
Lemma mm_source : forall l f g, inner l f (lowering l (lowering l g)) =
  Sat (fun m => - l <=? m - 2) (- (2)) (fun m => cof l (m - 2) * cof l (m - 1))%R f g l.
Proof.
  intros l f g. rewrite lowering_adjoint, lowering_adjoint, <- inner_conj, pp_source. unfold Sat. rewrite csum_conj.
  transitivity (csum (fun m => if inr l (m + 2) then (fun m => Conj (Cscale (cof l (m + 1) * cof l m) (Conj (g (m + 2)%Z) * f m)%C)) m else C0) (ms_of l)).
  { apply csum_ext. intros m Hm. apply ms_of_In in Hm. unfold inr. destruct (Z.leb_spec (- l) (m + 2)); [|lia].
    cbn [andb]. destruct (m + 2 <=? l); auto. apply Conj_C0. }
  rewrite (shift_sum l 2 (fun m => Conj _)). apply csum_ext. intros m Hm. apply ms_of_In in Hm. cbv beta. unfold inr.
  replace (m - 2 + 2) with m by lia. replace (m - 2 + 1) with (m - 1) by lia. replace (m + - (2)) with (m - 2) by lia.
  destruct (Z.leb_spec (m - 2) l); [|lia]. rewrite andb_true_r. destruct (- l <=? m - 2); auto. cx.
Qed.
Lemma pm_source : forall l f g, inner l f (raising l (lowering l g)) =
  Sat (fun m => - l <=? m - 1) 0 (fun m => cof l (m - 1) * cof l (m - 1))%R f g l.
Proof.
  intros l f g. apply csum_ext. intros m Hm. apply ms_of_In in Hm. unfold raising, lowering.
  replace (m - 1 + 1) with m by lia. rewrite Z.add_0_r. destruct (Z.leb_spec (- l) (m - 1)); [cx|].
  replace m with (- l) by lia. rewrite cof_bot. cx.
Qed.
Lemma mp_source : forall l f g, inner l f (lowering l (raising l g)) =
  Sat (fun m => m + 1 <=? l) 0 (fun m => cof l m * cof l m)%R f g l.
Proof.
  intros l f g. apply csum_ext. intros m Hm. apply ms_of_In in Hm. unfold raising, lowering.
  replace (m + 1 - 1) with m by lia. rewrite Z.add_0_r. destruct (Z.leb_spec (m + 1) l); [cx|].
  replace m with l by lia. rewrite cof_top. cx.
Qed.
Lemma pz_source : forall l f g, inner l f (raising l (gen l Z3 g)) =
  Sat (fun m => m + 1 <=? l) 1 (fun m => cof l m * IZR m)%R f g l.
Proof.
  intros l f g. rewrite raising_source. apply csum_ext. intros m _. cbn [gen]. destruct (m + 1 <=? l); auto. cx.
Qed.
Lemma mz_source : forall l f g, inner l f (lowering l (gen l Z3 g)) =
  Sat (fun m => - l <=? m - 1) (- (1)) (fun m => cof l (m - 1) * IZR m)%R f g l.
Proof.
  intros l f g. rewrite lowering_source. apply csum_ext. intros m _. cbn [gen]. replace (m + - (1)) with (m - 1) by lia.
  destruct (- l <=? m - 1); auto. cx.
Qed.
Lemma zp_source : forall l f g, inner l f (gen l Z3 (raising l g)) =
  Sat (fun m => m + 1 <=? l) 1 (fun m => IZR (m + 1) * cof l m)%R f g l.
Proof.
  intros l f g. rewrite C23_generators_hermitian, raising_source. apply csum_ext. intros m _. cbn [gen]. destruct (m + 1 <=? l); auto. cx.
Qed.
Lemma zm_source : forall l f g, inner l f (gen l Z3 (lowering l g)) =
  Sat (fun m => - l <=? m - 1) (- (1)) (fun m => IZR (m - 1) * cof l (m - 1))%R f g l.
Proof.
  intros l f g. rewrite C23_generators_hermitian, lowering_source. apply csum_ext. intros m _. cbn [gen]. replace (m + - (1)) with (m - 1) by lia.
  destruct (- l <=? m - 1); auto. cx.
Qed.
Lemma zz_source : forall l f g, inner l f (gen l Z3 (gen l Z3 g)) =
  Sat (fun _ => true) 0 (fun m => IZR (m ^ 2))%R f g l.
Proof.
  intros l f g. apply csum_ext. intros m _. cbn [gen]. rewrite Z.add_0_r. replace (m ^ 2) with (m * m) by ring. rewrite mult_IZR. cx.
Qed.

(** * The loops *)
Section Row.
Variables lo hi : Z.
Hypothesis Hlo : 0 <= lo.

Lemma modes_loop_In : forall i l m, In (i, (l, m)) (modes_loop lo hi) -> valid lo hi l m /\ i = LM_index l m lo.
Proof.
  intros i l m H. unfold modes_loop in H. apply In_nth_error in H as [n Hn].
  assert (A : nth_error (LM_range lo hi) n = Some (l, m) /\ nth_error (zrange 0 (Z.of_nat (length (LM_range lo hi)))) n = Some i).
  { revert Hn. generalize (zrange 0 (Z.of_nat (length (LM_range lo hi)))). generalize (LM_range lo hi).
    clear. induction n; intros [|b bs] [|a al]; cbn; try discriminate; [intros [= -> ->]; auto|auto]. }
  destruct A as [A B]. destruct (C01_every_column_is_named lo hi n l m Hlo A) as (V1 & V2 & E).
  split; [split; auto|]. assert (Hlt : (n < length (LM_range lo hi))%nat) by (apply nth_error_Some; congruence).
  apply nth_error_nth with (d := 0) in B. rewrite zrange_nth in B by lia. lia.
Qed.
Lemma modes_loop_snd : map snd (modes_loop lo hi) = LM_range lo hi.
Proof.
  unfold modes_loop. assert (L : length (zrange 0 (Z.of_nat (length (LM_range lo hi)))) = length (LM_range lo hi)) by (rewrite zrange_length; lia).
  revert L. generalize (zrange 0 (Z.of_nat (length (LM_range lo hi)))). induction (LM_range lo hi); intros [|z zs]; cbn; intros; try lia; auto.
  f_equal. apply IHl. lia.
Qed.
Lemma csum_LM : forall F : Z -> Z -> C, csum (fun lm => F (fst lm) (snd lm)) (LM_range lo hi) = total lo hi (fun l => csum (F l) (ms_of l)).
Proof.
  intros F. unfold total, LM_range, ms_of. induction (zrange lo (hi + 1)); cbn; auto. rewrite csum_app, IHl. f_equal.
  rewrite csum_map. reflexivity.
Qed.

(** Accumulating loops, with any accumulator type observed by [obs]. *)
Lemma acc_loop : forall S (obs : S -> C) (body : Z * (Z * Z) -> S -> res S) (V : Z -> Z -> C) (P : S -> Prop),
  (forall l m acc, valid lo hi l m -> P acc -> exists acc', body (LM_index l m lo, (l, m)) acc = Ok acc' /\ P acc' /\ obs acc' = (obs acc + V l m)%C) ->
  forall acc, P acc -> exists acc', for_each (modes_loop lo hi) body acc = Ok acc' /\ P acc' /\
    obs acc' = (obs acc + total lo hi (fun l => csum (V l) (ms_of l)))%C.
Proof.
  intros S obs body V P Hb acc HP. rewrite <- csum_LM, <- modes_loop_snd, csum_map.
  assert (Hin : forall i l m, In (i, (l, m)) (modes_loop lo hi) -> valid lo hi l m /\ i = LM_index l m lo) by exact modes_loop_In.
  revert acc HP. induction (modes_loop lo hi) as [|[i [l m]] ks IH]; intros acc HP; cbn [for_each csum].
  - exists acc. split; auto. split; auto. ring.
  - destruct (Hin i l m (or_introl eq_refl)) as [V0 ->].
    destruct (Hb l m acc V0 HP) as (a1 & E1 & P1 & O1). rewrite E1. cbn [rbind].
    destruct (IH ltac:(intros; apply Hin; right; auto) a1 P1) as (a2 & E2 & P2 & O2).
    exists a2. split; auto. split; auto. rewrite O2, O1. cbn [snd fst]. ring.
Qed.

Lemma term_ok : forall d1 d2 f g l m guard k c, has_modes lo hi d1 f -> has_modes lo hi d2 g -> valid lo hi l m ->
  (guard = true -> - l <= m + k <= l) ->
  term guard d1 d2 (LM_index l m lo + k) (LM_index l m lo) c = Ok (if guard then Cscale c (Conj (f l (m + k)%Z) * g l m)%C else C0).
Proof.
  intros d1 d2 f g l m guard k c H1 H2 V Hg. unfold term. destruct guard; auto.
  replace (LM_index l m lo + k) with (LM_index l (m + k) lo) by (unfold LM_index; ring).
  rewrite (rd_modes lo hi Hlo d1 f l (m + k) H1) by (destruct V; split; auto).
  rewrite (rd_modes lo hi Hlo d2 g l m H2 V). reflexivity.
Qed.

Definition prods (f g : Z -> Z -> C) (l m : Z) : products :=
  let S (guard : bool) k c := if guard then Cscale c (Conj (f l (m + k)%Z) * g l m)%C else C0 in
  mkprod (S (m + 2 <=? l) 2 (cof l (m + 1) * cof l m)%R) (S (- l <=? m - 1) 0 (cof l (m - 1) * cof l (m - 1))%R)
    (S (m + 1 <=? l) 0 (cof l m * cof l m)%R) (S (- l <=? m - 2) (- (2)) (cof l (m - 2) * cof l (m - 1))%R)
    (S (m + 1 <=? l) 1 (cof l m * IZR m)%R) (S (m + 1 <=? l) 1 (IZR (m + 1) * cof l m)%R)
    (S (- l <=? m - 1) (- (1)) (cof l (m - 1) * IZR m)%R) (S (- l <=? m - 1) (- (1)) (IZR (m - 1) * cof l (m - 1))%R)
    (S true 0 (IZR (m ^ 2))).

Lemma products_ok : forall d1 d2 f g l m, has_modes lo hi d1 f -> has_modes lo hi d2 g -> valid lo hi l m ->
  LL_products d1 d2 (LM_index l m lo) l m = Ok (prods f g l m).
Proof.
  intros d1 d2 f g l m H1 H2 V. unfold LL_products. pose proof V as [V1 V2].
  assert (Z0 : LM_index l m lo = LM_index l m lo + 0) by lia.
  rewrite !cof_ladder, cof_neg, cof_neg', cof_neg1.
  rewrite (term_ok d1 d2 f g l m _ 2) by (auto; intros HH; apply Z.leb_le in HH; lia). cbn [rbind].
  pattern (LM_index l m lo) at 1; rewrite Z0.
  rewrite (term_ok d1 d2 f g l m _ 0) by (auto; lia). cbn [rbind].
  pattern (LM_index l m lo) at 1; rewrite Z0.
  rewrite (term_ok d1 d2 f g l m _ 0) by (auto; lia). cbn [rbind].
  change (LM_index l m lo - 2) with (LM_index l m lo + - (2)).
  rewrite (term_ok d1 d2 f g l m _ (- (2))) by (auto; intros HH; apply Z.leb_le in HH; lia). cbn [rbind].
  rewrite !(term_ok d1 d2 f g l m _ 1) by (auto; intros HH; apply Z.leb_le in HH; lia). cbn [rbind].
  change (LM_index l m lo - 1) with (LM_index l m lo + - (1)).
  rewrite !(term_ok d1 d2 f g l m _ (- (1))) by (auto; intros HH; apply Z.leb_le in HH; lia). cbn [rbind].
  pattern (LM_index l m lo) at 1; rewrite Z0.
  rewrite (term_ok d1 d2 f g l m _ 0) by (auto; lia). cbn [rbind]. reflexivity.
Qed.

(** The matrix element of two generators. *)
Definition T2 (f g : Z -> Z -> C) (a b : axis) : C := total lo hi (fun l => inner l (f l) (gen l a (gen l b (g l)))).
Definition T1 (f g : Z -> Z -> C) (a : axis) : C := total lo hi (fun l => inner l (f l) (gen l a (g l))).

Lemma total_ext : forall F G, (forall l, F l = G l) -> total lo hi F = total lo hi G.
Proof. intros. apply csum_ext. auto. Qed.
Lemma csum_lin2 : forall A (k : C) (F G : A -> C) l, csum (fun x => k * (F x + G x))%C l = (k * (csum F l + csum G l))%C.
Proof. intros. rewrite csum_scale, csum_add. reflexivity. Qed.

(** Sum over m of the value added to slot (a, b). *)
Definition slot (p : products) (a b : axis) : C :=
  match a, b with
  | X, X => Cscale (/4) (LpLp p + LmLm p + LmLp p + LpLm p)%C
  | X, Y => Cscale (-/4) (Ci * (LpLp p - LmLm p + LmLp p - LpLm p))%C
  | X, Z3 => Cscale (/2) (LpLz p + LmLz p)%C
  | Y, X => Cscale (-/4) (Ci * (LpLp p - LmLp p + LpLm p - LmLm p))%C
  | Y, Y => Cscale (-/4) (LpLp p - LmLp p - LpLm p + LmLm p)%C
  | Y, Z3 => Cscale (-/2) (Ci * (LpLz p - LmLz p))%C
  | Z3, X => Cscale (/2) (LzLp p + LzLm p)%C
  | Z3, Y => Cscale (-/2) (Ci * (LzLp p - LzLm p))%C
  | Z3, Z3 => LzLz p
  end.

Lemma csum_sub : forall A (F G : A -> C) l, csum (fun x => F x - G x)%C l = (csum F l - csum G l)%C.
Proof. intros A F G l. induction l as [|x l IH]; cbn; [ring|rewrite IH; ring]. Qed.
Lemma csum_Cscale : forall A k (F : A -> C) l, csum (fun x => Cscale k (F x)) l = Cscale k (csum F l).
Proof. intros A k F l. induction l as [|x l IH]; cbn; [cx|rewrite IH; cx]. Qed.

Lemma slot_sum : forall f g l a b, csum (fun m => slot (prods f g l m) a b) (ms_of l) = inner l (f l) (gen l a (gen l b (g l))).
Proof.
  intros f g l a b.
  pose proof (pp_source l (f l) (g l)) as Epp. pose proof (mm_source l (f l) (g l)) as Emm.
  pose proof (pm_source l (f l) (g l)) as Epm. pose proof (mp_source l (f l) (g l)) as Emp.
  pose proof (pz_source l (f l) (g l)) as Epz. pose proof (mz_source l (f l) (g l)) as Emz.
  pose proof (zp_source l (f l) (g l)) as Ezp. pose proof (zm_source l (f l) (g l)) as Ezm.
  pose proof (zz_source l (f l) (g l)) as Ezz. unfold Sat in *.
  destruct a, b; cbn [slot prods LpLp LpLm LmLp LmLm LpLz LzLp LmLz LzLm LzLz];
  repeat (rewrite ?csum_Cscale, ?csum_scale, ?csum_add, ?csum_sub);
  rewrite <- ?Epp, <- ?Emm, <- ?Epm, <- ?Emp, <- ?Epz, <- ?Emz, <- ?Ezp, <- ?Ezm, <- ?Ezz.
  all: try reflexivity.
  - transitivity (inner l (f l) (fun m => Cscale (/4) (raising l (raising l (g l)) m + lowering l (lowering l (g l)) m + lowering l (raising l (g l)) m + raising l (lowering l (g l)) m)%C)).
    + rewrite inner_scale, !inner_add. reflexivity.
    + apply inner_ext; auto. intros. cbn [gen]. unfold raising, lowering. cx.
  - transitivity (inner l (f l) (fun m => Cscale (-/4) (Ci * (raising l (raising l (g l)) m - lowering l (lowering l (g l)) m + lowering l (raising l (g l)) m - raising l (lowering l (g l)) m))%C)).
    + rewrite inner_scale, inner_mul, inner_sub, inner_add, inner_sub. reflexivity.
    + apply inner_ext; auto. intros. cbn [gen]. unfold raising, lowering. cx.
  - transitivity (inner l (f l) (fun m => Cscale (/2) (raising l (gen l Z3 (g l)) m + lowering l (gen l Z3 (g l)) m)%C)).
    + rewrite inner_scale, !inner_add. reflexivity.
    + reflexivity.
  - transitivity (inner l (f l) (fun m => Cscale (-/4) (Ci * (raising l (raising l (g l)) m - lowering l (raising l (g l)) m + raising l (lowering l (g l)) m - lowering l (lowering l (g l)) m))%C)).
    + rewrite inner_scale, inner_mul, inner_sub, inner_add, inner_sub. reflexivity.
    + apply inner_ext; auto. intros. cbn [gen]. unfold raising, lowering. cx.
  - transitivity (inner l (f l) (fun m => Cscale (-/4) (raising l (raising l (g l)) m - lowering l (raising l (g l)) m - raising l (lowering l (g l)) m + lowering l (lowering l (g l)) m)%C)).
    + rewrite inner_scale, inner_add, inner_sub, inner_sub. reflexivity.
    + apply inner_ext; auto. intros. cbn [gen]. unfold raising, lowering. cx.
  - transitivity (inner l (f l) (fun m => Cscale (-/2) (Ci * (raising l (gen l Z3 (g l)) m - lowering l (gen l Z3 (g l)) m))%C)).
    + rewrite inner_scale, inner_mul, inner_sub. reflexivity.
    + reflexivity.
  - transitivity (inner l (f l) (fun m => Cscale (/2) (gen l Z3 (raising l (g l)) m + gen l Z3 (lowering l (g l)) m)%C)).
    + rewrite inner_scale, !inner_add. reflexivity.
    + apply inner_ext; auto. intros. cbn [gen]. unfold raising, lowering. cx.
  - transitivity (inner l (f l) (fun m => Cscale (-/2) (Ci * (gen l Z3 (raising l (g l)) m - gen l Z3 (lowering l (g l)) m))%C)).
    + rewrite inner_scale, inner_mul, inner_sub. reflexivity.
    + apply inner_ext; auto. intros. cbn [gen]. unfold raising, lowering. cx.
Qed.

(** ** C23: LVector and LdtVector *)
Theorem C23_LVector : forall d1 d2 f g, has_modes lo hi d1 f -> has_modes lo hi d2 g ->
  exists v, LVector lo hi d1 d2 = Ok v /\ forall a, v a = total lo hi (fun l => inner l (f l) (gen l a (g l))).
Proof.
  intros d1 d2 f g H1 H2.
  set (P := fun l m => (if m + 1 <=? l then Cscale (cof l m) (Conj (f l (m + 1)%Z) * g l m)%C else C0)).
  set (Q := fun l m => (if - l <=? m - 1 then Cscale (cof l (m - 1)) (Conj (f l (m - 1)%Z) * g l m)%C else C0)).
  set (V := fun a l m => match a with X => Cscale (/2) (P l m + Q l m)%C | Y => Cscale (-/2) (Ci * (P l m - Q l m))%C
     | Z3 => Cscale (IZR m) (Conj (f l m) * g l m)%C end).
  unfold LVector. set (body := fun (ilm : Z * (Z * Z)) (acc : axis -> C) => _).
  assert (Hb : forall l m acc, valid lo hi l m -> exists acc', body (LM_index l m lo, (l, m)) acc = Ok acc' /\ forall a, acc' a = (acc a + V a l m)%C).
  { intros l m acc Hv. unfold body. cbn [fst snd]. pose proof Hv as [V1 V2]. rewrite !cof_ladder, cof_neg'.
    rewrite (term_ok d1 d2 f g l m _ 1) by (auto; intros HH; apply Z.leb_le in HH; lia). cbn [rbind].
    change (LM_index l m lo - 1) with (LM_index l m lo + - (1)).
    rewrite (term_ok d1 d2 f g l m _ (- (1))) by (auto; intros HH; apply Z.leb_le in HH; lia). cbn [rbind].
    assert (Z0 : LM_index l m lo = LM_index l m lo + 0) by lia.
    pattern (LM_index l m lo) at 1; rewrite Z0. rewrite (term_ok d1 d2 f g l m _ 0) by (auto; lia). cbn [rbind].
    replace (m + - (1)) with (m - 1) by lia. rewrite Z.add_0_r.
    eexists. split; [reflexivity|]. intros a. destruct a; cbn [bump1 axis_eqb V]; reflexivity. }
  assert (Hex : exists v, for_each (modes_loop lo hi) body (fun _ => C0) = Ok v /\ forall a, v a = (C0 + total lo hi (fun l => csum (V a l) (ms_of l)))%C).
  { destruct (acc_loop (axis -> C) (fun v => v X) body (V X) (fun _ => True)) with (acc := fun _ : axis => C0) as (v & E & _ & EX); auto.
    { intros l m acc Hv _. destruct (Hb l m acc Hv) as (acc' & E & H). eauto. }
    destruct (acc_loop (axis -> C) (fun v => v Y) body (V Y) (fun _ => True)) with (acc := fun _ : axis => C0) as (v' & E' & _ & EY); auto.
    { intros l m acc Hv _. destruct (Hb l m acc Hv) as (acc' & E0 & H). eauto. }
    destruct (acc_loop (axis -> C) (fun v => v Z3) body (V Z3) (fun _ => True)) with (acc := fun _ : axis => C0) as (v'' & E'' & _ & EZ); auto.
    { intros l m acc Hv _. destruct (Hb l m acc Hv) as (acc' & E0 & H). eauto. }
    exists v. split; auto. rewrite E in E', E''. injection E' as <-. injection E'' as <-. intros []; auto. }
  destruct Hex as (v & E & Hv). exists v. split; auto. intros a. rewrite Hv. transitivity (total lo hi (fun l => csum (V a l) (ms_of l))); [ring|].
  apply total_ext. intros l.
  pose proof (raising_source l (f l) (g l)) as Ep. pose proof (lowering_source l (f l) (g l)) as Em.
  change (csum (V a l) (ms_of l)) with (csum (fun m => V a l m) (ms_of l)). unfold V.
  destruct a; cbn [gen].
  - rewrite csum_Cscale, csum_add. unfold P, Q. rewrite <- Ep, <- Em, inner_scale, inner_add. reflexivity.
  - rewrite csum_Cscale, csum_scale, csum_sub. unfold P, Q. rewrite <- Ep, <- Em, inner_scale, inner_mul, inner_sub. reflexivity.
  - apply csum_ext. intros. cx.
Qed.

(** The expectation value of a generator in one waveform is real. *)
Theorem C23_LVector_real : forall d f v, has_modes lo hi d f -> LVector lo hi d d = Ok v -> forall a, im (v a) = 0%R.
Proof.
  intros d f v H E a. destruct (C23_LVector d d f f H H) as (v' & E' & Hv). rewrite E in E'. injection E' as <-. rewrite Hv.
  unfold total. rewrite im_csum. apply rsum_const0. intros l _.
  assert (S : Conj (inner l (f l) (gen l a (f l))) = inner l (f l) (gen l a (f l))).
  { rewrite inner_conj, <- C23_generators_hermitian. reflexivity. }
  apply (f_equal im) in S. cbn in S. lra.
Qed.

(** LdtVector is the imaginary part of the matrix element between the data and their time derivative. *)
Theorem C23_LdtVector : forall d d' f f', has_modes lo hi d f -> has_modes lo hi d' f' ->
  exists v, LdtVector lo hi d d' = Ok v /\ forall a, v a = im (total lo hi (fun l => inner l (f l) (gen l a (f' l)))).
Proof.
  intros d d' f f' H H'. destruct (C23_LVector d d' f f' H H') as (w & E & Hw).
  cut (exists v, LdtVector lo hi d d' = Ok v /\ forall a, v a = im (w a)).
  { intros (v & Ev & Hv). exists v. split; auto. intros a. rewrite Hv, Hw. reflexivity. }
  clear Hw. revert E. unfold LVector, LdtVector.
  set (accr := fun _ : axis => 0%R). set (accc := fun _ : axis => C0).
  assert (I : forall a, accr a = im (accc a)) by reflexivity.
  clearbody accr accc. revert accr accc I.
  induction (modes_loop lo hi) as [|[i [L M]] ks IH]; intros accr accc I; cbn [for_each].
  - intros E. injection E as <-. exists accr. split; auto.
  - destruct (term (M + 1 <=? L) d d' (i + 1) i (ladder L M)) as [p|]; cbn [rbind]; [|discriminate].
    destruct (term (- L <=? M - 1) d d' (i - 1) i (ladder L (- M))) as [q|]; cbn [rbind]; [|discriminate].
    destruct (term true d d' i i (IZR M)) as [z|]; cbn [rbind]; [|discriminate].
    apply IH. intros a. destruct a; cbn [bump1 axis_eqb]; rewrite I; cbn; try reflexivity; field.
Qed.

(** ** C22: LLComparisonMatrix *)
Lemma comparison_values : forall d1 d2 f g, has_modes lo hi d1 f -> has_modes lo hi d2 g ->
  exists LL, LLComparisonMatrix lo hi d1 d2 = Ok LL /\ forall a b, LL a b =
    match a, b with
    | Y, Y => (T2 f g Y Y + T2 f g Y Z3)%C
    | Y, Z3 => C0
    | _, _ => T2 f g a b
    end.
Proof.
  intros d1 d2 f g H1 H2.
  set (V := fun a b l m => match a, b with
     | Y, Y => (slot (prods f g l m) Y Y + slot (prods f g l m) Y Z3)%C | Y, Z3 => C0 | _, _ => slot (prods f g l m) a b end).
  unfold LLComparisonMatrix. set (body := fun (ilm : Z * (Z * Z)) (acc : axis -> axis -> C) => _).
  assert (Hb : forall l m acc, valid lo hi l m -> exists acc', body (LM_index l m lo, (l, m)) acc = Ok acc' /\ forall a b, acc' a b = (acc a b + V a b l m)%C).
  { intros l m acc Hv. unfold body. rewrite (products_ok d1 d2 f g l m H1 H2 Hv). cbn [rbind].
    eexists. split; [reflexivity|]. intros a b. destruct a, b; cbn [bump2 axis_eqb andb V slot]; try reflexivity; ring. }
  assert (Hex : forall a b, exists v, for_each (modes_loop lo hi) body (fun _ _ => C0) = Ok v /\ v a b = total lo hi (fun l => csum (V a b l) (ms_of l))).
  { intros a b. destruct (acc_loop (axis -> axis -> C) (fun v => v a b) body (V a b) (fun _ => True)) with (acc := fun _ _ : axis => C0) as (v & E & _ & EX); auto.
    { intros l m acc Hv _. destruct (Hb l m acc Hv) as (acc' & E & H). eauto. }
    exists v. split; auto. cbv beta in EX. rewrite EX. ring. }
  destruct (Hex X X) as (v & E & _). exists v. split; auto. intros a b. destruct (Hex a b) as (v' & E' & Ev).
  rewrite E in E'. injection E' as <-. rewrite Ev.
  assert (N : forall a b, total lo hi (fun l => csum (fun m => slot (prods f g l m) a b) (ms_of l)) = T2 f g a b).
  { intros. apply total_ext. intros. apply slot_sum. }
  assert (Z0 : total lo hi (fun l => csum (fun _ : Z => C0) (ms_of l)) = C0) by (apply csum_const0; intros; apply csum_const0; auto).
  destruct a, b; cbn [V]; try apply N; auto.
  rewrite <- (N Y Y), <- (N Y Z3). unfold total. rewrite <- csum_add. apply csum_ext. intros. rewrite <- csum_add. reflexivity.
Qed.

(** Eight of the nine entries... the seven outside row y, plus y-x, are the documented matrix elements;
    the y-y entry has the y-z element added to it and the y-z entry stays 0. *)
Theorem C22_comparison_entries : forall d1 d2 f g, has_modes lo hi d1 f -> has_modes lo hi d2 g ->
  exists LL, LLComparisonMatrix lo hi d1 d2 = Ok LL /\
    (forall a b, (a, b) <> (Y, Y) -> (a, b) <> (Y, Z3) -> LL a b = T2 f g a b) /\
    LL Y Y = (T2 f g Y Y + T2 f g Y Z3)%C /\ LL Y Z3 = C0.
Proof.
  intros d1 d2 f g H1 H2. destruct (comparison_values d1 d2 f g H1 H2) as (LL & E & H). exists LL. split; auto.
  split; [|split; [apply (H Y Y)|apply (H Y Z3)]]. intros a b N1 N2. rewrite H. destruct a, b; congruence.
Qed.

(** ** C21: LLMatrix *)
Definition vcomb (v : axis -> R) (l : Z) (f : Z -> C) : Z -> C :=
  fun m => (Cscale (v X) (gen l X f m) + Cscale (v Y) (gen l Y f m) + Cscale (v Z3) (gen l Z3 f m))%C.
Definition quad (LL : axis -> axis -> R) (v : axis -> R) : R :=
  (v X * LL X X * v X + v X * LL X Y * v Y + v X * LL X Z3 * v Z3 +
   v Y * LL Y X * v X + v Y * LL Y Y * v Y + v Y * LL Y Z3 * v Z3 +
   v Z3 * LL Z3 X * v X + v Z3 * LL Z3 Y * v Y + v Z3 * LL Z3 Z3 * v Z3)%R.
Definition rtotal (F : Z -> R) : R := rsum F (zrange lo (hi + 1)).

Lemma LL_values : forall d f, has_modes lo hi d f ->
  exists LL, LLMatrix lo hi d = Ok LL /\ forall a b, LL a b = ((re (T2 f f a b) + re (T2 f f b a)) / 2)%R.
Proof.
  intros d f H.
  set (V := fun a b l m => RtoC ((re (slot (prods f f l m) a b) + re (slot (prods f f l m) b a)) / 2)).
  unfold LLMatrix. set (body := fun (ilm : Z * (Z * Z)) (acc : axis -> axis -> R) => _).
  assert (Hb : forall l m acc, valid lo hi l m -> exists acc', body (LM_index l m lo, (l, m)) acc = Ok acc' /\ forall a b, RtoC (acc' a b) = (RtoC (acc a b) + V a b l m)%C).
  { intros l m acc Hv. unfold body. rewrite (products_ok d d f f l m H H Hv). cbn [rbind].
    unfold V. clear. generalize (prods f f l m) as p. intros p. eexists. split; [reflexivity|].
    intros a b. rewrite <- RtoC_add. f_equal. destruct a, b; cbn [bump2 axis_eqb andb slot];
    repeat match goal with |- context [Cscale ?k ?z] => let c := fresh "c" in set (c := Cscale k z) end; cbn; field. }
  assert (Hex : forall a b, exists v, for_each (modes_loop lo hi) body (fun _ _ => 0%R) = Ok v /\ RtoC (v a b) = total lo hi (fun l => csum (V a b l) (ms_of l))).
  { intros a b. destruct (acc_loop (axis -> axis -> R) (fun v => RtoC (v a b)) body (V a b) (fun _ => True)) with (acc := fun _ _ : axis => 0%R) as (v & E & _ & EX); auto.
    { intros l m acc Hv _. destruct (Hb l m acc Hv) as (acc' & E & HH). eauto. }
    exists v. split; auto. rewrite EX. change (RtoC 0) with C0. ring. }
  destruct (Hex X X) as (v & E & _). exists v. split; auto. intros a b. destruct (Hex a b) as (v' & E' & Ev).
  rewrite E in E'. injection E' as <-. apply (f_equal re) in Ev. cbn [re RtoC] in Ev. rewrite Ev.
  unfold T2, total. rewrite !re_csum. replace ((rsum (fun l => re (inner l (f l) (gen l a (gen l b (f l))))) (zrange lo (hi + 1)) +
    rsum (fun l => re (inner l (f l) (gen l b (gen l a (f l))))) (zrange lo (hi + 1))) / 2)%R
   with (/2 * (rsum (fun l => re (inner l (f l) (gen l a (gen l b (f l))))) (zrange lo (hi + 1)) +
    rsum (fun l => re (inner l (f l) (gen l b (gen l a (f l))))) (zrange lo (hi + 1))))%R by field.
  rewrite <- rsum_add, <- rsum_scale. apply rsum_ext. intros l _. rewrite <- !slot_sum, !re_csum, <- rsum_add, <- rsum_scale.
  apply rsum_ext. intros m _. unfold V. cbn [re RtoC]. field.
Qed.

Lemma T2_gram : forall f a b, T2 f f a b = total lo hi (fun l => inner l (gen l a (f l)) (gen l b (f l))).
Proof. intros. apply total_ext. intros l. apply C23_generators_hermitian. Qed.
Lemma T2_sym : forall f a b, re (T2 f f a b) = re (T2 f f b a).
Proof.
  intros f a b. rewrite !T2_gram. unfold total. rewrite !re_csum. apply rsum_ext. intros l _.
  rewrite <- (inner_conj l (gen l a (f l))). reflexivity.
Qed.

(** LLMatrix is the real part of the matrix of <f| L_a L_b |f>. *)
Theorem C21_entries : forall d f, has_modes lo hi d f ->
  exists LL, LLMatrix lo hi d = Ok LL /\ (forall a b, LL a b = re (T2 f f a b)) /\ (forall a b, LL a b = LL b a).
Proof.
  intros d f H. destruct (LL_values d f H) as (LL & E & HL). exists LL. split; auto.
  assert (K : forall a b, LL a b = re (T2 f f a b)) by (intros; rewrite HL, (T2_sym f b a); field).
  split; auto. intros. rewrite !K. apply T2_sym.
Qed.

Lemma norm2_vcomb : forall v l f m,
  norm2 (vcomb v l f m) =
  re ((RtoC (v X * v X) * (Conj (gen l X f m) * gen l X f m) + RtoC (v X * v Y) * (Conj (gen l X f m) * gen l Y f m) + RtoC (v X * v Z3) * (Conj (gen l X f m) * gen l Z3 f m) +
   RtoC (v Y * v X) * (Conj (gen l Y f m) * gen l X f m) + RtoC (v Y * v Y) * (Conj (gen l Y f m) * gen l Y f m) + RtoC (v Y * v Z3) * (Conj (gen l Y f m) * gen l Z3 f m) +
   RtoC (v Z3 * v X) * (Conj (gen l Z3 f m) * gen l X f m) + RtoC (v Z3 * v Y) * (Conj (gen l Z3 f m) * gen l Y f m) + RtoC (v Z3 * v Z3) * (Conj (gen l Z3 f m) * gen l Z3 f m))%C).
Proof.
  intros v l f m. unfold vcomb. generalize (gen l X f m) (gen l Y f m) (gen l Z3 f m). intros [a a'] [b b'] [c c'].
  unfold norm2. cbn. ring.
Qed.

(** v.LL.v is the summed squared modulus of (v.L) f: LL is positive semi-definite, and v.LL.v = 0
    exactly when the generator of rotations about v annihilates the data. *)
Theorem C21_positive_semidefinite : forall d f, has_modes lo hi d f ->
  exists LL, LLMatrix lo hi d = Ok LL /\
    forall v, quad LL v = rtotal (fun l => rsum (fun m => norm2 (vcomb v l (f l) m)) (ms_of l)) /\ (0 <= quad LL v)%R /\
      (quad LL v = 0%R <-> forall l m, valid lo hi l m -> vcomb v l (f l) m = C0).
Proof.
  intros d f H. destruct (C21_entries d f H) as (LL & E & HL & _). exists LL. split; auto. intros v.
  assert (Q : quad LL v = rtotal (fun l => rsum (fun m => norm2 (vcomb v l (f l) m)) (ms_of l))).
  { unfold quad. rewrite !HL, !T2_gram. unfold total, rtotal, inner.
    transitivity (re (csum (fun l => csum (fun m =>
      ((RtoC (v X * v X) * (Conj (gen l X (f l) m) * gen l X (f l) m) + RtoC (v X * v Y) * (Conj (gen l X (f l) m) * gen l Y (f l) m) + RtoC (v X * v Z3) * (Conj (gen l X (f l) m) * gen l Z3 (f l) m) +
   RtoC (v Y * v X) * (Conj (gen l Y (f l) m) * gen l X (f l) m) + RtoC (v Y * v Y) * (Conj (gen l Y (f l) m) * gen l Y (f l) m) + RtoC (v Y * v Z3) * (Conj (gen l Y (f l) m) * gen l Z3 (f l) m) +
   RtoC (v Z3 * v X) * (Conj (gen l Z3 (f l) m) * gen l X (f l) m) + RtoC (v Z3 * v Y) * (Conj (gen l Z3 (f l) m) * gen l Y (f l) m) + RtoC (v Z3 * v Z3) * (Conj (gen l Z3 (f l) m) * gen l Z3 (f l) m))%C)) (ms_of l)) (zrange lo (hi + 1)))).
    - symmetry. rewrite (csum_ext _ (fun l => (RtoC (v X * v X) * csum (fun m => Conj (gen l X (f l) m) * gen l X (f l) m) (ms_of l) + RtoC (v X * v Y) * csum (fun m => Conj (gen l X (f l) m) * gen l Y (f l) m) (ms_of l) + RtoC (v X * v Z3) * csum (fun m => Conj (gen l X (f l) m) * gen l Z3 (f l) m) (ms_of l) +
   RtoC (v Y * v X) * csum (fun m => Conj (gen l Y (f l) m) * gen l X (f l) m) (ms_of l) + RtoC (v Y * v Y) * csum (fun m => Conj (gen l Y (f l) m) * gen l Y (f l) m) (ms_of l) + RtoC (v Y * v Z3) * csum (fun m => Conj (gen l Y (f l) m) * gen l Z3 (f l) m) (ms_of l) +
   RtoC (v Z3 * v X) * csum (fun m => Conj (gen l Z3 (f l) m) * gen l X (f l) m) (ms_of l) + RtoC (v Z3 * v Y) * csum (fun m => Conj (gen l Z3 (f l) m) * gen l Y (f l) m) (ms_of l) + RtoC (v Z3 * v Z3) * csum (fun m => Conj (gen l Z3 (f l) m) * gen l Z3 (f l) m) (ms_of l))%C)).
      + rewrite !csum_add, !csum_scale.
        repeat match goal with |- context [csum ?F (zrange lo (hi + 1))] => generalize (csum F (zrange lo (hi + 1))); intro end.
        cbn. ring.
      + intros l _. rewrite !csum_add, !csum_scale. reflexivity.
    - rewrite re_csum. apply rsum_ext. intros l _. rewrite re_csum. apply rsum_ext. intros m _. symmetry. apply norm2_vcomb. }
  split; auto. rewrite Q. unfold rtotal.
  assert (NN : forall l, In l (zrange lo (hi + 1)) -> (0 <= rsum (fun m => norm2 (vcomb v l (f l) m)) (ms_of l))%R).
  { intros. apply rsum_nonneg. intros; apply norm2_nonneg. }
  split; [apply rsum_nonneg; auto|]. split.
  - intros Hz l m [V1 V2]. apply norm2_zero.
    apply (rsum_zero (fun m => norm2 (vcomb v l (f l) m)) (ms_of l)); [intros; apply norm2_nonneg| |apply ms_of_In; auto].
    apply (rsum_zero (fun l => rsum (fun m => norm2 (vcomb v l (f l) m)) (ms_of l)) (zrange lo (hi + 1))); auto. apply zrange_In. lia.
  - intros Hz. apply rsum_const0. intros l Hl. apply rsum_const0. intros m Hm. apply zrange_In in Hl. apply ms_of_In in Hm.
    rewrite Hz by (split; lia). unfold norm2. cbn. ring.
Qed.

(** Trace: sum of ell(ell+1)|f|^2. *)
Theorem C21_trace : forall d f, has_modes lo hi d f ->
  exists LL, LLMatrix lo hi d = Ok LL /\
    (LL X X + LL Y Y + LL Z3 Z3 = rtotal (fun l => IZR (l * (l + 1)) * rsum (fun m => norm2 (f l m)) (ms_of l)))%R.
Proof.
  intros d f H. destruct (C21_entries d f H) as (LL & E & HL & _). exists LL. split; auto. rewrite !HL. unfold T2, total, rtotal.
  rewrite !re_csum, <- !rsum_add. apply rsum_ext. intros l _. rewrite <- rsum_scale. unfold inner. rewrite !re_csum, <- !rsum_add.
  apply rsum_ext. intros m Hm. apply ms_of_In in Hm. pose proof (casimir l (f l) m Hm) as K.
  transitivity (re (Conj (f l m) * (gen l X (gen l X (f l)) m + gen l Y (gen l Y (f l)) m + gen l Z3 (gen l Z3 (f l)) m)))%C.
  - cbn. ring.
  - rewrite K. unfold norm2. cbn. ring.
Qed.

(** ** C52: the angular velocity minimises the time dependence *)
(** angular_velocity solves LL.omega = -Ldt.  Residual time dependence in a frame rotating with [w]. *)
Definition residual (f f' : Z -> Z -> C) (w : axis -> R) : R :=
  rtotal (fun l => rsum (fun m => norm2 (f' l m + Ci * vcomb w l (f l) m)%C) (ms_of l)).
Definition dot3 (a b : axis -> R) : R := (a X * b X + a Y * b Y + a Z3 * b Z3)%R.

Lemma residual_expand : forall f f' w,
  residual f f' w = (rtotal (fun l => rsum (fun m => norm2 (f' l m)) (ms_of l))
    + 2 * dot3 w (fun a => im (T1 f f' a)) + rtotal (fun l => rsum (fun m => norm2 (vcomb w l (f l) m)) (ms_of l)))%R.
Proof.
  intros f f' w. unfold residual, dot3, T1, total, rtotal.
  assert (J : forall a l, im (inner l (f l) (gen l a (f' l))) = rsum (fun m => im (Conj (gen l a (f l) m) * f' l m)%C) (ms_of l)).
  { intros. rewrite C23_generators_hermitian. apply im_csum. }
  rewrite !im_csum.
  rewrite (rsum_ext (fun l => im (inner l (f l) (gen l X (f' l)))) _ _ (fun l _ => J X l)).
  rewrite (rsum_ext (fun l => im (inner l (f l) (gen l Y (f' l)))) _ _ (fun l _ => J Y l)).
  rewrite (rsum_ext (fun l => im (inner l (f l) (gen l Z3 (f' l)))) _ _ (fun l _ => J Z3 l)).
  rewrite <- !rsum_scale, <- !rsum_add, <- !rsum_scale, <- !rsum_add. apply rsum_ext. intros l _.
  rewrite <- !rsum_scale, <- !rsum_add, <- !rsum_scale, <- !rsum_add. apply rsum_ext. intros m _.
  unfold vcomb. generalize (gen l X (f l) m) (gen l Y (f l) m) (gen l Z3 (f l) m) (f' l m). intros [a a'] [b b'] [c c'] [e e'].
  unfold norm2. cbn. ring.
Qed.

Theorem C52_angular_velocity_minimises : forall d d' f f', has_modes lo hi d f -> has_modes lo hi d' f' ->
  exists LL v, LLMatrix lo hi d = Ok LL /\ LdtVector lo hi d d' = Ok v /\
  forall w, (forall a, dot3 (LL a) w = - v a)%R ->
    forall w', (residual f f' w <= residual f f' w')%R /\
      (residual f f' w' = residual f f' w <-> quad LL (fun a => w' a - w a)%R = 0%R).
Proof.
  intros d d' f f' H H'. destruct (C21_positive_semidefinite d f H) as (LL & E & HQ).
  destruct (C21_entries d f H) as (LL' & E' & _ & Hs). rewrite E in E'. injection E' as <-.
  destruct (C23_LdtVector d d' f f' H H') as (v & Ev & Hv).
  exists LL, v. split; auto. split; auto. intros w Hw w'.
  assert (K : (residual f f' w' - residual f f' w = quad LL (fun a => w' a - w a))%R).
  { rewrite !residual_expand. rewrite <- !(proj1 (HQ _)).
    replace (dot3 w' (fun a => im (T1 f f' a))) with (dot3 w' v) by (unfold dot3; rewrite !Hv; reflexivity).
    replace (dot3 w (fun a => im (T1 f f' a))) with (dot3 w v) by (unfold dot3; rewrite !Hv; reflexivity).
    pose proof (Hw X) as HX. pose proof (Hw Y) as HY. pose proof (Hw Z3) as HZ. unfold dot3 in *.
    replace (v X) with (- (LL X X * w X + LL X Y * w Y + LL X Z3 * w Z3))%R by lra.
    replace (v Y) with (- (LL Y X * w X + LL Y Y * w Y + LL Y Z3 * w Z3))%R by lra.
    replace (v Z3) with (- (LL Z3 X * w X + LL Z3 Y * w Y + LL Z3 Z3 * w Z3))%R by lra.
    unfold quad. rewrite (Hs Y X), (Hs Z3 X), (Hs Z3 Y). ring. }
  pose proof (proj1 (proj2 (HQ (fun a => w' a - w a)%R))) as P. split; [lra|]. split; intros; lra.
Qed.
End Row.

(** ** The witness for C22 and non-vacuity *)
Definition row_case : list C := [C1; C0; C1; C0; C1].
Lemma row_case_modes : has_modes 2 2 row_case (mode 2 row_case).
Proof. apply has_modes_mode; [lia|reflexivity]. Qed.

(** LLComparisonMatrix(w, w) is not LLMatrix(w): with data 1 in (2,0) and (2,1) the y-z element
    -i sqrt(6)/4... is put into the y-y slot and the y-z slot is 0 although the matrix element is not. *)
Definition row_bad : list C := [C0; C0; C1; C1; C0].
Theorem C22_yz_slot_refuted : exists lo hi d f LL, 0 <= lo /\ has_modes lo hi d f /\
  LLComparisonMatrix lo hi d d = Ok LL /\ LL Y Z3 = C0 /\ T2 lo hi f f Y Z3 <> C0 /\ LL Y Y <> T2 lo hi f f Y Y.
Proof.
  assert (HM : has_modes 2 2 row_bad (mode 2 row_bad)) by (apply has_modes_mode; [lia|reflexivity]).
  destruct (C22_comparison_entries 2 2 ltac:(lia) row_bad row_bad _ _ HM HM) as (LL & E & _ & HY & HZ).
  exists 2, 2, row_bad, (mode 2 row_bad), LL. split; [lia|]. split; auto. split; auto. split; auto.
  assert (V : im (T2 2 2 (mode 2 row_bad) (mode 2 row_bad) Y Z3) = (/2 * cof 2 0)%R).
  { unfold T2, total. change (zrange 2 (2 + 1)) with [2]. cbn [csum].
    unfold inner. change (ms_of 2) with [-2; -1; 0; 1; 2]. cbn [csum].
    cbn [gen]. unfold raising, lowering. cbn [Z.sub Z.add Z.opp Z.pos_sub Pos.add Pos.succ].
    change (mode 2 row_bad 2 (-2)) with C0. change (mode 2 row_bad 2 (-1)) with C0.
    change (mode 2 row_bad 2 0) with C1. change (mode 2 row_bad 2 1) with C1. change (mode 2 row_bad 2 2) with C0.
    cbn. ring. }
  assert (P : (0 < cof 2 0)%R) by (unfold cof; apply sqrt_lt_R0, IZR_lt; lia).
  assert (N : T2 2 2 (mode 2 row_bad) (mode 2 row_bad) Y Z3 <> C0).
  { intros HH. rewrite HH in V. cbn in V. lra. }
  split; auto. rewrite HY. intros HH. apply N.
  transitivity ((T2 2 2 (mode 2 row_bad) (mode 2 row_bad) Y Y + T2 2 2 (mode 2 row_bad) (mode 2 row_bad) Y Z3) - T2 2 2 (mode 2 row_bad) (mode 2 row_bad) Y Y)%C; [ring|].
  rewrite HH. ring.
Qed.

Example C21_case : exists LL, LLMatrix 2 2 row_case = Ok LL /\ (LL X X + LL Y Y + LL Z3 Z3 = 18)%R.
Proof.
  destruct (C21_trace 2 2 ltac:(lia) row_case _ row_case_modes) as (LL & E & T). exists LL. split; auto. rewrite T.
  unfold rtotal. change (zrange 2 (2 + 1)) with [2]. cbn [rsum]. change (ms_of 2) with [-2; -1; 0; 1; 2]. cbn [rsum].
  change (mode 2 row_case 2 (-2)) with C1. change (mode 2 row_case 2 (-1)) with C0. change (mode 2 row_case 2 0) with C1.
  change (mode 2 row_case 2 1) with C0. change (mode 2 row_case 2 2) with C1. unfold norm2. cbn. lra.
Qed.
