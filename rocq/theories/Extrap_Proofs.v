(** C43 (extrapolation to infinite radius), C44 (marker files). *)
From Coq Require Import String Ascii Reals ZArith List Bool Lia Lra.
From Verif Require Import Common Cplx Extrap_Model.
Import ListNotations.
Open Scope R_scope.

(** * Specification: polynomials and least squares *)
(** Value at x of the polynomial with coefficients [c], lowest order first. *)
Fixpoint poly (c : list C) (x : R) : C :=
  match c with [] => C0 | a :: r => (a + RtoC x * poly r x)%C end.
Definition misfit (x : list R) (y : list C) (c : list C) : R :=
  rsum (fun p => norm2 (snd p - poly c (fst p))%C) (combine x y).
(** [c] is a least-squares polynomial of degree at most N. *)
Definition best_fit (x : list R) (y : list C) (N : nat) (c : list C) : Prop :=
  length c = S N /\ forall c', length c' = S N -> misfit x y c <= misfit x y c'.

(** * A polynomial with more roots than its degree is zero *)
Fixpoint quot (a : R) (c : list C) : list C :=
  match c with
  | [] => []
  | _ :: r => match r with [] => [] | _ => poly r a :: quot a r end
  end.

Lemma quot_length : forall a c, length (quot a c) = pred (length c).
Proof.
  intros a. induction c as [|c0 r IH]; [reflexivity|]. destruct r as [|c1 r]; [reflexivity|].
  change (quot a (c0 :: c1 :: r)) with (poly (c1 :: r) a :: quot a (c1 :: r)). simpl length in *. rewrite IH. reflexivity.
Qed.

Lemma quot_spec : forall a c x, poly c x = (poly c a + (RtoC x - RtoC a) * poly (quot a c) x)%C.
Proof.
  intros a. induction c as [|c0 r IH]; intros x.
  - simpl. cx.
  - destruct r as [|c1 r].
    + simpl. cx.
    + change (quot a (c0 :: c1 :: r)) with (poly (c1 :: r) a :: quot a (c1 :: r)).
      change (poly (c0 :: c1 :: r) x) with (c0 + RtoC x * poly (c1 :: r) x)%C.
      change (poly (c0 :: c1 :: r) a) with (c0 + RtoC a * poly (c1 :: r) a)%C.
      change (poly (poly (c1 :: r) a :: quot a (c1 :: r)) x) with (poly (c1 :: r) a + RtoC x * poly (quot a (c1 :: r)) x)%C.
      rewrite (IH x). ring.
Qed.

Lemma quot_zero : forall a c, Forall (fun z => z = C0) (quot a c) -> poly c a = C0 -> Forall (fun z => z = C0) c.
Proof.
  intros a. induction c as [|c0 r IH]; intros Hq Hp; [constructor|].
  destruct r as [|c1 r].
  - simpl in Hp. constructor; [|constructor]. rewrite <- Hp. cx.
  - change (quot a (c0 :: c1 :: r)) with (poly (c1 :: r) a :: quot a (c1 :: r)) in Hq. pose proof (Forall_inv Hq) as H1. pose proof (Forall_inv_tail Hq) as H2. cbv beta in H1.
    constructor; [|apply IH; assumption].
    change (poly (c0 :: c1 :: r) a) with (c0 + RtoC a * poly (c1 :: r) a)%C in Hp.
    rewrite H1 in Hp. rewrite <- Hp. ring.
Qed.

Lemma poly_roots : forall n c xs, length c = n -> NoDup xs -> (n <= length xs)%nat ->
  (forall x, In x xs -> poly c x = C0) -> Forall (fun z => z = C0) c.
Proof.
  induction n as [|n IH]; intros c xs L ND Hn Hr.
  - destruct c; [constructor|discriminate].
  - destruct xs as [|a xs]; [simpl in Hn; lia|]. inversion ND; subst.
    assert (Ha : poly c a = C0) by (apply Hr; left; reflexivity).
    apply quot_zero with a; [|exact Ha].
    apply IH with xs; [rewrite quot_length; lia|assumption|simpl in Hn; lia|].
    intros x Hx. pose proof (quot_spec a c x) as Q. rewrite Ha, (Hr x (or_intror Hx)) in Q.
    assert (Z : ((RtoC x - RtoC a) * poly (quot a c) x)%C = C0) by (symmetry; rewrite Q at 1; ring).
    apply Cmul_zero in Z. destruct Z as [Z|Z]; [exfalso|exact Z].
    assert (x = a) by (apply RtoC_inj; replace (RtoC x) with ((RtoC x - RtoC a) + RtoC a)%C by ring; rewrite Z; ring).
    subst. contradiction.
Qed.

Definition psub (c d : list C) : list C := map (fun p => (fst p - snd p)%C) (combine c d).
Lemma psub_poly : forall c d x, length c = length d -> poly (psub c d) x = (poly c x - poly d x)%C.
Proof.
  induction c as [|a c IH]; intros [|b d] x H; simpl in *; try lia; [cx|].
  fold (psub c d). rewrite IH by lia. ring.
Qed.

Lemma poly_unique : forall c d xs, length c = length d -> NoDup xs -> (length c <= length xs)%nat ->
  (forall x, In x xs -> poly c x = poly d x) -> c = d.
Proof.
  intros c d xs L ND Hn H.
  assert (F : Forall (fun z => z = C0) (psub c d)).
  { apply poly_roots with (n := length c) (xs := xs); try assumption.
    - unfold psub. rewrite map_length, combine_length. lia.
    - intros x Hx. rewrite psub_poly by assumption. rewrite (H x Hx). ring. }
  clear H Hn ND. revert d L F. induction c as [|a c IH]; intros [|b d] L F; simpl in *; try lia; [reflexivity|].
  inversion F; subst. f_equal; [|apply IH; [lia|assumption]].
  replace a with ((a - b) + b)%C by ring. simpl in H1. rewrite H1. ring.
Qed.

Lemma best_fit_exact : forall x N c d, NoDup x -> (N < length x)%nat -> length d = S N ->
  best_fit x (map (poly d) x) N c -> c = d.
Proof.
  intros x N c d ND HN Ld [Lc B].
  assert (M0 : misfit x (map (poly d) x) d = 0).
  { unfold misfit. apply rsum_const0. intros [u y] H. simpl.
    assert (y = poly d u) as ->.
    { clear - H. induction x as [|a x IH]; [destruct H|]. simpl in H. destruct H as [H|H]; [congruence|auto]. }
    unfold norm2. simpl. ring. }
  specialize (B d Ld). rewrite M0 in B.
  assert (Z : misfit x (map (poly d) x) c = 0).
  { apply Rle_antisym; [exact B|]. unfold misfit. apply rsum_nonneg. intros. apply norm2_nonneg. }
  apply poly_unique with x; [lia|exact ND|lia|].
  intros u Hu. unfold misfit in Z.
  assert (In (u, poly d u) (combine x (map (poly d) x))) as I.
  { clear - Hu. induction x as [|a x IH]; [destruct Hu|]. simpl. destruct Hu as [->|Hu]; [left; reflexivity|right; auto]. }
  pose proof (rsum_zero _ _ (fun p _ => norm2_nonneg _) Z _ I) as E. simpl in E. apply norm2_zero in E.
  replace (poly d u) with ((poly d u - poly c u) + poly c u)%C by ring. rewrite E. ring.
Qed.

Lemma nth_map_at : forall A B (g : A -> B) (l : list A) (d : B) i a, nth_error l i = Some a -> nth i (map g l) d = g a.
Proof. intros A B g l d i a H. apply nth_error_nth. apply map_nth_error. exact H. Qed.
Lemma nth_error_seq_0 : forall n i, (i < n)%nat -> nth_error (seq 0 n) i = Some i.
Proof.
  intros n i H. rewrite (nth_error_nth' (seq 0 n) 0%nat) by (rewrite seq_length; exact H).
  rewrite seq_nth by exact H. reflexivity.
Qed.

(** * C43 *)
Section C43.
  Variable polyfit : list R -> list C -> nat -> list C.

  Lemma checks_ok : forall W Radii Orders Om MaxN MinN, checks W Radii Orders Om = Ok (MaxN, MinN) ->
    zmax Orders = Some MaxN /\ zmin Orders = Some MinN /\ W <> []
    /\ (Z.abs MinN <= Z.of_nat (length W))%Z /\ (0 < MaxN -> MaxN < Z.of_nat (length W))%Z
    /\ length Radii = length W.
  Proof.
    intros W Radii Orders Om MaxN MinN H. unfold checks in H.
    destruct (zmax Orders) as [mx|] eqn:E1; [|discriminate].
    destruct (zmin Orders) as [mn|] eqn:E2; [|discriminate].
    destruct W as [|w0 W]; [discriminate|].
    destruct (Z.of_nat (length (w0 :: W)) <? Z.abs mn)%Z eqn:A1; [discriminate|].
    destruct ((0 <? mx) && (Z.of_nat (length (w0 :: W)) <=? mx))%Z%bool eqn:A2; [discriminate|].
    destruct (length Radii =? length (w0 :: W))%nat eqn:A3; cbn [negb] in H; [|discriminate].
    match type of H with (if ?b then _ else _) = _ => destruct b; [discriminate|] end.
    match type of H with (if ?b then _ else _) = _ => destruct b; [|discriminate] end.
    injection H as <- <-. apply Z.ltb_ge in A1. apply Nat.eqb_eq in A3.
    repeat split; auto; try discriminate.
    intros P. apply andb_false_iff in A2. destruct A2 as [A2|A2]; [apply Z.ltb_ge in A2; lia|apply Z.leb_gt in A2; exact A2].
  Qed.

  Lemma fold_max_ge : forall l a x, In x (a :: l) -> (x <= fold_left Z.max l a)%Z.
  Proof.
    induction l as [|b l IH]; intros a x H; simpl in *.
    - destruct H as [->|[]]. lia.
    - destruct H as [->|[->|H]].
      + etransitivity; [|apply (IH (Z.max x b) (Z.max x b) (or_introl eq_refl))]. lia.
      + etransitivity; [|apply (IH (Z.max a x) (Z.max a x) (or_introl eq_refl))]. lia.
      + apply IH. right. exact H.
  Qed.
  Lemma fold_min_le : forall l a x, In x (a :: l) -> (fold_left Z.min l a <= x)%Z.
  Proof.
    induction l as [|b l IH]; intros a x H; simpl in *.
    - destruct H as [->|[]]. lia.
    - destruct H as [->|[->|H]].
      + etransitivity; [apply (IH (Z.min x b) (Z.min x b) (or_introl eq_refl))|]. lia.
      + etransitivity; [apply (IH (Z.min a x) (Z.min a x) (or_introl eq_refl))|]. lia.
      + apply IH. right. exact H.
  Qed.

  (** Data that at some time depend on the radius as a polynomial in 1/r of degree at most N, taken at distinct
      nonzero radii, are extrapolated exactly, provided polyfit returns a least-squares fit. *)
  Theorem C43_exact : forall W Radii Orders out i N t m c,
    Extrapolate polyfit W Radii Orders None false = Ok out ->
    nth_error Orders i = Some N -> (0 <= N)%Z ->
    (t < match W with [] => 0 | w :: _ => n_times w end)%nat ->
    (m < match W with [] => 0 | w :: _ => f_modes w end)%nat ->
    let x := map (fun r => / nth t r 0) Radii in
    NoDup (map (fun r => nth t r 0) Radii) -> (forall r, In r Radii -> nth t r 0 <> 0) ->
    length c = S (Z.to_nat N) ->
    map (fun w => nth m (nth t (f_data w) []) C0) W = map (poly c) x ->
    best_fit x (map (poly c) x) (Z.to_nat N) (polyfit x (map (poly c) x) (Z.to_nat N)) ->
    nth m (nth t (nth i out []) []) C0 = nth 0 c C0.
  Proof.
    intros W Radii Orders out i N t m c H Hi HN Ht Hm x ND NZ Lc Hd Hb.
    unfold Extrapolate in H. destruct (checks W Radii Orders None) as [[MaxN MinN]|] eqn:Ec; [|discriminate].
    cbn [rbind] in H. destruct (checks_ok _ _ _ _ _ _ Ec) as (E1 & E2 & HW & A1 & A2 & A3).
    assert (InN : In N Orders) by (apply nth_error_In with i; exact Hi).
    assert (Nmax : (N <= MaxN)%Z).
    { destruct Orders as [|o Orders]; [discriminate|]. simpl in E1. injection E1 as <-. apply fold_max_ge, InN. }
    destruct (MaxN <? 0)%Z eqn:E0; [apply Z.ltb_lt in E0; lia|].
    match type of H with (if ?b then _ else _) = _ => destruct b; [discriminate|] end.
    cbn [andb] in H. injection H as <-.
    rewrite (nth_map_at _ _ _ _ _ _ _ Hi).
    replace (N <? 0)%Z with false by (symmetry; apply Z.ltb_ge; lia).
    rewrite (nth_map_at _ _ _ _ _ t _ (nth_error_seq_0 _ _ Ht)).
    unfold extrapolate_row.
    set (x' := map (fun r => 1 / nth t r 0) Radii).
    assert (Ex : x' = x) by (unfold x', x; apply map_ext; intros; unfold Rdiv; ring).
    rewrite Ex. clear x' Ex.
    rewrite (nth_map_at _ _ _ _ _ m _ (nth_error_seq_0 _ _ Hm)).
    replace (samples W t m) with (map (poly c) x) by (unfold samples; rewrite Hd; reflexivity).
    f_equal. apply best_fit_exact with (x := x) (N := Z.to_nat N); try assumption.
    - unfold x. clear - ND NZ. induction Radii as [|r Rs IH]; [constructor|]. simpl in *. inversion ND; subst.
      constructor; [|apply IH; auto].
      intros I. apply H1. apply in_map_iff in I. destruct I as (r' & E & I). apply in_map_iff. exists r'. split; [|exact I].
      rewrite <- (Rinv_inv (nth t r' 0)), E, Rinv_inv. reflexivity.
    - unfold x. rewrite map_length, A3. destruct (Z.eq_dec N 0) as [->|].
      + simpl. destruct W; [congruence|simpl; lia].
      + lia.
  Qed.

  (** Order -k returns the data of the k-th outermost waveform, whatever the other orders. *)
  Theorem C43_negative_order : forall W Radii Orders Om ex out i N,
    Extrapolate polyfit W Radii Orders Om ex = Ok out -> nth_error Orders i = Some N -> (N < 0)%Z ->
    (- Z.of_nat (length W) <= N)%Z
    /\ exists w, nth_error W (length W - Z.to_nat (- N)) = Some w /\ nth_error out i = Some (f_data w).
  Proof.
    intros W Radii Orders Om ex out i N H Hi HN.
    unfold Extrapolate in H. destruct (checks W Radii Orders Om) as [[MaxN MinN]|] eqn:Ec; [|discriminate].
    cbn [rbind] in H. destruct (checks_ok _ _ _ _ _ _ Ec) as (E1 & E2 & HW & A1 & A2 & A3).
    assert (InN : In N Orders) by (apply nth_error_In with i; exact Hi).
    assert (Nmin : (MinN <= N)%Z).
    { destruct Orders as [|o Orders]; [discriminate|]. simpl in E2. injection E2 as <-. apply fold_min_le, InN. }
    split; [lia|].
    set (k := (length W - Z.to_nat (- N))%nat).
    assert (Hk : (k < length W)%nat) by (unfold k; lia).
    destruct (nth_error W k) as [w|] eqn:Ew; [|apply nth_error_None in Ew; lia].
    exists w. split; [reflexivity|].
    assert (Ek : Z.to_nat (Z.of_nat (length W) + N) = k) by (unfold k; lia).
    assert (Cp : f_data (nth (Z.to_nat (Z.of_nat (length W) + N)) W (mkfrw 0 [])) = f_data w)
      by (rewrite Ek; f_equal; apply nth_error_nth; exact Ew).
    assert (Nn : (N <? 0)%Z = true) by (apply Z.ltb_lt; exact HN).
    destruct (MaxN <? 0)%Z.
    - injection H as <-. rewrite nth_error_map, Hi. simpl. rewrite Cp. reflexivity.
    - destruct (match Om with Some (_ :: _) => true | _ => false end).
      + match type of H with (if ?b then _ else _) = _ => destruct b; [discriminate|] end.
        injection H as <-. rewrite nth_error_map, Hi. simpl. rewrite Nn, Cp. reflexivity.
      + repeat match type of H with (if ?b then _ else _) = _ => destruct b; [discriminate|] end.
        injection H as <-. rewrite nth_error_map, Hi. simpl. rewrite Nn, Cp. reflexivity.
  Qed.

  (** Which inputs are usable, for n waveforms: every order can be fitted or names a waveform; one set of radii
      per waveform; frequencies, if any, one per time; all later waveforms and radii as large as the first
      waveform. *)
  Definition usable (W : list frw) (Radii : list (list R)) (Orders : list Z) (Om : list R) : Prop :=
    (forall N, In N Orders -> (- Z.of_nat (length W) <= N)%Z /\ ((0 < N)%Z -> (N < Z.of_nat (length W))%Z))
    /\ length Radii = length W
    /\ (Om <> [] -> length Om = length (f_data (nth 0 W (mkfrw 0 []))))
    /\ (forall i w r, (0 < i)%nat -> nth_error W i = Some w -> nth_error Radii i = Some r ->
          length (f_data w) = length (f_data (nth 0 W (mkfrw 0 []))) /\ f_modes w = f_modes (nth 0 W (mkfrw 0 []))
          /\ length r = length (f_data (nth 0 W (mkfrw 0 [])))).
  Definition oms (Om : option (list R)) : list R := match Om with Some l => l | None => [] end.

  Lemma fold_max_in : forall l a, In (fold_left Z.max l a) (a :: l).
  Proof.
    induction l as [|b l IH]; intro a; [left; reflexivity|]. simpl. destruct (IH (Z.max a b)) as [E|E].
    - destruct (Z.max_spec a b) as [[_ M]|[_ M]]; [right; left|left]; congruence.
    - right; right; exact E.
  Qed.
  Lemma fold_min_in : forall l a, In (fold_left Z.min l a) (a :: l).
  Proof.
    induction l as [|b l IH]; intro a; [left; reflexivity|]. simpl. destruct (IH (Z.min a b)) as [E|E].
    - destruct (Z.min_spec a b) as [[_ M]|[_ M]]; [left|right; left]; congruence.
    - right; right; exact E.
  Qed.
  Lemma combine_nth : forall (A B : Type) (l : list A) (m : list B) i a b,
    nth_error (combine l m) i = Some (a, b) <-> nth_error l i = Some a /\ nth_error m i = Some b.
  Proof.
    induction l as [|x l IH]; intros m i a b; [destruct i; simpl; split; [discriminate|intros [? _]; discriminate|discriminate|intros [? _]; discriminate]|].
    destruct m as [|y m]; [destruct i; simpl; split; [discriminate|intros [_ ?]; discriminate|discriminate|intros [_ ?]; discriminate]|].
    destruct i as [|i]; simpl; [|apply IH]. split; [intro E; injection E as -> ->; auto|intros [E F]; congruence].
  Qed.
  (** The checks accept exactly the usable inputs, and every rejection is a ValueError. *)
  Lemma checks_exact : forall w0 W Radii o Orders Om,
    (usable (w0 :: W) Radii (o :: Orders) (oms Om) ->
       checks (w0 :: W) Radii (o :: Orders) Om = Ok (fold_left Z.max Orders o, fold_left Z.min Orders o))
    /\ (~ usable (w0 :: W) Radii (o :: Orders) (oms Om) -> checks (w0 :: W) Radii (o :: Orders) Om = Err ValueError).
  Proof.
    intros w0 W Radii o Orders Om.
    assert (D : forall P : Prop, forall r : res (Z * Z), (P <-> r = Ok (fold_left Z.max Orders o, fold_left Z.min Orders o)) ->
       (r = Ok (fold_left Z.max Orders o, fold_left Z.min Orders o) \/ r = Err ValueError) ->
       (P -> r = Ok (fold_left Z.max Orders o, fold_left Z.min Orders o)) /\ (~ P -> r = Err ValueError)) by (intros P r; tauto).
    apply D; clear D; unfold checks, zmax, zmin;
      set (mx := fold_left Z.max Orders o); set (mn := fold_left Z.min Orders o); set (n := Z.of_nat (length (w0 :: W))).
    2: { repeat match goal with |- context [if ?b then _ else _] => destruct b end; auto. }
    assert (Hn : forall N, In N (o :: Orders) -> (mn <= N <= mx)%Z) by (intros N HN; split; [apply fold_min_le|apply fold_max_ge]; exact HN).
    pose proof (fold_max_in Orders o) as Imx. pose proof (fold_min_in Orders o) as Imn. fold mx in Imx. fold mn in Imn.
    assert (Len : match Om with Some ((_ :: _) as om) => negb (length om =? n_times w0)%nat | _ => false end = false <->
                  (oms Om <> [] -> length (oms Om) = length (f_data w0))).
    { destruct Om as [[|x l]|]; cbn [oms]; split; intro X; try reflexivity; try congruence.
      - intros _. apply negb_false_iff, Nat.eqb_eq in X. exact X.
      - apply negb_false_iff, Nat.eqb_eq. apply X. discriminate. }
    assert (All : forallb (fun p => (n_times (fst p) =? n_times w0)%nat && (f_modes (fst p) =? f_modes w0)%nat
                                  && (length (snd p) =? n_times w0)%nat) (tl (combine (w0 :: W) Radii)) = true <->
      (forall i w r, (0 < i)%nat -> nth_error (w0 :: W) i = Some w -> nth_error Radii i = Some r ->
          length (f_data w) = length (f_data w0) /\ f_modes w = f_modes w0 /\ length r = length (f_data w0))).
    { rewrite forallb_forall. split.
      - intros X i w r Hi Hw Hr. specialize (X (w, r)). cbn [fst snd] in X.
        assert (I : In (w, r) (tl (combine (w0 :: W) Radii))).
        { destruct i as [|i]; [lia|]. destruct Radii as [|r0 Radii]; [discriminate|]. simpl in *. apply nth_error_In with i. apply combine_nth. auto. }
        specialize (X I). apply andb_prop in X. destruct X as [X X3]. apply andb_prop in X. destruct X as [X1 X2].
        apply Nat.eqb_eq in X1, X2, X3. auto.
      - intros X [w r] I. destruct Radii as [|r0 Radii]; [destruct I|]. simpl in I. apply In_nth_error in I. destruct I as (i & I).
        apply combine_nth in I. destruct I as [Iw Ir]. destruct (X (S i) w r ltac:(lia) Iw Ir) as (A & B & E). cbn [fst snd].
        unfold n_times. rewrite A, B, E, !Nat.eqb_refl. reflexivity. }
    unfold usable. cbn [nth]. fold n. split.
    - intros (U1 & U2 & U3 & U4). apply Len in U3. apply All in U4. rewrite U3, U4.
      destruct (U1 mx Imx) as [_ B]. destruct (U1 mn Imn) as [A A'].
      destruct (Z.ltb_spec n (Z.abs mn)); [exfalso; lia|].
      destruct (Z.ltb_spec 0 mx), (Z.leb_spec n mx); cbn [andb]; try (exfalso; lia);
        rewrite (proj2 (Nat.eqb_eq _ _) U2); reflexivity.
    - intro E. destruct (Z.ltb_spec n (Z.abs mn)) as [|A]; [discriminate|].
      destruct ((0 <? mx) && (n <=? mx))%Z%bool eqn:B; [discriminate|].
      destruct (Nat.eqb_spec (length Radii) (length (w0 :: W))) as [L|]; cbn [negb] in E; [|discriminate].
      match type of E with (if ?b then _ else _) = _ => destruct b eqn:B1; [discriminate|] end.
      match type of E with (if ?b then _ else _) = _ => destruct b eqn:B2; [|discriminate] end.
      split; [|split; [exact L|split; [apply Len; reflexivity|apply All; reflexivity]]].
      intros N HN. specialize (Hn N HN). apply andb_false_iff in B. split; [lia|]. intro P.
      destruct B as [B|B]; [apply Z.ltb_ge in B|apply Z.leb_gt in B]; lia.
  Qed.

  (** Unusable inputs, and only those, raise ValueError; with no orders or no waveforms there is always an
      error. *)
  Theorem C43_rejected : forall W Radii Orders Om ex, W <> [] -> Orders <> [] ->
    (Extrapolate polyfit W Radii Orders Om ex = Err ValueError <-> ~ usable W Radii Orders (oms Om)).
  Proof.
    intros [|w0 W] Radii [|o Orders] Om ex HW HO; try congruence.
    destruct (checks_exact w0 W Radii o Orders Om) as [A B]. unfold Extrapolate. split.
    - intros E U. rewrite (A U) in E. cbn [rbind] in E.
      repeat match type of E with (if ?b then _ else _) = _ => destruct b; try discriminate end.
    - intro U. rewrite (B U). reflexivity.
  Qed.
  Theorem C43_nothing : forall W Radii Orders Om ex,
    (Orders = [] -> Extrapolate polyfit W Radii Orders Om ex = Err ValueError)
    /\ (Orders <> [] -> Extrapolate polyfit [] Radii Orders Om ex = Err IndexError).
  Proof.
    intros W Radii Orders Om ex. split; [intros ->; reflexivity|]. destruct Orders; [congruence|reflexivity].
  Qed.
  (** Too high an order, or too negative an order, is rejected. *)
  Theorem C43_rejected_orders : forall W Radii Orders Om ex N, W <> [] -> In N Orders ->
    ((0 < N)%Z /\ (Z.of_nat (length W) <= N)%Z) \/ (N < - Z.of_nat (length W))%Z ->
    Extrapolate polyfit W Radii Orders Om ex = Err ValueError.
  Proof.
    intros W Radii Orders Om ex N HW InN B. apply C43_rejected; [exact HW|destruct Orders; [destruct InN|discriminate]|].
    intros (U & _). destruct (U N InN). lia.
  Qed.

  (** Two documented options never work: extrapolation in 1/(r Omega) and the noise floor for psi0, psi1.  Both
      need something to be extrapolated: an order that is not negative, a time and (for Omegas) a mode. *)
  Theorem C43_omegas_refuted : forall w0 W Radii Orders Om ex, Om <> [] ->
    usable (w0 :: W) Radii Orders Om -> Orders <> [] ->
    ((exists N, In N Orders /\ (0 <= N)%Z) /\ (0 < length (f_data w0))%nat /\ (0 < f_modes w0)%nat ->
       Extrapolate polyfit (w0 :: W) Radii Orders (Some Om) ex = Err TypeError)
    /\ (~ ((exists N, In N Orders /\ (0 <= N)%Z) /\ (0 < length (f_data w0))%nat /\ (0 < f_modes w0)%nat) ->
       exists out, Extrapolate polyfit (w0 :: W) Radii Orders (Some Om) ex = Ok out).
  Proof.
    intros w0 W Radii Orders Om ex HO U Hn. destruct Orders as [|o Orders]; [congruence|].
    destruct (checks_exact w0 W Radii o Orders (Some Om)) as [A _]. unfold Extrapolate. rewrite (A U). cbn [rbind]. clear A.
    destruct Om as [|x Om]; [congruence|]. cbv zeta.
    pose proof (fold_max_in Orders o) as Imx. split.
    - intros ((N & HN & HP) & HT & HM). pose proof (fold_max_ge Orders o N HN).
      destruct (Z.ltb_spec (fold_left Z.max Orders o) 0); [lia|].
      unfold n_times. rewrite (proj2 (Nat.ltb_lt _ _) HT), (proj2 (Nat.ltb_lt _ _) HM). reflexivity.
    - intro X. destruct (Z.ltb_spec (fold_left Z.max Orders o) 0); [eexists; reflexivity|]. unfold n_times.
      destruct (Nat.ltb_spec 0 (length (f_data w0))), (Nat.ltb_spec 0 (f_modes w0)); cbn [andb]; try (eexists; reflexivity).
      exfalso. apply X. eauto 6.
  Qed.
  (** With the noise floor the outcome depends on the first set of radii, whose length is not checked. *)
  Theorem C43_noise_floor_refuted : forall w0 W Radii Orders, usable (w0 :: W) Radii Orders [] -> (exists N, In N Orders /\ (0 <= N)%Z) ->
    (0 < length (f_data w0))%nat ->
    Extrapolate polyfit (w0 :: W) Radii Orders None true =
      Err (if (length (nth 0 Radii []) <? length (f_data w0))%nat then IndexError else NameError).
  Proof.
    intros w0 W Radii Orders U (N & HN & HP) HT. destruct Orders as [|o Orders]; [destruct HN|].
    destruct (checks_exact w0 W Radii o Orders None) as [A _]. unfold Extrapolate. rewrite (A U). cbn [rbind]. clear A. cbv zeta.
    pose proof (fold_max_ge Orders o N HN). destruct (Z.ltb_spec (fold_left Z.max Orders o) 0); [lia|]. unfold n_times.
    destruct (Nat.eqb_spec (length (f_data w0)) 0); [lia|]. cbn [negb andb].
    destruct (length (nth 0 Radii []) <? length (f_data w0))%nat; [reflexivity|]. rewrite (proj2 (Nat.ltb_lt _ _) HT). reflexivity.
  Qed.
  (** Without the two options usable inputs are accepted (given enough radii for the first waveform), one result
      per order, each with the shape of the waveforms. *)
  Theorem C43_accepted : forall w0 W Radii Orders, usable (w0 :: W) Radii Orders [] -> Orders <> [] ->
    (length (f_data w0) <= length (nth 0 Radii []))%nat ->
    exists out, Extrapolate polyfit (w0 :: W) Radii Orders None false = Ok out /\ length out = length Orders
      /\ forall i N, nth_error Orders i = Some N -> (0 <= N)%Z ->
           exists d, nth_error out i = Some d /\ length d = length (f_data w0) /\ forall row, In row d -> length row = f_modes w0.
  Proof.
    intros w0 W Radii Orders U HO HR. destruct Orders as [|o Orders]; [congruence|].
    destruct (checks_exact w0 W Radii o Orders None) as [A _]. unfold Extrapolate. rewrite (A U). cbn [rbind]. clear A. cbv zeta.
    destruct (Z.ltb_spec (fold_left Z.max Orders o) 0) as [L|L].
    - eexists; split; [reflexivity|]. split; [apply map_length|]. intros i N Hi HN. exfalso.
      pose proof (fold_max_ge Orders o N (nth_error_In _ _ Hi)). lia.
    - unfold n_times. rewrite (proj2 (Nat.ltb_ge _ _) HR), andb_false_r. cbn [andb]. eexists; split; [reflexivity|]. split; [apply map_length|].
      intros i N Hi HN. rewrite nth_error_map, Hi. cbn [option_map]. rewrite (proj2 (Z.ltb_ge _ _) HN). eexists; split; [reflexivity|].
      split; [rewrite map_length, seq_length; reflexivity|]. intros row Hrow. apply in_map_iff in Hrow. destruct Hrow as (t & <- & _).
      unfold extrapolate_row. rewrite map_length, seq_length. reflexivity.
  Qed.
End C43.

(** Two radii, one time, one mode, y = 5 + 3/r: order 1 gives 5, order -1 the outer value; with a fit that
    interpolates. *)
Definition line_fit (x : list R) (y : list C) (N : nat) : list C :=
  match x, y with
  | [x0; x1], [y0; y1] => let s := Cscale (/ (x1 - x0)) (y1 - y0)%C in [(y0 - RtoC x0 * s)%C; s]
  | _, _ => repeat C0 (S N)
  end.
Example C43_case :
  let W := [mkfrw 1 [[mkC 8 0]]; mkfrw 1 [[mkC (13/2) 0]]] in
  let Rs := [[1]; [2]] in
  exists out, Extrapolate line_fit W Rs [-1; 1]%Z None false = Ok out
    /\ best_fit [/1; /2] (map (poly [mkC 5 0; mkC 3 0]) [/1; /2]) 1 (line_fit [/1; /2] (map (poly [mkC 5 0; mkC 3 0]) [/1; /2]) 1)
    /\ nth 0 (nth 0 (nth 1 out []) []) C0 = mkC 5 0 /\ nth 0 out [] = [[mkC (13/2) 0]].
Proof.
  intros W Rs. eexists. split; [reflexivity|].
  split; [|split; [|reflexivity]].
  - assert (E : line_fit [/1; /2] (map (poly [mkC 5 0; mkC 3 0]) [/1; /2]) 1 = [mkC 5 0; mkC 3 0]).
    { cbn [line_fit map]. f_equal; [|f_equal]; apply C_eq; simpl; field; lra. }
    rewrite E. split; [reflexivity|]. intros c' _.
    assert (Z : misfit [/1; /2] (map (poly [mkC 5 0; mkC 3 0]) [/1; /2]) [mkC 5 0; mkC 3 0] = 0).
    { unfold misfit. simpl. unfold norm2. simpl. ring. }
    rewrite Z. unfold misfit. apply rsum_nonneg. intros. apply norm2_nonneg.
  - cbn. apply C_eq; simpl; field.
Qed.

Example C43_usable_case : usable [mkfrw 1 [[mkC 8 0]]; mkfrw 1 [[mkC (13/2) 0]]] [[1]; [2]] [-1; 1]%Z []
  /\ ~ usable [mkfrw 1 [[mkC 8 0]]; mkfrw 1 [[mkC (13/2) 0]]] [[1]; [2]] [2]%Z []
  /\ ~ usable [mkfrw 1 [[mkC 8 0]]; mkfrw 1 [[mkC (13/2) 0]]] [[1]; [2]] [1]%Z [1; 2].
Proof.
  split; [|split].
  - split; [cbn; lia|]. split; [reflexivity|]. split; [congruence|].
    intros [|[|i]] w r Hi Hw Hr; [lia| |destruct i; discriminate]. cbn in Hw, Hr. injection Hw as <-. injection Hr as <-. auto.
  - intros (U & _). specialize (U 2%Z). cbn in U. lia.
  - intros (_ & _ & U & _). specialize (U ltac:(discriminate)). discriminate.
Qed.

(** * C44 *)
(** A run that ends normally leaves exactly one report, the right one, whatever was there before. *)
Theorem C44_complete : forall m o, o <> RaisedAfterFinished ->
  started (run m o) = true
  /\ (finished (run m o) = true <-> o = ReturnZero)
  /\ errorm (run m o) = negb (finished (run m o))
  /\ is_unstarted (run m o) = false /\ is_unfinished (run m o) = false
  /\ is_errored (run m o) = negb (finished (run m o)).
Proof.
  intros [s e f] o Ho. unfold run, run_actions, actions, is_unstarted, is_unfinished, is_errored.
  destruct s, e, f, o; try congruence; simpl; repeat split; try reflexivity; intros; congruence.
Qed.

(** The final markers do not depend on the initial ones, so a restart after any crash gives the same state. *)
Theorem C44_restart : forall m o k o', run (crash m o k) o' = run m o'.
Proof.
  assert (A : forall m m' o', run m o' = run m' o').
  { intros [s e f] [s' e' f'] o'. unfold run, run_actions, actions.
    destruct s, e, f, s', e', f', o'; reflexivity. }
  intros. apply A.
Qed.

(** If the process dies after k steps: once the stale markers are gone and until the outcome is recorded, the
    directory is reported as started but unfinished; a finished marker means either that the previous run's
    marker has not been removed yet or that the child returned 0. *)
Definition stale_steps (m : markers) : nat := 1 + (if errorm m then 1 else 0) + (if finished m then 1 else 0).
Theorem C44_crash : forall m o k,
  (1 <= k -> is_unstarted (crash m o k) = false)%nat
  /\ (stale_steps m <= k <= stale_steps m + 2 -> is_unfinished (crash m o k) = true)%nat
  /\ (finished (crash m o k) = true -> (finished m = true /\ k < stale_steps m)%nat \/ o = ReturnZero \/ o = RaisedAfterFinished)
  /\ (errorm (crash m o k) = true -> (errorm m = true /\ k < stale_steps m)%nat \/ o <> ReturnZero).
Proof.
  intros [s e f] o k. unfold crash, run_actions, actions, stale_steps, is_unstarted, is_unfinished. cbn [errorm finished].
  assert (K : (k = 0 \/ k = 1 \/ k = 2 \/ k = 3 \/ k = 4 \/ k = 5 \/ k = 6 \/ 7 <= k)%nat) by lia.
  repeat match type of K with _ \/ _ => destruct K as [K|K] end; try subst k;
    try (replace k with (7 + (k - 7))%nat in * by lia; set (r := (k - 7)%nat); clearbody r);
    destruct s, e, f, o; cbn; rewrite ?firstn_nil; cbn; repeat split; intros; try reflexivity; try lia; try congruence;
    try (left; split; [reflexivity|lia]); try (right; left; reflexivity); try (right; right; reflexivity);
    try (right; congruence).
Qed.

(** Any history of complete and interrupted runs from an empty directory: markers never appear without the
    started marker, and unless a message could not be printed exactly one status applies. *)
Inductive history : list (outcome * nat) -> markers -> Prop :=
| h_nil : history [] (mkmk false false false)
| h_run : forall l m o, history l m -> history ((o, length (actions m o)) :: l) (run m o)
| h_crash : forall l m o k, history l m -> history ((o, k) :: l) (crash m o k).
Theorem C44_statuses : forall l m, history l m ->
  (started m = false -> errorm m = false /\ finished m = false)
  /\ ((forall o k, In (o, k) l -> o <> RaisedAfterFinished) ->
      (if is_unstarted m then 1 else 0) + (if is_unfinished m then 1 else 0)
      + (if is_errored m then 1 else 0) + (if finished m then 1 else 0) = 1)%nat.
Proof.
  assert (Inv : forall l m, history l m ->
     (started m = false -> errorm m = false /\ finished m = false)
     /\ ((forall o k, In (o, k) l -> o <> RaisedAfterFinished) -> errorm m && finished m = false)).
  { assert (St : forall m o k, (started m = false -> errorm m = false /\ finished m = false) ->
        (started (crash m o k) = false -> errorm (crash m o k) = false /\ finished (crash m o k) = false)
        /\ (o <> RaisedAfterFinished -> errorm m && finished m = false -> errorm (crash m o k) && finished (crash m o k) = false)).
    { intros [s e f] o k. unfold crash, run_actions, actions. cbn [errorm finished started].
      assert (K : (k = 0 \/ k = 1 \/ k = 2 \/ k = 3 \/ k = 4 \/ k = 5 \/ k = 6 \/ 7 <= k)%nat) by lia.
      repeat match type of K with _ \/ _ => destruct K as [K|K] end; try subst k;
      try (replace k with (7 + (k - 7))%nat in * by lia; set (r := (k - 7)%nat); clearbody r);
      destruct s, e, f, o; cbn; rewrite ?firstn_nil; cbn; intros; repeat split; intros; try reflexivity; try congruence;
      try tauto; try (destruct H; auto; fail). }
    assert (Rc : forall m o, run m o = crash m o (length (actions m o))).
    { intros. unfold run, crash. rewrite firstn_all. reflexivity. }
    intros l m H. induction H as [|l m o H [I1 I2]|l m o k H [I1 I2]].
    - split; [auto|]. intros; reflexivity.
    - rewrite Rc. destruct (St m o (length (actions m o)) I1) as [S1 S2]. split; [exact S1|].
      intros N. apply S2; [apply (N o _ (or_introl eq_refl))|]. apply I2. intros; eapply N; right; eassumption.
    - destruct (St m o k I1) as [S1 S2]. split; [exact S1|].
      intros N. apply S2; [apply (N o _ (or_introl eq_refl))|]. apply I2. intros; eapply N; right; eassumption. }
  intros l m H. destruct (Inv l m H) as [I1 I2]. split; [exact I1|].
  intros N. specialize (I2 N). unfold is_unstarted, is_unfinished, is_errored.
  destruct m as [[] [] []]; cbn in *; try reflexivity; try congruence; destruct (I1 eq_refl); congruence.
Qed.

(** An extrapolation is listed as outdated when it finished before its data or its metadata were last changed. *)
Theorem C44_newer : forall m tf tm td, is_newer m tf tm td = true <-> finished m = true /\ (tf < Rmax td tm)%R.
Proof.
  intros m tf tm td. unfold is_newer. rewrite andb_true_iff, orb_true_iff. unfold Rmax.
  destruct (finished m), (Rlt_dec tf td), (Rlt_dec tf tm), (Rle_dec td tm); intuition (try congruence; lra).
Qed.
Example C44_newer_case : is_newer (mkmk true false true) 1 0 2 = true /\ is_newer (mkmk true false true) 1 1 0 = false.
Proof.
  split; [apply C44_newer; split; [reflexivity|]; unfold Rmax; destruct (Rle_dec 2 0); lra|].
  destruct (is_newer _ 1 1 0) eqn:E; [|reflexivity]. apply C44_newer in E. destruct E as [_ E]. unfold Rmax in E. destruct (Rle_dec 0 1); lra.
Qed.

(** Re-running a finished extrapolation and dying right after touching the started marker: still reported
    as finished although the new run did not finish, and not found by StartedButUnfinishedExtrapolations. *)
Theorem C44_stale_finished_refuted : exists m o k, (0 < k < length (actions m o))%nat
  /\ finished (crash m o k) = true /\ is_unfinished (crash m o k) = false /\ o <> ReturnZero.
Proof. exists (mkmk true false true), ReturnNonzero, 1%nat. cbn. repeat split; try lia; congruence. Qed.

(** If the last message cannot be printed the run is reported both finished and errored. *)
Theorem C44_both_refuted : forall m, finished (run m RaisedAfterFinished) = true /\ errorm (run m RaisedAfterFinished) = true.
Proof. intros [[] [] []]; split; reflexivity. Qed.

(** A run that raised (including an interrupt) still returns 0. *)
Theorem C44_return_code_refuted : forall m child, errorm (run m RaisedBefore) = true /\ return_code RaisedBefore child = 0%Z.
Proof. intros [[] [] []] child; split; reflexivity. Qed.

(** The script started is never the one written: the file name in the command is not filled in. *)
Theorem C44_command_refuted : forall stem, stem <> "{0}"%string -> command stem <> intended_command stem.
Proof.
  intros stem H E. apply H. clear H.
  unfold command, intended_command, script_name in E.
  assert (Dec : forall p a b, (p ++ a = p ++ b -> a = b)%string).
  { induction p as [|c p IH]; intros a b Hab; [exact Hab|]. simpl in Hab. injection Hab. apply IH. }
  change ("set -o pipefail; python Extrapolate_{0}.py 2>&1 | " ++ "tee Extrapolate_" ++ stem ++ ".log")%string
    with ("set -o pipefail; python Extrapolate_" ++ ("{0}.py 2>&1 | tee Extrapolate_" ++ (stem ++ ".log")))%string in E.
  change ("set -o pipefail; python " ++ ("Extrapolate_" ++ stem ++ ".py") ++ " 2>&1 | tee Extrapolate_" ++ stem ++ ".log")%string
    with ("set -o pipefail; python Extrapolate_" ++ ((stem ++ ".py") ++ (" 2>&1 | tee Extrapolate_" ++ (stem ++ ".log"))))%string in E.
  apply Dec in E.
  assert (Len : forall a b, String.length (a ++ b) = (String.length a + String.length b)%nat).
  { induction a as [|c a IH]; intros b; simpl; [reflexivity|]. rewrite IH. reflexivity. }
  assert (L := f_equal String.length E). rewrite !Len in L. simpl in L.
  assert (L3 : String.length stem = 3%nat) by lia.
  destruct stem as [|a [|b [|c [|d s]]]]; try discriminate. simpl in E. injection E as -> -> ->. reflexivity.
Qed.

Example C44_case : crash (mkmk true true false) ReturnZero 3 = mkmk true false false
  /\ is_unfinished (crash (mkmk true true false) ReturnZero 3) = true
  /\ run (mkmk true true false) ReturnZero = mkmk true false true.
Proof. repeat split. Qed.
