(** C95: derivatives and integrals of time series; the cubic spline behind them. *)
From Coq Require Import Reals ZArith List Bool Lia Lra.
From Verif Require Import Common Cplx Times_Model Times_Proofs Validity_Proofs ABD_Proofs Constraints_Model Spline_Model.
Import ListNotations.
Open Scope R_scope.

(** ** Specification *)
(** a + b v + c v^2 + d v^3 *)
Definition cub (p : R * R * R * R) (v : R) : R := let '(a, b, c, d) := p in a + b * v + c * v ^ 2 + d * v ^ 3.
(** [spline_curve x y m f]: [f] passes through the points 0 to [m], is twice differentiable, is a cubic between neighbouring
    points, and one cubic up to the third point and from the third last point on ("not-a-knot"), in particular beyond the ends. *)
Definition spline_curve (x y : nat -> R) (m : nat) (f : R -> R) : Prop :=
  (forall i, (i <= m)%nat -> f (x i) = y i) /\
  (exists f1 f2, (forall v, derivable_pt_lim f v (f1 v)) /\ (forall v, derivable_pt_lim f1 v (f2 v))) /\
  (forall i, (i < m)%nat -> exists p, forall v, x i <= v <= x (S i) -> f v = cub p v) /\
  (exists p, forall v, v <= x 2%nat -> f v = cub p v) /\
  (exists p, forall v, x (m - 2)%nat <= v -> f v = cub p v).

(** ** Polynomials *)
Lemma peval_pmulx : forall p k u, peval (pmulx (k + 1) p) u = peval (pmulx k p) u + peval p u.
Proof. induction p as [|a r IH]; intros; cbn [pmulx peval]; [ring|]. rewrite IH. ring. Qed.
Lemma peval_deriv : forall p u, derivable_pt_lim (peval p) u (peval (pderiv p) u).
Proof.
  induction p as [|a r IH]; intros u; cbn [pderiv].
  - cbn [peval pmulx]. apply derivable_pt_lim_const.
  - assert (E : peval (pmulx 1 r) u = 0 + (1 * peval r u + u * peval (pderiv r) u)).
    { destruct r as [|b r']; cbn [pmulx peval pderiv]; [ring|]. rewrite peval_pmulx. ring. }
    rewrite E. change (peval (a :: r)) with ((fun _ : R => a) + (id * peval r))%F. apply derivable_pt_lim_plus.
    + apply derivable_pt_lim_const.
    + apply derivable_pt_lim_mult; [apply derivable_pt_lim_id|apply IH].
Qed.
Lemma shift_deriv : forall p x v, derivable_pt_lim (fun v => peval p (v - x)) v (peval (pderiv p) (v - x)).
Proof.
  intros p x v. replace (peval (pderiv p) (v - x)) with (peval (pderiv p) (v - x) * (1 - 0)) by ring.
  apply (derivable_pt_lim_comp (fun v => v - x) (peval p)); [|apply peval_deriv].
  apply (derivable_pt_lim_minus id (fun _ => x)); [apply derivable_pt_lim_id|apply derivable_pt_lim_const].
Qed.
Lemma pmulx_pdivx : forall p k, 0 < k -> pmulx k (pdivx k p) = p.
Proof. induction p as [|a r IH]; intros k Hk; cbn; [easy|]. rewrite IH by lra. f_equal. field. lra. Qed.
Lemma pderiv_panti : forall p k, pderiv (panti k p) = p.
Proof. intros. unfold panti. cbn [pderiv]. apply pmulx_pdivx. lra. Qed.
Lemma panti_0 : forall p k, peval (panti k p) 0 = k.
Proof. intros. unfold panti. cbn [peval]. ring. Qed.

(** ** Joining two functions *)
Lemma deriv_local : forall f g v l d, 0 < d -> (forall w, Rabs (w - v) < d -> f w = g w) -> derivable_pt_lim g v l -> derivable_pt_lim f v l.
Proof.
  intros f g v l d Hd E H eps He. destruct (H eps He) as [d' Hd'].
  assert (M : 0 < Rmin d d') by (apply Rmin_pos; [easy|apply cond_pos]).
  exists (mkposreal _ M). intros h Hh Hb. cbn in Hb. assert (Rmin d d' <= d) by apply Rmin_l. assert (Rmin d d' <= d') by apply Rmin_r.
  rewrite (E (v + h)) by (replace (v + h - v) with h by ring; lra). rewrite (E v) by (rewrite Rminus_diag_eq, Rabs_R0 by easy; easy).
  apply Hd'; [easy|lra].
Qed.
Lemma deriv_glue : forall a f g f1 g1, (forall v, derivable_pt_lim f v (f1 v)) -> (forall v, derivable_pt_lim g v (g1 v)) -> f a = g a -> f1 a = g1 a ->
  forall v, derivable_pt_lim (fun v => if Rleb a v then g v else f v) v (if Rleb a v then g1 v else f1 v).
Proof.
  intros a f g f1 g1 Hf Hg E E1 v. destruct (Rtotal_order v a) as [L|[L|L]].
  - destruct (Rleb_spec a v); [lra|]. apply deriv_local with (g := f) (d := a - v); [lra| |apply Hf].
    intros w Hw. apply Rabs_def2 in Hw. destruct (Rleb_spec a w); [lra|easy].
  - subst v. destruct (Rleb_spec a a) as [_|B]; [|lra]. intros eps He.
    destruct (Hf a eps He) as [d1 H1]. destruct (Hg a eps He) as [d2 H2].
    assert (M : 0 < Rmin d1 d2) by (apply Rmin_pos; apply cond_pos).
    exists (mkposreal _ M). intros h Hh Hb. cbn in Hb. assert (Rmin d1 d2 <= d1) by apply Rmin_l. assert (Rmin d1 d2 <= d2) by apply Rmin_r.
    destruct (Rleb_spec a a) as [_|B]; [|lra]. destruct (Rleb_spec a (a + h)).
    + apply H2; [easy|lra].
    + rewrite <- E, <- E1. apply H1; [easy|lra].
  - destruct (Rleb_spec a v); [|lra]. apply deriv_local with (g := g) (d := v - a); [lra| |apply Hg].
    intros w Hw. apply Rabs_def2 in Hw. destruct (Rleb_spec a w); [easy|lra].
Qed.
(** The derivative at a point of a closed interval is that of any function agreeing there. *)
Lemma deriv_interval : forall f p a b v l l', a < b -> a <= v <= b -> (forall w, a <= w <= b -> f w = p w) ->
  derivable_pt_lim f v l -> derivable_pt_lim p v l' -> l = l'.
Proof.
  intros f p a b v l l' Hab Hv E Hf Hp. destruct (Req_dec l l') as [|N]; [easy|exfalso].
  assert (He : 0 < Rabs (l - l') / 2). { assert (0 < Rabs (l - l')) by (apply Rabs_pos_lt; lra). lra. }
  destruct (Hf _ He) as [d1 H1]. destruct (Hp _ He) as [d2 H2].
  assert (X : exists h, h <> 0 /\ Rabs h < d1 /\ Rabs h < d2 /\ a <= v + h <= b).
  { assert (P1 := cond_pos d1). assert (P2 := cond_pos d2). set (k := Rmin (Rmin d1 d2) (b - a) / 2).
    assert (0 < k /\ k < d1 /\ k < d2 /\ 2 * k <= b - a) as (K1 & K2 & K3 & K4).
    { unfold k. assert (A : 0 < Rmin (Rmin d1 d2) (b - a)) by (apply Rmin_pos; [apply Rmin_pos; easy|lra]).
      pose proof (Rmin_l (Rmin d1 d2) (b - a)). pose proof (Rmin_r (Rmin d1 d2) (b - a)). pose proof (Rmin_l d1 d2). pose proof (Rmin_r d1 d2).
      repeat split; lra. }
    destruct (Rle_dec (v + k) b).
    - exists k. rewrite (Rabs_right k) by lra. repeat split; lra.
    - exists (- k). rewrite Rabs_Ropp, (Rabs_right k) by lra. repeat split; lra. }
  destruct X as (h & N0 & B1 & B2 & B). specialize (H1 h N0 B1). specialize (H2 h N0 B2).
  rewrite !E in H1 by easy. set (q := (p (v + h) - p v) / h) in *.
  assert (T : Rabs (l - l') <= Rabs (q - l) + Rabs (q - l')).
  { replace (l - l') with (- (q - l) + (q - l')) by ring. eapply Rle_trans; [apply Rabs_triang|]. rewrite Rabs_Ropp. lra. }
  lra.
Qed.

(** ** Piecewise polynomials *)
Section PP.
Variable x : nat -> R.
Variable m : nat.
Hypothesis inc : forall i, (i < m)%nat -> x i < x (S i).
Lemma x_lt : forall i j, (i < j <= m)%nat -> x i < x j.
Proof.
  intros i j. revert i. induction j; intros i H; [lia|]. destruct (Nat.eq_dec i j) as [->|]; [apply inc; lia|].
  apply Rlt_trans with (x j); [apply IHj; lia|apply inc; lia].
Qed.
Lemma x_le : forall i j, (i <= j <= m)%nat -> x i <= x j.
Proof. intros i j H. destruct (Nat.eq_dec i j) as [->|]; [lra|]. assert (x i < x j) by (apply x_lt; lia). lra. Qed.
Lemma piece_le : forall k v, (piece x k v <= k)%nat.
Proof. induction k; intros v; cbn [piece]; [lia|]. destruct (Rleb _ _); [lia|]. specialize (IHk v). lia. Qed.
(** The piece is the one containing the argument. *)
Lemma piece_is : forall k v i, (i <= k)%nat -> (k < m)%nat -> (i = 0%nat \/ x i <= v) -> (i = k \/ v < x (S i)) -> piece x k v = i.
Proof.
  induction k; intros v i Hi Hk A B; cbn [piece]; [lia|]. destruct (Nat.eq_dec i (S k)) as [->|N].
  - destruct (Rleb_spec (x (S k)) v); [easy|]. destruct A as [A|A]; [lia|lra].
  - destruct B as [B|B]; [lia|]. destruct (Rleb_spec (x (S k)) v) as [C|C].
    + assert (x (S i) <= x (S k)) by (apply x_le; lia). lra.
    + apply IHk; try easy; try lia. now right.
Qed.
Lemma piece_spec : forall k v, (k < m)%nat -> let i := piece x k v in (i = 0%nat \/ x i <= v) /\ (i = k \/ v < x (S i)).
Proof.
  induction k; intros v Hk; cbn [piece]; [split; now left|]. destruct (Rleb_spec (x (S k)) v) as [C|C]; [split; [now right|now left]|].
  destruct (IHk v) as [A B]; [lia|]. split; [easy|]. destruct B as [B|B]; [|now right]. rewrite B. now right; apply Rnot_le_lt.
Qed.
(** Neighbouring pieces agree at the joints. *)
Definition joined (c : nat -> list R) : Prop := forall i, (S i < m)%nat -> peval (c i) (x (S i) - x i) = peval (c (S i)) 0.
Definition ppk (k : nat) (c : nat -> list R) (v : R) : R := peval (c (piece x k v)) (v - x (piece x k v)).
Lemma ppk_deriv : forall c, joined c -> joined (ppderiv c) -> forall k v, (k < m)%nat -> derivable_pt_lim (ppk k c) v (ppk k (ppderiv c) v).
Proof.
  intros c J J1. induction k; intros v Hk.
  - unfold ppk. cbn [piece]. apply shift_deriv.
  - assert (Ek : forall c' w, ppk (S k) c' w = if Rleb (x (S k)) w then peval (c' (S k)) (w - x (S k)) else ppk k c' w).
    { intros c' w. unfold ppk. cbn [piece]. now destruct (Rleb (x (S k)) w). }
    assert (Pk : piece x k (x (S k)) = k). { apply piece_is; try lia; try now left. right. left. apply inc. lia. }
    assert (Ej : forall c', joined c' -> ppk k c' (x (S k)) = peval (c' (S k)) (x (S k) - x (S k))).
    { intros c' J'. unfold ppk. rewrite Pk, J' by lia. f_equal. ring. }
    rewrite Ek. apply deriv_local with (g := fun w => if Rleb (x (S k)) w then peval (c (S k)) (w - x (S k)) else ppk k c w) (d := 1); [lra|intros; apply Ek|].
    apply (deriv_glue (x (S k)) (ppk k c) (fun w => peval (c (S k)) (w - x (S k))) (ppk k (ppderiv c)) (fun w => peval (ppderiv c (S k)) (w - x (S k)))).
    + intros w. apply IHk. lia.
    + intros w. apply shift_deriv.
    + now apply Ej.
    + now apply Ej.
Qed.
Lemma pp_deriv : forall c, (1 <= m)%nat -> joined c -> joined (ppderiv c) -> forall v, derivable_pt_lim (ppval x m c) v (ppval x m (ppderiv c) v).
Proof. intros c Hm J J1 v. apply (ppk_deriv c J J1 (m - 1)). lia. Qed.
Lemma anti_joined : forall c, joined (ppanti x c).
Proof. intros c i Hi. unfold ppanti. rewrite panti_0. reflexivity. Qed.
Lemma pp_anti : forall c, (1 <= m)%nat -> joined c -> forall v, derivable_pt_lim (ppval x m (ppanti x c)) v (ppval x m c v).
Proof.
  intros c Hm J v. assert (E : forall i, ppderiv (ppanti x c) i = c i) by (intros; apply pderiv_panti).
  replace (ppval x m c v) with (ppval x m (ppderiv (ppanti x c)) v) by (unfold ppval; now rewrite E).
  apply pp_deriv; [easy|apply anti_joined|]. intros i Hi. rewrite !E. now apply J.
Qed.
Lemma pp_anti_0 : forall c, (1 <= m)%nat -> ppval x m (ppanti x c) (x 0%nat) = 0.
Proof.
  intros c Hm. unfold ppval. rewrite (piece_is (m - 1) (x 0%nat) 0); try lia; try now left.
  - rewrite Rminus_diag_eq by easy. unfold ppanti. rewrite panti_0. easy.
  - destruct (Nat.eq_dec m 1); [left; lia|right]. apply inc. lia.
Qed.
End PP.

(** ** The linear system *)
Section Tri.
Variables x y : nat -> R.
Variable m : nat.
Hypothesis inc : forall i, (i < m)%nat -> x i < x (S i).
Hypothesis Hm : (3 <= m)%nat.
Local Notation dx := (dx x). Local Notation cp := (cp x m). Local Notation dp := (dp x y m).
Local Notation lower := (lower x m). Local Notation diag := (diag x m). Local Notation upper := (upper x). Local Notation rhs := (rhs x y m).
Definition den (i : nat) : R := match i with 0%nat => diag 0 | S j => diag i - lower i * cp j end.
Definition rows (s : nat -> R) : Prop :=
  diag 0 * s 0%nat + upper 0 * s 1%nat = rhs 0 /\
  (forall i, (0 < i < m)%nat -> lower i * s (i - 1)%nat + diag i * s i + upper i * s (S i) = rhs i) /\
  lower m * s (m - 1)%nat + diag m * s m = rhs m.
Lemma dx_pos : forall i, (i < m)%nat -> 0 < dx i.
Proof. intros i H. unfold Spline_Model.dx. specialize (inc i H). lra. Qed.
Lemma diag_mid : forall i, (0 < i < m)%nat -> diag i = 2 * (dx (i - 1) + dx i) /\ lower i = dx i /\ upper i = dx (i - 1).
Proof.
  intros i H. unfold Spline_Model.diag, Spline_Model.lower, Spline_Model.upper.
  destruct (Nat.eqb_spec i 0); [lia|]. destruct (Nat.eqb_spec i m); [lia|]. easy.
Qed.
Lemma diag_first : diag 0 = dx 1 /\ upper 0 = dx 0 + dx 1.
Proof. unfold Spline_Model.diag, Spline_Model.upper, Spline_Model.dx. cbn. split; ring. Qed.
Lemma diag_last : diag m = dx (m - 2) /\ lower m = dx (m - 2) + dx (m - 1).
Proof.
  unfold Spline_Model.diag, Spline_Model.lower, Spline_Model.dx. destruct (Nat.eqb_spec m 0); [lia|]. rewrite Nat.eqb_refl. split; [easy|].
  replace (S (m - 2)) with (m - 1)%nat by lia. replace (S (m - 1)) with m by lia. ring.
Qed.
Lemma den_mid : forall i, (0 < i < m)%nat -> 0 < den i /\ 0 < cp i < 1 /\ ((1 < i)%nat -> dx (i - 1) + dx i < den i).
Proof.
  induction i as [|i IH]; intros H; [lia|]. destruct (diag_mid (S i) H) as (D & L & U). cbn [Nat.sub] in D, U. rewrite Nat.sub_0_r in D, U.
  assert (P := dx_pos i ltac:(lia)). assert (P' := dx_pos (S i) ltac:(lia)).
  assert (Q : den (S i) = 2 * (dx i + dx (S i)) - dx (S i) * cp i) by (unfold den; rewrite D, L; easy).
  assert (Cp : cp (S i) = dx i / den (S i)) by (unfold den; cbn [Spline_Model.cp]; rewrite U; easy).
  assert (X : dx i < den (S i) /\ ((1 < S i)%nat -> dx i + dx (S i) < den (S i))).
  { rewrite Q. destruct i as [|i].
    - cbn [Spline_Model.cp]. destruct diag_first as [-> ->]. replace (dx 1 * ((dx 0 + dx 1) / dx 1)) with (dx 0 + dx 1) by (field; lra). split; [lra|lia].
    - destruct IH as (_ & C & _); [lia|]. split; [nra|intros _; nra]. }
  destruct X as [X1 X2]. split; [lra|]. split; [|cbn [Nat.sub]; rewrite Nat.sub_0_r; easy].
  rewrite Cp. split; [apply Rdiv_lt_0_compat; lra|]. apply Rmult_lt_reg_r with (den (S i)); [lra|]. unfold Rdiv. rewrite Rmult_assoc, Rinv_l by lra. lra.
Qed.
Lemma den_pos : forall i, (i <= m)%nat -> 0 < den i.
Proof.
  intros i H. destruct (Nat.eq_dec i 0) as [->|N0]; [unfold den; destruct diag_first as [-> _]; apply dx_pos; lia|].
  destruct (Nat.eq_dec i m) as [->|N]; [|apply den_mid; lia].
  destruct diag_last as [D L]. destruct (den_mid (m - 1)) as (A & B & C); [lia|]. specialize (C ltac:(lia)).
  assert (Q : den m = dx (m - 2) - (dx (m - 2) + dx (m - 1)) * cp (m - 1)).
  { unfold den. destruct m as [|k] eqn:E; [lia|]. rewrite <- E in *. rewrite D, L. replace k with (m - 1)%nat by lia. easy. }
  assert (Cp : cp (m - 1) * den (m - 1) = dx (m - 2)).
  { unfold den. destruct (diag_mid (m - 1)) as (D' & L' & U'); [lia|]. destruct (m - 1)%nat as [|k] eqn:E; [lia|]. cbn [Spline_Model.cp]. rewrite U'.
    unfold den in A. replace (m - 2)%nat with (S k - 1)%nat by lia. field. lra. }
  replace (m - 1 - 1)%nat with (m - 2)%nat in C by lia. rewrite Q. rewrite <- Cp at 1. nra.
Qed.
Lemma dp_den : forall i, (i <= m)%nat -> dp i * den i = rhs i - match i with 0%nat => 0 | S j => lower i * dp j end.
Proof. intros i H. assert (P := den_pos i H). destruct i; cbn [Spline_Model.dp]; unfold den in *; field; lra. Qed.
Lemma cp_den : forall i, (i <= m)%nat -> cp i * den i = upper i.
Proof. intros i H. assert (P := den_pos i H). destruct i; cbn [Spline_Model.cp]; unfold den in *; field; lra. Qed.
(** Existence and uniqueness of the slopes *)
Lemma forward : forall s, rows s -> forall i, (i < m)%nat -> s i = dp i - cp i * s (S i).
Proof.
  intros s (R0 & Ri & _). induction i as [|i IH]; intros H; assert (P := den_pos _ (Nat.lt_le_incl _ _ H)); assert (A := dp_den _ (Nat.lt_le_incl _ _ H)); assert (B := cp_den _ (Nat.lt_le_incl _ _ H)).
  - apply Rmult_eq_reg_r with (den 0); [|lra]. rewrite Rmult_minus_distr_r, A. replace (cp 0 * s 1%nat * den 0) with (cp 0 * den 0 * s 1%nat) by ring. rewrite B. unfold den. lra.
  - specialize (Ri (S i) ltac:(lia)). cbn [Nat.sub] in Ri. rewrite Nat.sub_0_r in Ri. rewrite IH in Ri by lia.
    apply Rmult_eq_reg_r with (den (S i)); [|lra]. rewrite Rmult_minus_distr_r, A. replace (cp (S i) * s (S (S i)) * den (S i)) with (cp (S i) * den (S i) * s (S (S i))) by ring. rewrite B.
    unfold den. lra.
Qed.
Lemma rows_unique : forall s, rows s -> forall k, (k <= m)%nat -> s (m - k)%nat = back x y m k.
Proof.
  intros s Hs. assert (F := forward s Hs). destruct Hs as (_ & _ & Rm). induction k as [|k IH]; intros H.
  - rewrite Nat.sub_0_r. cbn [back]. assert (P := den_pos m ltac:(lia)). assert (A := dp_den m ltac:(lia)). specialize (F (m - 1)%nat ltac:(lia)).
    replace (S (m - 1)) with m in F by lia. rewrite F in Rm. apply Rmult_eq_reg_r with (den m); [|lra]. rewrite A. unfold den.
    destruct m as [|j] eqn:E; [lia|]. rewrite <- E in *. replace (m - 1)%nat with j in Rm by lia. lra.
  - cbn [back]. rewrite F by lia. replace (S (m - S k)) with (m - k)%nat by lia. rewrite IH by lia. easy.
Qed.
Lemma slope_back : forall i, slope x y m i = back x y m (m - i).
Proof. intros i. unfold slope. destruct m as [|[|[|k]]]; try lia. easy. Qed.
Lemma rows_slope : rows (slope x y m).
Proof.
  assert (F : forall i, (i < m)%nat -> slope x y m i = dp i - cp i * slope x y m (S i)).
  { intros i H. rewrite !slope_back. replace (m - i)%nat with (S (m - S i)) by lia. cbn [back]. replace (m - S (m - S i))%nat with i by lia. easy. }
  assert (L : slope x y m m = dp m) by (rewrite slope_back, Nat.sub_diag; easy).
  repeat split.
  - rewrite F by lia. assert (P := den_pos 0 ltac:(lia)). assert (A := dp_den 0 ltac:(lia)). assert (B := cp_den 0 ltac:(lia)). unfold den in *.
    set (s1 := slope x y m 1). replace (diag 0 * (dp 0 - cp 0 * s1) + upper 0 * s1) with (dp 0 * diag 0 - cp 0 * diag 0 * s1 + upper 0 * s1) by ring. rewrite A, B. ring.
  - intros i H. destruct i as [|i]; [lia|]. cbn [Nat.sub]. rewrite Nat.sub_0_r. rewrite (F i), (F (S i)) by lia.
    assert (A := dp_den (S i) ltac:(lia)). assert (B := cp_den (S i) ltac:(lia)). unfold den in *. set (s2 := slope x y m (S (S i))).
    replace (lower (S i) * (dp i - cp i * (dp (S i) - cp (S i) * s2)) + diag (S i) * (dp (S i) - cp (S i) * s2) + upper (S i) * s2)
      with (lower (S i) * dp i + dp (S i) * (diag (S i) - lower (S i) * cp i) - cp (S i) * (diag (S i) - lower (S i) * cp i) * s2 + upper (S i) * s2) by ring. rewrite A, B. ring.
  - rewrite (F (m - 1)%nat) by lia. replace (S (m - 1)) with m by lia. rewrite L. assert (A := dp_den m ltac:(lia)). unfold den in A. destruct m as [|j] eqn:E; [lia|]. rewrite <- E in *. replace (m - 1)%nat with j by lia. lra.
Qed.
End Tri.

(** ** Pieces *)
Definition cub1 (p : R * R * R * R) (v : R) : R := let '(a, b, c, d) := p in b + 2 * c * v + 3 * d * v ^ 2.
Definition cub2 (p : R * R * R * R) (v : R) : R := let '(a, b, c, d) := p in 2 * c + 6 * d * v.
Lemma cub_deriv : forall p v, derivable_pt_lim (cub p) v (cub1 p v) /\ derivable_pt_lim (cub1 p) v (cub2 p v).
Proof.
  intros [[[a b] c] d] v. split.
  - apply deriv_local with (g := peval [a; b; c; d]) (d := 1); [lra|intros w _; cbn; ring|].
    replace (cub1 (a, b, c, d) v) with (peval (pderiv [a; b; c; d]) v) by (cbn; ring). apply peval_deriv.
  - apply deriv_local with (g := peval [b; 2 * c; 3 * d]) (d := 1); [lra|intros w _; cbn; ring|].
    replace (cub2 (a, b, c, d) v) with (peval (pderiv [b; 2 * c; 3 * d]) v) by (cbn; ring). apply peval_deriv.
Qed.
(** A cubic is determined by values and slopes at two points. *)
Lemma cub_hermite : forall x y s i p v, x i < x (S i) -> y i = cub p (x i) -> y (S i) = cub p (x (S i)) -> s i = cub1 p (x i) -> s (S i) = cub1 p (x (S i)) ->
  peval (hermite x y s i) (v - x i) = cub p v.
Proof.
  intros x y s i [[[a b] c] d] v H Y0 Y1 S0 S1. unfold hermite, sl, dx. rewrite Y0, Y1, S0, S1. cbn. field. lra.
Qed.
Lemma hermite_ends : forall x y s i, x i < x (S i) -> let h := dx x i in
  peval (hermite x y s i) 0 = y i /\ peval (hermite x y s i) h = y (S i) /\
  peval (pderiv (hermite x y s i)) 0 = s i /\ peval (pderiv (hermite x y s i)) h = s (S i) /\
  peval (pderiv (pderiv (hermite x y s i))) 0 = (6 * sl x y i - 4 * s i - 2 * s (S i)) / h /\
  peval (pderiv (pderiv (hermite x y s i))) h = (2 * s i + 4 * s (S i) - 6 * sl x y i) / h.
Proof.
  intros x y s i H h. unfold h. assert (dx x i <> 0) by (unfold dx; lra).
  assert (E : y (S i) = y i + dx x i * sl x y i) by (unfold sl; field; easy).
  rewrite E. unfold hermite. set (z := sl x y i). set (d := dx x i) in *. cbn. repeat split; try field; easy.
Qed.

Section Curve.
Variables x y : nat -> R.
Variable m : nat.
Hypothesis inc : forall i, (i < m)%nat -> x i < x (S i).
Hypothesis Hm : (3 <= m)%nat.
(** What a curve satisfies: the rows of the system *)
Lemma curve_rows : forall f f1 f2, (forall i, (i <= m)%nat -> f (x i) = y i) ->
  (forall v, derivable_pt_lim f v (f1 v)) -> (forall v, derivable_pt_lim f1 v (f2 v)) ->
  (forall i, (i < m)%nat -> exists p, forall v, x i <= v <= x (S i) -> f v = cub p v) ->
  (exists p, forall v, v <= x 2%nat -> f v = cub p v) ->
  (exists p, forall v, x (m - 2)%nat <= v -> f v = cub p v) -> rows x y m (fun i => f1 (x i)).
Proof.
  intros f f1 f2 Hy D1 D2 Hp (p0 & P0) (pm & Pm).
  assert (S1 : forall a b p, a < b -> (forall v, a <= v <= b -> f v = cub p v) -> forall v, a <= v <= b -> f1 v = cub1 p v).
  { intros a b p Hab E v Hv. eapply deriv_interval; [exact Hab|exact Hv|exact E|apply D1|apply cub_deriv]. }
  assert (S2 : forall a b p, a < b -> (forall v, a <= v <= b -> f v = cub p v) -> forall v, a <= v <= b -> f2 v = cub2 p v).
  { intros a b p Hab E v Hv. eapply deriv_interval; [exact Hab|exact Hv|apply (S1 a b p Hab E)|apply D2|apply cub_deriv]. }
  assert (M : forall i, (i < m)%nat -> f2 (x i) = (6 * sl x y i - 4 * f1 (x i) - 2 * f1 (x (S i))) / dx x i /\ f2 (x (S i)) = (2 * f1 (x i) + 4 * f1 (x (S i)) - 6 * sl x y i) / dx x i).
  { intros i Hi. assert (I := inc i Hi). destruct (Hp i Hi) as [p E].
    rewrite !(S1 _ _ p I E), !(S2 _ _ p I E) by lra. unfold sl, dx. rewrite <- !Hy, !E by (lia || lra). destruct p as [[[a b] c] d]. cbn. split; field; lra. }
  split; [|split].
  - destruct (diag_first x m) as [-> ->]. unfold rhs. cbn [Nat.eqb]. assert (I0 := inc 0%nat ltac:(lia)). assert (I1 := inc 1%nat ltac:(lia)).
    assert (E : forall v, x 0%nat <= v <= x 2%nat -> f v = cub p0 v) by (intros; apply P0; lra).
    rewrite !(S1 _ _ p0 (Rlt_trans _ _ _ I0 I1) E) by lra. unfold sl, dx. rewrite <- !Hy, !E by (lia || lra). destruct p0 as [[[a b] c] d]. cbn. field. lra.
  - intros i Hi. destruct (diag_mid x m Hm i Hi) as (-> & -> & ->). unfold rhs. destruct (Nat.eqb_spec i 0); [lia|]. destruct (Nat.eqb_spec i m); [lia|].
    destruct i as [|i]; [lia|]. cbn [Nat.sub]. rewrite Nat.sub_0_r. destruct (M i) as [_ A]; [lia|]. destruct (M (S i)) as [B _]; [lia|]. rewrite B in A.
    assert (P1 := dx_pos x m inc i ltac:(lia)). assert (P2 := dx_pos x m inc (S i) ltac:(lia)). set (h := dx x i) in *. set (k := dx x (S i)) in *.
    apply (f_equal (fun z => z * (h * k) / 2)) in A. 
    replace ((6 * sl x y (S i) - 4 * f1 (x (S i)) - 2 * f1 (x (S (S i)))) / k * (h * k) / 2) with (h * (3 * sl x y (S i) - 2 * f1 (x (S i)) - f1 (x (S (S i))))) in A by (field; lra).
    replace ((2 * f1 (x i) + 4 * f1 (x (S i)) - 6 * sl x y i) / h * (h * k) / 2) with (k * (f1 (x i) + 2 * f1 (x (S i)) - 3 * sl x y i)) in A by (field; lra). lra.
  - destruct (diag_last x m Hm) as [-> ->]. unfold rhs. destruct (Nat.eqb_spec m 0); [lia|]. rewrite Nat.eqb_refl. cbv zeta.
    assert (I0 := inc (m - 2)%nat ltac:(lia)). assert (I1 := inc (m - 1)%nat ltac:(lia)). unfold sl, dx. replace (S (m - 2)) with (m - 1)%nat in * by lia. replace (S (m - 1)) with m in * by lia.
    assert (E : forall v, x (m - 2)%nat <= v <= x m -> f v = cub pm v) by (intros; apply Pm; lra).
    rewrite !(S1 _ _ pm (Rlt_trans _ _ _ I0 I1) E) by lra. rewrite <- !Hy, !E by (lia || lra). destruct pm as [[[a b] c] d]. cbn. field. lra.
Qed.
Local Notation her := (hermite x y (slope x y m)).
Lemma curve_unique : forall f, spline_curve x y m f -> forall v, f v = ppval x m her v.
Proof.
  intros f (Hy & (f1 & f2 & D1 & D2) & Hp & (p0 & P0) & (pm & Pm)) v.
  assert (HR : rows x y m (fun i => f1 (x i))) by (eapply curve_rows; eauto).
  assert (HS : forall i, (i <= m)%nat -> slope x y m i = f1 (x i)).
  { intros i Hi. rewrite slope_back by easy. rewrite <- (rows_unique x y m inc Hm (fun i => f1 (x i)) HR) by lia. cbv beta. do 2 f_equal. lia. }
  unfold ppval. destruct (piece_spec x m (m - 1) v) as [A B]; [lia|]. assert (L := piece_le x (m - 1) v). set (i := piece x (m - 1) v) in *.
  assert (I := inc i ltac:(lia)).
  assert (K : exists p, f v = cub p v /\ forall w, x i <= w <= x (S i) -> f w = cub p w).
  { destruct A as [A|A]; [|destruct B as [B|B]].
    - rewrite A in *. destruct (Rle_dec v (x 2%nat)).
      + exists p0. assert (I1 := inc 1%nat ltac:(lia)). split; [now apply P0|]. intros w Hw. apply P0. lra.
      + destruct B as [B|B]; [lia|]. assert (I1 := inc 1%nat ltac:(lia)). lra.
    - rewrite B in *. exists pm. assert (I1 := inc (m - 2)%nat ltac:(lia)). replace (S (m - 2)) with (m - 1)%nat in I1 by lia.
      split; [apply Pm; lra|]. intros w Hw. apply Pm. lra.
    - destruct (Hp i) as [p E]; [lia|]. exists p. split; [apply E; lra|easy]. }
  destruct K as (p & Ev & Ew). rewrite Ev. symmetry.
  assert (S1 : forall w, x i <= w <= x (S i) -> f1 w = cub1 p w).
  { intros w Hw. eapply deriv_interval; [exact I|exact Hw|exact Ew|apply D1|apply cub_deriv]. }
  apply cub_hermite; [easy| | | |].
  - rewrite <- Hy by lia. apply Ew. lra.
  - rewrite <- Hy by lia. apply Ew. lra.
  - rewrite HS by lia. apply S1. lra.
  - rewrite HS by lia. apply S1. lra.
Qed.
End Curve.

(** ** The computed spline *)
Section Computed.
Variables x y : nat -> R.
Variable m : nat.
Hypothesis inc : forall i, (i < m)%nat -> x i < x (S i).
Hypothesis H1 : (1 <= m)%nat.
Local Notation s := (slope x y m).
Local Notation her := (hermite x y s).
Lemma her_joined : joined x m her.
Proof.
  intros i Hi. destruct (hermite_ends x y s i (inc i ltac:(lia))) as (_ & A & _). destruct (hermite_ends x y s (S i) (inc (S i) Hi)) as (B & _).
  rewrite B. exact A.
Qed.
Lemma her1_joined : joined x m (ppderiv her).
Proof.
  intros i Hi. destruct (hermite_ends x y s i (inc i ltac:(lia))) as (_ & _ & _ & A & _). destruct (hermite_ends x y s (S i) (inc (S i) Hi)) as (_ & _ & B & _).
  unfold ppderiv. rewrite B. exact A.
Qed.
Lemma her2_joined : joined x m (ppderiv (ppderiv her)).
Proof.
  intros i Hi. assert (P1 := dx_pos x m inc i ltac:(lia)). assert (P2 := dx_pos x m inc (S i) ltac:(lia)).
  destruct (hermite_ends x y s i (inc i ltac:(lia))) as (_ & _ & _ & _ & _ & A). destruct (hermite_ends x y s (S i) (inc (S i) Hi)) as (_ & _ & _ & _ & B & _).
  unfold ppderiv. rewrite B. etransitivity; [exact A|]. clear A B.
  assert (E : dx x (S i) * s i + 2 * (dx x i + dx x (S i)) * s (S i) + dx x i * s (S (S i)) = 3 * (dx x (S i) * sl x y i + dx x i * sl x y (S i))).
  { destruct (le_lt_dec 3 m) as [H3|H3].
    - destruct (rows_slope x y m inc H3) as (_ & Ri & _). specialize (Ri (S i) ltac:(lia)). destruct (diag_mid x m H3 (S i) ltac:(lia)) as (D & L & U). rewrite D, L, U in Ri.
      unfold rhs in Ri. destruct (Nat.eqb_spec (S i) 0); [lia|]. destruct (Nat.eqb_spec (S i) m); [lia|]. cbn [Nat.sub] in Ri. rewrite Nat.sub_0_r in Ri. exact Ri.
    - assert (m = 2%nat) by lia. assert (i = 0%nat) by lia. subst m i. unfold slope. field. lra. }
  set (h := dx x i) in *. set (k := dx x (S i)) in *. apply Rmult_eq_reg_r with (h * k / 2); [|nra].
  replace ((2 * s i + 4 * s (S i) - 6 * sl x y i) / h * (h * k / 2)) with (k * (s i + 2 * s (S i) - 3 * sl x y i)) by (field; lra).
  replace ((6 * sl x y (S i) - 4 * s (S i) - 2 * s (S (S i))) / k * (h * k / 2)) with (h * (3 * sl x y (S i) - 2 * s (S i) - s (S (S i)))) by (field; lra). lra.
Qed.
(** Between neighbouring knots, both included, the spline is the piece. *)
Lemma pp_on : forall c i v, joined x m c -> (i < m)%nat -> x i <= v <= x (S i) -> ppval x m c v = peval (c i) (v - x i).
Proof.
  intros c i v J Hi Hv. unfold ppval. destruct (Nat.eq_dec i (m - 1)) as [E|N].
  - rewrite (piece_is x m inc (m - 1) v i); try lia; try easy; right; lra.
  - destruct (Req_dec v (x (S i))) as [->|Nv].
    + assert (I := inc (S i) ltac:(lia)). rewrite (piece_is x m inc (m - 1) (x (S i)) (S i)); try lia; try (right; lra).
      rewrite J by lia. f_equal. ring.
    + rewrite (piece_is x m inc (m - 1) v i); try lia; try easy; right; lra.
Qed.
Lemma pp_first : forall c v, v <= x 0%nat -> ppval x m c v = peval (c 0%nat) (v - x 0%nat).
Proof.
  intros c v Hv. unfold ppval. rewrite (piece_is x m inc (m - 1) v 0); try lia; try easy.
  destruct (Nat.eq_dec m 1); [left; lia|right]. assert (I := inc 0%nat ltac:(lia)). lra.
Qed.
Lemma pp_last : forall c v, x m <= v -> ppval x m c v = peval (c (m - 1)%nat) (v - x (m - 1)%nat).
Proof.
  intros c v Hv. unfold ppval. rewrite (piece_is x m inc (m - 1) v (m - 1)); try lia; try easy.
  right. assert (I := inc (m - 1)%nat ltac:(lia)). replace (S (m - 1)) with m in I by lia. lra.
Qed.
Lemma pp_through : forall i, (i <= m)%nat -> ppval x m her (x i) = y i.
Proof.
  intros i Hi. destruct (Nat.eq_dec i m) as [->|N].
  - assert (I := inc (m - 1)%nat ltac:(lia)). rewrite (pp_on her (m - 1) (x m) her_joined) by (try lia; replace (S (m - 1)) with m in * by lia; lra).
    destruct (hermite_ends x y s (m - 1) I) as (_ & A & _). unfold dx in A. replace (S (m - 1)) with m in A by lia. exact A.
  - assert (I := inc i ltac:(lia)). rewrite (pp_on her i (x i) her_joined) by (try lia; lra). rewrite Rminus_diag_eq by easy. now destruct (hermite_ends x y s i I) as (A & _).
Qed.
(** A piece as a cubic of the time itself *)
Lemma peval_cub : forall p u, length p = 4%nat -> exists q, forall v, peval p (v - u) = cub q v.
Proof.
  intros [|a [|b [|c [|d [|]]]]] u H; try easy. exists (a - b * u + c * u ^ 2 - d * u ^ 3, b - 2 * c * u + 3 * d * u ^ 2, c - 3 * d * u, d).
  intros v. cbn. ring.
Qed.
Lemma not_a_knot : forall i v, (3 <= m)%nat -> (i = 0 \/ i = m - 2)%nat -> peval (her i) (v - x i) = peval (her (S i)) (v - x (S i)).
Proof.
  intros i v H3 Hi. assert (P1 := dx_pos x m inc i ltac:(lia)). assert (P2 := dx_pos x m inc (S i) ltac:(lia)).
  destruct (rows_slope x y m inc H3) as (R0 & Ri & Rm). specialize (Ri (S i) ltac:(lia)). destruct (diag_mid x m H3 (S i) ltac:(lia)) as (D & L & U). rewrite D, L, U in Ri.
  unfold rhs in Ri. destruct (Nat.eqb_spec (S i) 0); [lia|]. destruct (Nat.eqb_spec (S i) m); [lia|]. cbn [Nat.sub] in Ri. rewrite Nat.sub_0_r in Ri.
  set (h := dx x i) in *. set (k := dx x (S i)) in *. set (a := sl x y i) in *. set (b := sl x y (S i)) in *.
  assert (T : (s i + s (S i) - 2 * a) * (k * k) = (s (S i) + s (S (S i)) - 2 * b) * (h * h)).
  { destruct Hi as [Hi|Hi].
    - destruct (diag_first x m) as [D0 U0]. rewrite D0, U0 in R0. unfold rhs in R0. cbn [Nat.eqb] in R0. cbv zeta in R0.
      replace (x 2%nat - x 0%nat) with (h + k) in R0 by (unfold h, k, dx; rewrite Hi; ring). subst i. fold h k a b in R0.
      apply (f_equal (fun z => z * (h + k))) in R0.
      replace (((h + 2 * (h + k)) * k * a + h * h * b) / (h + k) * (h + k)) with ((h + 2 * (h + k)) * k * a + h * h * b) in R0 by (field; lra).
      apply (f_equal (fun z => h * z)) in Ri. lra.
    - destruct (diag_last x m H3) as [D0 L0]. rewrite D0, L0 in Rm. unfold rhs in Rm. destruct (Nat.eqb_spec m 0); [lia|]. rewrite Nat.eqb_refl in Rm. cbv zeta in Rm.
      replace (m - 1)%nat with (S i) in * by lia. rewrite <- Hi in Rm. replace (x m - x i) with (h + k) in Rm by (unfold h, k, dx; replace (S (S i)) with m by lia; ring).
      fold h k a b in Rm. replace m with (S (S i)) in Rm at 2 by lia. 
      apply (f_equal (fun z => z * (h + k))) in Rm.
      replace ((k * k * a + (2 * (h + k) + k) * h * b) / (h + k) * (h + k)) with (k * k * a + (2 * (h + k) + k) * h * b) in Rm by (field; lra).
      replace (S (S i)) with m in * by lia. apply (f_equal (fun z => k * z)) in Ri. lra. }
  unfold hermite. fold h k a b.
  assert (E : y (S i) = y i + h * a) by (unfold a, sl; fold h; field; lra). rewrite E.
  replace (v - x i) with (v - x (S i) + h) by (unfold h, dx; ring). set (u := v - x (S i)). set (s0 := s i) in *. set (s1 := s (S i)) in *. set (s2 := s (S (S i))) in *.
  assert (E2 : s2 = (s0 + s1 - 2 * a) * (k * k) / (h * h) - s1 + 2 * b). { rewrite T. field. lra. }
  assert (Eb : b = (k * s0 + 2 * (h + k) * s1 + h * ((s0 + s1 - 2 * a) * (k * k) / (h * h) - s1) - 3 * k * a) / h).
  { apply Rmult_eq_reg_r with h; [|lra]. replace ((k * s0 + 2 * (h + k) * s1 + h * ((s0 + s1 - 2 * a) * (k * k) / (h * h) - s1) - 3 * k * a) / h * h)
      with (k * s0 + 2 * (h + k) * s1 + h * ((s0 + s1 - 2 * a) * (k * k) / (h * h) - s1 + 2 * b) - 2 * h * b - 3 * k * a) by (field; lra). rewrite <- E2. lra. }
  rewrite E2. clearbody b. rewrite Eb. cbn. field. lra.
Qed.
End Computed.
Lemma curve_exists : forall x y m, (forall i, (i < m)%nat -> x i < x (S i)) -> (3 <= m)%nat -> spline_curve x y m (ppval x m (hermite x y (slope x y m))).
Proof.
  intros x y m inc H3. set (her := hermite x y (slope x y m)). assert (J : joined x m her) by (apply her_joined; (assumption || lia || lra)). assert (J1 : joined x m (ppderiv her)) by (apply her1_joined; (assumption || lia || lra)).
  assert (J2 : joined x m (ppderiv (ppderiv her))) by (apply her2_joined; (assumption || lia || lra)).
  split; [|split; [|split; [|split]]].
  - intros. apply pp_through; (assumption || lia || lra).
  - exists (ppval x m (ppderiv her)), (ppval x m (ppderiv (ppderiv her))). split; intros v; apply pp_deriv; (assumption || lia || lra).
  - intros i Hi. destruct (peval_cub (her i) (x i) eq_refl) as [q E]. exists q. intros v Hv. rewrite <- E. apply pp_on; (assumption || lia || lra).
  - destruct (peval_cub (her 1%nat) (x 1%nat) eq_refl) as [q E]. exists q. intros v Hv. rewrite <- E.
    destruct (Rle_dec (x 1%nat) v) as [A|A]; [apply pp_on; (assumption || lia || lra)|]. replace (peval (her 1%nat) (v - x 1%nat)) with (peval (her 0%nat) (v - x 0%nat)) by (apply not_a_knot; (assumption || lia)).
    destruct (Rle_dec (x 0%nat) v) as [B|B]; [apply pp_on; try assumption; try lia; lra|]. apply pp_first; try assumption; try lia; lra.
  - destruct (peval_cub (her (m - 1)%nat) (x (m - 1)%nat) eq_refl) as [q E]. exists q. intros v Hv. rewrite <- E.
    destruct (Rle_dec (x m) v) as [A|A]; [apply pp_last; (assumption || lia || lra)|].
    destruct (Rle_dec (x (m - 1)%nat) v) as [B|B]; [apply pp_on; try assumption; try lia; replace (S (m - 1)) with m by lia; lra|].
    replace (m - 1)%nat with (S (m - 2)) in * by lia.
    replace (peval (her (S (m - 2))) (v - x (S (m - 2)))) with (peval (her (m - 2)%nat) (v - x (m - 2)%nat)) by (apply not_a_knot; (assumption || lia)). apply pp_on; try assumption; try lia. lra.
Qed.

(** ** Splines through lists of points *)
Section Lists.
Variables xs ys : list R.
Hypothesis Hi : increasing xs.
Hypothesis H2 : (2 <= length xs)%nat.
Local Notation x := (fun i => nth i xs 0).
Local Notation y := (fun i => nth i ys 0).
Local Notation m := (length xs - 1)%nat.
Lemma inc_list : forall i, (i < m)%nat -> x i < x (S i).
Proof. intros i H. apply (Hi i (S i)); [lia| |]; apply nth_error_nth'; lia. Qed.
Local Notation her := (hermite x y (slope x y m)).
Lemma order_joined : forall k, (k <= 2)%Z -> joined x m (order_of x her k).
Proof.
  intros k Hk. unfold order_of. destruct (Z.ltb_spec k 0) as [N|N].
  - destruct (Z.to_nat (- k)) as [|n] eqn:E; [lia|]. cbn [Nat.iter nat_rect]. apply anti_joined.
  - assert (k = 0 \/ k = 1 \/ k = 2)%Z as [-> | [-> | ->]] by lia; cbn [Z.to_nat Pos.to_nat Pos.iter_op Nat.iter nat_rect Nat.add].
    + apply her_joined; [apply inc_list|lia].
    + apply her1_joined; [apply inc_list|lia].
    + apply her2_joined; [apply inc_list|lia].
Qed.
Lemma order_deriv : forall k v, (k <= 1)%Z -> derivable_pt_lim (spline_real k xs ys) v (spline_real (k + 1) xs ys v).
Proof.
  intros k v Hk. assert (J := order_joined k ltac:(lia)). assert (J' := order_joined (k + 1) ltac:(lia)).
  unfold spline_real. unfold order_of in *. destruct (Z.ltb_spec k 0) as [N|N].
  - assert (E : Z.to_nat (- k) = S (Z.to_nat (- (k + 1)))) by lia. rewrite E in *. cbn [Nat.iter nat_rect] in *.
    replace (if (k + 1 <? 0)%Z then Nat.iter (Z.to_nat (- (k + 1))) (ppanti x) her else Nat.iter (Z.to_nat (k + 1)) ppderiv her) with (Nat.iter (Z.to_nat (- (k + 1))) (ppanti x) her) in *
      by (destruct (Z.ltb_spec (k + 1) 0); [easy|]; replace k with (-1)%Z by lia; easy).
    apply pp_anti; [apply inc_list|lia|exact J'].
  - destruct (Z.ltb_spec (k + 1) 0); [lia|]. replace (Z.to_nat (k + 1)) with (S (Z.to_nat k)) in * by lia. cbn [Nat.iter nat_rect] in *. apply pp_deriv; [apply inc_list|lia|exact J|exact J'].
Qed.
Lemma order_start : forall k, (k < 0)%Z -> spline_real k xs ys (nth 0 xs 0) = 0.
Proof.
  intros k Hk. unfold spline_real, order_of. destruct (Z.ltb_spec k 0); [|lia]. destruct (Z.to_nat (- k)) as [|n] eqn:E; [lia|]. cbn [Nat.iter nat_rect].
  apply pp_anti_0; [apply inc_list|lia].
Qed.
Lemma order_through : forall i, (i < length xs)%nat -> spline_real 0 xs ys (nth i xs 0) = nth i ys 0.
Proof. intros i H. apply (pp_through x y m inc_list); lia. Qed.
End Lists.

Lemma inc_true : forall t, increasing t -> increasingb t = true.
Proof.
  induction t as [|a [|b r] IH]; intros Hi; [easy|easy|]. change (Rltb a b && increasingb (b :: r) = true).
  rewrite IH; [|intros i j u w A B D; apply (Hi (S i) (S j) u w); [lia|exact B|exact D]].
  destruct (Rltb_spec a b) as [|N]; [easy|]. exfalso. apply N. apply (Hi 0%nat 1%nat a b); [lia|easy|easy].
Qed.
Lemma same_derivative : forall f g d a, (forall v, derivable_pt_lim f v (d v)) -> (forall v, derivable_pt_lim g v (d v)) -> f a = g a -> forall v, f v = g v.
Proof.
  intros f g d a Hf Hg E v.
  assert (D : forall c, derivable_pt_lim (f - g)%F c ((fun _ => 0) c)) by (intros c; replace 0 with (d c - d c) by ring; apply derivable_pt_lim_minus; easy).
  destruct (Rtotal_order v a) as [L|[->|L]]; [|easy|].
  - destruct (MVT_cor2 (f - g)%F (fun _ => 0) v a L (fun c _ => D c)) as (c & A & _). unfold minus_fct in A. lra.
  - destruct (MVT_cor2 (f - g)%F (fun _ => 0) a v L (fun c _ => D c)) as (c & A & _). unfold minus_fct in A. lra.
Qed.

(** ** Theorems *)
(** CubicSpline gives the one curve that passes through the points, is twice differentiable, and is a cubic between neighbouring points, with not-a-knot ends. *)
Theorem C95_spline : forall xs ys, increasing xs -> (4 <= length xs)%nat ->
  spline_curve (fun i => nth i xs 0) (fun i => nth i ys 0) (length xs - 1) (spline_real 0 xs ys) /\
  forall f, spline_curve (fun i => nth i xs 0) (fun i => nth i ys 0) (length xs - 1) f -> forall v, spline_real 0 xs ys v = f v.
Proof.
  intros xs ys Hi H4. split.
  - apply (curve_exists (fun i => nth i xs 0) (fun i => nth i ys 0)); [apply inc_list; (assumption || lia)|lia].
  - intros f Hf v. symmetry. apply (curve_unique (fun i => nth i xs 0) (fun i => nth i ys 0)); try assumption; [apply inc_list; (assumption || lia)|lia].
Qed.
(** data_dot, data_ddot, data_int and data_iint are samples of the derivatives and integrals from the first time of one and the same curve through the data. *)
Theorem C95_data : forall t data n, increasing t -> (2 <= length t)%nat -> length data = length t ->
  exists s d dd I II : nat -> R -> C,
    (forall j i, (j < n)%nat -> (i < length t)%nat -> s j (nth i t 0) = nth j (nth i data []) C0) /\
    (forall j v, has_derivative (s j) v (d j v) /\ has_derivative (d j) v (dd j v) /\ has_derivative (I j) v (s j v) /\ has_derivative (II j) v (I j v)) /\
    (forall j, I j (nth 0 t 0) = C0 /\ II j (nth 0 t 0) = C0) /\
    (let table (g : nat -> R -> C) := Ok (map (fun v => map (fun j => g j v) (seq 0 n)) t) in
     data_dot t data n = table d /\ data_ddot t data n = table dd /\ data_int t data n = table I /\ data_iint t data n = table II).
Proof.
  intros t data n Hi H2 Hl. set (g k j := spline k t (map (fun r => nth j r C0) data)).
  exists (g 0%Z), (g 1%Z), (g 2%Z), (g (-1)%Z), (g (-2)%Z). split; [|split; [|split]].
  - intros j i Hj Hb. unfold g, spline. rewrite !order_through by (assumption || lia). rewrite !map_map.
    assert (E : forall h : list C -> R, nth i (map h data) 0 = h (nth i data [])).
    { intros h. rewrite (nth_indep _ 0 (h [])) by (rewrite map_length; lia). apply map_nth. }
    rewrite !E. now destruct (nth j (nth i data []) C0).
  - intros j v. unfold g. repeat split; cbn [re im spline].
    all: match goal with |- derivable_pt_lim _ _ (spline_real ?k _ _ _) => let k' := eval cbv in (k - 1)%Z in change k with (k' + 1)%Z end; apply order_deriv; (assumption || lia).
  - intros j. unfold g, spline. rewrite !order_start by (assumption || lia). easy.
  - cbv zeta. unfold data_dot, data_ddot, data_int, data_iint, splines. destruct (Nat.ltb_spec (length t) 2); [lia|].
    rewrite (inc_true t Hi). cbn [negb orb]. repeat split.
Qed.

(** Samples of a cubic: all derivatives and integrals are exact, everywhere. *)
Definition cubI (p : R * R * R * R) (v : R) : R := let '(a, b, c, d) := p in a * v + b * v ^ 2 / 2 + c * v ^ 3 / 3 + d * v ^ 4 / 4.
Definition cubII (p : R * R * R * R) (v : R) : R := let '(a, b, c, d) := p in a * v ^ 2 / 2 + b * v ^ 3 / 6 + c * v ^ 4 / 12 + d * v ^ 5 / 20.
Lemma cubI_deriv : forall p v, derivable_pt_lim (cubI p) v (cub p v) /\ derivable_pt_lim (cubII p) v (cubI p v).
Proof.
  intros [[[a b] c] d] v. split.
  - apply deriv_local with (g := peval [0; a; b / 2; c / 3; d / 4]) (d := 1); [lra|intros w _; cbn; field|].
    replace (cub (a, b, c, d) v) with (peval (pderiv [0; a; b / 2; c / 3; d / 4]) v) by (cbn; field). apply peval_deriv.
  - apply deriv_local with (g := peval [0; 0; a / 2; b / 6; c / 12; d / 20]) (d := 1); [lra|intros w _; cbn; field|].
    replace (cubI (a, b, c, d) v) with (peval (pderiv [0; 0; a / 2; b / 6; c / 12; d / 20]) v) by (cbn; field). apply peval_deriv.
Qed.
Lemma cub_curve : forall xs p, increasing xs -> (4 <= length xs)%nat -> forall v, spline_real 0 xs (map (cub p) xs) v = cub p v.
Proof.
  intros xs p Hi H4. apply C95_spline; [easy|easy|]. split; [|split; [|split; [|split]]].
  - intros i H. cbv beta. rewrite (nth_indep (map (cub p) xs) 0 (cub p 0)) by (rewrite map_length; lia). now rewrite map_nth.
  - exists (cub1 p), (cub2 p). split; intros; apply cub_deriv.
  - intros i _. exists p. easy.
  - exists p. easy.
  - exists p. easy.
Qed.
Theorem C95_cubic : forall xs a b c d, increasing xs -> (4 <= length xs)%nat -> let f v := a + b * v + c * v ^ 2 + d * v ^ 3 in
  let F v := a * v + b * v ^ 2 / 2 + c * v ^ 3 / 3 + d * v ^ 4 / 4 in let G v := a * v ^ 2 / 2 + b * v ^ 3 / 6 + c * v ^ 4 / 12 + d * v ^ 5 / 20 in
  let x0 := nth 0 xs 0 in let ys := map f xs in forall v,
  spline_real 0 xs ys v = f v /\ spline_real 1 xs ys v = b + 2 * c * v + 3 * d * v ^ 2 /\ spline_real 2 xs ys v = 2 * c + 6 * d * v /\ spline_real 3 xs ys v = 6 * d /\
  spline_real (-1) xs ys v = F v - F x0 /\ spline_real (-2) xs ys v = G v - G x0 - F x0 * (v - x0).
Proof.
  intros xs a b c d Hi H4 f F G x0 ys. set (p := (a, b, c, d)). change f with (cub p) in *. change F with (cubI p). change G with (cubII p).
  assert (E0 : forall v, spline_real 0 xs ys v = cub p v) by (intros; apply cub_curve; easy).
  assert (H2 : (2 <= length xs)%nat) by lia.
  assert (D0 := order_deriv xs ys Hi H2).
  assert (E1 : forall v, spline_real 1 xs ys v = cub1 p v).
  { intros v. eapply uniqueness_limite; [apply (D0 0%Z v); lia|]. apply deriv_local with (g := cub p) (d := 1); [lra|intros; apply E0|apply cub_deriv]. }
  assert (E2 : forall v, spline_real 2 xs ys v = cub2 p v).
  { intros v. eapply uniqueness_limite; [apply (D0 1%Z v); lia|]. apply deriv_local with (g := cub1 p) (d := 1); [lra|intros; apply E1|apply cub_deriv]. }
  assert (EI : forall v, spline_real (-1) xs ys v = cubI p v - cubI p x0).
  { apply (same_derivative _ _ (cub p) x0).
    - intros v. rewrite <- E0. apply (D0 (-1)%Z v). lia.
    - intros v. replace (cub p v) with (cub p v - 0) by ring. apply (derivable_pt_lim_minus (cubI p) (fun _ => cubI p x0)); [apply cubI_deriv|apply derivable_pt_lim_const].
    - unfold x0. rewrite order_start by (assumption || lia). ring. }
  intros v. split; [apply E0|split; [apply E1|split; [apply E2|split; [|split; [apply EI|]]]]].
  - set (x := fun i => nth i xs 0). set (y := fun i => nth i ys 0). set (m := (length xs - 1)%nat). set (her := hermite x y (slope x y m)).
    change (ppval x m (order_of x her 3) v = 6 * d). unfold ppval. assert (L := piece_le x (m - 1) v). set (i := piece x (m - 1) v) in *.
    assert (inc : forall i, (i < m)%nat -> x i < x (S i)) by (apply inc_list; easy). assert (Lm : (i < m)%nat) by (unfold m in *; lia). assert (I := inc i Lm).
    assert (J := order_joined xs ys Hi H2).
    assert (P : forall k w, (k <= 2)%Z -> x i <= w <= x (S i) -> spline_real k xs ys w = peval (order_of x her k i) (w - x i)).
    { intros k w Hk Hw. apply (pp_on x m inc); try easy; [unfold m; lia|]. now apply J. }
    replace (peval (order_of x her 3 i) (v - x i)) with (peval (order_of x her 3 i) (x i - x i))
      by (assert (Z3 : exists z, order_of x her 3 i = [z]) by (eexists; reflexivity); destruct Z3 as [z ->]; unfold peval; ring).
    apply (deriv_interval (fun w => peval (order_of x her 2 i) (w - x i)) (cub2 p) (x i) (x (S i)) (x i)); [easy|lra| | |].
    + intros w Hw. rewrite <- P by (lia || easy). apply E2.
    + apply shift_deriv.
    + apply deriv_local with (g := peval [2 * c; 6 * d]) (d := 1); [lra|intros w _; cbn; ring|]. assert (T := peval_deriv [2 * c; 6 * d] (x i)). replace (peval (pderiv [2 * c; 6 * d]) (x i)) with (6 * d) in T by (unfold pderiv, pmulx, peval; ring). exact T.
  - revert v. apply (same_derivative _ _ (fun v => cubI p v - cubI p x0) x0).
    + intros v. rewrite <- EI. apply (D0 (-2)%Z v). lia.
    + intros v. apply deriv_local with (g := fun v => cubII p v - (fun v => peval [cubII p x0 - cubI p x0 * x0; cubI p x0] v) v) (d := 1); [lra|intros w _; cbn [peval]; ring|].
      replace (cubI p v - cubI p x0) with (cubI p v - peval (pderiv [cubII p x0 - cubI p x0 * x0; cubI p x0]) v) by (cbn [peval pderiv pmulx]; ring).
      apply derivable_pt_lim_minus; [apply cubI_deriv|apply peval_deriv].
    + unfold x0. rewrite order_start by (assumption || lia). ring.
Qed.

(** Times that do not increase, or fewer than two, are refused by everything. *)
Theorem C95_failures : forall k t data n new, (length t < 2)%nat \/ increasingb t = false -> splines k t data n new = Err ValueError.
Proof. intros k t data n new [H|H]; unfold splines; [|rewrite H; now rewrite orb_true_r]. apply Nat.ltb_lt in H. now rewrite H. Qed.
(** ModesTimeSeries: order 0 to 3 are values and derivatives, negative orders integrals, at any times; the properties of waveforms give the same numbers. *)
Theorem C95_interpolate : forall t data n new order, increasing t -> (2 <= length t)%nat ->
  interpolate t data n new order None =
  (if (order <=? 3)%Z then Ok (map (fun v => map (fun j => spline order t (map (fun r => nth j r C0) data) v) (seq 0 n)) new, None) else Err ValueError) /\
  derivative t data n 1 = data_dot t data n /\ derivative t data n 2 = data_ddot t data n /\
  antiderivative t data n 1 = data_int t data n /\ antiderivative t data n 2 = data_iint t data n.
Proof.
  intros t data n new order Hi H2.
  assert (S0 : forall k new, splines k t data n new = Ok (map (fun v => map (fun j => spline k t (map (fun r => nth j r C0) data) v) (seq 0 n)) new)).
  { intros. unfold splines. destruct (Nat.ltb_spec (length t) 2); [lia|]. now rewrite inc_true. }
  split; [|repeat split; unfold derivative, antiderivative, interpolate, data_dot, data_ddot, data_int, data_iint; cbn [rbind Z.ltb Z.compare Z.opp Pos.compare Pos.compare_cont]; now rewrite S0].
  unfold interpolate. cbn [rbind]. rewrite S0. destruct (Z.ltb_spec 3 order), (Z.leb_spec order 3); (easy || lia).
Qed.
(** Passing an array for the result raises ValueError unless it has at most one entry, although its shape and type were accepted; a single zero is not filled. *)
Theorem C95_out_refuted : forall t data n new order a, a_rows a = length new -> a_cols a = n -> (2 <= length new * n)%nat ->
  interpolate t data n new order (Some a) = Err ValueError.
Proof.
  intros t data n new order a Hr Hc H. unfold interpolate, truth. rewrite Hr, Hc, !Nat.eqb_refl. cbn [andb negb].
  destruct (length new * n)%nat as [|[|k]]; (lia || easy).
Qed.
Theorem C95_out_one : forall t data new z, increasing t -> (2 <= length t)%nat ->
  exists r, interpolate t data 1 [new] 0 None = Ok (r, None) /\
    interpolate t data 1 [new] 0 (Some (mkarr 1 1 [[z]])) = Ok (r, Some (mkarr 1 1 (if Req_EM_T (re z) 0 then if Req_EM_T (im z) 0 then [[z]] else r else r))).
Proof.
  intros t data new z Hi H2.
  assert (S0 : splines 0 t data 1 [new] = Ok [[spline 0 t (map (fun r => nth 0 r C0) data) new]]).
  { unfold splines. destruct (Nat.ltb_spec (length t) 2); [lia|]. now rewrite inc_true. }
  eexists. unfold interpolate, truth. cbn -[splines Req_EM_T]. rewrite S0. cbn -[spline Req_EM_T]. split; [reflexivity|].
  destruct (Req_EM_T (re z) 0), (Req_EM_T (im z) 0); reflexivity.
Qed.

(** Samples at 0, 1, 2, 3 *)
Lemma inc_0123 : increasing [0; 1; 2; 3].
Proof.
  intros i j a b Hij Ha Hb. destruct i as [|[|[|[|i]]]], j as [|[|[|[|j]]]]; cbn in Ha, Hb; try lia; try (injection Ha as <-); try (injection Hb as <-); try lra; try (destruct j; discriminate); try (destruct i; discriminate).
Qed.
Definition column (l : list R) : list (list C) := map (fun v => [RtoC v]) l.
(** The derivative of the integral is not the data: data_int holds the integral of the spline, and the spline through these values is another curve. *)
Theorem C95_dot_of_int_refuted : exists t data r r', increasing t /\ length t = 4%nat /\ data_int t data 1 = Ok r /\ data_dot t r 1 = Ok r' /\ r' <> data.
Proof.
  set (t := [0; 1; 2; 3]). set (f v := 0 + 0 * v + 0 * v ^ 2 + 1 * v ^ 3). set (g v := 0 + 3 / 2 * v + - 11 / 4 * v ^ 2 + 3 / 2 * v ^ 3).
  assert (H4 : (4 <= length t)%nat) by (cbn; lia).
  assert (Z0 : forall v, 0 + 0 * v + 0 * v ^ 2 + 0 * v ^ 3 = 0) by (intros; ring).
  assert (F := C95_cubic t 0 0 0 1 inc_0123 H4). assert (G := C95_cubic t 0 (3 / 2) (- 11 / 4) (3 / 2) inc_0123 H4). assert (Z := C95_cubic t 0 0 0 0 inc_0123 H4). cbv zeta in F, G, Z.
  assert (Em : forall h : R -> R, map (fun r : list C => nth 0 r C0) (column (map h t)) = map (fun v => RtoC (h v)) t) by (intros; reflexivity).
  assert (K : forall k h, map (fun v => map (fun j => spline k t (map (fun r => nth j r C0) (column (map h t))) v) (seq 0 1)) t = map (fun v => [mkC (spline_real k t (map h t) v) (spline_real k t (map (fun v => 0 + 0 * v + 0 * v ^ 2 + 0 * v ^ 3) t) v)]) t).
  { intros k h. apply map_ext. intros v. cbn [seq map]. fold (map h t). rewrite Em. unfold spline. rewrite !map_map. cbn [RtoC re im].
    rewrite (map_ext (fun _ => 0) (fun v => 0 + 0 * v + 0 * v ^ 2 + 0 * v ^ 3)) by (intros; now rewrite Z0). reflexivity. }
  assert (S0 : forall k h, splines k t (column (map h t)) 1 t = Ok (map (fun v => [mkC (spline_real k t (map h t) v) (spline_real k t (map (fun v => 0 + 0 * v + 0 * v ^ 2 + 0 * v ^ 3) t) v)]) t)).
  { intros k h. unfold splines. destruct (Nat.ltb_spec (length t) 2); [cbn in *; lia|]. rewrite (inc_true t inc_0123). cbn [negb orb]. now rewrite K. }
  assert (A : data_int t (column (map f t)) 1 = Ok (column (map g t))).
  { unfold data_int. rewrite S0. f_equal. unfold column. rewrite map_map. apply map_ext_in. intros v Hv.
    destruct (F v) as (_ & _ & _ & _ & E & _). destruct (Z v) as (_ & _ & _ & _ & E' & _). rewrite E'. unfold f. rewrite E. unfold RtoC. f_equal. apply C_eq; cbn [re im].
    - unfold g, t. cbn [nth]. unfold t in Hv. destruct Hv as [<-|[<-|[<-|[<-|[]]]]]; field.
    - field. }
  exists t, (column (map f t)), (column (map g t)). eexists. split; [apply inc_0123|split; [easy|split; [exact A|split; [unfold data_dot; apply S0|]]]].
  intros E. apply (f_equal (fun r => re (nth 0 (nth 0 r []) C0))) in E. change (spline_real 1 t (map g t) 0 = f 0) in E. destruct (G 0) as (_ & B & _). unfold g in E. rewrite B in E. unfold f in E. lra.
Qed.
(** With three points a parabola is used, so cubics are not reproduced. *)
Theorem C95_three_refuted : spline_real 0 [0; 1; 2] (map (fun v => v ^ 3) [0; 1; 2]) 3 <> 3 ^ 3.
Proof.
  unfold spline_real, ppval. cbn [length Nat.sub map piece nth]. destruct (Rleb_spec 1 3); [|lra]. unfold order_of, hermite, slope, sl, dx. cbn. lra.
Qed.
(** Five points that are not on a cubic: the slope at the first one, and the integral over the first step *)
Example C95_case : spline_real 1 [0; 1; 2; 3; 4] [0; 0; 1; 0; 0] 0 = -2 /\ spline_real 1 [0; 1; 2; 3; 4] [0; 0; 1; 0; 0] 2 = 0 /\
  spline_real (-1) [0; 1; 2; 3; 4] [0; 0; 1; 0; 0] 1 = - 13 / 48.
Proof.
  set (x := fun i => nth i [0; 1; 2; 3; 4] 0). set (y := fun i => nth i [0; 0; 1; 0; 0] 0). set (s := fun i => nth i [-2; 5 / 4; 0; - 5 / 4; 2] 0).
  assert (inc : forall i, (i < 4)%nat -> x i < x (S i)) by (intros [|[|[|[|i]]]] H; cbn; (lra || lia)).
  assert (HR : rows x y 4 s).
  { repeat split; [|intros [|[|[|[|i]]]] H; try lia|]; unfold rhs, diag, lower, upper, sl, dx, x, y, s; cbn [Nat.eqb Nat.sub nth]; field. }
  assert (E : forall i, (i <= 4)%nat -> slope x y 4 i = s i).
  { intros i H. rewrite (slope_back x y 4) by (assumption || lia). rewrite <- (rows_unique x y 4 inc ltac:(lia) s HR) by lia. f_equal. lia. }
  assert (Hh : forall i, (i < 4)%nat -> hermite x y (slope x y 4) i = hermite x y s i) by (intros i H; unfold hermite; now rewrite !E by lia).
  assert (H0 := Hh 0%nat ltac:(lia)). assert (H1 := Hh 1%nat ltac:(lia)). assert (H2 := Hh 2%nat ltac:(lia)).
  unfold spline_real. cbv zeta. cbn [length Nat.sub]. fold x y. unfold ppval. change (4 - 1)%nat with 3%nat. cbv zeta.
  rewrite (piece_is x 4 inc 3 0 0), (piece_is x 4 inc 3 2 2), (piece_is x 4 inc 3 1 1) by (try lia; try (left; lia); right; cbn; lra).
  set (H := hermite x y (slope x y 4)) in *. change (order_of x H 1 0) with (pderiv (H 0%nat)). change (order_of x H 1 2) with (pderiv (H 2%nat)).
  change (order_of x H (-1) 1) with (panti (peval (panti 0 (H 0%nat)) (x 1%nat - x 0%nat)) (H 1%nat)). rewrite H0, H1, H2.
  unfold hermite, sl, dx, x, y, s. cbn [nth pderiv pmulx peval panti pdivx]. repeat split; field.
Qed.
