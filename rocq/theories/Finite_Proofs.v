(** * C58: finite-radius data are read as functions of retarded time in units of the mass *)
From Coq Require Import Reals ZArith List Bool Lia Lra.
From Verif Require Import Common Cplx Quat Times_Model Times_Proofs Tables_Model Finite_Model.
From Verif Require H5_Model.
Import ListNotations.
Open Scope R_scope.

(** ** Specification *)
(** The times that are integrated: those of the lapse, or of the waveform in the rotating format. *)
Definition clock (rotating : bool) (s : source) : list R := if rotating then s_modes_t s else s_lapse_t s.
(** Schwarzschild tortoise coordinate and static rate. *)
Definition rstar (E r : R) : R := r + 2 * E * ln (r / (2 * E) - 1).
Definition redshift (E r : R) : R := sqrt (1 - 2 * E / r).
(** Trapezoidal integral of lapse over redshift up to sample [k]. *)
Fixpoint proper (E : R) (T N r : nat -> R) (k : nat) : R :=
  match k with
  | O => T O
  | S j => proper E T N r j + (T (S j) - T j) * (N j / redshift E (r j) + N (S j) / redshift E (r (S j))) / 2
  end.
(** Powers of radius and mass that make the data dimensionless (__init__.py 83-84). *)
Definition r_power (d : Z) : nat := Z.to_nat (nth (Z.to_nat d) RScaling 0%Z).
Definition m_power (d : Z) : Z := (nth (Z.to_nat d) MScaling 0 - nth (Z.to_nat d) RScaling 0)%Z.
Definition extrapolated_type (d : Z) : Prop := In d [h; hdot; psi4; psi3; psi2; psi1; psi0].

(** ** Lemmas about the model's helpers *)
Lemma take_spec : forall A (l : list A) Ind t, take l Ind = Ok t ->
  length t = length Ind /\ (forall k d, (k < length Ind)%nat -> (nth k Ind 0 < length l)%nat /\ nth k t d = nth (nth k Ind 0%nat) l d).
Proof.
  intros A l Ind. induction Ind as [|i r IH]; intros t H; cbn [take] in H.
  - injection H as <-. split; auto. intros k d Hk. simpl in Hk. lia.
  - destruct (nth_error l i) as [x|] eqn:E; [|discriminate].
    destruct (take l r) as [t'|]; [|discriminate]. cbn [rbind] in H. injection H as <-.
    destruct (IH _ eq_refl) as [H1 H2]. split; [simpl; auto|].
    intros [|k] d Hk; cbn [nth].
    + split; [apply nth_error_Some; congruence|]. symmetry. apply nth_error_nth. auto.
    + apply H2. simpl in Hk. lia.
Qed.

Lemma take_ok : forall A (l : list A) Ind, (forall i, In i Ind -> (i < length l)%nat) -> exists t, take l Ind = Ok t.
Proof.
  intros A l Ind. induction Ind as [|i r IH]; intros H; cbn [take]; [eauto|].
  destruct (nth_error l i) eqn:E; [|apply nth_error_None in E; specialize (H i (or_introl eq_refl)); lia].
  destruct IH as [t ->]; [intros; apply H; right; auto|]. cbn. eauto.
Qed.

Lemma take_map : forall A B (f : A -> B) l Ind, take (map f l) Ind = rmap (map f) (take l Ind).
Proof.
  intros. induction Ind as [|i r IH]; cbn [take]; auto.
  rewrite nth_error_map. destruct (nth_error l i); cbn; auto. rewrite IH. destruct (take l r); auto.
Qed.

Lemma scale_factors_spec : forall d M, M <> 0 ->
  (extrapolated_type d -> scale_factors d M = Ok (powerRZ M (m_power d), r_power d)) /\
  (~ extrapolated_type d -> scale_factors d M = Err ValueError).
Proof.
  intros d M HM. unfold extrapolated_type, scale_factors. split.
  - cbn [In]. intros H.
    repeat match type of H with _ \/ _ => destruct H as [<-|H] end; try contradiction;
      cbn -[powerRZ pow Rdiv]; f_equal; f_equal; cbn -[pow Rdiv]; try (unfold Rdiv; rewrite ?Rmult_1_l); simpl; try field; auto.
  - intros H. cbn [In] in H.
    repeat match goal with |- context [(d =? ?x)%Z] => destruct (Z.eqb_spec d x) as [->|?]; [exfalso; apply H; tauto|] end.
    reflexivity.
Qed.

Definition area (y : list (option R)) (x : list R) (k : nat) : option R :=
  omap2 (fun a b => (nth (S k) x 0 - nth k x 0) * (a + b) / 2) (nth k y None) (nth (S k) y None).

Lemma cumtrapz_length : forall y x acc, length y = length x -> length (cumtrapz acc y x) = (length x - 1)%nat.
Proof.
  induction y as [|y0 y IH]; intros [|x0 x] acc H; try discriminate; auto.
  injection H as H. destruct y as [|y1 y], x as [|x1 x]; try discriminate; auto.
  change (S (length (cumtrapz (omap2 Rplus acc (omap2 (fun a b => (x1 - x0) * (a + b) / 2) y0 y1)) (y1 :: y) (x1 :: x))) = (length (x0 :: x1 :: x) - 1)%nat).
  rewrite IH by auto. cbn [length]. lia.
Qed.

Lemma cumtrapz_nth : forall k y x acc, length y = length x -> (S k < length x)%nat ->
  nth k (cumtrapz acc y x) None =
  omap2 Rplus (match k with O => acc | S j => nth j (cumtrapz acc y x) None end) (area y x k).
Proof.
  induction k; intros [|y0 [|y1 y]] [|x0 [|x1 x]] acc Hl Hk; cbn [length] in *; try lia; [reflexivity|].
  set (acc' := omap2 Rplus acc (omap2 (fun a b => (x1 - x0) * (a + b) / 2) y0 y1)).
  change (cumtrapz acc (y0 :: y1 :: y) (x0 :: x1 :: x)) with (acc' :: cumtrapz acc' (y1 :: y) (x1 :: x)).
  change (nth (S k) (acc' :: cumtrapz acc' (y1 :: y) (x1 :: x)) None) with (nth k (cumtrapz acc' (y1 :: y) (x1 :: x)) None).
  rewrite (IHk (y1 :: y) (x1 :: x)) by (cbn [length]; lia).
  reflexivity || (f_equal; destruct k; reflexivity).
Qed.

Lemma proper_times_length : forall E T N r T1, proper_times E T N r = Ok T1 ->
  length N = length T -> length r = length T -> length T1 = length T.
Proof.
  intros E [|T0 T] N r T1 H HN Hr; [discriminate|]. unfold proper_times in H. injection H as <-.
  cbn [length]. rewrite map_length, cumtrapz_length; [cbn [length]; lia|].
  rewrite map_length, combine_length. cbn [length] in *. lia.
Qed.

Lemma nth_map_combine : forall A B D (f : A * B -> D) (la : list A) (lb : list B) k a b d, (k < length la)%nat -> length lb = length la ->
  nth k (map f (combine la lb)) d = f (nth k la a, nth k lb b).
Proof.
  intros. rewrite nth_indep with (d' := f (a, b)) by (rewrite map_length, combine_length; lia).
  rewrite map_nth. rewrite combine_nth by auto. reflexivity.
Qed.

(** Step of [proper_times] in terms of the rates, whether defined or not. *)
Lemma proper_times_step : forall E T N r T1 k, proper_times E T N r = Ok T1 ->
  length N = length T -> length r = length T -> (S k < length T)%nat ->
  nth (S k) T1 None = omap2 Rplus (nth k T1 None)
    (omap2 (fun a b => (nth (S k) T 0 - nth k T 0) * (a + b) / 2)
       (rate E (nth k N 0) (nth k r 0)) (rate E (nth (S k) N 0) (nth (S k) r 0))).
Proof.
  intros E T N r T1 k H HN Hr Hk. destruct T as [|T0 T]; [discriminate|].
  unfold proper_times in H. set (y := map _ (combine N r)) in H. injection H as <-.
  assert (Hy : length y = length (T0 :: T)) by (unfold y; rewrite map_length, combine_length; cbn [length] in *; lia).
  assert (Hyn : forall j, (j < length (T0 :: T))%nat -> nth j y None = rate E (nth j N 0) (nth j r 0)).
  { intros j Hj. unfold y. rewrite (nth_map_combine _ _ _ _ N r j 0 0 None) by lia. reflexivity. }
  set (F := fun x => omap2 Rplus x (Some T0)).
  assert (Hm : forall j l, nth j (map F l) None = F (nth j l None)).
  { intros. change (@None R) with (F None) at 1. apply map_nth. }
  cbn [nth]. rewrite Hm, cumtrapz_nth by (auto). unfold area. rewrite !Hyn by lia.
  set (A := omap2 _ (rate _ _ _) (rate _ _ _)). unfold F.
  destruct k as [|j]; cbn [nth]; [|rewrite Hm; unfold F].
  - destruct A; cbn; auto. f_equal. lra.
  - destruct (nth j (cumtrapz _ y _) None); destruct A; cbn; auto. f_equal. lra.
Qed.

Lemma proper_times_head : forall E T N r T1, proper_times E T N r = Ok T1 -> nth 0 T1 None = Some (nth 0 T 0).
Proof. intros E [|T0 T] N r T1 H; [discriminate|]. injection H as <-. reflexivity. Qed.

Lemma rate_outside : forall E N r, 0 < 2 * E < r -> rate E N r = Some (N / redshift E r).
Proof.
  intros E N r H. assert (Hx : 0 < 1 - 2 * E / r).
  { apply Rmult_lt_reg_r with r; [lra|]. replace ((1 - 2 * E / r) * r) with (r - 2 * E) by (field; lra). lra. }
  unfold rate, odiv. destruct (Req_EM_T r 0); [lra|]. cbn [obind].
  replace (-2 * E / r + 1) with (1 - 2 * E / r) by (field; lra).
  unfold osqrt. destruct (Rltb_spec (1 - 2 * E / r) 0); [lra|]. cbn [obind].
  unfold redshift. apply sqrt_lt_R0 in Hx. destruct (Req_EM_T _ 0); [lra|]. reflexivity.
Qed.

Lemma redshift_pos : forall E r, 0 < 2 * E < r -> 0 < redshift E r.
Proof.
  intros E r H. apply sqrt_lt_R0.
  apply Rmult_lt_reg_r with r; [lra|]. replace ((1 - 2 * E / r) * r) with (r - 2 * E) by (field; lra). lra.
Qed.

(** Between the centre and the horizon the rate is not a number. *)
Lemma rate_inside : forall E N r, 0 <= r <= 2 * E -> rate E N r = None.
Proof.
  intros E N r H. unfold rate, odiv. destruct (Req_EM_T r 0); auto. cbn [obind].
  unfold osqrt. destruct (Rltb_spec (-2 * E / r + 1) 0) as [|Hn]; auto. cbn [obind].
  assert (-2 * E / r + 1 = 0).
  { apply Rle_antisym; [|lra]. apply Rmult_le_reg_r with r; [lra|].
    replace ((-2 * E / r + 1) * r) with (r - 2 * E) by (field; lra). lra. }
  rewrite H0, sqrt_0. destruct (Req_EM_T 0 0); auto. lra.
Qed.

Lemma tortoise_outside : forall E r, 0 < 2 * E < r -> tortoise E r = Some (rstar E r).
Proof.
  intros E r H. unfold tortoise, odiv. destruct (Req_EM_T (2 * E) 0); [lra|]. cbn [obind].
  unfold olog. destruct (Rleb_spec (r / (2 * E) - 1) 0) as [Hl|]; [|reflexivity].
  exfalso. apply Rmult_le_compat_r with (r := 2 * E) in Hl; [|lra].
  replace ((r / (2 * E) - 1) * (2 * E)) with (r - 2 * E) in Hl by (field; lra). lra.
Qed.

Lemma tortoise_inside : forall E r, 0 <= 2 * E -> r <= 2 * E -> tortoise E r = None.
Proof.
  intros E r HE Hr. unfold tortoise, odiv. destruct (Req_EM_T (2 * E) 0); auto. cbn [obind].
  unfold olog. destruct (Rleb_spec (r / (2 * E) - 1) 0) as [|Hl]; auto.
  exfalso. apply Rnot_le_lt in Hl. apply Rmult_lt_compat_r with (r := 2 * E) in Hl; [|lra].
  replace ((r / (2 * E) - 1) * (2 * E)) with (r - 2 * E) in Hl by (field; lra). lra.
Qed.

(** Common form of the two readers. *)
Lemma read_inv : forall fuel rotating s M out, read_finite fuel rotating s M = Ok out ->
  exists Ind T N r rows frame u e T1,
    monotonic_indices (clock rotating s) MinTimeStep fuel = Ok Ind /\
    take (clock rotating s) Ind = Ok T /\ take (s_lapse s) Ind = Ok N /\ take (s_areal s) Ind = Ok r /\
    take (s_rows s) Ind = Ok rows /\
    (if (1 <? length (s_frame s))%nat then take (s_frame s) Ind else Ok (s_frame s)) = Ok frame /\
    scale_factors (s_type s) M = Ok (u, e) /\ proper_times (s_adm s) T N r = Ok T1 /\
    (rotating = false -> exists m, index_is_monotonic (s_modes_t s) = Ok m /\ forallb (fun b => b) m = true) /\
    out = mkfinite
        (map (fun t => obind t (fun t => odiv t M))
             (map (fun p => omap2 Rminus (fst p) (tortoise (s_adm s) (snd p))) (combine T1 r)))
        (map (fun p => map (fun c => obind (snd p) (fun f => Some (Cscale f c))) (fst p))
             (combine rows (map (fun r => obind (odiv r (s_coord s)) (fun q => Some (q ^ e * u))) r)))
        (map (fun r => r / M) r) (s_type s) frame true.
Proof.
  intros fuel rotating s M out H. unfold read_finite in H.
  destruct (if rotating then read_rpdmb fuel s else read_nrar fuel s) as [a|] eqn:Ea; [|discriminate].
  cbn [rbind] in H.
  assert (Hx : exists Ind T N r, monotonic_indices (clock rotating s) MinTimeStep fuel = Ok Ind /\
    take (clock rotating s) Ind = Ok T /\ take (s_lapse s) Ind = Ok N /\ take (s_areal s) Ind = Ok r /\
    (rotating = false -> exists m, index_is_monotonic (s_modes_t s) = Ok m /\ forallb (fun b => b) m = true) /\
    a = mkaux T Ind r N (s_rows s)).
  { destruct rotating; unfold read_rpdmb, read_nrar in Ea; cbn [clock].
    - destruct (monotonic_indices _ _ _) as [Ind|] eqn:E1; [|discriminate]; cbn [rbind] in Ea.
      destruct (take (s_modes_t s) Ind) as [T|] eqn:E2; [|discriminate]; cbn [rbind] in Ea.
      destruct (take (s_areal s) Ind) as [r|] eqn:E3; [|discriminate]; cbn [rbind] in Ea.
      destruct (take (s_lapse s) Ind) as [N|] eqn:E4; [|discriminate]; cbn [rbind] in Ea.
      injection Ea as <-. exists Ind, T, N, r. repeat split; auto. discriminate.
    - destruct (monotonic_indices _ _ _) as [Ind|] eqn:E1; [|discriminate]; cbn [rbind] in Ea.
      destruct (take (s_lapse_t s) Ind) as [T|] eqn:E2; [|discriminate]; cbn [rbind] in Ea.
      destruct (take (s_areal s) Ind) as [r|] eqn:E3; [|discriminate]; cbn [rbind] in Ea.
      destruct (take (s_lapse s) Ind) as [N|] eqn:E4; [|discriminate]; cbn [rbind] in Ea.
      destruct (index_is_monotonic (s_modes_t s)) as [m|] eqn:E5; [|discriminate]; cbn [rbind] in Ea.
      destruct (forallb _ m) eqn:E6; [|discriminate].
      injection Ea as <-. exists Ind, T, N, r. repeat split; eauto. }
  destruct Hx as (Ind & T & N & r & H1 & H2 & H3 & H4 & H5 & ->).
  unfold rescale in H. cbn [a_T a_Ind a_radii a_lapse a_rows] in H.
  destruct (proper_times _ _ _ _) as [T1|] eqn:E1; [|discriminate]; cbn [rbind] in H.
  destruct (scale_factors _ _) as [[u e]|] eqn:E2; [|discriminate]; cbn [rbind] in H.
  destruct (take (s_rows s) Ind) as [rows|] eqn:E3; [|discriminate]; cbn [rbind] in H.
  destruct (if (1 <? length (s_frame s))%nat then _ else _) as [frame|] eqn:E4; [|discriminate]; cbn [rbind] in H.
  injection H as <-. exists Ind, T, N, r, rows, frame, u, e, T1. repeat split; auto.
Qed.

(** ** Theorems *)
(** Every sample that is kept: which one it is, its radius, its data and its time. *)
Theorem C58_samples : forall fuel rotating s M out, M <> 0 -> read_finite fuel rotating s M = Ok out ->
  exists Ind, monotonic_indices (clock rotating s) MinTimeStep fuel = Ok Ind /\
  length (f_t out) = length Ind /\ length (f_rows out) = length Ind /\ length (f_radii out) = length Ind /\
  f_type out = s_type s /\ f_m_is_scaled_out out = true /\ extrapolated_type (s_type s) /\
  let T k := nth (nth k Ind 0%nat) (clock rotating s) 0 in
  let N k := nth (nth k Ind 0%nat) (s_lapse s) 0 in
  let r k := nth (nth k Ind 0%nat) (s_areal s) 0 in
  forall k, (k < length Ind)%nat ->
    nth k (f_radii out) 0 = r k / M /\
    (s_coord s <> 0 ->
       nth k (f_rows out) [] =
       map (fun c => Some (Cscale ((r k / s_coord s) ^ r_power (s_type s) * powerRZ M (m_power (s_type s))) c))
           (nth (nth k Ind 0%nat) (s_rows s) [])) /\
    ((forall j, (j <= k)%nat -> 0 < 2 * s_adm s < r j) ->
       nth k (f_t out) None = Some ((proper (s_adm s) T N r k - rstar (s_adm s) (r k)) / M)) /\
    ((1 < length (s_frame s))%nat -> length (f_frame out) = length Ind /\
       nth k (f_frame out) q0 = nth (nth k Ind 0%nat) (s_frame s) q0) /\
    ((length (s_frame s) <= 1)%nat -> f_frame out = s_frame s).
Proof.
  intros fuel rotating s M out HM H.
  destruct (read_inv _ _ _ _ _ H) as (Ind & T & N & r & rows & frame & u & e & T1 & H1 & H2 & H3 & H4 & H5 & H6 & H7 & H8 & _ & ->).
  exists Ind. split; auto.
  destruct (take_spec _ _ _ _ H2) as [LT HT]. destruct (take_spec _ _ _ _ H3) as [LN HN].
  destruct (take_spec _ _ _ _ H4) as [Lr Hr]. destruct (take_spec _ _ _ _ H5) as [Lrows Hrows].
  assert (L1 : length T1 = length Ind) by (rewrite (proper_times_length _ _ _ _ _ H8); lia).
  cbv beta iota delta [f_t f_rows f_radii f_type f_frame f_m_is_scaled_out].
  rewrite !map_length, !combine_length, !map_length.
  split; [lia|]. split; [lia|]. split; [lia|]. split; auto. split; auto.
  assert (Htype : extrapolated_type (s_type s)).
  { destruct (scale_factors_spec (s_type s) M HM) as [_ Hno].
    destruct (in_dec Z.eq_dec (s_type s) [h; hdot; psi4; psi3; psi2; psi1; psi0]); auto.
    rewrite Hno in H7 by auto. discriminate. }
  split; auto.
  destruct (scale_factors_spec (s_type s) M HM) as [Hf _]. rewrite Hf in H7 by auto. injection H7 as <- <-.
  intros Tk Nk rk k Hk.
  split. { rewrite nth_indep with (d' := 0 / M) by (rewrite map_length; lia).
           rewrite (map_nth (fun r => r / M)). unfold rk. f_equal. apply Hr. auto. }
  split.
  { intros Hc. rewrite (nth_map_combine _ _ _ _ _ _ k [] None) by (rewrite ?map_length; lia).
    cbn [fst snd]. rewrite nth_indep with (d' := obind (odiv 0 (s_coord s)) (fun q => Some (q ^ r_power (s_type s) * powerRZ M (m_power (s_type s)))))
      by (rewrite map_length; lia).
    rewrite (map_nth (fun r => obind (odiv r (s_coord s)) (fun q => Some (q ^ r_power (s_type s) * powerRZ M (m_power (s_type s)))))).
    destruct (Hrows k [] Hk) as [_ ->]. destruct (Hr k 0 Hk) as [_ ->].
    unfold odiv. destruct (Req_EM_T (s_coord s) 0); [contradiction|]. reflexivity. }
  split.
  { intros Hout.
    assert (HP : forall j, (j <= k)%nat -> nth j T1 None = Some (proper (s_adm s) Tk Nk rk j)).
    { induction j as [|j IH]; intros Hj.
      - rewrite (proper_times_head _ _ _ _ _ H8). cbn [proper]. unfold Tk. f_equal. apply HT. lia.
      - rewrite (proper_times_step _ _ _ _ _ j H8) by lia. rewrite IH by lia.
        destruct (Hr j 0 ltac:(lia)) as [_ ->]. destruct (Hr (S j) 0 ltac:(lia)) as [_ ->].
        rewrite !rate_outside by (apply Hout; lia). cbn [omap2 proper].
        destruct (HT j 0 ltac:(lia)) as [_ ->]. destruct (HT (S j) 0 ltac:(lia)) as [_ ->].
        destruct (HN j 0 ltac:(lia)) as [_ ->]. destruct (HN (S j) 0 ltac:(lia)) as [_ ->]. reflexivity. }
    set (G := fun t => obind t (fun t => odiv t M)). change (@None R) with (G None) at 1. rewrite map_nth.
    rewrite (nth_map_combine _ _ _ _ _ _ k None 0) by lia. cbn [fst snd]. rewrite HP by lia.
    destruct (Hr k 0 Hk) as [_ ->]. rewrite tortoise_outside by (apply Hout; lia).
    cbn. unfold odiv. destruct (Req_EM_T M 0); [contradiction|]. reflexivity. }
  split; intros Hfl.
  - destruct (Nat.ltb_spec 1 (length (s_frame s))); [|lia].
    destruct (take_spec _ _ _ _ H6) as [Lf Hf2]. split; auto. apply Hf2. auto.
  - destruct (Nat.ltb_spec 1 (length (s_frame s))); [lia|]. congruence.
Qed.

Lemma filter_ok : forall T step fuel Ind, 0 <= step -> monotonic_indices T step fuel = Ok Ind ->
  forall k, (1 <= k < length T)%nat -> nth 0 T 0 + step < nth k T 0.
Proof.
  intros T step fuel Ind Hs H k Hk. destruct (Rlt_dec (nth 0 T 0 + step) (nth k T 0)); auto.
  rewrite C11_diverges_otherwise_refuted in H; [discriminate|auto|exists k; split; auto; lra].
Qed.

Lemma filter_fuel : forall T step f1 f2 Ind1 Ind2, monotonic_indices T step f1 = Ok Ind1 -> monotonic_indices T step f2 = Ok Ind2 -> Ind1 = Ind2.
Proof.
  intros T step.
  assert (Hm : forall f1 f2 I i r, (f1 <= f2)%nat -> mi_loop T step f1 I i = Ok r -> mi_loop T step f2 I i = Ok r).
  { induction f1; intros f2 I i r Hle H.
    - cbn [mi_loop] in H. destruct f2; cbn [mi_loop]; destruct (Nat.ltb i (length I)); auto; discriminate.
    - destruct f2; [lia|]. cbn [mi_loop] in *. destruct (Nat.ltb i (length I)); auto.
      destruct (mi_step T step I i) as [[I' i']|]; [|discriminate]. apply IHf1; auto. lia. }
  unfold monotonic_indices. intros f1 f2 I1 I2 H1 H2. destruct (Nat.le_ge_cases f1 f2) as [L|L].
  - apply (Hm _ _ _ _ _ L) in H1. congruence.
  - apply (Hm _ _ _ _ _ L) in H2. congruence.
Qed.

(** The samples kept: first and last of the file, in order, more than the minimal step apart. *)
Theorem C58_kept : forall fuel rotating s M out, read_finite fuel rotating s M = Ok out ->
  exists Ind, monotonic_indices (clock rotating s) MinTimeStep fuel = Ok Ind /\ Ind <> [] /\
    (nth 0 Ind 0 = 0)%nat /\ (nth (length Ind - 1) Ind 0 = length (clock rotating s) - 1)%nat /\
    (forall a b, (a < b < length Ind)%nat -> (nth a Ind 0 < nth b Ind 0)%nat) /\
    (forall k, (S k < length Ind)%nat ->
       nth (nth k Ind 0%nat) (clock rotating s) 0 + MinTimeStep < nth (nth (S k) Ind 0%nat) (clock rotating s) 0).
Proof.
  intros fuel rotating s M out H.
  destruct (read_inv _ _ _ _ _ H) as (Ind & T & N & r & rows & frame & u & e & T1 & H1 & H2 & _ & _ & _ & _ & _ & H8 & _).
  exists Ind. split; auto.
  assert (Hs : 0 <= MinTimeStep) by (unfold MinTimeStep; lra).
  assert (Hne : clock rotating s <> []).
  { intros E. rewrite E in H1. cbv [monotonic_indices length seq] in H1. destruct fuel; cbn in H1; injection H1 as <-;
      cbn in H2; injection H2 as <-; discriminate. }
  destruct (C11_terminates_and_correct _ _ Hne (filter_ok _ _ _ _ Hs H1)) as (f0 & Ind' & Hf & Hrest).
  rewrite (filter_fuel _ _ _ _ _ _ H1 (Hf f0 (le_n _))). exact Hrest.
Qed.

(** The order of two consecutive samples, exactly. *)
Theorem C58_order : forall fuel rotating s M out Ind k, 0 < M -> read_finite fuel rotating s M = Ok out ->
  monotonic_indices (clock rotating s) MinTimeStep fuel = Ok Ind -> (S k < length Ind)%nat ->
  let T k := nth (nth k Ind 0%nat) (clock rotating s) 0 in
  let N k := nth (nth k Ind 0%nat) (s_lapse s) 0 in
  let r k := nth (nth k Ind 0%nat) (s_areal s) 0 in
  let E := s_adm s in
  (forall j, (j <= S k)%nat -> 0 < 2 * E < r j) ->
  exists a b, nth k (f_t out) None = Some a /\ nth (S k) (f_t out) None = Some b /\
    (a < b <-> rstar E (r (S k)) - rstar E (r k) <
       (T (S k) - T k) * (N k / redshift E (r k) + N (S k) / redshift E (r (S k))) / 2).
Proof.
  intros fuel rotating s M out Ind k HM H HI Hk T N r E Hout.
  destruct (C58_samples _ _ _ _ _ (ltac:(lra) : M <> 0) H) as (Ind' & HI' & _ & _ & _ & _ & _ & _ & HS).
  rewrite HI in HI'. injection HI' as <-. cbv zeta in HS.
  destruct (HS k ltac:(lia)) as (_ & _ & Ha & _). specialize (Ha (fun j Hj => Hout j ltac:(lia))).
  destruct (HS (S k) Hk) as (_ & _ & Hb & _). specialize (Hb Hout).
  eexists _, _. split; [exact Ha|]. split; [exact Hb|]. cbn [proper]. subst T N r E. cbv beta.
  match goal with |- (?P - _) / M < (_ + ?D - _) / M <-> _ => set (P0 := P); set (D0 := D) end.
  unfold Rdiv. assert (Hi : 0 < / M) by (apply Rinv_0_lt_compat; auto).
  split; intros HL.
  - apply Rmult_lt_reg_r in HL; auto. lra.
  - apply Rmult_lt_compat_r; auto. lra.
Qed.

(** At a fixed radius and with positive lapse the times increase. *)
Theorem C58_increasing : forall fuel rotating s M out R0, 0 < M -> 0 < 2 * s_adm s < R0 ->
  (forall x, In x (s_areal s) -> x = R0) -> (forall x, In x (s_lapse s) -> 0 < x) ->
  read_finite fuel rotating s M = Ok out ->
  forall k, (S k < length (f_t out))%nat ->
  exists a b, nth k (f_t out) None = Some a /\ nth (S k) (f_t out) None = Some b /\ a < b.
Proof.
  intros fuel rotating s M out R0 HM HE Hr HN H k Hk.
  destruct (C58_samples _ _ _ _ _ (ltac:(lra) : M <> 0) H) as (Ind & HI & Ht & _).
  destruct (C58_kept _ _ _ _ _ H) as (Ind' & HI' & _ & _ & _ & _ & Hgap).
  rewrite HI in HI'. injection HI' as <-. rewrite Ht in Hk.
  destruct (read_inv _ _ _ _ _ H) as (Ind' & T & N & r & rows & frame & u & e & T1 & HI' & _ & H3 & H4 & _).
  rewrite HI in HI'. injection HI' as <-.
  assert (Hrk : forall j, (j < length Ind)%nat -> nth (nth j Ind 0%nat) (s_areal s) 0 = R0).
  { intros j Hj. apply Hr. apply nth_In. destruct (take_spec _ _ _ _ H4) as [_ X]. apply (X j 0 Hj). }
  assert (HNk : forall j, (j < length Ind)%nat -> 0 < nth (nth j Ind 0%nat) (s_lapse s) 0).
  { intros j Hj. apply HN. apply nth_In. destruct (take_spec _ _ _ _ H3) as [_ X]. apply (X j 0 Hj). }
  destruct (C58_order fuel rotating s M out Ind k HM H HI Hk) as (a & b & Ea & Eb & Hab).
  { intros j Hj. rewrite Hrk by lia. auto. }
  exists a, b. split; auto. split; auto. apply Hab. rewrite !Hrk by lia.
  pose proof (redshift_pos _ _ HE) as Hp. specialize (Hgap k Hk). unfold MinTimeStep in Hgap.
  rewrite Rminus_diag_eq by reflexivity.
  apply Rmult_lt_0_compat; [|lra]. apply Rmult_lt_0_compat; [lra|].
  assert (0 < / redshift (s_adm s) R0) by (apply Rinv_0_lt_compat; auto).
  unfold Rdiv. pose proof (Rmult_lt_0_compat _ _ (HNk k ltac:(lia)) H0).
  pose proof (Rmult_lt_0_compat _ _ (HNk (S k) ltac:(lia)) H0). lra.
Qed.

(** A static observer in Schwarzschild: the result is the retarded time (t - r_star)/M exactly, at
    every sample. *)
Theorem C58_static : forall fuel rotating s M out R0, M <> 0 -> 0 < 2 * s_adm s < R0 ->
  (forall x, In x (s_areal s) -> x = R0) -> (forall x, In x (s_lapse s) -> x = redshift (s_adm s) R0) ->
  read_finite fuel rotating s M = Ok out ->
  exists Ind, monotonic_indices (clock rotating s) MinTimeStep fuel = Ok Ind /\
    f_t out = map (fun i => Some ((nth i (clock rotating s) 0 - rstar (s_adm s) R0) / M)) Ind.
Proof.
  intros fuel rotating s M out R0 HM HE Hr HN H.
  destruct (C58_samples _ _ _ _ _ HM H) as (Ind & HI & Ht & _ & _ & _ & _ & _ & HS).
  exists Ind. split; auto. cbv zeta in HS.
  destruct (read_inv _ _ _ _ _ H) as (Ind' & T & N & r & rows & frame & u & e & T1 & HI' & _ & H3 & H4 & _).
  rewrite HI in HI'. injection HI' as <-.
  assert (Hrk : forall j, (j < length Ind)%nat -> nth (nth j Ind 0%nat) (s_areal s) 0 = R0).
  { intros j Hj. apply Hr. apply nth_In. destruct (take_spec _ _ _ _ H4) as [_ X]. apply (X j 0 Hj). }
  assert (HNk : forall j, (j < length Ind)%nat -> nth (nth j Ind 0%nat) (s_lapse s) 0 = redshift (s_adm s) R0).
  { intros j Hj. apply HN. apply nth_In. destruct (take_spec _ _ _ _ H3) as [_ X]. apply (X j 0 Hj). }
  pose proof (redshift_pos _ _ HE) as Hp.
  apply nth_ext with (d := None) (d' := None); [rewrite map_length; auto|].
  intros k Hk. rewrite Ht in Hk.
  destruct (HS k Hk) as (_ & _ & Ha & _). rewrite Ha by (intros j Hj; rewrite Hrk by lia; auto).
  rewrite nth_indep with (l := map _ Ind) (d' := (fun i => Some ((nth i (clock rotating s) 0 - rstar (s_adm s) R0) / M)) 0%nat)
    by (rewrite map_length; auto).
  rewrite (map_nth (fun i => Some ((nth i (clock rotating s) 0 - rstar (s_adm s) R0) / M))).
  rewrite Hrk by auto. repeat f_equal.
  clear - Hrk HNk Hp Hk. induction k as [|k IH]; [reflexivity|]. cbn [proper].
  rewrite IH by lia. rewrite !Hrk, !HNk by lia. field. lra.
Qed.

(** A sample at or inside the horizon has no time, nor has any later one. *)
Theorem C58_inside_horizon : forall fuel rotating s M out Ind j k, M <> 0 -> read_finite fuel rotating s M = Ok out ->
  monotonic_indices (clock rotating s) MinTimeStep fuel = Ok Ind -> (j <= k < length Ind)%nat ->
  0 <= nth (nth j Ind 0%nat) (s_areal s) 0 <= 2 * s_adm s ->
  nth k (f_t out) None = None.
Proof.
  intros fuel rotating s M out Ind j k HM H HI Hk Hr.
  destruct (read_inv _ _ _ _ _ H) as (Ind' & T & N & r & rows & frame & u & e & T1 & HI' & H2 & H3 & H4 & _ & _ & _ & H8 & _ & ->).
  rewrite HI in HI'. injection HI' as <-.
  destruct (take_spec _ _ _ _ H2) as [LT _]. destruct (take_spec _ _ _ _ H3) as [LN _].
  destruct (take_spec _ _ _ _ H4) as [Lr Hrk].
  assert (L1 : length T1 = length Ind) by (rewrite (proper_times_length _ _ _ _ _ H8); lia).
  cbn [f_t].
  set (G := fun t => obind t (fun t => odiv t M)). change (@None R) with (G None) at 1. rewrite map_nth.
  rewrite (nth_map_combine _ _ _ _ _ _ k None 0) by lia. cbn [fst snd].
  assert (Hj : nth j r 0 = nth (nth j Ind 0%nat) (s_areal s) 0) by (apply Hrk; lia). rewrite <- Hj in Hr.
  destruct (Nat.eq_dec j k) as [->|Hne].
  - rewrite tortoise_inside by lra. destruct (nth k T1 None); reflexivity.
  - assert (HN : nth k T1 None = None).
    { assert (Hge : forall d, (j + S d < length Ind)%nat -> nth (j + S d) T1 None = None).
      { induction d as [|d IH]; intros Hd.
        - replace (j + 1)%nat with (S j) by lia. rewrite (proper_times_step _ _ _ _ _ j H8) by lia.
          rewrite (rate_inside _ _ _ Hr). cbn. destruct (nth j T1 None); reflexivity.
        - replace (j + S (S d))%nat with (S (j + S d)) by lia. rewrite (proper_times_step _ _ _ _ _ (j + S d) H8) by lia.
          rewrite IH by lia. reflexivity. }
      replace k with (j + S (k - S j))%nat by lia. apply Hge. lia. }
    rewrite HN. reflexivity.
Qed.

(** No other data type is accepted. *)
Theorem C58_other_types : forall fuel rotating s M, M <> 0 -> ~ extrapolated_type (s_type s) ->
  forall out, read_finite fuel rotating s M <> Ok out.
Proof.
  intros fuel rotating s M HM Ht out H. apply Ht.
  destruct (C58_samples _ _ _ _ _ HM H) as (Ind & _ & _ & _ & _ & _ & _ & X & _). exact X.
Qed.

(** Data in good order are read: enough iterations make the reader return. *)
Theorem C58_reads : forall rotating s M, M <> 0 -> extrapolated_type (s_type s) ->
  clock rotating s <> [] ->
  (forall k, (1 <= k < length (clock rotating s))%nat -> nth 0 (clock rotating s) 0 + MinTimeStep < nth k (clock rotating s) 0) ->
  (rotating = false -> s_modes_t s <> [] /\ (strictly_up (s_modes_t s) \/ strictly_down (s_modes_t s))) ->
  (length (clock rotating s) <= length (s_areal s))%nat -> (length (clock rotating s) <= length (s_lapse s))%nat ->
  (length (clock rotating s) <= length (s_rows s))%nat ->
  ((1 < length (s_frame s))%nat -> (length (clock rotating s) <= length (s_frame s))%nat) ->
  exists fuel0 out, forall fuel, (fuel0 <= fuel)%nat -> read_finite fuel rotating s M = Ok out.
Proof.
  intros rotating s M HM Ht Hne Hlater Hmono La Ll Lr Lf.
  destruct (C11_terminates_and_correct _ _ Hne Hlater) as (f0 & Ind & Hf & HIne & _ & Hlast & Hinc & _).
  assert (Hin : forall i, In i Ind -> (i < length (clock rotating s))%nat).
  { intros i Hi. apply In_nth with (d := 0%nat) in Hi as (k & Hk & <-).
    assert (0 < length (clock rotating s))%nat by (destruct (clock rotating s); [contradiction|simpl; lia]).
    destruct (Nat.eq_dec k (length Ind - 1)) as [->|]; [lia|].
    specialize (Hinc k (length Ind - 1)%nat ltac:(lia)). lia. }
  destruct (take_ok _ (clock rotating s) Ind Hin) as [T ET].
  destruct (take_ok _ (s_areal s) Ind) as [r Er]; [intros i Hi; specialize (Hin i Hi); lia|].
  destruct (take_ok _ (s_lapse s) Ind) as [N EN]; [intros i Hi; specialize (Hin i Hi); lia|].
  destruct (take_ok _ (s_rows s) Ind) as [rows Erows]; [intros i Hi; specialize (Hin i Hi); lia|].
  assert (Efr : exists fr, (if (1 <? length (s_frame s))%nat then take (s_frame s) Ind else Ok (s_frame s)) = Ok fr).
  { destruct (Nat.ltb_spec 1 (length (s_frame s))); [|eauto].
    apply take_ok. intros i Hi. specialize (Hin i Hi). specialize (Lf H). lia. }
  destruct Efr as [fr Efr].
  assert (HTne : exists T0 T', T = T0 :: T').
  { destruct (take_spec _ _ _ _ ET) as [LT _]. destruct T, Ind; try discriminate; try contradiction; eauto. }
  destruct HTne as (T0 & T' & ->).
  assert (EP : exists T1, proper_times (s_adm s) (T0 :: T') N r = Ok T1) by (eexists; reflexivity).
  destruct EP as [T1 EP].
  destruct (scale_factors_spec (s_type s) M HM) as [Hs _]. specialize (Hs Ht).
  exists f0. eexists. intros fuel Hfuel. specialize (Hf fuel Hfuel). unfold read_finite.
  assert (Ea : (if rotating then read_rpdmb fuel s else read_nrar fuel s) = Ok (mkaux (T0 :: T') Ind r N (s_rows s))).
  { destruct rotating; cbn [clock] in *; unfold read_rpdmb, read_nrar; rewrite Hf; cbn [rbind]; rewrite ET; cbn [rbind];
      rewrite Er; cbn [rbind]; rewrite EN; cbn [rbind]; auto.
    destruct (Hmono eq_refl) as [Hmne Hm].
    destruct (C10_flags_are_records _ Hmne) as (m & Em & Lm & Hrec). rewrite Em. cbn [rbind].
    assert (Hall : forallb (fun b => b) m = true).
    { apply forallb_forall. intros b Hb. apply In_nth with (d := false) in Hb as (i & Hi & <-).
      apply Hrec; [lia|]. assert (Hlast' : last (s_modes_t s) 0 = nth (length (s_modes_t s) - 1) (s_modes_t s) 0) by (apply last_nth; auto).
      assert (Hhd : hd 0 (s_modes_t s) = nth 0 (s_modes_t s) 0) by (destruct (s_modes_t s); auto).
      rewrite Hlast', Hhd.
      destruct Hm as [Hu|Hd].
      - destruct (Rltb_spec 0 (nth (length (s_modes_t s) - 1) (s_modes_t s) 0 - nth 0 (s_modes_t s) 0)) as [H|H].
        + intros j Hj. apply Hu. lia.
        + intros j Hj. exfalso. specialize (Hu 0%nat (length (s_modes_t s) - 1)%nat ltac:(lia)). lra.
      - destruct (Rltb_spec 0 (nth (length (s_modes_t s) - 1) (s_modes_t s) 0 - nth 0 (s_modes_t s) 0)) as [H|H].
        + intros j Hj. exfalso. specialize (Hd 0%nat (length (s_modes_t s) - 1)%nat ltac:(lia)). lra.
        + intros j Hj. apply Hd. lia. }
    rewrite Hall. reflexivity. }
  rewrite Ea. cbn [rbind]. unfold rescale. cbn [a_T a_Ind a_radii a_lapse a_rows].
  rewrite EP. cbn [rbind]. rewrite Hs. cbn [rbind]. rewrite Erows. cbn [rbind]. rewrite Efr. cbn [rbind]. reflexivity.
Qed.

(** Repeated times, which the reader sets out to skip, are never accepted in the NRAR format: the
    times of the lapse are those of the modes, and either the search for monotonic indices does not
    end or the reader of the modes raises. *)
Theorem C58_repeated_times_refuted : forall fuel s M out, s_modes_t s = s_lapse_t s -> ~ strictly_up (s_lapse_t s) ->
  read_finite fuel false s M <> Ok out.
Proof.
  intros fuel s M out Hm Hn H. apply Hn.
  destruct (read_inv _ _ _ _ _ H) as (Ind & T & N & r & rows & frame & u & e & T1 & HI & _ & _ & _ & _ & _ & _ & _ & HX & _).
  destruct (HX eq_refl) as (m & Em & Hall). rewrite Hm in Em. cbn [clock] in HI.
  assert (Hs : 0 <= MinTimeStep) by (unfold MinTimeStep; lra).
  pose proof (filter_ok _ _ _ _ Hs HI) as Hlater. unfold MinTimeStep in Hlater.
  assert (Hne : s_lapse_t s <> []) by (intros E; rewrite E in Em; discriminate).
  destruct (C10_flags_are_records _ Hne) as (m' & Em' & Lm & Hrec). rewrite Em in Em'. injection Em' as <-.
  intros i j Hij.
  assert (Hup : Rltb 0 (last (s_lapse_t s) 0 - hd 0 (s_lapse_t s)) = true).
  { rewrite (last_nth _ Hne). replace (hd 0 (s_lapse_t s)) with (nth 0 (s_lapse_t s) 0) by (destruct (s_lapse_t s); auto).
    destruct (Rltb_spec 0 (nth (length (s_lapse_t s) - 1) (s_lapse_t s) 0 - nth 0 (s_lapse_t s) 0)) as [|Hx]; auto.
    exfalso. specialize (Hlater (length (s_lapse_t s) - 1)%nat ltac:(lia)). lra. }
  rewrite Hup in Hrec.
  apply (proj1 (Hrec j ltac:(lia))); [|lia].
  rewrite forallb_forall in Hall. apply Hall. apply nth_In. lia.
Qed.

(** The times need not be ordered when the radius moves: one unit of time, while the areal radius
    grows from 2 to 10 (with 2E = 1). *)
Definition moving : source := mksource [0; 1] [1; 1] [2; 10] 2 (1/2) [0; 1] [[C1]; [C1]] h [].
Theorem C58_moving_radius_refuted : exists fuel out a b, read_finite fuel false moving 1 = Ok out /\
  f_t out = [Some a; Some b] /\ b < a.
Proof.
  destruct (C58_reads false moving 1) as (fuel & out & H); cbn; try lia; try lra; try discriminate.
  { intros [|[|k]] Hk; try lia. cbn. unfold MinTimeStep. lra. }
  { intros _. split; [discriminate|]. left. intros [|[|i]] [|[|j]] Hij; cbn [length] in Hij; try lia. cbn. lra. }
  specialize (H fuel (le_n _)).
  destruct (C58_kept _ _ _ _ _ H) as (Ind & HI & Hne & H0 & Hl & Hinc & _).
  cbn [clock moving s_lapse_t length] in *.
  assert (EI : Ind = [0; 1]%nat).
  { destruct Ind as [|i0 [|i1 [|i2 r]]]; [contradiction| | |]; cbn [nth length] in *.
    - cbn in Hl. lia.
    - cbn in Hl. subst. reflexivity.
    - exfalso. pose proof (Hinc 0%nat 1%nat ltac:(lia)) as X. cbn in X.
      pose proof (Hinc 1%nat (S (S (length r)))%nat ltac:(lia)) as Y. cbn [nth] in Y.
      change (S (S (S (length r))) - 1)%nat with (S (S (length r)) - 0)%nat in Hl.
      rewrite Nat.sub_0_r in Hl. cbn [nth] in Hl. lia. }
  subst Ind.
  destruct (C58_samples _ _ _ _ _ (ltac:(lra) : 1 <> 0) H) as (Ind & HI2 & Lt & _).
  cbn [clock moving s_lapse_t] in HI2. rewrite HI in HI2. injection HI2 as <-. cbn [length] in Lt.
  destruct (C58_order fuel false moving 1 out [0;1]%nat 0 ltac:(lra) H HI) as (a & b & Ea & Eb & Hab); [cbn; lia| |].
  { intros [|[|j]] Hj; try lia; cbn; lra. }
  exists fuel, out, a, b. split; auto. split.
  { destruct (f_t out) as [|x [|y [|z l]]]; cbn in Lt; try lia. cbn in Ea, Eb. congruence. }
  assert (Hneq : rstar (1/2) 10 - rstar (1/2) 2 > 2).
  { unfold rstar. replace (2 / (2 * (1/2)) - 1) with 1 by field. rewrite ln_1.
    replace (10 / (2 * (1/2)) - 1) with 9 by field.
    assert (0 < ln 9) by (rewrite <- ln_1; apply ln_increasing; lra). lra. }
  assert (Hsq : forall x, 1/4 <= 1 - 2 * (1/2) / x -> 1 / redshift (1/2) x <= 2).
  { intros x Hx. unfold redshift. assert (1/2 <= sqrt (1 - 2 * (1/2) / x)).
    { replace (1/2) with (sqrt ((1/2)*(1/2))) at 1 by (apply sqrt_square; lra). apply sqrt_le_1_alt. lra. }
    set (y := sqrt _) in *. apply Rle_trans with (/ (1/2)); [|right; field].
    unfold Rdiv at 1. rewrite Rmult_1_l. apply Rinv_le_contravar; lra. }
  assert (S2 : 1 / redshift (1/2) 2 <= 2) by (apply Hsq; replace (1 - 2 * (1/2) / 2) with (1/2) by field; lra).
  assert (S10 : 1 / redshift (1/2) 10 <= 2) by (apply Hsq; replace (1 - 2 * (1/2) / 10) with (9/10) by field; lra).
  cbn [nth clock moving s_lapse_t s_lapse s_areal s_adm] in Hab.
  destruct (Rlt_dec b a) as [|Hnb]; auto. exfalso.
  destruct (Req_dec a b) as [->|Hd].
  - (* equality is excluded by the exact difference *)
    destruct (C58_samples _ _ _ _ _ (ltac:(lra) : 1 <> 0) H) as (Ind & HI2 & _ & _ & _ & _ & _ & _ & HS).
    cbn [clock moving s_lapse_t] in HI2. rewrite HI in HI2. injection HI2 as <-. cbv zeta in HS.
    destruct (HS 0%nat ltac:(cbn; lia)) as (_ & _ & X & _).
    destruct (HS 1%nat ltac:(cbn; lia)) as (_ & _ & Y & _).
    rewrite Ea in X. rewrite Eb in Y.
    specialize (X ltac:(intros [|j] Hj; [cbn; lra|lia])). specialize (Y ltac:(intros [|[|j]] Hj; try lia; cbn; lra)).
    cbn [proper nth clock moving s_lapse_t s_lapse s_areal s_adm] in X, Y.
    injection X as X. injection Y as Y. lra.
  - apply Rnot_lt_le in Hnb. assert (Hlt : a < b) by lra. apply Hab in Hlt. lra.
Qed.

(** ** Units *)
(** Lengths, times and masses multiplied by [lam]; the data are r^p times a field whose bare
    dimension is 0 for the strain, -1 for its time derivative and -2 for the Weyl scalars. *)
Definition bare_dimension (d : Z) : Z := if (d =? h)%Z then 0%Z else if (d =? hdot)%Z then (-1)%Z else (-2)%Z.
Definition dimension (d : Z) : Z := (Z.of_nat (r_power d) + bare_dimension d)%Z.
Definition in_units (lam : R) (s : source) : source :=
  mksource (map (Rmult lam) (s_lapse_t s)) (s_lapse s) (map (Rmult lam) (s_areal s)) (lam * s_coord s) (lam * s_adm s)
    (map (Rmult lam) (s_modes_t s)) (map (map (Cscale (powerRZ lam (dimension (s_type s))))) (s_rows s)) (s_type s) (s_frame s).

Lemma odiv_scale : forall lam a b, lam <> 0 -> odiv (lam * a) (lam * b) = odiv a b.
Proof.
  intros lam a b Hl. unfold odiv. destruct (Req_EM_T b 0) as [->|Hb], (Req_EM_T (lam * _) 0) as [E|E]; auto.
  - rewrite Rmult_0_r in E. lra.
  - apply Rmult_integral in E. tauto.
  - f_equal. field. auto.
Qed.

Lemma rate_scale : forall lam E N r, lam <> 0 -> rate (lam * E) N (lam * r) = rate E N r.
Proof. intros. unfold rate. replace (-2 * (lam * E)) with (lam * (-2 * E)) by ring. rewrite odiv_scale by auto. reflexivity. Qed.

Lemma tortoise_scale : forall lam E r, lam <> 0 -> tortoise (lam * E) (lam * r) = option_map (Rmult lam) (tortoise E r).
Proof.
  intros. unfold tortoise. replace (2 * (lam * E)) with (lam * (2 * E)) by ring. rewrite odiv_scale by auto.
  destruct (odiv r (2 * E)) as [x|]; auto. cbn [obind]. destruct (olog (x - 1)); auto. cbn. f_equal. ring.
Qed.

Lemma cumtrapz_scale : forall lam y x acc,
  cumtrapz (option_map (Rmult lam) acc) y (map (Rmult lam) x) = map (option_map (Rmult lam)) (cumtrapz acc y x).
Proof.
  intros lam. induction y as [|y0 y IH]; intros x acc; [reflexivity|].
  destruct y as [|y1 y]; [destruct x; reflexivity|]. destruct x as [|x0 [|x1 x]]; try reflexivity.
  set (acc' := omap2 Rplus acc (omap2 (fun a b => (x1 - x0) * (a + b) / 2) y0 y1)).
  change (cumtrapz acc (y0 :: y1 :: y) (x0 :: x1 :: x)) with (acc' :: cumtrapz acc' (y1 :: y) (x1 :: x)).
  set (acc2 := omap2 Rplus (option_map (Rmult lam) acc) (omap2 (fun a b => (lam * x1 - lam * x0) * (a + b) / 2) y0 y1)).
  change (cumtrapz (option_map (Rmult lam) acc) (y0 :: y1 :: y) (map (Rmult lam) (x0 :: x1 :: x)))
    with (acc2 :: cumtrapz acc2 (y1 :: y) (map (Rmult lam) (x1 :: x))).
  assert (E : acc2 = option_map (Rmult lam) acc').
  { unfold acc2, acc'. destruct acc, y0, y1; cbn; auto. f_equal. field. }
  rewrite E, IH. reflexivity.
Qed.

Lemma proper_times_scale : forall lam E T N r, lam <> 0 ->
  proper_times (lam * E) (map (Rmult lam) T) N (map (Rmult lam) r) =
  rmap (map (option_map (Rmult lam))) (proper_times E T N r).
Proof.
  intros lam E [|T0 T] N r Hl; [reflexivity|]. cbn [map]. unfold proper_times. cbn [rmap map]. f_equal.
  cbn [option_map]. f_equal.
  replace (map (fun p => rate (lam * E) (fst p) (snd p)) (combine N (map (Rmult lam) r)))
    with (map (fun p => rate E (fst p) (snd p)) (combine N r)).
  2:{ clear - Hl. revert r. induction N as [|n N IH]; intros [|a r]; auto. cbn [map combine fst snd]. rewrite rate_scale by auto. f_equal. apply IH. }
  change (lam * T0 :: map (Rmult lam) T) with (map (Rmult lam) (T0 :: T)).
  replace (Some 0) with (option_map (Rmult lam) (Some 0)) at 1 by (cbn; f_equal; ring).
  rewrite cumtrapz_scale, !map_map. apply map_ext. intros [x|]; cbn; auto. f_equal. ring.
Qed.

Lemma index_is_monotonic_scale : forall lam y, 0 < lam -> index_is_monotonic (map (Rmult lam) y) = index_is_monotonic y.
Proof.
  intros lam y Hl.
  assert (Hle : forall a b, Rleb (lam * a) (lam * b) = Rleb a b).
  { intros a b. destruct (Rleb_spec (lam * a) (lam * b)) as [H|H], (Rleb_spec a b) as [H1|H1]; auto; exfalso.
    - apply H1. apply Rmult_le_reg_l with lam; auto.
    - apply H. apply Rmult_le_compat_l; lra. }
  assert (Hup : forall l m, mono_up (lam * m) (map (Rmult lam) l) = mono_up m l).
  { induction l as [|a l IH]; intros m; auto. cbn [map mono_up]. rewrite Hle. destruct (Rleb a m); rewrite IH; auto. }
  assert (Hdn : forall l m, mono_down (lam * m) (map (Rmult lam) l) = mono_down m l).
  { induction l as [|a l IH]; intros m; auto. cbn [map mono_down]. rewrite Hle. destruct (Rleb m a); rewrite IH; auto. }
  destruct y as [|y0 t]; auto. cbn [map]. unfold index_is_monotonic. f_equal.
  assert (Hlast : last (lam * y0 :: map (Rmult lam) t) 0 = lam * last (y0 :: t) 0).
  { rewrite !last_nth by discriminate. change (lam * y0 :: map (Rmult lam) t) with (map (Rmult lam) (y0 :: t)).
    rewrite map_length. rewrite <- (Rmult_0_r lam) at 1. apply map_nth. }
  rewrite Hlast, Hup, Hdn.
  replace (Rltb 0 (lam * last (y0 :: t) 0 - lam * y0)) with (Rltb 0 (last (y0 :: t) 0 - y0)); auto.
  set (z := last (y0 :: t) 0). replace (lam * z - lam * y0) with (lam * (z - y0)) by ring.
  destruct (Rltb_spec 0 (z - y0)) as [H|H], (Rltb_spec 0 (lam * (z - y0))) as [H1|H1]; auto; exfalso.
  - apply H1. apply Rmult_lt_0_compat; auto.
  - apply H. apply Rmult_lt_reg_l with lam; auto. lra.
Qed.

Lemma scale_units : forall d lam M u e, 0 < lam -> M <> 0 -> scale_factors d M = Ok (u, e) ->
  scale_factors d (lam * M) = Ok (powerRZ lam (m_power d) * u, e) /\ powerRZ lam (m_power d) * powerRZ lam (dimension d) = 1.
Proof.
  intros d lam M u e Hl HM H.
  assert (HlM : lam * M <> 0) by (apply Rmult_integral_contrapositive; split; lra).
  destruct (in_dec Z.eq_dec d [h; hdot; psi4; psi3; psi2; psi1; psi0]) as [Hin|Hn].
  - destruct (scale_factors_spec d M HM) as [X _]. rewrite X in H by auto. injection H as <- <-.
    destruct (scale_factors_spec d (lam * M) HlM) as [Y _]. rewrite Y by auto.
    split; [rewrite powerRZ_mult; auto|].
    rewrite <- powerRZ_add by lra.
    replace (m_power d + dimension d)%Z with 0%Z; auto.
    cbn [In] in Hin. repeat match type of Hin with _ \/ _ => destruct Hin as [<-|Hin] end; try contradiction; reflexivity.
  - destruct (scale_factors_spec d M HM) as [_ X]. rewrite X in H by auto. discriminate.
Qed.

Lemma take_map_rows : forall (f : C -> C) (l : list (list C)) Ind, take (map (map f) l) Ind = rmap (map (map f)) (take l Ind).
Proof. intros. apply take_map. Qed.

(** The result does not depend on the unit of length in the file, provided the same samples pass
    the filter on the time steps. *)
Theorem C58_units : forall fuel rotating s M lam, 0 < lam -> M <> 0 ->
  monotonic_indices (map (Rmult lam) (clock rotating s)) MinTimeStep fuel = monotonic_indices (clock rotating s) MinTimeStep fuel ->
  read_finite fuel rotating (in_units lam s) (lam * M) = read_finite fuel rotating s M.
Proof.
  intros fuel rotating s M lam Hl HM Hfil.
  assert (Hl0 : lam <> 0) by lra.
  set (A := if rotating then read_rpdmb fuel s else read_nrar fuel s).
  assert (EA : (if rotating then read_rpdmb fuel (in_units lam s) else read_nrar fuel (in_units lam s)) =
    rmap (fun a => mkaux (map (Rmult lam) (a_T a)) (a_Ind a) (map (Rmult lam) (a_radii a)) (a_lapse a)
                     (map (map (Cscale (powerRZ lam (dimension (s_type s))))) (a_rows a))) A).
  { unfold A. destruct rotating; cbn [clock] in Hfil; unfold read_rpdmb, read_nrar;
      cbn [in_units s_lapse_t s_lapse s_areal s_coord s_adm s_modes_t s_rows s_type s_frame];
      rewrite Hfil, ?index_is_monotonic_scale by auto; clear Hfil.
    - destruct (monotonic_indices (s_modes_t s) _ _) as [Ind|]; [|reflexivity]. cbn [rbind]. rewrite !take_map.
      destruct (take (s_modes_t s) Ind); [|reflexivity]. cbn [rbind rmap].
      destruct (take (s_areal s) Ind); [|reflexivity]. cbn [rbind rmap].
      destruct (take (s_lapse s) Ind); reflexivity.
    - destruct (monotonic_indices (s_lapse_t s) _ _) as [Ind|]; [|reflexivity]. cbn [rbind]. rewrite !take_map.
      destruct (take (s_lapse_t s) Ind); [|reflexivity]. cbn [rbind rmap].
      destruct (take (s_areal s) Ind); [|reflexivity]. cbn [rbind rmap].
      destruct (take (s_lapse s) Ind); [|reflexivity]. cbn [rbind rmap].
      destruct (index_is_monotonic (s_modes_t s)) as [m|]; [|reflexivity]. cbn [rbind].
      destruct (forallb _ m); reflexivity. }
  unfold read_finite. rewrite EA. fold A. destruct A as [a|]; [|reflexivity]. cbn [rmap rbind].
  unfold rescale. cbn [a_T a_Ind a_radii a_lapse a_rows in_units s_coord s_adm s_type s_frame].
  rewrite proper_times_scale by auto.
  destruct (proper_times _ _ _ _) as [T1|] eqn:EP; [|reflexivity]. cbn [rmap rbind].
  destruct (scale_factors (s_type s) M) as [[u e]|] eqn:ES.
  2:{ assert (HlM : lam * M <> 0) by (apply Rmult_integral_contrapositive; split; lra).
      destruct (in_dec Z.eq_dec (s_type s) [h; hdot; psi4; psi3; psi2; psi1; psi0]) as [Hin|Hn].
      - destruct (scale_factors_spec (s_type s) M HM) as [X _]. rewrite X in ES by auto. discriminate.
      - destruct (scale_factors_spec (s_type s) M HM) as [_ X]. rewrite X in ES by auto. injection ES as <-.
        destruct (scale_factors_spec (s_type s) (lam * M) HlM) as [_ Y]. rewrite Y by auto. reflexivity. }
  destruct (scale_units _ _ _ _ _ Hl HM ES) as [-> Hone]. cbn [rbind].
  rewrite take_map. destruct (take (a_rows a) (a_Ind a)) as [rows|]; [|reflexivity]. cbn [rbind rmap].
  destruct (if (1 <? length (s_frame s))%nat then _ else _) as [fr|]; [|reflexivity]. cbn [rbind].
  f_equal. f_equal.
  - clear - Hl HM Hl0. rewrite !map_map. revert T1. induction (a_radii a) as [|r l IH]; intros [|t T1]; auto.
    cbn [map combine fst snd]. f_equal; [|apply IH]. rewrite tortoise_scale by auto.
    destruct t, (tortoise (s_adm s) r); cbn; auto. rewrite <- Rmult_minus_distr_l. apply odiv_scale. auto.
  - clear - Hl0 Hone. rewrite map_map. revert rows. induction (a_radii a) as [|r l IH]; intros [|row rows]; auto.
    cbn [map combine fst snd]. f_equal; [|apply IH]. rewrite map_map. apply map_ext. intros c.
    rewrite odiv_scale by auto. destruct (odiv r (s_coord s)) as [q|]; auto. cbn [obind]. f_equal.
    set (p := powerRZ lam (m_power (s_type s))) in *. set (p' := powerRZ lam (dimension (s_type s))) in *.
    destruct c as [x y]. unfold Cscale. cbn [re im]. f_equal.
    + replace (q ^ e * (p * u) * (p' * x)) with (q ^ e * u * x * (p * p')) by ring. rewrite Hone. ring.
    + replace (q ^ e * (p * u) * (p' * y)) with (q ^ e * u * y * (p * p')) by ring. rewrite Hone. ring.
  - rewrite map_map. apply map_ext. intros r. field. auto.
Qed.

(** The filter on time steps is absolute: the same data in a unit a thousand times larger make the
    reader search forever. *)
Definition static2 : source := mksource [0; 1] [1; 1] [8; 8] 8 1 [0; 1] [[C1]; [Ci]] h [].
Theorem C58_units_of_filter_refuted :
  (exists fuel out, read_finite fuel false static2 1 = Ok out) /\
  (forall fuel, read_finite fuel false (in_units (1/1000) static2) (1/1000 * 1) = Err OutOfFuel).
Proof.
  split.
  - destruct (C58_reads false static2 1) as (fuel & out & H); cbn; try lia; try lra; try discriminate.
    + intros [|[|k]] Hk; try lia. unfold MinTimeStep. lra.
    + intros _. split; [discriminate|]. left. intros [|[|i]] [|[|j]] Hij; cbn [length] in Hij; try lia. cbn. lra.
    + exists fuel, out. apply H. lia.
  - intros fuel. unfold read_finite, read_nrar. cbn [in_units static2 s_lapse_t].
    rewrite C11_diverges_otherwise_refuted; [reflexivity|unfold MinTimeStep; lra|].
    exists 1%nat. cbn. unfold MinTimeStep. split; [lia|lra].
Qed.

(** When every step exceeds the minimal one nothing is dropped. *)
Lemma filter_all_loop : forall T step fuel i, (1 <= i)%nat -> (length T - i <= fuel)%nat ->
  (forall k, (S k < length T)%nat -> nth k T 0 + step < nth (S k) T 0) ->
  mi_loop T step fuel (seq 0 (length T)) i = Ok (seq 0 (length T)).
Proof.
  intros T step. induction fuel as [|fuel IH]; intros i Hi Hf Hg; cbn [mi_loop]; rewrite seq_length.
  - destruct (Nat.ltb_spec i (length T)); [lia|reflexivity].
  - destruct (Nat.ltb_spec i (length T)); [|reflexivity].
    unfold mi_step. destruct i as [|i]; [lia|]. cbn [prev]. rewrite !seq_nth by lia. cbn [Nat.add]. unfold tt.
    specialize (Hg i H) as Hgi. destruct (Rleb_spec (nth (S i) T 0) (nth i T 0 + step)) as [Hc|]; [lra|].
    apply IH; auto; lia.
Qed.
Theorem C58_nothing_dropped : forall T step fuel, (length T <= fuel)%nat ->
  (forall k, (S k < length T)%nat -> nth k T 0 + step < nth (S k) T 0) ->
  monotonic_indices T step fuel = Ok (seq 0 (length T)).
Proof. intros. apply filter_all_loop; auto; lia. Qed.

(** Hence independence of units whenever the steps are long enough in both units. *)
Theorem C58_units_of_long_steps : forall fuel rotating s M lam, 0 < lam -> M <> 0 ->
  (length (clock rotating s) <= fuel)%nat ->
  (forall k, (S k < length (clock rotating s))%nat ->
     nth k (clock rotating s) 0 + MinTimeStep < nth (S k) (clock rotating s) 0 /\
     nth k (clock rotating s) 0 + MinTimeStep / lam < nth (S k) (clock rotating s) 0) ->
  read_finite fuel rotating (in_units lam s) (lam * M) = read_finite fuel rotating s M.
Proof.
  intros fuel rotating s M lam Hl HM Hf Hg. apply C58_units; auto.
  rewrite (C58_nothing_dropped (clock rotating s)) by (auto; intros k Hk; apply Hg; auto).
  rewrite C58_nothing_dropped; rewrite map_length; auto.
  intros k Hk. destruct (Hg k Hk) as [_ H].
  replace 0 with (lam * 0) by ring. rewrite !(map_nth (Rmult lam)).
  apply Rmult_lt_compat_l with (r := lam) in H; auto.
  replace (lam * (nth k (clock rotating s) 0 + MinTimeStep / lam)) with (lam * nth k (clock rotating s) 0 + MinTimeStep) in H by (field; lra).
  exact H.
Qed.

(** A static observer at radius 8 with mass 1: times (t - r_star), data unchanged, radii 8. *)
Example C58_case : exists fuel out,
  read_finite fuel false (mksource [0; 1] [redshift 1 8; redshift 1 8] [8; 8] 8 1 [0; 1] [[C1]; [Ci]] h []) 1 = Ok out /\
  f_t out = [Some ((0 - rstar 1 8) / 1); Some ((1 - rstar 1 8) / 1)] /\ f_radii out = [8 / 1; 8 / 1].
Proof.
  set (s := mksource _ _ _ _ _ _ _ _ _).
  destruct (C58_reads false s 1) as (fuel & out & H); cbn; try lia; try lra; try discriminate.
  { intros [|[|k]] Hk; try lia. unfold MinTimeStep. lra. }
  { intros _. split; [discriminate|]. left. intros [|[|i]] [|[|j]] Hij; cbn [length] in Hij; try lia. cbn. lra. }
  exists (fuel + 2)%nat, out. specialize (H (fuel + 2)%nat ltac:(lia)). split; auto.
  assert (HI : monotonic_indices (clock false s) MinTimeStep (fuel + 2) = Ok [0; 1]%nat).
  { apply C58_nothing_dropped; [cbn; lia|]. intros [|k] Hk; cbn in Hk; [|lia]. cbn. unfold MinTimeStep. lra. }
  assert (A1 : 0 < 2 * s_adm s < 8) by (cbn; lra).
  assert (A2 : forall x, In x (s_areal s) -> x = 8) by (cbn; intros; lra).
  assert (A3 : forall x, In x (s_lapse s) -> x = redshift (s_adm s) 8) by (cbn; intuition).
  destruct (C58_static _ _ _ _ _ 8 (ltac:(lra) : 1 <> 0) A1 A2 A3 H) as (Ind & HI2 & Ht).
  rewrite HI in HI2. injection HI2 as <-. split; [exact Ht|].
  destruct (C58_samples _ _ _ _ _ (ltac:(lra) : 1 <> 0) H) as (Ind & HI2 & _ & _ & Lr & _ & _ & _ & HS).
  rewrite HI in HI2. injection HI2 as <-. cbv zeta in HS. cbn [length] in *.
  destruct (f_radii out) as [|a [|b [|c l]]]; cbn in Lr; try lia.
  destruct (HS 0%nat ltac:(lia)) as (Ha & _). destruct (HS 1%nat ltac:(lia)) as (Hb & _). cbn in Ha, Hb. congruence.
Qed.

(** The check attributed to [read_from_h5] in the model of the NRAR reader is the one in H5_Model. *)
Lemma mask_select_full : forall A (m : list bool) (l : list A), (length m = length l) ->
  (length (mask_select m l) <= length l)%nat /\
  (length (mask_select m l) = length l -> forallb (fun b => b) m = true /\ mask_select m l = l).
Proof.
  induction m as [|b m IH]; intros [|x l] H; try discriminate; cbn; [auto|].
  injection H as H. destruct (IH l H) as [H1 H2]. destruct b; cbn [length].
  - split; [lia|]. intros E. injection E as E. destruct (H2 E) as [-> ->]. auto.
  - split; [lia|]. intros E. lia.
Qed.
Theorem C58_stored_times : forall kids n0 names t rows, H5_Model.read_modes kids (n0 :: names) = Ok (t, rows) ->
  exists first m, H5_Model.rows_of kids n0 = Ok first /\ t = map (fun p => fst (fst p)) first /\
    index_is_monotonic t = Ok m /\ forallb (fun b => b) m = true.
Proof.
  intros kids n0 names t rows H. unfold H5_Model.read_modes in H.
  destruct (H5_Model.rows_of kids n0) as [first|] eqn:E0; [|discriminate]. cbn [rbind] in H.
  set (T := map (fun p => fst (fst p)) first) in *.
  destruct (index_is_monotonic T) as [m|] eqn:Em; [|discriminate]. cbn [rbind] in H.
  cbn [H5_Model.map_res] in H. rewrite E0 in H. cbn [rbind] in H.
  destruct (Nat.eqb_spec (length first) (length (mask_select m T))) as [El|]; [|discriminate].
  destruct (Nat.eqb_spec (length m) (length first)) as [Lm|]; [|discriminate].
  match type of H with rbind ?x _ = _ => destruct x; [|discriminate] end. cbn [rbind] in H.
  injection H as <- _.
  assert (LT : length T = length first) by (unfold T; apply map_length).
  destruct (mask_select_full _ m T) as [_ X]; [lia|]. destruct X as [Hall Hs]; [lia|].
  exists first, m. rewrite Hs. auto.
Qed.
