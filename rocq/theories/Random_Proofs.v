(** * Random sample waveforms: what is fixed, what is random, and what the arguments do *)
From Coq Require Import String Reals ZArith List Bool Lia Lra Permutation Sorted.
From Verif Require Import Common Cplx Quat Modes_Model Times_Model Tables_Model Modal_Model Kwargs_Model Transform_Model Rotate_Model
  Modes_Proofs Modal_Proofs Rotate_Proofs Times_Proofs Kwargs_Proofs Transform_Proofs Wigner_Model Wigner_Proofs Sphere_Model Sphere_Proofs Harmonics_Proofs
  Pipeline_Model Pipeline_Proofs Product_Proofs Gridmul_Proofs Linear_Proofs Sample_Model Sample_Proofs Random_Model.
Import ListNotations.
Open Scope R_scope.

(** ** Specification *)
(** The affine map that takes b to b' and e to e' *)
Definition affine (b e b' e' x : R) : R := b' + (x - b) * ((e' - b') / (e - b)).

(** ** Sorting *)
Lemma insert_perm : forall x l, Permutation (insert x l) (x :: l).
Proof. intros x l. induction l as [|y r IH]; cbn; [reflexivity|]. destruct (Rleb x y); [reflexivity|]. rewrite IH. apply perm_swap. Qed.
Lemma sort_perm : forall l, Permutation (sort l) l.
Proof. induction l as [|x l IH]; cbn; [reflexivity|]. rewrite insert_perm, IH. reflexivity. Qed.
Lemma insert_sorted : forall x l, Sorted Rle l -> Sorted Rle (insert x l).
Proof.
  intros x l. induction l as [|y r IH]; intros H; cbn; [repeat constructor|]. destruct (Rleb_spec x y) as [L|L]; [constructor; [exact H|constructor; exact L]|].
  inversion H as [|? ? S1 S2]; subst. constructor; [apply IH; exact S1|]. destruct r as [|z r]; cbn; [constructor; lra|]. destruct (Rleb x z); constructor; [lra|]. inversion S2; assumption.
Qed.
Lemma sort_sorted : forall l, Sorted Rle (sort l).
Proof. induction l as [|x l IH]; cbn; [constructor|]. apply insert_sorted. exact IH. Qed.
Lemma insert_map : forall f, (forall x y, x <= y <-> f x <= f y) -> forall x l, insert (f x) (map f l) = map f (insert x l).
Proof.
  intros f Hf x l. induction l as [|y r IH]; cbn; [reflexivity|]. destruct (Rleb_spec x y) as [L|L], (Rleb_spec (f x) (f y)) as [M|M]; cbn.
  - reflexivity.
  - exfalso. apply M. apply (proj1 (Hf x y)). exact L.
  - exfalso. apply L. apply (proj2 (Hf x y)). exact M.
  - rewrite IH. reflexivity.
Qed.
Lemma sort_map : forall f, (forall x y, x <= y <-> f x <= f y) -> forall l, sort (map f l) = map f (sort l).
Proof. intros f Hf. induction l as [|x l IH]; [reflexivity|]. change (insert (f x) (sort (map f l)) = map f (insert x (sort l))). rewrite IH. apply insert_map. exact Hf. Qed.

Section Generator.
Variable state : Type.
Variable seed : Z -> state.
Variable draw : state -> R * state.
Variable normal : state -> R * state.
Variable hash : string -> Z.
Let waveform := random_waveform state seed draw normal hash.
Let proportional := random_waveform_proportional_to_time state seed draw normal hash.

Lemma reseed_ok : forall name, exists g, reseed state seed hash name = Ok g.
Proof.
  intros name. unfold reseed. assert (B := Z.mod_pos_bound (hash name) 4294967294 ltac:(lia)). cbv zeta.
  destruct (Z.leb_spec 0 (hash name mod 4294967294)); [|lia]. destruct (Z.ltb_spec (hash name mod 4294967294) (2 ^ 32)); [|lia]. cbn [andb]. eexists. reflexivity.
Qed.
Lemma draws_length : forall d n g, length (fst (draws state d n g)) = n.
Proof. intros d. induction n as [|n IH]; intros g; cbn; [reflexivity|]. destruct (d g) as [x g1]. specialize (IH g1). destruct (draws state d n g1) as [l g2]. cbn in *. lia. Qed.
Lemma complex_draws_length : forall n g, length (fst (complex_draws state normal n g)) = n.
Proof.
  induction n as [|n IH]; intros g; cbn; [reflexivity|]. destruct (normal g) as [x g1]. destruct (normal g1) as [y g2]. specialize (IH g2).
  destruct (complex_draws state normal n g2) as [l g3]. cbn in *. lia.
Qed.
Lemma complex_rows_ok : forall n m g, length (fst (complex_rows state normal n m g)) = n /\ forall r, In r (fst (complex_rows state normal n m g)) -> length r = m.
Proof.
  induction n as [|n IH]; intros m g; cbn; [split; [reflexivity|intros r []]|]. assert (L := complex_draws_length m g). destruct (complex_draws state normal m g) as [r g1]. cbn in L.
  destruct (IH m g1) as [IL IR]. destruct (complex_rows state normal n m g1) as [l g2]. cbn in *. split; [lia|]. intros r' [<- |I]; [exact L|apply IR; exact I].
Qed.
Lemma rotors_length : forall n g, length (fst (random_rotors state draw n g)) = n.
Proof.
  induction n as [|n IH]; intros g; cbn [random_rotors]; [reflexivity|]. destruct (random_rotor state draw g) as [q g1]. specialize (IH g1).
  destruct (random_rotors state draw n g1) as [l g2]. cbn in *. lia.
Qed.
Lemma construct_ok : forall rows frame t g, (forall m g, length (fst (rows t m g)) = length t /\ forall r, In r (fst (rows t m g)) -> length r = m) ->
  exists w g', construct state rows frame t g = Ok (w, g') /\ wave_ok w /\ pw_t w = t /\ pw_data w = fst (rows t 77%nat g) /\ g' = snd (rows t 77%nat g) /\ pw_lo w = 2%Z /\ pw_hi w = 8%Z /\ pw_dataType w = h /\ pw_r w = true
    /\ pw_frame w = match frame with Some f => f | None => [] end /\ pw_frameType w = match frame with Some _ => CorotatingFrame | None => InertialFrame end.
Proof.
  intros rows frame t g HR. unfold construct, modes_constructor. cbn [mc_t mc_dataType mc_lo mc_hi mc_frame mc_frameType mc_r dflt].
  change (spin_weight h) with (@Ok Z (-2)%Z). cbn [rbind]. change (Z.abs (-2)) with 2%Z. change (length (LM_range 2 8)) with 77%nat. cbn [rbind pw_lo pw_hi]. eexists. eexists. split; [reflexivity|].
  destruct (HR 77%nat g) as [H1 H2]. unfold wave_ok. cbn [pw_t pw_data pw_lo pw_hi pw_dataType pw_frameType pw_frame pw_r]. split.
  - split; [lia|]. split; [exact H1|]. intros row I. rewrite (H2 row I). reflexivity.
  - repeat (split; [reflexivity|]). destruct frame; split; reflexivity.
Qed.
Lemma rows_any : forall (t : list R) m g, length (fst (complex_rows state normal (length t) m g)) = length t /\ forall r, In r (fst (complex_rows state normal (length t) m g)) -> length r = m.
Proof. intros t m g. apply complex_rows_ok. Qed.
Lemma outer_ok : forall (t : list R) m g, length (fst (outer state normal t m g)) = length t /\ forall r, In r (fst (outer state normal t m g)) -> length r = m.
Proof.
  intros t m g. unfold outer. assert (L := complex_draws_length m g). destruct (complex_draws state normal m g) as [c g1]. cbn in *. split; [apply map_length|].
  intros r I. apply in_map_iff in I. destruct I as (x & <- & _). rewrite map_length. exact L.
Qed.

(** The number of times: t counts only together with uniform_time. *)
Definition count (a : rargs) : nat :=
  match (if dflt false (ra_uniform a) then ra_t a else None) with Some t => length t | None => Z.to_nat (dflt 1101%Z (ra_n a)) end.
Lemma times_ok : forall a g, (0 <= dflt 1101%Z (ra_n a))%Z -> exists t g', random_times state draw a g = Ok (t, g') /\ length t = count a.
Proof.
  intros a g Hn. unfold random_times, linspace, count. destruct (Z.ltb_spec (dflt 1101%Z (ra_n a)) 0) as [B|B]; [lia|]. destruct (dflt false (ra_uniform a)); cbn [rbind].
  - eexists. eexists. split; [reflexivity|]. destruct (ra_t a); cbn [dflt]; [reflexivity|]. rewrite map_length, seq_length. reflexivity.
  - unfold uniform. assert (L := draws_length draw (Z.to_nat (dflt 1101%Z (ra_n a))) g). destruct (draws state draw _ g) as [t g']. cbn [fst] in L. eexists. eexists. split; [reflexivity|].
    rewrite (Permutation_length (sort_perm _)), map_length. exact L.
Qed.

(** ** The shape of what is returned *)
(** The waveform is the strain with the modes 2 to 8, one row of 77 modes for each time, with a frame for each time if it rotates. *)
Definition well_formed (a : rargs) (w : pwave) : Prop :=
  wave_ok w /\ length (pw_t w) = count a /\ pw_lo w = 2%Z /\ pw_hi w = 8%Z /\ pw_dataType w = h /\ pw_r w = true /\
  (if dflt true (ra_rotating a) then pw_frameType w = CorotatingFrame /\ length (pw_frame w) = length (pw_t w) else pw_frameType w = InertialFrame /\ pw_frame w = []).
Lemma random_steps : forall a k g, (0 <= dflt 1101%Z (ra_n a))%Z ->
  exists g0 t g1, random_times state draw a g0 = Ok (t, g1) /\ length t = count a /\
  exists w g', waveform a k g = Ok (w, g') /\ well_formed a w /\ pw_t w = t /\
    pw_frame w = (if dflt true (ra_rotating a) then fst (random_rotors state draw (length t) g1) else []) /\
    pw_data w = fst (complex_rows state normal (length t) 77 (if dflt true (ra_rotating a) then snd (random_rotors state draw (length t) g1) else g1)).
Proof.
  intros a k g Hn. unfold waveform, random_waveform. destruct (reseed_ok "random_waveform") as [g0 ->]. cbn [rbind]. destruct (times_ok a g0 Hn) as (t & g1 & ET & LT). exists g0, t, g1.
  split; [exact ET|]. split; [exact LT|]. rewrite ET. cbn [rbind]. unfold well_formed. rewrite <- LT.
  destruct (dflt true (ra_rotating a)).
  - assert (L := rotors_length (length t) g1). destruct (random_rotors state draw (length t) g1) as [f g2]. cbn [fst snd] in *.
    destruct (construct_ok (fun t m g => complex_rows state normal (length t) m g) (Some f) t g2 (rows_any t)) as (w & g3 & E & W & T & D & _ & A1 & A2 & A3 & A4 & A5 & A6).
    exists w, g3. split; [exact E|]. rewrite A5, T. split; [repeat (split; [first [reflexivity|assumption]|]); first [reflexivity|assumption]|]. split; [reflexivity|]. split; [reflexivity|exact D].
  - destruct (construct_ok (fun t m g => complex_rows state normal (length t) m g) None t g1 (rows_any t)) as (w & g3 & E & W & T & D & _ & A1 & A2 & A3 & A4 & A5 & A6).
    exists w, g3. split; [exact E|]. rewrite A5, T. split; [repeat (split; [first [reflexivity|assumption]|]); first [reflexivity|assumption]|]. split; [reflexivity|]. split; [reflexivity|exact D].
Qed.
Theorem C91_random : forall a k g, (0 <= dflt 1101%Z (ra_n a))%Z -> exists w g', waveform a k g = Ok (w, g') /\ well_formed a w.
Proof. intros a k g Hn. destruct (random_steps a k g Hn) as (g0 & t & g1 & _ & _ & w & g' & E & W & _). exists w, g'. split; assumption. Qed.

(** ** Data proportional to time *)
Definition never_half : Prop := forall g, fst (draw g) <> 1 / 2.
Lemma axis_unit : forall g, never_half -> qw (fst (random_axis state draw g)) = 0 /\ unitv (qvec (fst (random_axis state draw g))).
Proof.
  intros g H. unfold random_axis, uniform. cbn [draws]. assert (H0 := H g). destruct (draw g) as [x g1]. destruct (draw g1) as [y g2]. destruct (draw g2) as [z g3]. cbn [map nth fst] in *.
  set (q := mkq 0 (-1 + (1 - -1) * x) (-1 + (1 - -1) * y) (-1 + (1 - -1) * z)).
  assert (N : q <> q0) by (intros E; apply (f_equal qx) in E; cbn in E; apply H0; lra). assert (U := qnormalized_unit q N). split; [cbn; ring|].
  unfold unitv, qvec, dotv. unfold qnorm2 in U. assert (W : qw (qnormalized q) = 0) by (cbn; ring). rewrite W in U. rewrite <- U. ring.
Qed.
Theorem C91_proportional : forall a k g, (0 <= dflt 1101%Z (ra_n a))%Z -> (dflt true (ra_rotating a) = true -> (0 < count a)%nat) ->
  exists w g' c, proportional a k g = Ok (w, g') /\ well_formed a w /\
  (forall i l m, (i < length (pw_t w))%nat -> valid 2 8 l m -> mode_of w i l m = Cscale (nth i (pw_t w) 0) (c l m)) /\
  (dflt true (ra_rotating a) = true -> never_half ->
   exists n, unitv n /\ forall i, (i < length (pw_t w))%nat -> nth i (pw_frame w) q1 = axis_rotor n (4 * PI * nth i (pw_t w) 0 / (last (pw_t w) 0 - hd 0 (pw_t w)))).
Proof.
  intros a k g Hn HC. unfold proportional, random_waveform_proportional_to_time. destruct (reseed_ok "random_waveform_proportional_to_time") as [g0 ->]. cbn [rbind].
  destruct (times_ok a g0 Hn) as (t & g1 & -> & LT). cbn [rbind]. unfold well_formed. rewrite <- LT in HC. rewrite <- LT.
  assert (M : forall g2 w, pw_data w = fst (outer state normal t 77 g2) -> pw_lo w = 2%Z -> pw_hi w = 8%Z -> pw_t w = t ->
    forall i l m, (i < length (pw_t w))%nat -> valid 2 8 l m -> mode_of w i l m = Cscale (nth i (pw_t w) 0) (nth (Z.to_nat (LM_index l m 2)) (fst (complex_draws state normal 77 g2)) C0)).
  { intros g2 w D LO HI T i l m Hi Hv. unfold mode_of. rewrite LO, D, T in *. destruct (Z.ltb_spec l 2) as [B|B]; [destruct Hv; lia|]. unfold outer.
    assert (L := complex_draws_length 77 g2). destruct (complex_draws state normal 77 g2) as [c g3]. cbn [fst] in *.
    rewrite (nth_indep _ [] ((fun x => map (Cscale x) c) 0)) by (rewrite map_length; exact Hi). rewrite (map_nth (fun x => map (Cscale x) c)).
    idtac. rewrite <- (map_nth (Cscale (nth i t 0)) c C0). replace (Cscale (nth i t 0) C0) with C0 by (apply C_eq; cbn; ring). reflexivity. }
  destruct (dflt true (ra_rotating a)) eqn:ER.
  - specialize (HC eq_refl). assert (AX := axis_unit g1). destruct (random_axis state draw g1) as [ax g2] eqn:EA. cbn [fst] in AX. destruct t as [|t0 t]; [cbn in HC; lia|].
    match goal with |- context [construct state ?r (Some ?f) ?t g2] => destruct (construct_ok r (Some f) t g2 (outer_ok t)) as (w & g3 & E & W & T & D & _ & A1 & A2 & A3 & A4 & A5 & A6) end.
    exists w, g3, (fun l m => nth (Z.to_nat (LM_index l m 2)) (fst (complex_draws state normal 77 g2)) C0). split; [exact E|]. split; [|split].
    + split; [exact W|]. split; [rewrite T; reflexivity|]. repeat (split; [assumption|]). rewrite A5, T, map_length. reflexivity.
    + apply M; assumption.
    + intros _ HH. destruct (AX HH) as [A7 A8]. exists (qvec ax). split; [exact A8|]. intros i Hi. rewrite A5. rewrite T in *.
      match goal with |- nth i (map ?f _) q1 = _ => rewrite (nth_indep _ q1 (f 0)) by (rewrite map_length; exact Hi); rewrite (map_nth f) end.
      cbn [hd]. rewrite <- (qexp_axis _ _ A8). f_equal. unfold qvec, scalev, qscale. cbn [qx qy qz]. unfold Rdiv.
      set (d := / (last (t0 :: t) 0 - t0)). set (x := nth i (t0 :: t) 0). replace (2 * PI * 4 * d * x * / 2) with (4 * PI * x * d) by field. reflexivity.
  - match goal with |- context [construct state ?r None ?t g1] => destruct (construct_ok r None t g1 (outer_ok t)) as (w & g3 & E & W & T & D & _ & A1 & A2 & A3 & A4 & A5 & A6) end.
    exists w, g3, (fun l m => nth (Z.to_nat (LM_index l m 2)) (fst (complex_draws state normal 77 g1)) C0). split; [exact E|]. split; [|split].
    + split; [exact W|]. split; [rewrite T; reflexivity|]. repeat (split; [assumption|]). assumption.
    + apply M; assumption.
    + discriminate.
Qed.
(** The documentation promises a random orientation at each instant; but all frames turn about one axis, at a constant rate, four times between the first
    and the last time, where they agree. *)
Theorem C91_orientation_refuted : forall a k g w g', (0 <= dflt 1101%Z (ra_n a))%Z -> dflt true (ra_rotating a) = true -> (0 < count a)%nat -> never_half -> proportional a k g = Ok (w, g') ->
  (forall i j, (i < count a)%nat -> (j < count a)%nat -> qmul (nth i (pw_frame w) q1) (nth j (pw_frame w) q1) = qmul (nth j (pw_frame w) q1) (nth i (pw_frame w) q1)) /\
  (hd 0 (pw_t w) <> last (pw_t w) 0 -> hd q1 (pw_frame w) = last (pw_frame w) q1).
Proof.
  intros a k g w g' Hn HR HC HH E. destruct (C91_proportional a k g Hn (fun _ => HC)) as (w' & g'' & c & E' & W & _ & F). rewrite E in E'. apply Ok_inj in E'. injection E' as <- <-.
  destruct (F HR HH) as (n & U & FN). unfold well_formed in W. rewrite HR in W. destruct W as (_ & LT & _ & _ & _ & _ & _ & LF). rewrite LT in *. split.
  - intros i j Hi Hj. rewrite (FN i Hi), (FN j Hj). destruct n as [[x y] z]. unfold axis_rotor. apply quat_eq; cbn; ring.
  - intros D. destruct (pw_t w) as [|t0 t] eqn:ET; [cbn in LT; lia|]. destruct (pw_frame w) as [|f0 f] eqn:EF; [cbn in LF; lia|].
    assert (L1 : forall A (x d : A) l, last (x :: l) d = nth (length l) (x :: l) d).
    { intros A x d l. revert x. induction l as [|y l IH]; intros x; [reflexivity|]. exact (IH y). }
    assert (F0 := FN 0%nat HC). assert (F1 := FN (length t) ltac:(rewrite <- LT; cbn; lia)). rewrite !L1 in F0, F1. rewrite L1. cbn [length] in LF, LT.
    replace (length f) with (length t) by lia. change (hd q1 (f0 :: f)) with (nth 0 (f0 :: f) q1). rewrite F0, F1. rewrite L1 in D. change (hd 0 (t0 :: t)) with t0 in *. change (nth 0 (t0 :: t) 0) with t0.
    set (t1 := nth (length t) (t0 :: t) 0) in *.
    replace (4 * PI * t1 / (t1 - t0)) with (4 * PI * t0 / (t1 - t0) + 2 * INR 2 * PI) by (replace (INR 2) with 2 by (cbn; ring); field; intros Q; apply D; lra). unfold axis_rotor. destruct n as [[x y] z]. rewrite sin_period, cos_period. reflexivity.
Qed.

(** ** The generator and the other arguments *)
(** Within one process the result, and the state of the global generator after the call, depend neither on its state before nor on further arguments. *)
Theorem C91_repeatable : forall a k k' g g', waveform a k g = waveform a k' g' /\ proportional a k g = proportional a k' g'.
Proof. intros a k k' g g'. split; reflexivity. Qed.
(** So further keyword arguments are not passed to modes_constructor, as documented: other modes, types or frames cannot be had. *)
Theorem C91_keywords_refuted : forall a k g w g', mc_hi k <> Some 8%Z -> waveform a k g = Ok (w, g') \/ proportional a k g = Ok (w, g') ->
  (0 <= dflt 1101%Z (ra_n a))%Z -> pw_lo w = 2%Z /\ pw_hi w = 8%Z /\ pw_dataType w = h /\ (forall hi, mc_hi k = Some hi -> pw_hi w <> hi).
Proof.
  intros a k g w g' HK E Hn. assert (W : well_formed a w).
  { destruct E as [E|E].
    - destruct (C91_random a k g Hn) as (w' & g'' & E' & W). rewrite E in E'. apply Ok_inj in E'. injection E' as <- <-. exact W.
    - assert (HC : dflt true (ra_rotating a) = true -> (0 < count a)%nat).
      { intros HR. unfold proportional, random_waveform_proportional_to_time in E. destruct (reseed_ok "random_waveform_proportional_to_time") as [g0 Q]. rewrite Q in E. cbn [rbind] in E.
        destruct (times_ok a g0 Hn) as (t & g1 & Q1 & LT). rewrite Q1 in E. cbn [rbind] in E. rewrite HR in E. destruct (random_axis state draw g1) as [ax g2]. destruct t; [discriminate|]. rewrite <- LT. cbn. lia. }
      destruct (C91_proportional a k g Hn HC) as (w' & g'' & c & E' & W & _). rewrite E in E'. apply Ok_inj in E'. injection E' as <- <-. exact W. }
  destruct W as (_ & _ & A & B & D & _). repeat (split; [assumption|]). intros hi Q. rewrite B. rewrite Q in HK. intros X. apply HK. rewrite X. reflexivity.
Qed.

(** ** Times *)
(** Both functions choose their times in the same way. *)
Lemma same_times : forall a k g w g', waveform a k g = Ok (w, g') \/ proportional a k g = Ok (w, g') -> exists g0 g1, random_times state draw a g0 = Ok (pw_t w, g1).
Proof.
  assert (CT : forall rows frame t g w g', construct state rows frame t g = Ok (w, g') -> pw_t w = t).
  { intros rows frame t g w g' E. unfold construct, modes_constructor in E. cbn [mc_t mc_dataType mc_lo mc_hi mc_frame mc_frameType mc_r dflt] in E. change (spin_weight h) with (@Ok Z (-2)%Z) in E. cbn [rbind] in E.
    apply Ok_inj in E. injection E as <- _. reflexivity. }
  intros a k g w g' [E|E].
  - unfold waveform, random_waveform in E. destruct (reseed_ok "random_waveform") as [g0 Q]. rewrite Q in E. cbn [rbind] in E. destruct (random_times state draw a g0) as [[t g1]|e] eqn:ET; [|discriminate].
    cbn [rbind] in E. exists g0, g1. rewrite ET. f_equal. f_equal. symmetry. destruct (dflt true (ra_rotating a)); [destruct (random_rotors state draw (length t) g1)|]; apply CT in E; exact E.
  - unfold proportional, random_waveform_proportional_to_time in E. destruct (reseed_ok "random_waveform_proportional_to_time") as [g0 Q]. rewrite Q in E. cbn [rbind] in E.
    destruct (random_times state draw a g0) as [[t g1]|e] eqn:ET; [|discriminate]. cbn [rbind] in E. exists g0, g1. rewrite ET. f_equal. f_equal. symmetry.
    destruct (dflt true (ra_rotating a)); [destruct (random_axis state draw g1); destruct t as [|t0 t]; [discriminate|]|]; apply CT in E; exact E.
Qed.
Lemma draws_in : forall (P : R -> Prop), (forall g, P (fst (draw g))) -> forall n g x, In x (fst (draws state draw n g)) -> P x.
Proof.
  intros P HP. induction n as [|n IH]; intros g x; cbn; [intros []|]. assert (H0 := HP g). destruct (draw g) as [y g1]. specialize (IH g1 x). destruct (draws state draw n g1) as [l g2]. cbn in *. intros [<- |I]; auto.
Qed.
(** Without uniform_time the times are in order, as many as asked for and between begin and end; an argument t has no effect. *)
Theorem C91_times : forall a k g w g', dflt false (ra_uniform a) = false -> (forall g, 0 <= fst (draw g) < 1) -> waveform a k g = Ok (w, g') \/ proportional a k g = Ok (w, g') ->
  Sorted Rle (pw_t w) /\ Z.of_nat (length (pw_t w)) = dflt 1101%Z (ra_n a) /\
  let b := dflt (-10) (ra_begin a) in let e := dflt 100 (ra_end a) in
  exists u, length u = length (pw_t w) /\ (forall x, In x u -> 0 <= x < 1) /\ Permutation (pw_t w) (map (fun x => b + (e - b) * x) u) /\ (b <= e -> forall x, In x (pw_t w) -> b <= x <= e).
Proof.
  intros a k g w g' HU HD E. apply same_times in E. destruct E as (g0 & g1 & E). unfold random_times in E. rewrite HU in E. destruct (Z.ltb_spec (dflt 1101%Z (ra_n a)) 0) as [B|B]; [discriminate|].
  unfold uniform in E. assert (L := draws_length draw (Z.to_nat (dflt 1101%Z (ra_n a))) g0). assert (D := draws_in (fun x => 0 <= x < 1) HD (Z.to_nat (dflt 1101%Z (ra_n a))) g0).
  destruct (draws state draw (Z.to_nat (dflt 1101%Z (ra_n a))) g0) as [u g2]. cbn [fst] in *. apply Ok_inj in E. injection E as E _. rewrite <- E.
  split; [apply sort_sorted|]. split; [rewrite (Permutation_length (sort_perm _)), map_length, L; lia|]. cbv zeta. exists u.
  split; [rewrite (Permutation_length (sort_perm _)), map_length; reflexivity|]. split; [exact D|]. split; [apply sort_perm|]. intros BE x I.
  apply (Permutation_in x (sort_perm _)) in I. apply in_map_iff in I. destruct I as (y & <- & I). apply D in I. set (b := dflt (-10) (ra_begin a)) in *. set (e := dflt 100 (ra_end a)) in *. clearbody b e. nra.
Qed.
(** With uniform_time they go from begin to end in equal steps, or are those given. *)
Theorem C91_uniform_times : forall a k g w g', dflt false (ra_uniform a) = true -> waveform a k g = Ok (w, g') \/ proportional a k g = Ok (w, g') ->
  match ra_t a with
  | Some t => pw_t w = t
  | None => Z.of_nat (length (pw_t w)) = dflt 1101%Z (ra_n a) /\ let b := dflt (-10) (ra_begin a) in let e := dflt 100 (ra_end a) in let n := length (pw_t w) in
      ((0 < n)%nat -> nth 0 (pw_t w) 0 = b) /\ ((1 < n)%nat -> nth (n - 1) (pw_t w) 0 = e) /\
      forall i, (S i < n)%nat -> nth (S i) (pw_t w) 0 - nth i (pw_t w) 0 = (e - b) / (INR n - 1)
  end.
Proof.
  intros a k g w g' HU E. apply same_times in E. destruct E as (g0 & g1 & E). unfold random_times in E. rewrite HU in E. unfold linspace in E. destruct (Z.ltb_spec (dflt 1101%Z (ra_n a)) 0) as [B|B]; [discriminate|].
  cbn [rbind] in E. apply Ok_inj in E. injection E as E _. rewrite <- E. destruct (ra_t a); cbn [dflt]; [reflexivity|]. cbv zeta. rewrite map_length, seq_length. set (n := dflt 1101%Z (ra_n a)) in *.
  set (b := dflt (-10) (ra_begin a)). set (e := dflt 100 (ra_end a)). clearbody n b e.
  assert (N : forall i, (i < Z.to_nat n)%nat -> nth i (map (fun i => b + INR i * ((e - b) / (IZR n - 1))) (seq 0 (Z.to_nat n))) 0 = b + INR i * ((e - b) / (IZR n - 1))).
  { intros i Hi. rewrite (nth_indep _ 0 ((fun i => b + INR i * ((e - b) / (IZR n - 1))) 0%nat)) by (rewrite map_length, seq_length; exact Hi).
    rewrite (map_nth (fun i => b + INR i * ((e - b) / (IZR n - 1)))), seq_nth by exact Hi. reflexivity. }
  assert (NN : INR (Z.to_nat n) = IZR n) by (rewrite INR_IZR_INZ, Z2Nat.id by lia; reflexivity).
  split; [lia|]. split; [|split].
  - intros H. rewrite N by exact H. cbn. ring.
  - intros H. rewrite N by lia. rewrite minus_INR by lia. rewrite NN. change (INR 1) with 1. field. assert (1 < IZR n) by (apply IZR_lt; lia). lra.
  - intros i Hi. rewrite !N by lia. rewrite S_INR, NN. ring.
Qed.
(** Turning the rotation off does not change the times. *)
Theorem C91_rotating_times : forall b e n u t r r' k g w w' g1 g2,
  waveform (mkra b e n u t r) k g = Ok (w, g1) -> waveform (mkra b e n u t r') k g = Ok (w', g2) -> pw_t w' = pw_t w.
Proof.
  intros b e n u t r r' k g w w' g1 g2 E1 E2.
  destruct (Z_lt_le_dec (dflt 1101%Z n) 0) as [B|B].
  - unfold waveform, random_waveform in E1. destruct (reseed_ok "random_waveform") as [g0 Q]. rewrite Q in E1. cbn [rbind] in E1. unfold random_times, linspace in E1. cbn [ra_n ra_uniform] in E1.
    destruct (Z.ltb_spec (dflt 1101%Z n) 0); [|lia]. destruct (dflt false u); discriminate.
  - assert (S1 : forall rr w g', waveform (mkra b e n u t rr) k g = Ok (w, g') -> exists g0 gx, reseed state seed hash "random_waveform" = Ok g0 /\ random_times state draw (mkra b e n u t None) g0 = Ok (pw_t w, gx)).
    { clear E1 E2. intros rr w0 g' E1. assert (E1' := E1). unfold waveform, random_waveform in E1. destruct (reseed_ok "random_waveform") as [g0 Q]. rewrite Q in E1. cbn [rbind] in E1.
      change (random_times state draw (mkra b e n u t rr) g0) with (random_times state draw (mkra b e n u t None) g0) in E1.
      destruct (random_times state draw (mkra b e n u t None) g0) as [[tt gx]|] eqn:ET; [|discriminate]. cbn [rbind] in E1. exists g0, gx. split; [exact Q|]. rewrite ET. f_equal. f_equal. symmetry.
      cbn [ra_rotating] in E1. destruct (dflt true rr); [destruct (random_rotors state draw (length tt) gx) as [f gy]|];
      (match type of E1 with construct _ ?rows ?fr _ ?gg = _ => destruct (construct_ok rows fr tt gg (rows_any tt)) as (w1 & g3 & E3 & _ & T & _) end; rewrite E3 in E1; apply Ok_inj in E1; injection E1 as <- _; exact T). }
    destruct (S1 _ _ _ E1) as (ga & gb & Q1 & T1). destruct (S1 _ _ _ E2) as (ga' & gb' & Q2 & T2). rewrite Q1 in Q2. apply Ok_inj in Q2. subst ga'. rewrite T1 in T2. apply Ok_inj in T2. injection T2 as T2 _. symmetry. exact T2.
Qed.
(** Other limits of the times stretch them and change nothing else. *)
Theorem C91_stretch : forall b e b' e' n u r k g w g1, b < e -> b' < e' -> waveform (mkra (Some b) (Some e) n u None r) k g = Ok (w, g1) ->
  exists w', waveform (mkra (Some b') (Some e') n u None r) k g = Ok (w', g1) /\ pw_t w' = map (affine b e b' e') (pw_t w) /\ pw_data w' = pw_data w /\ pw_frame w' = pw_frame w.
Proof.
  intros b e b' e' n u r k g w g1 HB HB' E.
  assert (RT : forall g0 t gx, random_times state draw (mkra (Some b) (Some e) n u None r) g0 = Ok (t, gx) -> random_times state draw (mkra (Some b') (Some e') n u None r) g0 = Ok (map (affine b e b' e') t, gx)).
  { intros g0 t gx ET. unfold random_times in *. cbn [ra_begin ra_end ra_n ra_uniform ra_t dflt] in *. unfold linspace in *. destruct (Z.ltb_spec (dflt 1101%Z n) 0) as [B|B]; [destruct (dflt false u); discriminate|].
    destruct (dflt false u); cbn [rbind] in *.
    - apply Ok_inj in ET. injection ET as <- <-. rewrite map_map. f_equal. f_equal. apply map_ext. intros i. unfold affine, Rdiv. set (s := / (IZR (dflt 1101%Z n) - 1)). field. lra.
    - unfold uniform in *. destruct (draws state draw (Z.to_nat (dflt 1101%Z n)) g0) as [l g2]. apply Ok_inj in ET. injection ET as <- <-. rewrite <- sort_map.
      + rewrite map_map. f_equal. f_equal. f_equal. apply map_ext. intros x. unfold affine. field. lra.
      + intros x y. unfold affine. assert (0 < (e' - b') / (e - b)) by (apply Rdiv_lt_0_compat; lra). split; intros H1; nra. }
  unfold waveform, random_waveform in *. destruct (reseed state seed hash "random_waveform") as [g0|]; [|discriminate]. cbn [rbind] in *.
  destruct (random_times state draw (mkra (Some b) (Some e) n u None r) g0) as [[t gx]|] eqn:ET; [|discriminate]. rewrite (RT _ _ _ ET). cbn [rbind ra_rotating] in *. rewrite map_length.
  assert (RW : forall fr gg, construct state (fun t m g => complex_rows state normal (length t) m g) fr t gg = Ok (w, g1) ->
    exists w', construct state (fun t m g => complex_rows state normal (length t) m g) fr (map (affine b e b' e') t) gg = Ok (w', g1) /\ pw_t w' = map (affine b e b' e') (pw_t w) /\ pw_data w' = pw_data w /\ pw_frame w' = pw_frame w).
  { intros fr gg EC. destruct (construct_ok (fun t m g => complex_rows state normal (length t) m g) fr t gg (rows_any t)) as (w1 & g3 & E3 & _ & T & D & G & _ & _ & _ & _ & F & _).
    destruct (construct_ok (fun t m g => complex_rows state normal (length t) m g) fr (map (affine b e b' e') t) gg (rows_any _)) as (w2 & g4 & E4 & _ & T' & D' & G' & _ & _ & _ & _ & F' & _).
    rewrite EC in E3. apply Ok_inj in E3. injection E3 as <- <-. exists w2. rewrite T, T', D, D', F, F'. rewrite map_length in *. subst g1. rewrite <- G' . repeat split. exact E4. }
  destruct (dflt true r); [destruct (random_rotors state draw (length t) gx) as [f gy]|]; apply RW; exact E.
Qed.

(** ** Frames and failures *)
Theorem C91_frames : forall a k g w g' q, (0 <= dflt 1101%Z (ra_n a))%Z -> never_half -> waveform a k g = Ok (w, g') -> In q (pw_frame w) -> qnorm2 q = 1.
Proof.
  intros a k g w g' q Hn HH E I. destruct (random_steps a k g Hn) as (g0 & t & g1 & _ & _ & w' & g'' & E' & _ & _ & F & _). rewrite E in E'. apply Ok_inj in E'. injection E' as <- <-. rewrite F in I.
  destruct (dflt true (ra_rotating a)); [|destruct I]. clear - HH I. revert g1 I. induction (length t) as [|n IH]; intros g1; cbn [random_rotors]; [intros []|].
  assert (U : qnorm2 (fst (random_rotor state draw g1)) = 1).
  { unfold random_rotor, uniform. cbn [draws]. assert (H0 := HH g1). destruct (draw g1) as [x g2]. destruct (draw g2) as [y g3]. destruct (draw g3) as [z g4]. destruct (draw g4) as [v g5]. cbn [map nth fst] in *.
    apply qnormalized_unit. intros Q. apply (f_equal qw) in Q. cbn in Q. apply H0. lra. }
  destruct (random_rotor state draw g1) as [p g2]. specialize (IH g2). destruct (random_rotors state draw n g2) as [l g3]. cbn [fst] in *. intros [<- |I]; [exact U|apply IH; exact I].
Qed.
(** Each frame is in the direction of four numbers drawn one after the other, scaled to [-1, 1). *)
Definition drawn_from (g : state) (q : quat) : Prop :=
  let (x, g) := draw g in let (y, g) := draw g in let (z, g) := draw g in let (v, _) := draw g in
  exists r, 0 < r /\ r * qw q = 2 * x - 1 /\ r * qx q = 2 * y - 1 /\ r * qy q = 2 * z - 1 /\ r * qz q = 2 * v - 1.
Theorem C91_frames_drawn : forall a k g w g' q, (0 <= dflt 1101%Z (ra_n a))%Z -> never_half -> waveform a k g = Ok (w, g') -> In q (pw_frame w) -> exists g0, drawn_from g0 q.
Proof.
  intros a k g w g' q Hn HH E I. destruct (random_steps a k g Hn) as (g0 & t & g1 & _ & _ & w' & g'' & E' & _ & _ & F & _). rewrite E in E'. apply Ok_inj in E'. injection E' as <- <-. rewrite F in I.
  destruct (dflt true (ra_rotating a)); [|destruct I]. clear - HH I. revert g1 I. induction (length t) as [|n IH]; intros g1; cbn [random_rotors]; [intros []|].
  assert (U : drawn_from g1 (fst (random_rotor state draw g1))).
  { unfold random_rotor, uniform, drawn_from. cbn [draws]. assert (H0 := HH g1). destruct (draw g1) as [x g2]. destruct (draw g2) as [y g3]. destruct (draw g3) as [z g4]. destruct (draw g4) as [v g5]. cbn [map nth fst] in *.
    set (p := mkq (-1 + (1 - -1) * x) (-1 + (1 - -1) * y) (-1 + (1 - -1) * z) (-1 + (1 - -1) * v)).
    assert (N : p <> q0). { intros Q. apply (f_equal qw) in Q. cbn in Q. apply H0. lra. }
    assert (P : 0 < qabs p) by (apply sqrt_lt_R0, qnorm2_pos; exact N). exists (qabs p). split; [exact P|].
    unfold qnormalized, qscale. cbn [qw qx qy qz]. set (r := qabs p) in *. cbn [p qw qx qy qz]. repeat split; field; lra. }
  destruct (random_rotor state draw g1) as [p g2]. specialize (IH g2). destruct (random_rotors state draw n g2) as [l g3]. cbn [fst] in *. intros [<- |I]; [exists g1; exact U|apply IH; exact I].
Qed.
Theorem C91_failures : forall a k g,
  ((dflt 1101%Z (ra_n a) < 0)%Z -> waveform a k g = Err ValueError /\ proportional a k g = Err ValueError) /\
  ((0 <= dflt 1101%Z (ra_n a))%Z -> dflt true (ra_rotating a) = true -> count a = 0%nat -> proportional a k g = Err IndexError).
Proof.
  intros a k g. split.
  - intros Hn. unfold waveform, proportional, random_waveform, random_waveform_proportional_to_time. destruct (reseed_ok "random_waveform") as [g0 ->]. destruct (reseed_ok "random_waveform_proportional_to_time") as [g1 ->].
    cbn [rbind]. unfold random_times, linspace. destruct (Z.ltb_spec (dflt 1101%Z (ra_n a)) 0) as [B|B]; [|lia]. destruct (dflt false (ra_uniform a)); split; reflexivity.
  - intros Hn HR HC. unfold proportional, random_waveform_proportional_to_time. destruct (reseed_ok "random_waveform_proportional_to_time") as [g1 ->]. cbn [rbind]. destruct (times_ok a g1 Hn) as (t & g2 & -> & L). cbn [rbind].
    rewrite HR. destruct (random_axis state draw g2) as [ax g3]. rewrite HC in L. destruct t; [reflexivity|discriminate].
Qed.
End Generator.

(** ** A case: a generator that counts, with five times *)
Definition tick (g : nat) : R * nat := (/ (2 + INR (Datatypes.S g)), Datatypes.S g).
Example C91_case : let a := mkra None None (Some 5%Z) None None None in let a' := mkra None None (Some 5%Z) (Some true) None None in
  (forall g, 0 <= fst (tick g) < 1) /\ never_half nat tick /\ (0 < count a)%nat /\
  exists w g, random_waveform nat Z.to_nat tick tick (fun _ => 7%Z) a (mkmc None None None None None None (Some 4%Z)) 3%nat = Ok (w, g) /\ length (pw_t w) = 5%nat /\ pw_hi w = 8%Z /\
  exists w g, random_waveform_proportional_to_time nat Z.to_nat tick tick (fun _ => (-7)%Z) a' no_kwargs 3%nat = Ok (w, g) /\ length (pw_t w) = 5%nat /\ hd 0 (pw_t w) <> last (pw_t w) 0.
Proof.
  cbv zeta. set (a := mkra None None (Some 5%Z) None None None). set (a' := mkra None None (Some 5%Z) (Some true) None None).
  assert (T1 : forall g, 0 <= fst (tick g) < 1).
  { intros g. cbn [tick fst]. assert (0 < INR (Datatypes.S g)) by (apply lt_0_INR; lia). split; [left; apply Rinv_0_lt_compat; lra|]. rewrite <- Rinv_1. apply Rinv_lt_contravar; lra. }
  assert (T2 : never_half nat tick).
  { intros g. cbn [tick fst]. intros Q. assert (0 < INR (Datatypes.S g)) by (apply lt_0_INR; lia). apply (f_equal Rinv) in Q. rewrite Rinv_inv in Q. replace (/ (1 / 2)) with 2 in Q by field. lra. }
  split; [exact T1|]. split; [exact T2|]. split; [unfold count; cbn; lia|].
  destruct (C91_random nat Z.to_nat tick tick (fun _ => 7%Z) a (mkmc None None None None None None (Some 4%Z)) 3%nat ltac:(cbn; lia)) as (w & g & E & W). exists w, g. split; [exact E|].
  destruct W as (_ & L & _ & HI & _). split; [rewrite L; reflexivity|]. split; [exact HI|].
  destruct (C91_proportional nat Z.to_nat tick tick (fun _ => (-7)%Z) a' no_kwargs 3%nat ltac:(cbn; lia) ltac:(intros _; unfold count; cbn; lia)) as (w' & g' & c & E' & W' & _). exists w', g'. split; [exact E'|].
  destruct W' as (_ & L' & _). split; [rewrite L'; reflexivity|].
  assert (U := C91_uniform_times nat Z.to_nat tick tick (fun _ => (-7)%Z) a' no_kwargs 3%nat w' g' eq_refl (or_intror E')). change (count a') with 5%nat in L'. cbn [ra_t a' dflt ra_begin ra_end] in U. cbv zeta in U.
  rewrite L' in U. destruct U as (_ & U0 & U1 & _). specialize (U0 ltac:(lia)). specialize (U1 ltac:(lia)). destruct (pw_t w') as [|t0 [|t1 [|t2 [|t3 [|t4 [|t5 t]]]]]]; try discriminate. cbn in U0, U1 |- *. lra.
Qed.
