(** C38 (iterative frame fixing keeps its best pass) and C39 (spin alignment). *)
From Coq Require Import String ZArith Reals List Bool Lia Lra.
From Verif Require Import Common Cplx Quat Times_Model Times_Proofs Kwargs_Model Transform_Model Transform_Proofs Motion_Model Motion_Proofs Superrest_Model.
Import ListNotations.
Open Scope R_scope.

(** ** The comparison *)
Lemma xlt_irrefl : forall a, xlt a a = false.
Proof. intros []; cbn; try reflexivity. destruct (Rltb_spec r r); [lra|reflexivity]. Qed.
Lemma xlt_trans : forall a b c, xlt a b = true -> xlt b c = true -> xlt a c = true.
Proof.
  intros [] [] [] H1 H2; cbn in *; try discriminate; try reflexivity.
  destruct (Rltb_spec r r0); [|discriminate]. destruct (Rltb_spec r0 r1); [|discriminate]. destruct (Rltb_spec r r1); [reflexivity|lra].
Qed.
(** On numbers (infinities included) this is a total order. *)
Lemma xlt_total : forall a b c, b <> NaN -> xlt a c = true -> xlt a b = false -> xlt b c = true.
Proof.
  intros [] [] [] N H1 H2; cbn in *; try discriminate; try reflexivity; try (exfalso; apply N; reflexivity).
  destruct (Rltb_spec r r1); [|discriminate]. destruct (Rltb_spec r r0); [discriminate|]. destruct (Rltb_spec r0 r1); [reflexivity|lra].
Qed.
Lemma xlt_pinf : forall a b, xlt a b = true -> xlt a PInf = true.
Proof. intros [] []; cbn; intros H; try discriminate; reflexivity. Qed.

(** ** Best of a list of candidates with errors, stated without loops: the first one with the least error, unless no
    error is less than +inf. *)
Definition is_best {X} (l : list (X * xf)) (b : X) (e : xf) : Prop :=
  exists k, nth_error l k = Some (b, e) /\ xlt e PInf = true
    /\ (forall j b' e', nth_error l j = Some (b', e') -> xlt e' e = false)
    /\ (forall j b' e', (j < k)%nat -> nth_error l j = Some (b', e') -> e' = NaN \/ xlt e e' = true).
Definition no_best {X} (l : list (X * xf)) : Prop := forall j b' e', nth_error l j = Some (b', e') -> xlt e' PInf = false.

Lemma best_unique : forall X (l : list (X * xf)) b1 e1 b2 e2, is_best l b1 e1 -> is_best l b2 e2 -> b1 = b2 /\ e1 = e2.
Proof.
  intros X l b1 e1 b2 e2 (k1 & N1 & P1 & A1 & B1) (k2 & N2 & P2 & A2 & B2).
  assert (k1 = k2).
  { destruct (Nat.lt_trichotomy k1 k2) as [L|[L|L]]; [|exact L|].
    - destruct (B2 k1 b1 e1 L N1) as [E|E]; [subst; discriminate|]. rewrite (A1 _ _ _ N2) in E. discriminate.
    - destruct (B1 k2 b2 e2 L N2) as [E|E]; [subst; discriminate|]. rewrite (A2 _ _ _ N1) in E. discriminate. }
  subst. rewrite N1 in N2. injection N2 as -> ->. split; reflexivity.
Qed.
Lemma nth_error_snoc : forall A (l : list A) x j y, nth_error (l ++ [x]) j = Some y ->
  (j < length l)%nat /\ nth_error l j = Some y \/ j = length l /\ y = x.
Proof.
  intros A l x j y H. destruct (Nat.lt_ge_cases j (length l)) as [L|L].
  - left. rewrite nth_error_app1 in H by exact L. split; assumption.
  - right. rewrite nth_error_app2 in H by exact L. destruct (j - length l)%nat eqn:E.
    + cbn in H. injection H as <-. split; [lia|reflexivity].
    + cbn in H. destruct n; discriminate.
Qed.

(** [m], the running minimum, with the candidates seen so far and the remembered one. *)
Definition keeps {X} (l : list (X * xf)) (m : xf) (best : option (X * xf)) : Prop :=
  (m = PInf /\ best = None /\ no_best l) \/ (exists b, best = Some (b, m) /\ is_best l b m).
Lemma keeps_step : forall X (l : list (X * xf)) m best b e, keeps l m best ->
  keeps (l ++ [(b, e)]) (if xlt e m then e else m) (if xlt e m then Some (b, e) else best).
Proof.
  intros X l m best b e H. destruct (xlt e m) eqn:E.
  - right. exists b. split; [reflexivity|]. exists (length l).
    assert (P : xlt e PInf = true) by (eapply xlt_pinf; exact E).
    split; [rewrite nth_error_app2, Nat.sub_diag by lia; reflexivity|]. split; [exact P|].
    assert (G : forall j b' e', nth_error l j = Some (b', e') -> xlt e' m = false).
    { destruct H as [(-> & -> & H)|(b0 & -> & k & N & P0 & A & B)]; intros; eauto. }
    split.
    + intros j b' e' N. destruct (nth_error_snoc _ _ _ _ _ N) as [[L N']|[-> N']].
      * destruct (xlt e' e) eqn:E'; [|reflexivity]. rewrite <- (G _ _ _ N'). symmetry. eapply xlt_trans; eauto.
      * injection N' as -> ->. apply xlt_irrefl.
    + intros j b' e' L N. rewrite nth_error_app1 in N by exact L. specialize (G _ _ _ N).
      destruct (xlt e e') eqn:Q; [right; reflexivity|].
      destruct e' as [r| | |]; [| | |left; reflexivity]; exfalso.
      * assert (xlt (Fin r) m = true) by (eapply xlt_total; [discriminate|exact E|exact Q]). congruence.
      * assert (xlt PInf m = true) by (eapply xlt_total; [discriminate|exact E|exact Q]). congruence.
      * assert (xlt NInf m = true) by (eapply xlt_total; [discriminate|exact E|exact Q]). congruence.
  - destruct H as [(-> & -> & H)|(b0 & -> & k & N & P0 & A & B)].
    + left. split; [reflexivity|]. split; [reflexivity|]. intros j b' e' N. destruct (nth_error_snoc _ _ _ _ _ N) as [[L N']|[-> N']]; [eauto|]. injection N' as -> ->. exact E.
    + right. exists b0. split; [reflexivity|]. exists k.
      assert (Lk : (k < length l)%nat) by (apply nth_error_Some; congruence).
      split; [rewrite nth_error_app1 by exact Lk; exact N|]. split; [exact P0|]. split.
      * intros j b' e' N1. destruct (nth_error_snoc _ _ _ _ _ N1) as [[L N']|[-> N']]; [eauto|]. injection N' as -> ->. exact E.
      * intros j b' e' L N1. rewrite nth_error_app1 in N1 by lia. eauto.
Qed.
Lemma xmin1_snoc : forall l c e, xmin1 c (l ++ [e]) = if xlt e (xmin1 c l) then e else xmin1 c l.
Proof. induction l as [|a l IH]; intros c e; cbn; [reflexivity|]. apply IH. Qed.

Lemma last_default : forall A (l : list A) d d', l <> [] -> last l d = last l d'.
Proof. induction l as [|a l IH]; intros d d' H; [contradiction|]. destruct l; [reflexivity|]. apply IH. discriminate. Qed.

(** ** C38, inner solvers *)
(** The passes actually made, in order: every one from the state the previous one left. *)
Inductive passes {St} (body : nat -> St -> res (St * xf)) : nat -> St -> list (St * xf) -> Prop :=
| passes_nil : forall i st, passes body i st []
| passes_cons : forall i st st' e l, body i st = Ok (st', e) -> passes body (S i) st' l -> passes body i st ((st', e) :: l).
Definition on_fst {A B} (f : A -> B) (p : A * xf) : B * xf := (f (fst p), snd p).

Section Inner.
  Context {St X : Type} (body : nat -> St -> res (St * xf)) (cand : St -> X).
  Lemma solve_spec : forall n i tol e0 done st best0 best out errs,
    keeps (map (on_fst cand) done) (xmin1 PInf (map snd done)) best ->
    solve St X body cand n i tol e0 (PInf :: map snd done) st (match best with Some (b, _) => b | None => best0 end) = Ok (out, errs) ->
    exists l, passes body i st l /\ errs = PInf :: map snd (done ++ l) /\ (length l <= n)%nat
      /\ ((length l < n)%nat -> xlt (last (map snd l) e0) tol = true)
      /\ (forall k, (k < length l)%nat -> xlt (nth k (e0 :: map snd l) PInf) tol = false)
      /\ exists best', keeps (map (on_fst cand) (done ++ l)) (xmin1 PInf (map snd (done ++ l))) best'
           /\ out = match best' with Some (b, _) => b | None => best0 end.
  Proof.
    induction n as [|n IH]; intros i tol e0 done st best0 best out errs K H; cbn in H.
    - injection H as <- <-. exists []. rewrite app_nil_r. split; [constructor|]. split; [reflexivity|].
      split; [cbn; lia|]. split; [cbn; lia|]. split; [cbn; lia|]. exists best. split; [exact K|reflexivity].
    - destruct (xlt e0 tol) eqn:Et.
      + injection H as <- <-. exists []. rewrite app_nil_r. split; [constructor|]. split; [reflexivity|].
        split; [cbn; lia|]. split; [cbn; intros; exact Et|]. split; [cbn; lia|]. exists best. split; [exact K|reflexivity].
      + destruct (body i st) as [[st' e]|] eqn:Eb; cbn in H; [|discriminate].
        assert (K' := keeps_step _ _ _ _ (cand st') e K).
        rewrite <- xmin1_snoc in K'.
        replace (map snd done ++ [e]) with (map snd (done ++ [(st', e)])) in H, K' by (rewrite map_app; reflexivity).
        replace (map (on_fst cand) done ++ [(cand st', e)]) with (map (on_fst cand) (done ++ [(st', e)])) in K' by (rewrite map_app; reflexivity).
        specialize (IH (S i) tol e (done ++ [(st', e)]) st' best0 _ out errs K').
        destruct (xlt e (xmin1 PInf (map snd done))) eqn:Em;
          (destruct (IH H) as (l & P & -> & L1 & L2 & L3 & best' & K2 & Eo);
           exists ((st', e) :: l); rewrite <- app_assoc in *; cbn [app] in *;
           split; [econstructor; eassumption|]; split; [reflexivity|]; split; [cbn; lia|]; split;
           [ cbn [length]; intros Hl; assert (Q := L2 ltac:(lia)); cbn [map snd];
             destruct (map snd l) eqn:El; [exact Q|]; cbn [last]; cbn [last] in Q; rewrite <- Q; f_equal; apply (last_default _ (x :: l0)); discriminate
           | split; [intros [|k] Hk; [exact Et|]; cbn [map snd]; apply (L3 k); cbn in Hk; lia|]; exists best'; split; [exact K2|exact Eo]]).
  Qed.

  (** Whatever the passes compute: at most N_itr_max passes are made; they stop early exactly when an error is below the
      tolerance; the list of errors is that of the passes; and the result is the candidate of the first pass with the
      least error, or the initial value when every error is NaN or +inf. *)
  Theorem C38_solver : forall N tol st0 x0 out errs, run St X body cand N tol st0 x0 = Ok (out, errs) ->
    exists l, passes body 0 st0 l /\ errs = PInf :: map snd l
      /\ (Z.of_nat (length l) <= Z.max 0 N)%Z
      /\ ((Z.of_nat (length l) < N)%Z -> exists l' p, l = l' ++ [p] /\ xlt (snd p) tol = true)
      /\ (forall k p, nth_error l k = Some p -> (S k < length l)%nat -> xlt (snd p) tol = false)
      /\ ((exists e, is_best (map (on_fst cand) l) out e) \/ (out = x0 /\ no_best (map (on_fst cand) l))).
  Proof.
    intros N tol st0 x0 out errs H. unfold run in H.
    destruct (solve_spec (Z.to_nat N) 0 tol PInf [] st0 x0 None out errs) as (l & P & E & L1 & L2 & L3 & best' & K & Eo).
    - left. split; [reflexivity|]. split; [reflexivity|]. intros [|j] b e N0; discriminate.
    - exact H.
    - exists l. split; [exact P|]. split; [exact E|]. split; [lia|]. split.
      + intros Hl. specialize (L2 ltac:(lia)).
        destruct l as [|p l0 _] using rev_ind; [exfalso; cbn in L2; destruct tol; discriminate|]. exists l0, p. split; [reflexivity|].
        rewrite map_app in L2. cbn in L2. rewrite last_last in L2. exact L2.
      + split.
        * intros k p Nk Hk. specialize (L3 (S k) Hk). cbn in L3.
          rewrite (nth_indep _ PInf (snd p)) in L3 by (rewrite map_length; lia). rewrite map_nth in L3.
          rewrite (nth_error_nth l k p Nk) in L3. exact L3.
        * destruct K as [(E1 & -> & NB)|(b & -> & IB)]; [right; split; [exact Eo|exact NB]|left; subst out; eexists; exact IB].
  Qed.
  (** The loop itself never fails: an exception can only come out of a pass. *)
  Theorem C38_solver_total : (forall i st, exists r, body i st = Ok r) ->
    forall N tol st0 x0, exists r, run St X body cand N tol st0 x0 = Ok r.
  Proof.
    intros Hb N tol st0 x0. unfold run.
    assert (G : forall n i e0 errs st b, errs <> [] -> exists r, solve St X body cand n i tol e0 errs st b = Ok r).
    { induction n as [|n IH]; intros i e0 errs st b He; cbn; [eexists; reflexivity|].
      destruct (xlt e0 tol); [eexists; reflexivity|]. destruct (Hb i st) as [[st' e] ->]. cbn.
      destruct errs as [|x errs]; [contradiction|]. cbn. apply IH. discriminate. }
    apply G. discriminate.
  Qed.
End Inner.

Lemma keep_inv : forall St X body (cand : St -> X) (P : X -> Prop),
  (forall i st st' e, body i st = Ok (st', e) -> P (cand st')) ->
  forall N tol st0 x0 out errs, P x0 -> run St X body cand N tol st0 x0 = Ok (out, errs) -> P out.
Proof.
  intros St X body cand P HP N tol st0 x0 out errs H0 H.
  destruct (C38_solver _ _ _ _ _ _ _ _ H) as (l & Pl & _ & _ & _ & _ & [(e & k & Nk & _)|[-> _]]); [|exact H0].
  rewrite nth_error_map in Nk. destruct (nth_error l k) as [[st1 e1]|] eqn:E; [|discriminate]. injection Nk as <- <-.
  cbn. clear - Pl E HP. revert k E. induction Pl; intros k E; [destruct k; discriminate|].
  destruct k as [|k]; [cbn in E; injection E as -> ->; eauto|]. apply (IHPl k). exact E.
Qed.

(** What each inner solver can return. *)
Definition no_boost_rotation (b : bms) : Prop := rot b = q1 /\ boost b = (0, 0, 0).
Lemma nth_zeros : forall l k, nth k (zeros l) C0 = C0.
Proof. induction l as [|a l IH]; intros [|k]; cbn; auto. Qed.
Theorem C38_supertranslation : forall G M zeroG addG moreschi massK perturb target error modes_of N tol b errs,
  supertranslation_solver G M zeroG addG moreschi massK perturb target error modes_of N tol = Ok (b, errs) ->
  no_boost_rotation b /\ (forall k, (k < 4)%nat -> nth k (sup b) C0 = C0)
  /\ exists alpha, forall k, (4 <= k)%nat -> nth k (sup b) C0 = nth k (modes_of alpha) C0.
Proof.
  intros G M zeroG addG moreschi massK perturb target error modes_of N tol b errs H. unfold supertranslation_solver in H.
  destruct (run _ _ _ _ _ _ _ _) as [[alpha e]|] eqn:Er; cbn [rbind] in H; [|discriminate].
  apply Ok_inj in H. assert (Hb : b = mkbms (drop_translation (modes_of alpha)) q1 (0, 0, 0)) by (symmetry; exact (f_equal fst H)). subst b. cbn [sup rot boost].
  split; [split; reflexivity|]. unfold drop_translation. set (l := modes_of alpha).
  assert (L : length (zeros (firstn 4 l)) = length (firstn 4 l)) by apply map_length.
  split.
  - intros k Hk. destruct (Nat.lt_ge_cases k (length (zeros (firstn 4 l)))) as [Hl|Hl].
    + rewrite app_nth1 by exact Hl. apply nth_zeros.
    + rewrite app_nth2 by exact Hl. rewrite L, firstn_length in *.
      assert (length l <= 4)%nat by lia. rewrite skipn_all2 by lia. destruct (k - _)%nat; reflexivity.
  - exists alpha. fold l. intros k Hk. destruct (Nat.le_gt_cases (length l) 4) as [Hl|Hl].
    + rewrite skipn_all2, app_nil_r by lia. rewrite (nth_overflow l) by lia. apply nth_zeros.
    + rewrite app_nth2; rewrite L, firstn_length; [|lia]. rewrite Nat.min_l by lia. rewrite nth_skipn. f_equal. lia.
Qed.
Theorem C38_com : forall compose D data transform fit com_error N tol b errs,
  com_solver compose D data transform fit com_error N tol = Ok (b, errs) ->
  rot b = q1 /\ forall k, (4 <= k)%nat -> nth k (sup b) C0 = C0.
Proof.
  intros compose D data transform fit com_error N tol b errs H. unfold com_solver in H.
  revert H. apply (keep_inv _ _ _ _ (fun b => rot b = q1 /\ forall k, (4 <= k)%nat -> nth k (sup b) C0 = C0)).
  - intros i [b0 d0] [b1 d1] e H. unfold com_body in H.
    destruct (fit _) as [n|]; cbn [rbind] in H; [|discriminate]. destruct (compose n b0) as [c|]; cbn [rbind] in H; [|discriminate].
    destruct (transform _) as [d|]; cbn [rbind] in H; [|discriminate]. apply Ok_inj in H; assert (Hb := f_equal (fun p => fst (fst p)) H); cbn [fst] in Hb; clear H; subst b1. cbn [fst com_strip rot sup].
    split; [reflexivity|]. intros k Hk.
    destruct (Nat.le_gt_cases (length (sup c)) 4) as [Hl|Hl].
    + rewrite skipn_all2 by lia. unfold zeros. cbn [map]. rewrite app_nil_r. apply nth_overflow. rewrite firstn_length. lia.
    + rewrite app_nth2; rewrite firstn_length, Nat.min_l by lia; [|lia]. apply nth_zeros.
  - split; [reflexivity|]. intros k Hk. unfold identity. cbn [sup].
    destruct (Nat.lt_ge_cases k 169) as [Hl|Hl]; [apply nth_repeat|apply nth_overflow; rewrite repeat_length; exact Hl].
Qed.
Theorem C38_rotation : forall compose D data transform align rot_error N tol b errs,
  rot_solver compose D data transform align rot_error N tol = Ok (b, errs) ->
  boost b = (0, 0, 0) /\ forall k, nth k (sup b) C0 = C0.
Proof.
  intros compose D data transform align rot_error N tol b errs H. unfold rot_solver in H.
  revert H. apply (keep_inv _ _ _ _ (fun b => boost b = (0, 0, 0) /\ forall k, nth k (sup b) C0 = C0)).
  - intros i [b0 d0] [b1 d1] e H. unfold rot_body in H.
    destruct (align _) as [n|]; cbn [rbind] in H; [|discriminate]. destruct (compose n b0) as [c|]; cbn [rbind] in H; [|discriminate].
    destruct (transform _) as [d|]; cbn [rbind] in H; [|discriminate]. apply Ok_inj in H; assert (Hb := f_equal (fun p => fst (fst p)) H); cbn [fst] in Hb; clear H; subst b1. cbn [fst rot_strip boost sup].
    split; [reflexivity|]. apply nth_zeros.
  - split; [reflexivity|]. intros k. unfold identity. cbn [sup].
    destruct (Nat.lt_ge_cases k 169) as [Hl|Hl]; [apply nth_repeat|apply nth_overflow; rewrite repeat_length; exact Hl].
Qed.

(** The iterations themselves.  Supertranslation: from alpha = 0, every pass adds the perturbation computed from the
    supermomentum at the present alpha, the conformal factor of that supermomentum and its rest mass, or, with a
    target, the target at the previous alpha. *)
Section Iterations.
  Context {G M : Type} (zeroG : G) (addG : G -> G -> G) (moreschi : G -> res M) (massK : M -> res (G * G))
    (perturb : M -> G -> G -> res G) (target : option (G -> res G)) (error : M -> G -> xf).
  Definition mass_is (m prev m' : G) : Prop := match target with None => m' = m | Some f => f prev = Ok m' end.
  Inductive alphas : G -> G -> list (G * xf) -> Prop :=
  | alphas_nil : forall prev a, alphas prev a []
  | alphas_cons : forall prev a p m k m' d p2 m2 k2 m2' l,
      moreschi a = Ok p -> massK p = Ok (m, k) -> mass_is m prev m' -> perturb p m' k = Ok d ->
      moreschi (addG a d) = Ok p2 -> massK p2 = Ok (m2, k2) -> mass_is m2 a m2' ->
      alphas a (addG a d) l -> alphas prev a ((addG a d, error p2 m2') :: l).
  Lemma mass_for_is : forall p prev m' k, mass_for G M massK target p prev = Ok (m', k) -> exists m, massK p = Ok (m, k) /\ mass_is m prev m'.
  Proof.
    intros p prev m' k H. unfold mass_for in H. destruct (massK p) as [[m k0]|]; cbn [rbind] in H; [|discriminate].
    unfold mass_is. destruct target as [f|].
    - destruct (f prev) as [x|] eqn:Ef; cbn [rbind] in H; [|discriminate]. injection H as <- <-. exists m. auto.
    - injection H as <- <-. exists m. auto.
  Qed.
  Definition consistent (itr : nat) (prev : G) (st : sstate G M) : Prop :=
    match itr with
    | O => prev = ss_alpha G M st
    | S _ => exists p mk, ss_psi G M st = Some p /\ ss_mk G M st = Some mk /\ moreschi (ss_alpha G M st) = Ok p /\ mass_for G M massK target p prev = Ok mk
    end.
  Lemma alphas_of : forall itr st l, passes (super_body G M addG moreschi massK perturb target error) itr st l ->
    forall prev, consistent itr prev st -> alphas prev (ss_alpha G M st) (map (on_fst (ss_alpha G M)) l).
  Proof.
    intros itr st l P. induction P as [itr st|itr st st' e l Hb P IH]; intros prev Cs; [constructor|].
    unfold super_body in Hb.
    assert (X : exists p m' k, moreschi (ss_alpha G M st) = Ok p /\ mass_for G M massK target p prev = Ok (m', k) /\
       (let? d := perturb p m' k in let? psi' := moreschi (addG (ss_alpha G M st) d) in
        let? mk' := mass_for G M massK target psi' (ss_alpha G M st) in
        Ok (mkss G M (addG (ss_alpha G M st) d) (Some psi') (Some mk'), error psi' (fst mk'))) = Ok (st', e)).
    { destruct itr as [|itr]; cbn [consistent] in Cs.
      - subst prev. destruct (moreschi (ss_alpha G M st)) as [p|]; cbn [rbind] in Hb; [|discriminate].
        destruct (mass_for G M massK target p (ss_alpha G M st)) as [[m' k]|] eqn:Em; cbn [rbind fst snd] in Hb; [|discriminate].
        exists p, m', k. auto.
      - destruct Cs as (p & [m' k] & E1 & E2 & E3 & E4). rewrite E1, E2 in Hb. cbn [rbind fst snd] in Hb. exists p, m', k. auto. }
    clear Hb Cs. destruct X as (p & m' & k & Ep & Em & Hb).
    destruct (perturb p m' k) as [d|] eqn:Ed; cbn [rbind] in Hb; [|discriminate].
    destruct (moreschi (addG (ss_alpha G M st) d)) as [p2|] eqn:E2; cbn [rbind] in Hb; [|discriminate].
    destruct (mass_for G M massK target p2 (ss_alpha G M st)) as [[m2' k2]|] eqn:Em2; cbn [rbind fst] in Hb; [|discriminate].
    apply Ok_inj in Hb. assert (H1 := f_equal fst Hb). assert (H2 := f_equal snd Hb). cbn [fst snd] in H1, H2. clear Hb. subst st' e.
    destruct (mass_for_is _ _ _ _ Em) as (m & Em' & Is). destruct (mass_for_is _ _ _ _ Em2) as (m2 & Em2' & Is2).
    cbn [map on_fst fst snd ss_alpha]. eapply alphas_cons; try eassumption. apply IH. cbn [consistent]. exists p2, (m2', k2). cbn. auto.
  Qed.
End Iterations.
Theorem C38_supertranslation_iterates : forall G M zeroG addG moreschi massK perturb target error modes_of N tol b errs,
  supertranslation_solver G M zeroG addG moreschi massK perturb target error modes_of N tol = Ok (b, errs) ->
  exists l alpha, alphas addG moreschi massK perturb target error zeroG zeroG l /\ errs = PInf :: map snd l
    /\ ((exists e, is_best l alpha e) \/ (alpha = zeroG /\ no_best l))
    /\ forall k, (4 <= k)%nat -> nth k (sup b) C0 = nth k (modes_of alpha) C0.
Proof.
  intros G M zeroG addG moreschi massK perturb target error modes_of N tol b errs H. unfold supertranslation_solver in H.
  destruct (run _ _ _ _ _ _ _ _) as [[alpha e]|] eqn:Er; cbn [rbind] in H; [|discriminate].
  apply Ok_inj in H. assert (Hb : b = mkbms (drop_translation (modes_of alpha)) q1 (0, 0, 0)) by (symmetry; exact (f_equal fst H)).
  assert (He : e = errs) by exact (f_equal snd H). subst b e. cbn [sup].
  destruct (C38_solver _ _ _ _ _ _ _ _ Er) as (l & P & E & _ & _ & _ & B).
  exists (map (on_fst (ss_alpha G M)) l), alpha.
  split; [exact (alphas_of addG moreschi massK perturb target error _ _ _ P zeroG eq_refl)|].
  split; [rewrite map_map; exact E|]. split; [exact B|].
  unfold drop_translation. set (u := modes_of alpha).
  assert (L : length (zeros (firstn 4 u)) = length (firstn 4 u)) by apply map_length.
  intros k Hk. destruct (Nat.le_gt_cases (length u) 4) as [Hl|Hl].
  - rewrite skipn_all2, app_nil_r by lia. rewrite (nth_overflow u) by lia. apply nth_zeros.
  - rewrite app_nth2; rewrite L, firstn_length; [|lia]. rewrite Nat.min_l by lia. rewrite nth_skipn. f_equal. lia.
Qed.

(** Centre of mass and rotation: every pass fits the transformed data, composes the fit with the present
    transformation and keeps only its part; the first pass fits the given data. *)
Inductive refines {D : Type} (compose : bms -> bms -> res bms) (transform : bms -> res D) (fit : D -> res bms) (err : D -> xf)
    (keep : bms -> bms -> Prop) : bms -> D -> list (bms * xf) -> Prop :=
| refines_nil : forall b d, refines compose transform fit err keep b d []
| refines_cons : forall b d n c b' b'' d' l, fit d = Ok n -> compose n b = Ok c -> keep c b' ->
    rot b'' = rot b' /\ boost b'' = boost b' /\ (forall k, nth k (sup b'') C0 = nth k (sup b') C0) -> transform b'' = Ok d' ->
    refines compose transform fit err keep b' d' l -> refines compose transform fit err keep b d ((b', err d') :: l).
Definition keep_com (c b : bms) : Prop := rot b = q1 /\ boost b = boost c /\ forall k, nth k (sup b) C0 = if (k <? 4)%nat then nth k (sup c) C0 else C0.
Definition keep_rot (c b : bms) : Prop := rot b = rot c /\ boost b = (0, 0, 0) /\ forall k, nth k (sup b) C0 = C0.
Lemma com_strip_keeps : forall c, keep_com c (com_strip c).
Proof.
  intro c. split; [reflexivity|]. split; [reflexivity|]. intro k. cbn [com_strip sup].
  destruct (Nat.ltb_spec k 4) as [Hk|Hk].
  - destruct (Nat.lt_ge_cases k (length (sup c))) as [Hl|Hl].
    + rewrite app_nth1 by (rewrite firstn_length; lia). rewrite <- (firstn_skipn 4 (sup c)) at 2. rewrite app_nth1 by (rewrite firstn_length; lia). reflexivity.
    + rewrite (nth_overflow (sup c)) by exact Hl. rewrite app_nth2 by (rewrite firstn_length; lia). apply nth_zeros.
  - destruct (Nat.le_gt_cases (length (firstn 4 (sup c))) k) as [Hl|Hl]; [rewrite app_nth2 by exact Hl; apply nth_zeros|rewrite firstn_length in Hl; lia].
Qed.
Theorem C38_com_iterates : forall compose D data transform fit com_error N tol b errs,
  com_solver compose D data transform fit com_error N tol = Ok (b, errs) ->
  exists l, refines compose transform fit com_error keep_com identity data l /\ errs = PInf :: map snd l
    /\ ((exists e, is_best l b e) \/ (b = identity /\ no_best l)).
Proof.
  intros compose D data transform fit com_error N tol b errs H. unfold com_solver in H.
  destruct (C38_solver _ _ _ _ _ _ _ _ H) as (l & P & E & _ & _ & _ & B).
  exists (map (on_fst fst) l). split; [|split; [rewrite map_map; exact E|exact B]].
  assert (X : forall itr st l, passes (com_body compose D data transform fit com_error) itr st l -> (itr = 0%nat -> snd st = data) ->
     refines compose transform fit com_error keep_com (fst st) (snd st) (map (on_fst fst) l)).
  { clear. intros itr st l P. induction P as [itr [b d]|itr [b d] [b1 d1] e l Hb P IH]; intro Hd; [constructor|]. cbn [fst snd] in *.
    unfold com_body in Hb.
    assert (Ed : match itr with O => data | S _ => d end = d) by (destruct itr; [symmetry; apply Hd|]; reflexivity). rewrite Ed in Hb. clear Ed.
    destruct (fit d) as [n|] eqn:E1; cbn [rbind] in Hb; [|discriminate]. destruct (compose n b) as [c|] eqn:E2; cbn [rbind] in Hb; [|discriminate].
    destruct (transform (com_strip c)) as [d'|] eqn:E3; cbn [rbind] in Hb; [|discriminate]. apply Ok_inj in Hb.
    assert (B1 := f_equal (fun p => fst (fst p)) Hb). assert (B2 := f_equal (fun p => snd (fst p)) Hb). assert (B3 := f_equal snd Hb).
    cbn [fst snd] in B1, B2, B3. clear Hb. subst b1 d1 e. cbn [map]. change (on_fst fst (com_strip c, d', com_error d')) with (com_strip c, com_error d').
    eapply refines_cons; [eassumption|eassumption|apply com_strip_keeps|repeat split|exact E3|]. apply IH. discriminate. }
  apply (X 0%nat (identity, data) l P). reflexivity.
Qed.
Theorem C38_rotation_iterates : forall compose D data transform align rot_error N tol b errs,
  rot_solver compose D data transform align rot_error N tol = Ok (b, errs) ->
  exists l, refines compose transform align rot_error keep_rot identity data l /\ errs = PInf :: map snd l
    /\ ((exists e, is_best l b e) \/ (b = identity /\ no_best l)).
Proof.
  intros compose D data transform align rot_error N tol b errs H. unfold rot_solver in H.
  destruct (C38_solver _ _ _ _ _ _ _ _ H) as (l & P & E & _ & _ & _ & B).
  exists (map (on_fst fst) l). split; [|split; [rewrite map_map; exact E|exact B]].
  assert (X : forall itr st l, passes (rot_body compose D data transform align rot_error) itr st l -> (itr = 0%nat -> snd st = data) ->
     refines compose transform align rot_error keep_rot (fst st) (snd st) (map (on_fst fst) l)).
  { clear. intros itr st l P. induction P as [itr [b d]|itr [b d] [b1 d1] e l Hb P IH]; intro Hd; [constructor|]. cbn [fst snd] in *.
    unfold rot_body in Hb.
    assert (Ed : match itr with O => data | S _ => d end = d) by (destruct itr; [symmetry; apply Hd|]; reflexivity). rewrite Ed in Hb. clear Ed.
    destruct (align d) as [n|] eqn:E1; cbn [rbind] in Hb; [|discriminate]. destruct (compose n b) as [c|] eqn:E2; cbn [rbind] in Hb; [|discriminate].
    set (b'' := mkbms (repeat C0 169) (rot (rot_strip c)) (0, 0, 0)) in Hb.
    destruct (transform b'') as [d'|] eqn:E3; cbn [rbind] in Hb; [|discriminate]. apply Ok_inj in Hb.
    assert (B1 := f_equal (fun p => fst (fst p)) Hb). assert (B2 := f_equal (fun p => snd (fst p)) Hb). assert (B3 := f_equal snd Hb).
    cbn [fst snd] in B1, B2, B3. clear Hb. subst b1 d1 e. cbn [map]. change (on_fst fst (rot_strip c, d', rot_error d')) with (rot_strip c, rot_error d').
    eapply (refines_cons _ _ _ _ _ _ _ _ _ _ b''); [eassumption|eassumption| | |exact E3|].
    - split; [reflexivity|]. split; [reflexivity|]. intro k. apply nth_zeros.
    - split; [reflexivity|]. split; [reflexivity|]. intro k. cbn [rot_strip sup]. rewrite nth_zeros. unfold b''. cbn [sup].
      destruct (Nat.lt_ge_cases k 169) as [Hl|Hl]; [apply nth_repeat|apply nth_overflow; rewrite repeat_length; exact Hl].
    - apply IH. discriminate. }
  apply (X 0%nat (identity, data) l P). reflexivity.
Qed.

(** ** C38, map_to_superrest_frame *)
Section Outer.
  Context {T : Type} (compose : T -> T -> res T) (inverse : T -> res T) (solver : string -> T -> res T) (has_target : bool)
          (align2d : T -> res (xf * T)) (charges : T -> res (xf * xf * xf)).
  Let pass := pass T compose solver has_target align2d charges.
  Inductive rounds (order : list string) : ostate T -> list (ostate T) -> Prop :=
  | rounds_nil : forall st, rounds order st []
  | rounds_cons : forall st st' l, pass order st = Ok st' -> rounds order st' l -> rounds order st (st' :: l).
  Definition summary (st : ostate T) : (T * relerr) * xf := ((o_bms T st, o_err T st), mean (o_err T st)).

  Lemma outer_spec : forall n t order done st best out errs,
    keeps (map summary done) (xmin1 PInf (map mean (map (o_err T) done))) (option_map (fun p => (p, mean (snd p))) best) ->
    outer T compose solver has_target align2d charges n t order (Init :: map (o_err T) done) st best = Ok (out, errs) ->
    exists l, rounds order st l /\ (length l <= n)%nat
      /\ ((length l < n)%nat -> converged t (o_err T (last l st)) = true)
      /\ (forall k, (k < length l)%nat -> converged t (o_err T (nth k (st :: l) st)) = false)
      /\ keeps (map summary (done ++ l)) (xmin1 PInf (map mean (map (o_err T) (done ++ l)))) (option_map (fun p => (p, mean (snd p))) out).
  Proof.
    induction n as [|n IH]; intros t order done st best out errs K H; cbn in H.
    - injection H as <- <-. exists []. rewrite app_nil_r. split; [constructor|]. split; [cbn; lia|]. split; [cbn; lia|]. split; [cbn; lia|exact K].
    - destruct (converged t (o_err T st)) eqn:Ec.
      + injection H as <- <-. exists []. rewrite app_nil_r. split; [constructor|]. split; [cbn; lia|]. split; [intros _; exact Ec|]. split; [cbn; lia|exact K].
      + fold pass in H. destruct (pass order st) as [st'|] eqn:Ep; cbn [rbind] in H; [|discriminate].
        assert (K' := keeps_step _ _ _ _ (o_bms T st', o_err T st') (mean (o_err T st')) K).
        rewrite <- xmin1_snoc in K'.
        replace (map (o_err T) done ++ [o_err T st']) with (map (o_err T) (done ++ [st'])) in H by (rewrite map_app; reflexivity).
        replace (map mean (map (o_err T) done) ++ [mean (o_err T st')]) with (map mean (map (o_err T) (done ++ [st']))) in K' by (rewrite !map_app; reflexivity).
        replace (map summary done ++ [((o_bms T st', o_err T st'), mean (o_err T st'))]) with (map summary (done ++ [st'])) in K' by (rewrite map_app; reflexivity).
        specialize (IH t order (done ++ [st']) st' (if xlt (mean (o_err T st')) (xmin1 PInf (map mean (map (o_err T) done))) then Some (o_bms T st', o_err T st') else best) out errs).
        destruct IH as (l & R & L1 & L2 & L3 & K2).
        { destruct (xlt (mean (o_err T st')) (xmin1 PInf (map mean (map (o_err T) done)))); exact K'. }
        { exact H. }
        exists (st' :: l). rewrite <- app_assoc in K2. split; [econstructor; eassumption|]. split; [cbn; lia|]. split.
        * cbn [length]. intros Hl. specialize (L2 ltac:(lia)). destruct l; [exact L2|]. cbn [last]. cbn [last] in L2.
          rewrite <- L2. do 2 f_equal. apply (last_default _ (o :: l)). discriminate.
        * split; [|exact K2]. intros [|k] Hk; [exact Ec|]. cbn [nth]. cbn in Hk. specialize (L3 k ltac:(lia)).
          rewrite <- L3. do 2 f_equal. apply (nth_indep (st' :: l)). cbn. lia.
  Qed.

  (** A result of map_to_superrest_frame: the rounds made start from the time translation; there are at most N; fewer only
      when the last of them met all three tolerances, which no earlier one did; and what is returned is the transformation
      (time translation undone) and the error of the first round with the least mean error. *)
  Theorem C38_superrest : forall N t order tt0 one r e,
    map_to_superrest T compose inverse solver has_target align2d charges N t order tt0 one = Ok (r, e) ->
    exists b0 l b i, compose tt0 one = Ok b0 /\ rounds order (mkos T b0 None Init) l
      /\ (Z.of_nat (length l) <= N)%Z
      /\ ((Z.of_nat (length l) < N)%Z -> exists l' st, l = l' ++ [st] /\ converged t (o_err T st) = true)
      /\ (forall k st, nth_error l k = Some st -> (S k < length l)%nat -> converged t (o_err T st) = false)
      /\ is_best (map summary l) (b, e) (mean e)
      /\ inverse tt0 = Ok i /\ compose i b = Ok r.
  Proof.
    intros N t order tt0 one r e H. unfold map_to_superrest in H.
    destruct (compose tt0 one) as [b0|] eqn:E0; cbn [rbind] in H; [|discriminate].
    destruct (outer _ _ _ _ _ _ _ _ _ _ _ _) as [[best errs]|] eqn:Eo; cbn [rbind] in H; [|discriminate].
    destruct best as [[b e']|]; [|discriminate].
    destruct (inverse tt0) as [i|] eqn:Ei; cbn [rbind] in H; [|discriminate].
    destruct (compose i b) as [r'|] eqn:Ec; cbn [rbind] in H; [|discriminate]. injection H as <- <-.
    destruct (outer_spec _ t order [] _ None _ _ ltac:(left; split; [reflexivity|split; [reflexivity|intros [|j] ? ? Q; discriminate]]) Eo) as (l & R & L1 & L2 & L3 & K).
    cbn [app] in K. destruct K as [(_ & Q & _)|((p, e1) & Q & IB)]; [discriminate|]. cbn [option_map snd] in Q. injection Q as <- <- Em. rewrite <- Em in IB.
    assert (Lpos : (0 < length l)%nat). { destruct IB as (k & Nk & _). rewrite nth_error_map in Nk. destruct l; [destruct k; discriminate|cbn; lia]. }
    exists b0, l, b, i. split; [reflexivity|]. split; [exact R|]. split; [lia|]. split.
    - intros Hl. specialize (L2 ltac:(lia)). destruct l as [|p l0 _] using rev_ind; [cbn in Lpos; lia|].
      exists l0, p. split; [reflexivity|]. rewrite last_last in L2. exact L2.
    - split; [|split; [exact IB|split; [reflexivity|exact Ec]]].
      intros k st Nk Hk. specialize (L3 (S k) Hk). cbn [nth] in L3. rewrite (nth_error_nth l k _ Nk) in L3. exact L3.
  Qed.

  (** There is no result when no round improves on infinity, in particular when N is not positive: the variable holding the
      best transformation was never assigned. *)
  Theorem C38_superrest_unbound : forall N t order tt0 one,
    (forall st st', pass order st = Ok st' -> xlt (mean (o_err T st')) PInf = false) ->
    (exists b0, compose tt0 one = Ok b0) ->
    (forall st, exists st', pass order st = Ok st') ->
    map_to_superrest T compose inverse solver has_target align2d charges N t order tt0 one = Err UnboundLocalError.
  Proof.
    intros N t order tt0 one Hinf [b0 E0] Htot. unfold map_to_superrest. rewrite E0. cbn [rbind].
    assert (G : forall n done st, (forall e, In e done -> xlt (mean e) PInf = false) ->
      exists errs, outer T compose solver has_target align2d charges n t order (Init :: done) st None = Ok (None, errs)).
    { induction n as [|n IH]; intros done st Hd; cbn [outer]; [eexists; reflexivity|].
      destruct (converged t (o_err T st)); [eexists; reflexivity|].
      destruct (Htot st) as [st' Ep]. fold pass. rewrite Ep. cbn [rbind pymin map].
      assert (Em : xmin1 PInf (map mean done) = PInf).
      { assert (Q : forall l, (forall e, In e l -> xlt e PInf = false) -> xmin1 PInf l = PInf).
        { induction l as [|a l IHl]; intros Hl; cbn; [reflexivity|]. rewrite (Hl a) by (left; reflexivity). apply IHl. intros; apply Hl; right; assumption. }
        apply Q. intros e Hin. apply in_map_iff in Hin. destruct Hin as (x & <- & Hx). auto. }
      cbn [mean]. rewrite Em, (Hinf _ _ Ep). cbn [app]. change (map mean [Init]) with [PInf].
      destruct (IH (done ++ [o_err T st']) st') as [errs E].
      { intros e Hin. apply in_app_iff in Hin. destruct Hin as [Hin|[<-|[]]]; [auto|eauto]. }
      exists errs. exact E. }
    destruct (G (Z.to_nat N) [] (mkos T b0 None Init) ltac:(intros e [])) as [errs ->]. reflexivity.
  Qed.
  Theorem C38_superrest_no_rounds : forall N t order tt0 one b0, (N <= 0)%Z -> compose tt0 one = Ok b0 ->
    map_to_superrest T compose inverse solver has_target align2d charges N t order tt0 one = Err UnboundLocalError.
  Proof.
    intros N t order tt0 one b0 HN E0. unfold map_to_superrest. rewrite E0. cbn [rbind].
    replace (Z.to_nat N) with 0%nat by lia. reflexivity.
  Qed.

  (** With a target strain and "time_phase" last, the tolerances are never looked at: exactly N rounds are made. *)
  Theorem C38_superrest_time_phase_last : forall N t order0 tt0 one r e, has_target = true ->
    map_to_superrest T compose inverse solver has_target align2d charges N t (order0 ++ ["time_phase"%string]) tt0 one = Ok (r, e) ->
    exists b0 l, compose tt0 one = Ok b0 /\ rounds (order0 ++ ["time_phase"%string]) (mkos T b0 None Init) l /\ Z.of_nat (length l) = N.
  Proof.
    intros N t order0 tt0 one r e HT H. destruct (C38_superrest _ _ _ _ _ _ _ H) as (b0 & l & b & i & E0 & R & L1 & L2 & _).
    exists b0, l. split; [exact E0|]. split; [exact R|].
    destruct (Z.eq_dec (Z.of_nat (length l)) N) as [E|E]; [exact E|]. exfalso.
    destruct (L2 ltac:(lia)) as (l' & st & -> & Hc).
    assert (G : forall st0 l, rounds (order0 ++ ["time_phase"%string]) st0 l -> forall x, In x l -> exists e, o_err T x = Scalar e).
    { induction 1 as [|st0 st' l0 Hp HR IH]; intros x Hx; [contradiction|]. destruct Hx as [<-|Hx]; [|auto].
      unfold pass, Superrest_Model.pass in Hp.
      assert (A : forall o s s', apply_all T compose solver has_target align2d s (o ++ ["time_phase"%string]) = Ok s' -> exists e, o_err T s' = Scalar e).
      { induction o as [|nm o IHo]; intros s s' Ha; cbn [app apply_all] in Ha.
        - unfold apply_one in Ha. rewrite HT in Ha. cbn in Ha.
          destruct (align2d (o_bms T s)) as [[e0 n0]|]; cbn in Ha; [|discriminate]. destruct (compose n0 (o_bms T s)); cbn in Ha; [|discriminate].
          injection Ha as <-. eexists; reflexivity.
        - destruct (apply_one _ _ _ _ _ s nm) as [s1|] eqn:E1; cbn [rbind] in Ha; [|discriminate]. eapply IHo. exact Ha. }
      destruct (apply_all _ _ _ _ _ st0 _) as [s1|] eqn:E1; cbn [rbind] in Hp; [|discriminate].
      destruct (A _ _ _ E1) as [e1 Ee]. unfold final_error in Hp. rewrite HT, rev_unit in Hp. cbn in Hp.
      injection Hp as <-. cbn. eexists; exact Ee. }
    destruct (G _ _ R st ltac:(apply in_or_app; right; left; reflexivity)) as [e1 Ee]. rewrite Ee in Hc. discriminate.
  Qed.

  (** A name that is not one of the known ones (or "time_phase" without a target) applies the previous transformation once
      more, or fails when it comes first. *)
  Theorem C38_superrest_other_names : forall st name,
    name <> "supertranslation"%string -> name <> "rotation"%string -> name <> "CoM_transformation"%string ->
    (name = "time_phase"%string -> has_target = false) ->
    apply_one T compose solver has_target align2d st name =
    match o_new T st with
    | None => Err UnboundLocalError
    | Some n => match compose n (o_bms T st) with Ok b => Ok (mkos T b (Some n) (o_err T st)) | Err x => Err x end
    end.
  Proof.
    intros st name N1 N2 N3 N4. unfold apply_one. apply String.eqb_neq in N1, N2, N3. rewrite N1, N2, N3. cbn [orb].
    destruct (String.eqb_spec name "time_phase") as [E|E].
    - rewrite (N4 E). cbn [rbind]. destruct (o_new T st); [|reflexivity]. destruct (compose t (o_bms T st)); reflexivity.
    - cbn [rbind]. destruct (o_new T st); [|reflexivity]. destruct (compose t (o_bms T st)); reflexivity.
  Qed.

  (** ** C38, map_to_abd_frame: always N rounds, then the best one; nothing to return if none improves on infinity. *)
  Variable round : T -> res (T * xf).
  Inductive abd_rounds : T -> list (T * xf) -> Prop :=
  | abd_nil : forall b, abd_rounds b []
  | abd_cons : forall b b' e l, round b = Ok (b', e) -> abd_rounds b' l -> abd_rounds b ((b', e) :: l).
  Theorem C38_abd : forall N b0,
    (forall b e, map_to_abd T round N b0 = Ok (b, e) ->
       exists l, abd_rounds b0 l /\ Z.of_nat (length l) = N /\ is_best l b e)
    /\ (forall l, abd_rounds b0 l -> Z.of_nat (length l) = Z.max 0 N -> no_best l -> map_to_abd T round N b0 = Err UnboundLocalError).
  Proof.
    intros N b0.
    assert (G : forall n done b best out, keeps done (xmin1 PInf (map snd done)) best ->
      abd_loop T round n (PInf :: map snd done) b best = Ok out ->
      exists l, abd_rounds b l /\ length l = n /\ keeps (done ++ l) (xmin1 PInf (map snd (done ++ l))) out).
    { induction n as [|n IH]; intros done b best out K H; cbn in H.
      - injection H as <-. exists []. rewrite app_nil_r. split; [constructor|]. split; [reflexivity|exact K].
      - destruct (round b) as [[b' e]|] eqn:Er; cbn in H; [|discriminate].
        assert (K' := keeps_step _ _ _ _ b' e K). rewrite <- xmin1_snoc in K'.
        replace (map snd done ++ [e]) with (map snd (done ++ [(b', e)])) in H, K' by (rewrite map_app; reflexivity).
        destruct (IH _ _ _ _ K' H) as (l & R & L & K2). exists ((b', e) :: l). rewrite <- app_assoc in K2.
        split; [econstructor; eassumption|]. split; [cbn; lia|exact K2]. }
    assert (K0 : keeps (@nil (T * xf)) (xmin1 PInf (map snd (@nil (T * xf)))) None).
    { left. split; [reflexivity|]. split; [reflexivity|]. intros [|j] ? ? Q; discriminate. }
    split.
    - intros b e H. unfold map_to_abd in H. destruct (abd_loop _ _ _ _ _ _) as [best|] eqn:El; cbn in H; [|discriminate].
      destruct best as [[b1 e1]|]; [|discriminate]. injection H as -> ->.
      destruct (G _ _ _ _ _ K0 El) as (l & R & L & K). cbn [app] in K. destruct K as [(_ & Q & _)|(b2 & Q & IB)]; [discriminate|].
      injection Q as <- Qe. rewrite <- Qe in IB. exists l. split; [exact R|]. split; [|exact IB].
      destruct IB as (k & Nk & _). destruct l; [destruct k; discriminate|]. cbn [length] in *. lia.
    - intros l R L NB. unfold map_to_abd.
      assert (E : exists best, abd_loop T round (Z.to_nat N) [PInf] b0 None = Ok best).
      { replace (Z.to_nat N) with (length l) by lia. clear - R. generalize (@None (T * xf)). change [PInf] with (PInf :: @nil xf). generalize (@nil xf).
        induction R; intros errs best; cbn; [eexists; reflexivity|]. rewrite H. cbn. apply IHR. }
      destruct E as [best El]. rewrite El. cbn. destruct best as [[b1 e1]|]; [|reflexivity]. exfalso.
      destruct (G _ _ _ _ _ K0 El) as (l1 & R1 & L1 & K). cbn [app] in K. destruct K as [(_ & Q & _)|(b2 & Q & (k & Nk & P & _))]; [discriminate|].
      assert (l1 = l).
      { assert (Len : length l1 = length l) by lia. clear - R R1 Len. revert l1 R1 Len. induction R; intros l1 R1 Len; [destruct l1; [reflexivity|discriminate]|].
        inversion R1; subst; [discriminate|]. rewrite H in H0. injection H0 as <- <-. f_equal. apply IHR; [assumption|]. cbn in Len. lia. }
      subst l1. rewrite (NB _ _ _ Nk) in P. discriminate.
  Qed.
End Outer.

(** Non-trivial cases: a solver whose errors are nan, 3, 1, 2: four passes, the third is returned; and stops early. *)
Definition demo_body (i : nat) (st : nat) : res (nat * xf) :=
  Ok (S st, nth i [NaN; Fin 3; Fin 1; Fin 2] PInf).
Example C38_case :
  run nat nat demo_body (fun s => s) 4 (Fin (1 / 2)) 0%nat 0%nat = Ok (3%nat, [PInf; NaN; Fin 3; Fin 1; Fin 2])
  /\ run nat nat demo_body (fun s => s) 10 (Fin (3 / 2)) 0%nat 0%nat = Ok (3%nat, [PInf; NaN; Fin 3; Fin 1])
  /\ run nat nat demo_body (fun s => s) 1 (Fin 1) 0%nat 7%nat = Ok (7%nat, [PInf; NaN]).
Proof.
  assert (A : forall a b, a < b -> Rltb a b = true) by (intros a b H; destruct (Rltb_spec a b); [reflexivity|lra]).
  assert (B : forall a b, b <= a -> Rltb a b = false) by (intros a b H; destruct (Rltb_spec a b); [lra|reflexivity]).
  unfold run. change (Z.to_nat 4) with 4%nat. change (Z.to_nat 10) with 10%nat. change (Z.to_nat 1) with 1%nat. split; [|split].
  - cbn -[Rltb IZR Rdiv].
    rewrite (B 3 (1/2)) by lra. cbn -[Rltb IZR Rdiv]. rewrite (A 1 3), (B 1 (1/2)) by lra. cbn -[Rltb IZR Rdiv]. rewrite ?(A 1 3), (B 2 1) by lra. reflexivity.
  - cbn -[Rltb IZR Rdiv]. rewrite (B 3 (3/2)) by lra. cbn -[Rltb IZR Rdiv]. rewrite (A 1 3), (A 1 (3/2)) by lra. reflexivity.
  - reflexivity.
Qed.
Definition demo_compose (a b : list nat) : res (list nat) := Ok (a ++ b).
(** Two rounds of rotation then an unknown name: "rotation" is applied twice in each. *)
Example C38_case_outer :
  map_to_superrest (list nat) demo_compose (fun a => Ok [9%nat]) (fun _ _ => Ok [1%nat]) false (fun _ => Err ValueError)
    (fun b => Ok (Fin (INR (length b)), Fin 0, Fin 0)) 2 (mktols (Fin 0) (Fin 0) (Fin 0)) ["rotation"%string; "rotaton"%string] [5%nat] []
  = Ok ([9; 1; 1; 5]%nat, Triple (Fin (INR 3)) (Fin 0) (Fin 0)).
Proof.
  assert (B : forall a b, b <= a -> Rltb a b = false) by (intros a b H; destruct (Rltb_spec a b); [lra|reflexivity]).
  unfold map_to_superrest. change (Z.to_nat 2) with 2%nat. cbn -[Rltb INR IZR Rdiv Rplus]. rewrite (B (INR 3) 0) by apply pos_INR. cbn -[Rltb INR IZR Rdiv Rplus].
  rewrite (B ((INR 5 + 0 + 0) / 3) ((INR 3 + 0 + 0) / 3)); [reflexivity|].
  assert (INR 3 <= INR 5) by (apply le_INR; lia). lra.
Qed.

(** ** C39: spin alignment *)
(** [c] as a pure quaternion; the rotor returned turns z into the direction of c. *)
Definition vecq (v : vec3) : quat := let '(x, y, z) := v in mkq 0 x y z.
Theorem C39_rotor : forall c, c <> (0, 0, 0) ->
  let u := scalev (/ norm3 c) c in
  u <> (0, 0, -1) ->
  let q := spin_rotor c in
  qnorm2 q = 1
  /\ qmul (qmul q qk) (qconj q) = vecq u
  /\ qmul (qmul (qconj q) (vecq u)) q = qk
  /\ 0 < qw q /\ qz q = 0 /\ dotv (qvec q) u = 0.
Proof.
  intros [[x y] z] Hc u Hu q.
  assert (Hn : norm3 (x, y, z) <> 0).
  { intros E. apply Hc. assert (S := norm3_sq (x, y, z)). rewrite E in S. unfold dotv in S.
    assert (x = 0) by nra. assert (y = 0) by nra. assert (z = 0) by nra. subst. reflexivity. }
  assert (Un := unit_scalev (x, y, z) Hn). fold u in Un.
  assert (Eq : q = qnormalized (qsub q1 (qmul (vecq u) qk))).
  { unfold q, spin_rotor, qnormalized at 2. unfold qabs, qnorm2. cbn [qw qx qy qz].
    replace (0 * 0 + x * x + y * y + z * z) with (x * x + y * y + z * z) by ring.
    change (sqrt (x * x + y * y + z * z)) with (norm3 (x, y, z)).
    unfold u, scalev, vecq, qscale. cbn [qw qx qy qz]. rewrite Rmult_0_r. reflexivity. }
  destruct u as [[a b] c]. unfold unitv, dotv in Un. cbn [vecq] in *.
  assert (Hcpos : 0 < 1 + c).
  { assert (-1 <= c) by nra. destruct (Rle_lt_or_eq_dec (-1) c) as [L|L]; [assumption|lra|].
    exfalso. apply Hu. subst c. assert (a = 0) by nra. assert (b = 0) by nra. subst. reflexivity. }
  set (p := qsub q1 (qmul (mkq 0 a b c) qk)) in *.
  assert (Ep : p = mkq (1 + c) (- b) a 0) by (unfold p, qsub, qmul, q1, qk; apply quat_eq; cbn; ring).
  assert (Np : qnorm2 p = 2 * (1 + c)) by (rewrite Ep; unfold qnorm2; cbn; nra).
  assert (Nz : p <> q0). { intros E. rewrite E in Np. unfold qnorm2, q0 in Np. cbn in Np. lra. }
  assert (Uq : qnorm2 q = 1) by (rewrite Eq; apply qnormalized_unit; exact Nz).
  assert (Ab : 0 < qabs p) by (unfold qabs; apply sqrt_lt_R0; rewrite Np; lra).
  set (s := / qabs p) in *.
  assert (S2 : s * s * (2 * (1 + c)) = 1).
  { rewrite <- Np. unfold s, qabs. rewrite <- (sqrt_sqrt (qnorm2 p)) at 3 by (rewrite Np; lra). field. unfold qabs in Ab. lra. }
  assert (Sp : 0 < s) by (apply Rinv_0_lt_compat; exact Ab).
  assert (Eq2 : q = mkq (s * (1 + c)) (s * - b) (s * a) 0).
  { rewrite Eq. unfold qnormalized. fold s. rewrite Ep. unfold qscale. cbn. f_equal. ring. }
  assert (R1 : qmul (qmul q qk) (qconj q) = mkq 0 a b c).
  { rewrite Eq2. apply quat_eq; cbn.
    - ring.
    - transitivity (a * (s * s * (2 * (1 + c)))); [ring|rewrite S2; ring].
    - transitivity (b * (s * s * (2 * (1 + c)))); [ring|rewrite S2; ring].
    - assert (E : 1 * (s * s * (2 * (1 + c))) * c = s * s * ((1 + c) * (1 + c) - b * b - a * a)).
      { replace (b * b) with (1 - a * a - c * c) by lra. ring. }
      rewrite S2 in E. transitivity (s * s * ((1 + c) * (1 + c) - b * b - a * a)); [ring|]. lra. }
  split; [exact Uq|]. split; [exact R1|]. split.
  - rewrite <- R1. assert (I1 : qmul (qconj q) q = q1) by (rewrite qmul_conj_l, Uq; apply qscale_1).
    rewrite <- !qmul_assoc. rewrite I1, qmul_1_r. rewrite !qmul_assoc, I1. apply qmul_1_l.
  - rewrite Eq2. cbn. split; [nra|]. split; [reflexivity|]. unfold dotv, qvec. cbn. ring.
Qed.
(** Opposite to z the quaternion that is to be normalised vanishes (the code then divides zero by zero). *)
Theorem C39_opposite_refuted : forall s, 0 < s ->
  qsub q1 (qmul (qnormalized (vecq (0, 0, - s))) qk) = q0.
Proof.
  intros s Hs. unfold vecq, qnormalized, qabs, qnorm2. cbn [qw qx qy qz].
  replace (0 * 0 + 0 * 0 + 0 * 0 + - s * - s) with (s * s) by ring. rewrite sqrt_square by lra.
  apply quat_eq; cbn; field; lra.
Qed.
(** The spin used is the one at the time closest to zero, the first such. *)
Theorem C39_time : forall chi t q, rotation_from_spin_charge chi t = Ok q ->
  exists i c ti, nth_error t i = Some ti /\ nth_error chi i = Some c /\ q = spin_rotor c
    /\ (forall j tj, nth_error t j = Some tj -> Rabs ti <= Rabs tj).
Proof.
  intros chi t q H. unfold rotation_from_spin_charge in H.
  destruct (argmin (map Rabs t)) as [i|] eqn:Ea; cbn in H; [|discriminate].
  destruct (nth_error chi i) as [c|] eqn:Ec; [|discriminate]. injection H as <-.
  apply argmin_spec in Ea. destruct Ea as (Li & Mi & _). rewrite map_length in Li.
  destruct (nth_error t i) as [ti|] eqn:Et; [|apply nth_error_None in Et; lia].
  exists i, c, ti. split; [exact Et|]. split; [exact Ec|]. split; [reflexivity|].
  intros j tj Ej. assert (Lj : (j < length t)%nat) by (apply nth_error_Some; congruence).
  assert (Q := Mi j ltac:(rewrite map_length; exact Lj)).
  rewrite (nth_indep _ 0 (Rabs ti)), map_nth, (nth_error_nth t i ti Et) in Q by (rewrite map_length; exact Li).
  rewrite (nth_indep _ 0 (Rabs tj)), map_nth, (nth_error_nth t j tj Ej) in Q by (rewrite map_length; exact Lj). exact Q.
Qed.
Example C39_case : (3, 0, 4) <> (0, 0, 0) /\ scalev (/ norm3 (3, 0, 4)) (3, 0, 4) <> (0, 0, -1).
Proof.
  split; [intros E; injection E; lra|]. assert (N : norm3 (3, 0, 4) = 5).
  { unfold norm3. replace (3 * 3 + 0 * 0 + 4 * 4) with (5 * 5) by ring. apply sqrt_square. lra. }
  rewrite N. unfold scalev. intros E. injection E. lra.
Qed.
