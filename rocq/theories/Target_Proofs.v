(** C85: mapping data to the frame of other data. *)
From Coq Require Import ZArith Reals List Bool String Lia Lra.
From Verif Require Import Common Cplx Quat Modes_Model Ops_Model Times_Model Times_Proofs Modal_Proofs Pipeline_Proofs Kwargs_Model Transform_Model Transform_Proofs Spin_Model Spin_Proofs Lorentz_Proofs
  Motion_Model Corot_Model Corot_Proofs Superrest_Model Superrest_Proofs Pipeline_Model ABD_Model Abdpipe_Model Constraints_Model Charges_Model Passes_Model BMS_Proofs ABD_Proofs Target_Model.
Import ListNotations.
Open Scope R_scope.

(** ** Specification: what the two elementary transformations do to a point (retarded time, direction) *)
(** The frame is moved in time by dt and turned about z by dphi: times decrease by dt, azimuths by dphi *)
Definition shift_turn (dt dphi : R) (p : point) : point :=
  let '(u, (x, y, z)) := p in (u - dt, (cos dphi * x + sin dphi * y, cos dphi * y - sin dphi * x, z)).

Section Maps.
Variable svd : mat -> mat * (R * R) * mat.
Hypothesis svd_ok : forall A, mdet A = C1 -> is_svd A (svd A).
Variable proj : Z -> (vec3 -> R) -> vec3 -> R.
(** Supertranslations for which the projection on modes loses nothing, as in [BMS_Proofs]; the constants are among them *)
Variable Sm : (vec3 -> R) -> Prop.
Hypothesis S_ext : forall f g, Sm f -> sphere_eq f g -> Sm g.
Hypothesis S_seen : forall M f, mdet M = C1 -> Sm f -> Sm (seen M f).
Hypothesis S_add : forall f g, Sm f -> Sm g -> Sm (fun n => f n + g n).
Hypothesis S_opp : forall f, Sm f -> Sm (fun n => - f n).
Hypothesis proj_exact : forall e f, Sm f -> sphere_eq (proj e f) f.
Hypothesis S_const : forall c, Sm (fun _ => c).

(** A transformation with the default ell_max *)
Definition usable (b : bmst) : Prop := BMS_Proofs.good b /\ Sm (s_fn (b_sup b)) /\ b_ell b = 12%Z.
Definition normal (b : bmst) : Prop := usable b /\ b_order b = SRB.

Lemma meaning_scri : forall b p, BMS_Proofs.good b -> on_scri p -> on_scri (meaning b p).
Proof. intros b p G Hp. rewrite meaning_nf by assumption. apply frame_scri; [apply det_lmat; apply G|]. apply translate_scri. exact Hp. Qed.
Lemma mul_ok : forall a b, usable a -> usable b -> exists c, bms_mul svd proj a b = Ok c /\ normal c /\ forall p, on_scri p -> meaning c p = meaning a (meaning b p).
Proof.
  intros a b (Ga & Sa & Ea) (Gb & Sb & Eb).
  destruct (C32_product svd svd_ok proj Sm S_ext S_seen S_add proj_exact a b Ga Gb Sa Sb) as (c & E & G & O & L & S & M); [rewrite Ea; lia|rewrite Eb; lia|].
  exists c. split; [exact E|]. split; [|exact M]. split; [|exact O]. split; [exact G|]. split; [exact S|]. rewrite L, Ea, Eb. reflexivity.
Qed.
Lemma reorder_ok12 : forall b, usable b -> exists r, reorder svd proj b SRB = Ok r /\ normal r /\ forall p, on_scri p -> meaning r p = meaning b p.
Proof.
  intros b (G & S & E).
  destruct (C31_reorder svd svd_ok proj Sm S_ext S_seen proj_exact b SRB G S) as (r & Er & Gr & Or & Lr & Sr & Mr); [left; reflexivity|rewrite E; lia|rewrite E; lia|].
  exists r. split; [exact Er|]. split; [|exact Mr]. split; [|exact Or]. split; [exact Gr|]. split; [exact Sr|]. rewrite Lr. exact E.
Qed.
Lemma after_ok : forall a b, usable a -> usable b -> exists c, after svd proj a b = Ok c /\ normal c /\ forall p, on_scri p -> meaning c p = meaning a (meaning b p).
Proof.
  intros a b Ha Hb. destruct (mul_ok a b Ha Hb) as (c & E & N & M). unfold after. rewrite E. cbn [rbind].
  destruct (reorder_ok12 c (proj1 N)) as (r & Er & Nr & Mr). exists r. split; [exact Er|]. split; [exact Nr|]. intros p Hp. rewrite Mr, M by exact Hp. reflexivity.
Qed.
Lemma inverse_ok : forall b, usable b -> b_order b = SRB -> exists i, inverse svd proj b None = Ok i /\ usable i /\
  forall p, on_scri p -> meaning i (meaning b p) = p /\ meaning b (meaning i p) = p.
Proof.
  intros b (G & S & E) O.
  destruct (C32_inverse svd svd_ok proj Sm S_ext S_seen S_opp proj_exact b None G S) as (i & Ei & Gi & Li & Oi & Si & Mi); [rewrite O; unfold orders; cbn; tauto|left; rewrite E; lia|].
  exists i. split; [exact Ei|]. split; [|exact Mi]. split; [exact Gi|]. split; [exact Si|]. rewrite Li. exact E.
Qed.
Lemma nothing_normal : normal nothing.
Proof. split; [|reflexivity]. split; [apply (C32_identity 12 (0, (0, 0, 1)))|]. split; [exact (S_const 0)|reflexivity]. Qed.
Lemma nothing_meaning : forall p, on_scri p -> meaning nothing p = p.
Proof. intros p. apply (C32_identity 12 p). Qed.

(** *** The elementary transformations *)
Lemma time_phase_spec : forall dt dphi, cos (dphi / 2) <> -1 ->
  exists b, time_phase dt dphi = Ok b /\ normal b /\ forall p, on_scri p -> meaning b p = shift_turn dt dphi p.
Proof.
  intros dt dphi H. set (q := mkq (cos (dphi / 2)) 0 0 (sin (dphi / 2))).
  assert (Q : good_rotor q).
  { split; [unfold qnorm2, q; cbn [qw qx qy qz]; assert (T := sin2_cos2 (dphi / 2)); unfold Rsqr in T; lra|]. intros F. apply H. apply (f_equal qw) in F. cbn in F. lra. }
  set (b := mkb (mks (fun _ => dt) 12) q (0, 0, 0) SRB 12). exists b. split; [reflexivity|]. assert (G : BMS_Proofs.good b) by (split; [exact Q|split; [exact zero_lt_1|split; [left; reflexivity|reflexivity]]]).
  split; [split; [split; [exact G|split; [exact (S_const dt)|reflexivity]]|reflexivity]|]. intros [u [[x y] z]] Hp. rewrite meaning_nf by assumption.
  unfold b. cbn [b_order b_rot b_boost b_sup s_fn]. change (nf_rf SRB) with true. change (nf_frame SRB q (0, 0, 0)) with mone. cbn [lmat]. rewrite bmat_0, mmul_1_l.
  unfold translate, frame. cbn [fst snd]. rewrite seen_one.
  assert (I : minv (rmat q) = rmat (qconj q)).
  { rewrite <- rmat_dag. destruct (unitary_rmat q Q) as [U1 U2]. rewrite <- (mmul_1_l (minv (rmat q))), <- U2, <- mmul_assoc, mul_minv_r by (apply det_rmat; exact Q). apply mmul_1_r. }
  rewrite I, lam_rmat by (destruct Q as [Q _]; unfold qnorm2, qconj, q in *; cbn in *; lra). cbn [fst snd]. rewrite Rinv_1, scalev_1. unfold shift_turn, Rdiv. rewrite Rinv_1.
  assert (E1 : cos dphi = cos (dphi / 2) * cos (dphi / 2) - sin (dphi / 2) * sin (dphi / 2)) by (rewrite <- cos_plus; f_equal; field).
  assert (E2 : sin dphi = 2 * (sin (dphi / 2) * cos (dphi / 2))) by (replace dphi with (2 * (dphi / 2)) at 1 by field; rewrite sin_2a; ring).
  assert (T := sin2_cos2 (dphi / 2)). unfold Rsqr in T. rewrite E1, E2.
  f_equal; [ring|]. unfold rotate3, qvec, qmul, qconj, q. cbn. set (c := cos (dphi / 2)) in *. set (s := sin (dphi / 2)) in *. f_equal; [f_equal; ring|].
  transitivity ((s * s + c * c) * z); [ring|rewrite T; ring].
Qed.
Lemma time_only_spec : forall dt, exists b, time_only dt = Ok b /\ normal b /\ forall p, on_scri p -> meaning b p = (fst p - dt, snd p).
Proof.
  intros dt. destruct (time_phase_spec dt 0) as (b & E & N & M); [replace (0 / 2) with 0 by field; rewrite cos_0; lra|].
  unfold time_phase in E. replace (0 / 2) with 0 in E by field. rewrite cos_0, sin_0 in E. exists b. split; [exact E|]. split; [exact N|]. intros [u [[x y] z]] Hp. rewrite M by exact Hp.
  unfold shift_turn. cbn [fst snd]. rewrite cos_0, sin_0. replace (1 * x + 0 * y) with x by ring. replace (1 * y - 0 * x) with y by ring. reflexivity.
Qed.

(** The transformation that leaves all points where they are has no components. *)
Lemma identity_unique : forall b, normal b -> (forall p, on_scri p -> meaning b p = p) ->
  b_rot b = q1 /\ b_boost b = (0, 0, 0) /\ sphere_eq (s_fn (b_sup b)) (fun _ => 0).
Proof.
  intros [S q v o e] [((Gq & Gv & Go & _) & _) O] H. cbn [b_order b_rot b_boost b_sup] in *. subst o.
  assert (D := det_lmat true q v Gq Gv).
  assert (G : BMS_Proofs.good (mkb (mks (s_fn S) e) q v SRB e)) by (split; [exact Gq|split; [exact Gv|split; [left; reflexivity|reflexivity]]]).
  assert (X : forall u n, dotv n n = 1 -> frame (lmat true q v) (u - s_fn S n, n) = (u, n)).
  { intros u n Hn. specialize (H (u, n) Hn). change (meaning (mkb S q v SRB e)) with (meaning (mkb (mks (s_fn S) e) q v SRB e)) in H. rewrite meaning_nf in H by (exact G || exact Hn).
    cbn [b_order b_rot b_boost b_sup s_fn] in H. change (nf_rf SRB) with true in H. change (nf_frame SRB q v) with mone in H. unfold translate in H. cbn [fst snd] in H. rewrite seen_one in H. exact H. }
  assert (P : forall n, dotv n n = 1 -> 0 < fst (lam (minv (lmat true q v)) (1, n))) by (intros n Hn; apply lam_future; [apply mdet_minv; exact D|exact Hn]).
  assert (Y : forall n, dotv n n = 1 -> s_fn S n = 0 /\ lam (minv (lmat true q v)) (1, n) = (1, n)).
  { intros n Hn. specialize (P n Hn). assert (A := X (s_fn S n) n Hn). assert (B := X (s_fn S n + 1) n Hn). unfold frame in A, B. cbn [fst snd] in A, B.
    set (l := lam (minv (lmat true q v)) (1, n)) in *. apply (f_equal fst) in A as A1. apply (f_equal fst) in B as B1. apply (f_equal snd) in B as B2. cbn [fst snd] in A1, B1, B2.
    replace (s_fn S n - s_fn S n) with 0 in A1 by ring. replace (s_fn S n + 1 - s_fn S n) with 1 in B1 by ring. unfold Rdiv in A1, B1. rewrite Rmult_0_l in A1. split; [lra|].
    rewrite <- A1 in B1. assert (L1 : fst l = 1) by (rewrite Rmult_1_l, Rplus_0_l in B1; rewrite <- (Rinv_inv (fst l)), B1; apply Rinv_1).
    rewrite L1, Rinv_1, scalev_1 in B2. destruct l as [l1 l2]. cbn [fst snd] in *. rewrite L1, B2. reflexivity. }
  assert (Z : forall n, dotv n n = 1 -> boost4 v (1, rotate3 q n) = (1, n)).
  { intros n Hn. destruct (Y n Hn) as [_ A]. rewrite <- lam_bmat by exact Gv. rewrite <- lam_rmat by apply Gq. rewrite <- lam_mul. change (mmul (bmat v) (rmat q)) with (lmat true q v).
    rewrite <- A at 1. rewrite <- lam_mul, mul_minv_r by exact D. apply lam_one. }
  assert (ng : gamma v = 1).
  { assert (A := f_equal fst (Z (1, 0, 0) ltac:(unfold dotv; ring))). assert (B := f_equal fst (Z (-1, 0, 0) ltac:(unfold dotv; ring))). unfold boost4 in A, B. cbn [fst] in A, B.
    assert (Rn : dotv v (rotate3 q (-1, 0, 0)) = - dotv v (rotate3 q (1, 0, 0))) by (destruct v as [[a1 a2] a3]; unfold rotate3, qvec, qmul, qconj, dotv; cbn; ring). rewrite Rn in B. lra. }
  assert (v0 : v = (0, 0, 0)).
  { apply norm3_zero. unfold gamma in ng. assert (P2 : 0 <= norm3 v) by (unfold norm3; destruct v as [[? ?] ?]; apply sqrt_pos).
    assert (Sq : sqrt (1 - norm3 v ^ 2) = 1).
    { apply (f_equal Rinv) in ng. unfold Rdiv in ng. rewrite ?Rmult_1_l, Rinv_inv, Rinv_1 in ng. exact ng. }
    assert (E : 1 - norm3 v ^ 2 = 1) by (rewrite <- (sqrt_sqrt (1 - norm3 v ^ 2)) by nra; rewrite Sq; ring). nra. }
  subst v. assert (V : forall n, dotv n n = 1 -> rotate3 q n = n).
  { intros n Hn. assert (A := f_equal snd (Z n Hn)). unfold boost4 in A. cbn [snd] in A. rewrite <- A at 2. destruct (rotate3 q n) as [[r1 r2] r3]. unfold plus3, scalev. f_equal; [f_equal|]; ring. }
  split; [|split; [reflexivity|intros n Hn; apply Y; exact Hn]].
  destruct Gq as [N1 N2]. assert (A := V (1, 0, 0) ltac:(unfold dotv; ring)). assert (B := V (0, 1, 0) ltac:(unfold dotv; ring)).
  destruct q as [w x y z]. unfold qnorm2 in N1. cbn [qw qx qy qz] in N1. unfold rotate3, qvec, qmul, qconj in A, B. cbn in A, B.
  apply (f_equal (fun v => fst (fst v))) in A. apply (f_equal (fun v => snd (fst v))) in B. cbn [fst snd] in A, B.
  assert (x = 0 /\ y = 0 /\ z = 0) as (-> & -> & ->) by nra. assert (W : (w - 1) * (w + 1) = 0) by nra. apply Rmult_integral in W. destruct W as [W|W].
  - replace w with 1 by lra. reflexivity.
  - exfalso. apply N2. unfold qopp, q1. cbn. f_equal; lra.
Qed.

(** *** map_to_superrest_frame *)
Section Superrest.
Variable solver : string -> bmst -> res bmst.
Variable has_target : bool.
Variable align2d : bmst -> res (xf * bmst).
Variable charges : bmst -> res (xf * xf * xf).
Hypothesis solver_usable : forall name b n, normal b -> solver name b = Ok n -> usable n.
Hypothesis align_usable : forall b e n, normal b -> align2d b = Ok (e, n) -> usable n.
(** The names that stand for something; "time_phase" does only if there is a target strain. *)
Definition known (name : string) : Prop :=
  name = "supertranslation"%string \/ name = "rotation"%string \/ name = "CoM_transformation"%string \/ (name = "time_phase"%string /\ has_target = true).
(** [found b n]: what one of the solvers, or the alignment, finds for the data transformed by [b] *)
Definition found (b n : bmst) : Prop := (exists name, solver name b = Ok n) \/ (exists e, align2d b = Ok (e, n)).
(** One transformation after the other, each found for the data transformed by all those before *)
Inductive stages : bmst -> list bmst -> bmst -> Prop :=
| st_nil : forall b, stages b [] b
| st_cons : forall b n b' ns c, found b n -> normal b' -> (forall p, on_scri p -> meaning b' p = meaning n (meaning b p)) -> stages b' ns c -> stages b (n :: ns) c.
Definition in_turn (ns : list bmst) (p : point) : point := fold_left (fun p n => meaning n p) ns p.

Lemma stages_app : forall b ns c ms d, stages b ns c -> stages c ms d -> stages b (ns ++ ms) d.
Proof. intros b ns c ms d H. induction H; intros H'; [exact H'|]. cbn. econstructor; try eassumption. apply IHstages. exact H'. Qed.
Lemma found_usable : forall b n, normal b -> found b n -> usable n.
Proof. intros b n N [(name & E)|(e & E)]; [eapply solver_usable|eapply align_usable]; eassumption. Qed.
Lemma stages_end : forall b ns c, stages b ns c -> normal b -> normal c /\ forall p, on_scri p -> meaning c p = in_turn ns (meaning b p).
Proof.
  intros b ns c H. induction H as [b|b n b' ns c F N' M H IH]; intros N; [split; [exact N|reflexivity]|].
  destruct (IH N') as [Nc Mc]. split; [exact Nc|]. intros p Hp. rewrite Mc, M by exact Hp. reflexivity.
Qed.
Lemma apply_one_stage : forall st name st', known name -> normal (o_bms _ st) -> apply_one bmst (after svd proj) solver has_target align2d st name = Ok st' ->
  exists n, stages (o_bms _ st) [n] (o_bms _ st') /\ normal (o_bms _ st').
Proof.
  intros st name st' Hk N H. unfold apply_one in H.
  match type of H with (rbind ?x _) = _ => destruct x as [[new err]|] eqn:E; cbn [rbind] in H; [|discriminate] end.
  assert (F : exists n, new = Some n /\ found (o_bms _ st) n).
  { destruct (String.eqb name "supertranslation" || String.eqb name "rotation" || String.eqb name "CoM_transformation")%bool eqn:B.
    - destruct (solver name (o_bms _ st)) as [n|] eqn:Es; cbn [rbind] in E; [|discriminate]. injection E as <- _. exists n. split; [reflexivity|]. left. exists name. exact Es.
    - destruct Hk as [-> | [-> | [-> | [-> T]]]]; try discriminate. cbn in E. rewrite T in E.
      destruct (align2d (o_bms _ st)) as [[e n]|] eqn:Ea; cbn [rbind] in E; [|discriminate]. injection E as <- _. exists n. split; [reflexivity|]. right. exists e. exact Ea. }
  destruct F as (n & -> & F). destruct (after_ok n (o_bms _ st) (found_usable _ _ N F) (proj1 N)) as (c & Ec & Nc & Mc). rewrite Ec in H. cbn [rbind] in H. injection H as <-. cbn [o_bms].
  exists n. split; [|exact Nc]. econstructor; [exact F|exact Nc|exact Mc|constructor].
Qed.
Lemma apply_all_stages : forall order st st', Forall known order -> normal (o_bms _ st) -> apply_all bmst (after svd proj) solver has_target align2d st order = Ok st' ->
  exists ns, stages (o_bms _ st) ns (o_bms _ st') /\ normal (o_bms _ st') /\ List.length ns = List.length order.
Proof.
  induction order as [|name order IH]; intros st st' Hk N H; cbn [apply_all] in H.
  - injection H as <-. exists []. split; [constructor|]. split; [exact N|reflexivity].
  - inversion Hk as [|? ? K1 K2]; subst. destruct (apply_one _ _ _ _ _ _ _) as [st1|] eqn:E1; cbn [rbind] in H; [|discriminate].
    destruct (apply_one_stage _ _ _ K1 N E1) as (n & S1 & N1). destruct (IH _ _ K2 N1 H) as (ns & S2 & N2 & L). exists (n :: ns). split; [|split; [exact N2|cbn; lia]].
    change (n :: ns) with ([n] ++ ns). eapply stages_app; eassumption.
Qed.
Lemma rounds_stages : forall order st l, Forall known order -> normal (o_bms _ st) -> rounds (after svd proj) solver has_target align2d charges order st l ->
  forall k st', nth_error l k = Some st' -> exists ns, stages (o_bms _ st) ns (o_bms _ st') /\ normal (o_bms _ st') /\ List.length ns = (Datatypes.S k * List.length order)%nat.
Proof.
  intros order st l Hk N H. induction H as [st|st st1 l Hp H IH]; intros k st' E; [destruct k; discriminate|].
  unfold pass in Hp. destruct (apply_all _ _ _ _ _ _ _) as [st2|] eqn:Ea; cbn [rbind] in Hp; [|discriminate]. destruct (final_error _ _ _ _ _) as [err|] eqn:Ef; cbn [rbind] in Hp; [|discriminate].
  injection Hp as <-. destruct (apply_all_stages _ _ _ Hk N Ea) as (ns & S1 & N1 & L1). cbn [o_bms] in *. destruct k as [|k]; cbn in E.
  - injection E as <-. cbn [o_bms]. exists ns. split; [exact S1|]. split; [exact N1|]. cbn. lia.
  - destruct (IH N1 k st' E) as (ms & S2 & N2 & L2). exists (ns ++ ms). split; [eapply stages_app; eassumption|]. split; [exact N2|]. rewrite app_length, L1, L2. cbn. lia.
Qed.
(** What map_to_superrest_frame returns moves the time to t_0, applies what was found, round after round, and moves the time back. *)
Theorem C85_superrest : forall t0 N t order r e, Forall known order ->
  superrest_transformation svd proj solver has_target align2d charges t0 N t order = Ok (r, e) ->
  normal r /\ exists b0 ns b rounds_kept, normal b0 /\ (forall p, on_scri p -> meaning b0 p = (fst p - t0, snd p)) /\ stages b0 ns b /\
    (1 <= rounds_kept <= Z.to_nat N)%nat /\ List.length ns = (rounds_kept * List.length order)%nat /\
    forall p, on_scri p -> meaning r p = let p' := in_turn ns (fst p - t0, snd p) in (fst p' + t0, snd p').
Proof.
  intros t0 N t order r e Hk H. unfold superrest_transformation in H. destruct (time_only_spec t0) as (tt & E & Nt & Mt). rewrite E in H. cbn [rbind] in H.
  destruct (C38_superrest _ _ _ _ _ _ _ _ _ _ _ _ _ H) as (b0 & l & b & i & E0 & R & LN & _ & _ & (k & Nk & _) & Ei & Ec).
  destruct (after_ok tt nothing (proj1 Nt) (proj1 nothing_normal)) as (c & Ea & Nb0 & Mb0). rewrite Ea in E0. injection E0 as ->.
  rewrite nth_error_map in Nk. destruct (nth_error l k) as [st|] eqn:En; [|discriminate]. cbn in Nk. unfold summary in Nk. injection Nk as <- _ _.
  destruct (rounds_stages order (mkos _ b0 None Init) l Hk Nb0 R k st En) as (ns & Sg & Nb & Ln). cbn [o_bms] in Sg.
  destruct (inverse_ok tt (proj1 Nt) (proj2 Nt)) as (i' & Ei' & Ui & Mi). rewrite Ei' in Ei. injection Ei as ->.
  destruct (after_ok i (o_bms _ st) Ui (proj1 Nb)) as (c & Ea' & Nr & Mr). rewrite Ea' in Ec. injection Ec as ->.
  assert (Z0 : forall p, on_scri p -> meaning b0 p = (fst p - t0, snd p)).
  { intros p Hp. rewrite Mb0, nothing_meaning by exact Hp. apply Mt. exact Hp. }
  split; [exact Nr|]. exists b0, ns, (o_bms _ st), (Datatypes.S k). split; [exact Nb0|]. split; [exact Z0|]. split; [exact Sg|].
  split; [assert (k < List.length l)%nat by (apply nth_error_Some; congruence); lia|]. split; [exact Ln|].
  intros p Hp. destruct (stages_end _ _ _ Sg Nb0) as [_ Ms]. rewrite Mr, Ms, Z0 by exact Hp.
  assert (Hq : on_scri (in_turn ns (fst p - t0, snd p))).
  { rewrite <- Z0, <- Ms by exact Hp. apply meaning_scri; [apply Nb|exact Hp]. }
  cbv zeta. set (p' := in_turn ns (fst p - t0, snd p)) in *. assert (Q : on_scri (fst p' + t0, snd p')) by exact Hq.
  destruct (Mi _ Q) as [Q1 _]. rewrite Mt in Q1 by exact Q. cbn [fst snd] in Q1. replace (fst p' + t0 - t0) with (fst p') in Q1 by ring. rewrite <- Q1. destruct p'; reflexivity.
Qed.
(** If nothing but rotations and boosts is found, the instant t_0 stays where it is. *)
Lemma lorentz_keeps_zero : forall n p, usable n -> sphere_eq (s_fn (b_sup n)) (fun _ => 0) -> on_scri p -> fst p = 0 -> fst (meaning n p) = 0.
Proof.
  intros n [u d] (G & _) HS Hp H0. cbn in H0. subst u. rewrite meaning_nf by assumption. unfold frame, translate. cbn [fst snd].
  rewrite (seen_ext _ _ (fun _ => 0) d (det_nf (b_order n) _ _ (proj1 G) (proj1 (proj2 G))) Hp HS). unfold seen, Rdiv. rewrite Rmult_0_r, Rminus_0_r, Rmult_0_l. reflexivity.
Qed.
Theorem C85_superrest_instant : forall t0 N t order r e, Forall known order ->
  (forall b n, found b n -> sphere_eq (s_fn (b_sup n)) (fun _ => 0)) ->
  superrest_transformation svd proj solver has_target align2d charges t0 N t order = Ok (r, e) ->
  forall d, dotv d d = 1 -> fst (meaning r (t0, d)) = t0.
Proof.
  intros t0 N t order r e Hk HF H d Hd. destruct (C85_superrest _ _ _ _ _ _ Hk H) as (_ & b0 & ns & b & _ & N0 & _ & Sg & _ & _ & M). rewrite M by exact Hd. cbn [fst snd]. replace (t0 - t0) with 0 by ring.
  assert (G : forall p, on_scri p -> fst p = 0 -> fst (in_turn ns p) = 0).
  { clear - Sg N0 HF solver_usable align_usable. induction Sg as [b|b n b' ns c F N' M Sg IH]; intros p Hp H0; [exact H0|]. cbn. apply (IH N').
    - apply meaning_scri; [exact (proj1 (found_usable _ _ N0 F))|exact Hp].
    - apply lorentz_keeps_zero; [exact (found_usable _ _ N0 F)|exact (HF _ _ F)|exact Hp|exact H0]. }
  rewrite (G (0, d)) by (exact Hd || reflexivity). ring.
Qed.
(** If nothing is found to correct, the result is the identity. *)
Theorem C85_superrest_nothing : forall t0 N t order r e, Forall known order ->
  (forall b n p, found b n -> on_scri p -> meaning n p = p) ->
  superrest_transformation svd proj solver has_target align2d charges t0 N t order = Ok (r, e) ->
  b_rot r = q1 /\ b_boost r = (0, 0, 0) /\ sphere_eq (s_fn (b_sup r)) (fun _ => 0).
Proof.
  intros t0 N t order r e Hk HF H. destruct (C85_superrest _ _ _ _ _ _ Hk H) as (Nr & b0 & ns & b & _ & N0 & _ & Sg & _ & _ & M). apply identity_unique; [exact Nr|].
  assert (G : forall p, on_scri p -> in_turn ns p = p).
  { clear - Sg HF. induction Sg as [b|b n b' ns c F N' M Sg IH]; intros p Hp; [reflexivity|]. cbn. rewrite (HF _ _ _ F Hp). apply IH. exact Hp. }
  intros [u d] Hp. rewrite M by exact Hp. cbn [fst snd]. rewrite G by exact Hp. cbn [fst snd]. f_equal. ring.
Qed.
End Superrest.

(** *** map_to_abd_frame *)
Section Frame.
Variable spline : list R -> list C -> res (R -> C).
Variable map2salm : Z -> Z -> list C -> Z -> Z -> list C.
Variable K : Z -> Z -> Z -> Z -> Z -> Z -> Z -> R.
Variable dspl : nat -> list R -> list C -> R -> C.
Variable integral : list R -> list R -> list R.
Variable stored : supertr -> list C.
Variable superrest : adata -> res (adata * bmst).
Variable align : adata -> adata -> R -> R -> res (xf * R * R).
(** What C85_superrest says of the transformations of map_to_superrest_frame *)
Hypothesis superrest_normal : forall a a' n, superrest a = Ok (a', n) -> normal n.
(** The phase is not a full turn (the rotor -1, at which the product of transformations breaks down, see C33) *)
Hypothesis align_phase : forall a b t1 t2 e dt dphi, align a b t1 t2 = Ok (e, dt, dphi) -> cos (dphi / 2) <> -1.
Let one_round := one_round spline map2salm dspl integral svd proj stored superrest align.
Let transformed := transformed spline map2salm stored.

(** One round, time and phase left alone: the new transformation followed by the one from the target to its superrest frame is the old one followed by the one from
    the transformed data to its superrest frame.  The error is that of the data transformed by the new one. *)
Theorem C85_round : forall interp target target_rest back t0 padding b b' e, normal back -> normal b ->
  one_round false interp target target_rest back t0 padding b = Ok (b', e) ->
  normal b' /\ exists prime rest to_rest prime', transformed interp b = Ok prime /\ superrest prime = Ok (rest, to_rest) /\ normal to_rest /\
    (forall p, on_scri p -> meaning back (meaning b' p) = meaning to_rest (meaning b p)) /\
    transformed interp b' = Ok prime' /\ rel_err_between_abds dspl integral target prime' (t0 - padding) (t0 + padding) = Ok e.
Proof.
  intros interp target target_rest back t0 padding b b' e Nk Nb H. unfold one_round, Target_Model.one_round in H. fold transformed in H.
  destruct (transformed interp b) as [prime|] eqn:E1; cbn [rbind] in H; [|discriminate].
  destruct (superrest prime) as [[rest to_rest]|] eqn:E2; cbn [rbind] in H; [|discriminate]. assert (Nt := superrest_normal _ _ _ E2).
  destruct (inverse_ok back (proj1 Nk) (proj2 Nk)) as (i & Ei & Ui & Mi). rewrite Ei in H. cbn [rbind] in H.
  destruct (mul_ok to_rest b (proj1 Nt) (proj1 Nb)) as (c1 & F1 & N1 & M1). rewrite F1 in H. cbn [rbind] in H.
  destruct (mul_ok nothing c1 (proj1 nothing_normal) (proj1 N1)) as (c2 & F2 & N2 & M2). rewrite F2 in H. cbn [rbind] in H.
  destruct (after_ok i c2 Ui (proj1 N2)) as (r & F3 & N3 & M3). rewrite F3 in H. cbn [rbind] in H.
  destruct (transformed interp r) as [prime'|] eqn:E3; cbn [rbind] in H; [|discriminate].
  destruct (rel_err_between_abds _ _ _ _ _ _) as [e'|] eqn:E4; cbn [rbind] in H; [|discriminate]. injection H as -> ->.
  split; [exact N3|]. exists prime, rest, to_rest, prime'. split; [reflexivity|]. split; [exact E2|]. split; [exact Nt|]. split; [|split; [exact E3|exact E4]].
  intros p Hp. rewrite M3 by exact Hp. assert (Q : on_scri (meaning c2 p)) by (apply meaning_scri; [apply N2|exact Hp]). destruct (Mi _ Q) as [_ Q2]. rewrite Q2.
  rewrite M2, nothing_meaning by first [exact Hp|apply meaning_scri; [apply N1|exact Hp]]. apply M1. exact Hp.
Qed.
(** One round with time and phase: between the two superrest frames the time and phase of the first alignment come in; the second alignment, of the data so
    transformed with the target itself, comes last. *)
Theorem C85_round_time_phase : forall interp target target_rest back t0 padding b b' e, normal back -> normal b ->
  one_round true interp target target_rest back t0 padding b = Ok (b', e) ->
  normal b' /\ exists prime rest to_rest e1 dt1 dphi1 mid prime' dt dphi, transformed interp b = Ok prime /\ superrest prime = Ok (rest, to_rest) /\
    align rest target_rest (t0 - padding) (t0 + padding) = Ok (e1, dt1, dphi1) /\ normal mid /\
    (forall p, on_scri p -> meaning back (meaning mid p) = shift_turn dt1 dphi1 (meaning to_rest (meaning b p))) /\
    transformed interp mid = Ok prime' /\ align prime' target (t0 - padding) (t0 + padding) = Ok (e, dt, dphi) /\
    (forall p, on_scri p -> meaning b' p = shift_turn dt dphi (meaning mid p)).
Proof.
  intros interp target target_rest back t0 padding b b' e Nk Nb H. unfold one_round, Target_Model.one_round in H. fold transformed in H.
  destruct (transformed interp b) as [prime|] eqn:E1; cbn [rbind] in H; [|discriminate].
  destruct (superrest prime) as [[rest to_rest]|] eqn:E2; cbn [rbind] in H; [|discriminate]. assert (Nt := superrest_normal _ _ _ E2).
  destruct (align rest target_rest _ _) as [[[e1 dt1] dphi1]|] eqn:E3; cbn [rbind] in H; [|discriminate].
  destruct (time_phase_spec dt1 dphi1 (align_phase _ _ _ _ _ _ _ E3)) as (tp & F0 & N0 & M0). rewrite F0 in H. cbn [rbind] in H.
  destruct (inverse_ok back (proj1 Nk) (proj2 Nk)) as (i & Ei & Ui & Mi). rewrite Ei in H. cbn [rbind] in H.
  destruct (mul_ok to_rest b (proj1 Nt) (proj1 Nb)) as (c1 & F1 & N1 & M1). rewrite F1 in H. cbn [rbind] in H.
  destruct (mul_ok tp c1 (proj1 N0) (proj1 N1)) as (c2 & F2 & N2 & M2). rewrite F2 in H. cbn [rbind] in H.
  destruct (after_ok i c2 Ui (proj1 N2)) as (mid & F3 & N3 & M3). rewrite F3 in H. cbn [rbind] in H.
  destruct (transformed interp mid) as [prime'|] eqn:E4; cbn [rbind] in H; [|discriminate].
  destruct (align prime' target _ _) as [[[e2 dt] dphi]|] eqn:E5; cbn [rbind] in H; [|discriminate].
  destruct (time_phase_spec dt dphi (align_phase _ _ _ _ _ _ _ E5)) as (tp' & F4 & N4 & M4). rewrite F4 in H. cbn [rbind] in H.
  destruct (after_ok tp' mid (proj1 N4) (proj1 N3)) as (r & F5 & N5 & M5). rewrite F5 in H. cbn [rbind] in H.
  destruct (transformed interp r) as [prime''|] eqn:E6; cbn [rbind] in H; [|discriminate]. injection H as -> ->.
  split; [exact N5|]. exists prime, rest, to_rest, e1, dt1, dphi1, mid, prime', dt, dphi. repeat (split; [first [reflexivity|exact E2|exact E3|exact N3]|]).
  split; [|split; [exact E4|split; [exact E5|]]].
  - intros p Hp. rewrite M3 by exact Hp. assert (Q : on_scri (meaning c2 p)) by (apply meaning_scri; [apply N2|exact Hp]). destruct (Mi _ Q) as [_ Q2]. rewrite Q2.
    rewrite M2, M0 by first [exact Hp|apply meaning_scri; [apply N1|exact Hp]]. f_equal. apply M1. exact Hp.
  - intros p Hp. rewrite M5 by exact Hp. apply M4. apply meaning_scri; [apply N3|exact Hp].
Qed.
Lemma meaning_inj : forall b p p', normal b -> on_scri p -> on_scri p' -> meaning b p = meaning b p' -> p = p'.
Proof.
  intros b p p' Nb Hp Hp' E. destruct (inverse_ok b (proj1 Nb) (proj2 Nb)) as (i & _ & _ & Mi). destruct (Mi p Hp) as [A _], (Mi p' Hp') as [B _]. rewrite <- A, <- B, E. reflexivity.
Qed.
(** Such a round changes nothing exactly when the transformed data and the target are equally far from their superrest frames. *)
Theorem C85_fixed : forall interp target target_rest back t0 padding b b' e prime rest to_rest, normal back -> normal b ->
  one_round false interp target target_rest back t0 padding b = Ok (b', e) -> transformed interp b = Ok prime -> superrest prime = Ok (rest, to_rest) ->
  (forall p, on_scri p -> meaning b' p = meaning b p) <-> (forall p, on_scri p -> meaning to_rest p = meaning back p).
Proof.
  intros interp target target_rest back t0 padding b b' e prime rest to_rest Nk Nb H E1 E2.
  destruct (C85_round _ _ _ _ _ _ _ _ _ Nk Nb H) as (Nb' & prime1 & rest1 & to1 & _ & F1 & F2 & Nt & M & _). rewrite E1 in F1. injection F1 as <-. rewrite E2 in F2. injection F2 as <- <-. split; intros A p Hp.
  - destruct (inverse_ok b (proj1 Nb) (proj2 Nb)) as (i & _ & Ui & Mi). assert (Hi : on_scri (meaning i p)) by (apply meaning_scri; [apply Ui|exact Hp]).
    destruct (Mi p Hp) as [_ B]. rewrite <- B at 1. rewrite <- M, A, B by exact Hi. reflexivity.
  - apply (meaning_inj back); [exact Nk|apply meaning_scri; [apply Nb'|exact Hp]|apply meaning_scri; [apply Nb|exact Hp]|].
    rewrite M by exact Hp. apply A. apply meaning_scri; [apply Nb|exact Hp].
Qed.

Lemma start_ok : forall fx a target t0 b0, start K dspl svd proj fx a target t0 = Ok b0 ->
  normal b0 /\ exists dt, (if fx then start_shift K dspl a target t0 = Ok dt else dt = 0) /\ forall p, on_scri p -> meaning b0 p = (fst p - dt, snd p).
Proof.
  intros fx a target t0 b0 H. unfold start in H. destruct fx.
  - destruct (start_shift K dspl a target t0) as [dt|] eqn:E; cbn [rbind] in H; [|discriminate]. destruct (time_only_spec dt) as (tt & Et & Nt & Mt). rewrite Et in H. cbn [rbind] in H.
    destruct (after_ok tt nothing (proj1 Nt) (proj1 nothing_normal)) as (c & Ec & Nc & Mc). rewrite Ec in H. injection H as ->. split; [exact Nc|]. exists dt. split; [reflexivity|].
    intros p Hp. rewrite Mc, nothing_meaning by exact Hp. apply Mt. exact Hp.
  - cbn [rbind] in H. destruct (after_ok nothing nothing (proj1 nothing_normal) (proj1 nothing_normal)) as (c & Ec & Nc & Mc). rewrite Ec in H. injection H as ->. split; [exact Nc|]. exists 0.
    split; [reflexivity|]. intros p Hp. rewrite Mc, !nothing_meaning by (try exact Hp; rewrite nothing_meaning by exact Hp; exact Hp). destruct p as [u n]. cbn [fst snd]. rewrite Rminus_0_r. reflexivity.
Qed.
Lemma rounds_prior : forall round b0 l, abd_rounds round b0 l -> (forall b b' e, normal b -> round b = Ok (b', e) -> normal b') -> normal b0 ->
  forall k b e, nth_error l k = Some (b, e) -> exists c, normal c /\ round c = Ok (b, e).
Proof.
  intros round b0 l H HN. induction H as [b0|b0 b1 e1 l E H IH]; intros N0 k b e Hk; [destruct k; discriminate|]. destruct k as [|k]; cbn in Hk.
  - injection Hk as <- <-. exists b0. split; assumption.
  - exact (IH (HN _ _ _ N0 E) k b e Hk).
Qed.
Let map_to_abd_frame := map_to_abd_frame spline map2salm K dspl integral svd proj stored superrest align.
(** What map_to_abd_frame returns: all the data transformed by the transformation returned, which came out of a round; the error is that of the interpolated piece
    transformed by it, compared with the target within padding of t_0. *)
Theorem C85_frame : forall a target t0 padding N a' b e, map_to_abd_frame false a target t0 padding N = Ok (a', b, e) ->
  normal b /\ transformed a b = Ok a' /\ exists t interp target_rest back c prime rest to_rest prime',
    window (bd_u (ad_data a)) (t0 - 3 / 2 * padding) (t0 + 3 / 2 * padding) = Ok t /\ ad_interpolate dspl a t = Ok interp /\ superrest target = Ok (target_rest, back) /\
    normal c /\ transformed interp c = Ok prime /\ superrest prime = Ok (rest, to_rest) /\
    (forall p, on_scri p -> meaning back (meaning b p) = meaning to_rest (meaning c p)) /\
    transformed interp b = Ok prime' /\ rel_err_between_abds dspl integral target prime' (t0 - padding) (t0 + padding) = Ok e.
Proof.
  intros a target t0 padding N a' b e H. unfold map_to_abd_frame, Target_Model.map_to_abd_frame in H. fold transformed in H.
  destruct (start _ _ _ _ _ _ _ _) as [b0|] eqn:E0; cbn [rbind] in H; [|discriminate]. destruct (start_ok _ _ _ _ _ E0) as [N0 _].
  destruct (window _ _ _) as [t|] eqn:Et; cbn [rbind] in H; [|discriminate]. destruct (ad_interpolate dspl a t) as [interp|] eqn:Ei; cbn [rbind] in H; [|discriminate].
  destruct (superrest target) as [[target_rest back]|] eqn:Es; cbn [rbind] in H; [|discriminate]. fold one_round in H.
  destruct (map_to_abd _ _ _ _) as [[b' e']|] eqn:Em; cbn [rbind] in H; [|discriminate]. destruct (transformed a b') as [a1|] eqn:Ea; cbn [rbind] in H; [|discriminate]. injection H as -> -> ->.
  assert (Nk := superrest_normal _ _ _ Es). destruct (proj1 (C38_abd _ _ _) _ _ Em) as (l & Rl & _ & (k & Hk & _)).
  destruct (rounds_prior _ _ _ Rl (fun c c' e' Hc Hr => proj1 (C85_round _ _ _ _ _ _ _ _ _ Nk Hc Hr)) N0 k b e Hk) as (c & Nc & Hr).
  destruct (C85_round _ _ _ _ _ _ _ _ _ Nk Nc Hr) as (Nb & prime & rest & to_rest & prime' & F1 & F2 & _ & M & F3 & F4).
  split; [exact Nb|]. split; [exact Ea|]. exists t, interp, target_rest, back, c, prime, rest, to_rest, prime'. repeat (split; [first [reflexivity|assumption]|]). exact F4.
Qed.
Theorem C85_frame_time_phase : forall a target t0 padding N a' b e, map_to_abd_frame true a target t0 padding N = Ok (a', b, e) ->
  normal b /\ transformed a b = Ok a' /\ exists t interp target_rest back c prime rest to_rest e1 dt1 dphi1 mid prime' dt dphi,
    window (bd_u (ad_data a)) (t0 - 3 / 2 * padding) (t0 + 3 / 2 * padding) = Ok t /\ ad_interpolate dspl a t = Ok interp /\ superrest target = Ok (target_rest, back) /\
    normal c /\ transformed interp c = Ok prime /\ superrest prime = Ok (rest, to_rest) /\ align rest target_rest (t0 - padding) (t0 + padding) = Ok (e1, dt1, dphi1) /\ normal mid /\
    (forall p, on_scri p -> meaning back (meaning mid p) = shift_turn dt1 dphi1 (meaning to_rest (meaning c p))) /\
    transformed interp mid = Ok prime' /\ align prime' target (t0 - padding) (t0 + padding) = Ok (e, dt, dphi) /\
    (forall p, on_scri p -> meaning b p = shift_turn dt dphi (meaning mid p)).
Proof.
  intros a target t0 padding N a' b e H. unfold map_to_abd_frame, Target_Model.map_to_abd_frame in H. fold transformed in H.
  destruct (start _ _ _ _ _ _ _ _) as [b0|] eqn:E0; cbn [rbind] in H; [|discriminate]. destruct (start_ok _ _ _ _ _ E0) as [N0 _].
  destruct (window _ _ _) as [t|] eqn:Et; cbn [rbind] in H; [|discriminate]. destruct (ad_interpolate dspl a t) as [interp|] eqn:Ei; cbn [rbind] in H; [|discriminate].
  destruct (superrest target) as [[target_rest back]|] eqn:Es; cbn [rbind] in H; [|discriminate]. fold one_round in H.
  destruct (map_to_abd _ _ _ _) as [[b' e']|] eqn:Em; cbn [rbind] in H; [|discriminate]. destruct (transformed a b') as [a1|] eqn:Ea; cbn [rbind] in H; [|discriminate]. injection H as -> -> ->.
  assert (Nk := superrest_normal _ _ _ Es). destruct (proj1 (C38_abd _ _ _) _ _ Em) as (l & Rl & _ & (k & Hk & _)).
  destruct (rounds_prior _ _ _ Rl (fun c c' e' Hc Hr => proj1 (C85_round_time_phase _ _ _ _ _ _ _ _ _ Nk Hc Hr)) N0 k b e Hk) as (c & Nc & Hr).
  destruct (C85_round_time_phase _ _ _ _ _ _ _ _ _ Nk Nc Hr) as (Nb & prime & rest & to_rest & e1 & dt1 & dphi1 & mid & prime' & dt & dphi & F1 & F2 & F3 & F4 & F5 & F6 & F7 & F8).
  split; [exact Nb|]. split; [exact Ea|]. exists t, interp, target_rest, back, c, prime, rest, to_rest, e1, dt1, dphi1, mid, prime', dt, dphi.
  repeat (split; [first [reflexivity|assumption]|]). exact F8.
Qed.
(** Data that are as far from their superrest frame as the target is from its own are left where they are. *)
Theorem C85_itself : forall a target t0 padding N a' b e, map_to_abd_frame false a target t0 padding N = Ok (a', b, e) ->
  (forall t interp target_rest back c prime rest to_rest, window (bd_u (ad_data a)) (t0 - 3 / 2 * padding) (t0 + 3 / 2 * padding) = Ok t -> ad_interpolate dspl a t = Ok interp ->
     superrest target = Ok (target_rest, back) -> (forall p, on_scri p -> meaning c p = p) -> transformed interp c = Ok prime -> superrest prime = Ok (rest, to_rest) ->
     forall p, on_scri p -> meaning to_rest p = meaning back p) ->
  b_rot b = q1 /\ b_boost b = (0, 0, 0) /\ sphere_eq (s_fn (b_sup b)) (fun _ => 0).
Proof.
  intros a target t0 padding N a' b e H HI. destruct (C85_frame _ _ _ _ _ _ _ _ H) as (Nb & _). apply identity_unique; [exact Nb|].
  unfold map_to_abd_frame, Target_Model.map_to_abd_frame in H. fold transformed in H.
  destruct (start _ _ _ _ _ _ _ _) as [b0|] eqn:E0; cbn [rbind] in H; [|discriminate]. destruct (start_ok _ _ _ _ _ E0) as [N0 (dt & -> & M0)].
  destruct (window _ _ _) as [t|] eqn:Et; cbn [rbind] in H; [|discriminate]. destruct (ad_interpolate dspl a t) as [interp|] eqn:Ei; cbn [rbind] in H; [|discriminate].
  destruct (superrest target) as [[target_rest back]|] eqn:Es; cbn [rbind] in H; [|discriminate]. fold one_round in H.
  destruct (map_to_abd _ _ _ _) as [[b' e']|] eqn:Em; cbn [rbind] in H; [|discriminate]. destruct (transformed a b') as [a1|] eqn:Ea; cbn [rbind] in H; [|discriminate]. injection H as -> -> ->.
  assert (Nk := superrest_normal _ _ _ Es). destruct (proj1 (C38_abd _ _ _) _ _ Em) as (l & Rl & _ & (k & Hk & _)).
  assert (A0 : forall p, on_scri p -> meaning b0 p = p) by (intros [u n] Hp; rewrite M0 by exact Hp; cbn [fst snd]; rewrite Rminus_0_r; reflexivity). clear Em E0 M0.
  revert k Hk. induction Rl as [b0|b0 b1 e1 l E Rl IH]; intros k Hk; [destruct k; discriminate|].
  destruct (C85_round _ _ _ _ _ _ _ _ _ Nk N0 E) as (N1 & prime & rest & to_rest & _ & F1 & F2 & _).
  assert (A1 : forall p, on_scri p -> meaning b1 p = p).
  { intros p Hp. rewrite <- (A0 p Hp) at 2. revert p Hp. apply (proj2 (C85_fixed _ _ _ _ _ _ _ _ _ _ _ _ Nk N0 E F1 F2)).
    exact (HI t interp target_rest back b0 prime rest to_rest eq_refl Ei eq_refl A0 F1 F2). }
  destruct k as [|k]; cbn in Hk; [injection Hk as -> _; exact A1|]. exact (IH N1 A1 k Hk).
Qed.
(** *** The first guess of the time *)
Lemma nearest_match : forall E k, (k < List.length E)%nat -> (forall j, (j < List.length E)%nat -> j <> k -> nth j E 0 <> nth k E 0) -> nearest E (nth k E 0) = Ok k.
Proof.
  intros E k Hk HU. apply nearest_is. split; [exact Hk|].
  assert (Z : Rabs (nth k E 0 - nth k E 0) = 0) by (rewrite Rminus_diag_eq by reflexivity; apply Rabs_R0). rewrite Z. split; intros j Hj; [apply Rabs_pos|].
  apply Rabs_pos_lt. intros F. apply (HU j); [lia|lia|lra].
Qed.
(** The sample of the data with the energy of the target at t_0 goes to t_0 if there is only one. *)
Theorem C85_start : forall a target t0 E E' i k, energies K dspl a = Ok E -> energies K dspl target = Ok E' ->
  is_nearest (bd_u (ad_data target)) t0 i -> (i < List.length E')%nat -> (k < List.length E)%nat -> List.length E = List.length (bd_u (ad_data a)) ->
  nth k E 0 = nth i E' 0 -> (forall j, (j < List.length E)%nat -> j <> k -> nth j E 0 <> nth k E 0) ->
  exists b0, start K dspl svd proj true a target t0 = Ok b0 /\ forall n, dotv n n = 1 -> meaning b0 (nth k (bd_u (ad_data a)) 0, n) = (t0, n).
Proof.
  intros a target t0 E E' i k HE HE' Hi Li Lk LE Hm HU.
  assert (S : start_shift K dspl a target t0 = Ok (nth k (bd_u (ad_data a)) 0 - t0)).
  { unfold start_shift. rewrite HE, HE'. cbn [rbind]. rewrite (nearest_is _ _ _ Hi). cbn [rbind]. rewrite (nth_error_nth' E' 0 Li), <- Hm, (nearest_match E k Lk HU). cbn [rbind].
    rewrite (nth_error_nth' _ 0) by lia. reflexivity. }
  assert (X : exists b0, start K dspl svd proj true a target t0 = Ok b0).
  { unfold start. rewrite S. cbn [rbind]. destruct (time_only_spec (nth k (bd_u (ad_data a)) 0 - t0)) as (tt & Et & Nt & _). rewrite Et. cbn [rbind].
    destruct (after_ok tt nothing (proj1 Nt) (proj1 nothing_normal)) as (c & Ec & _). exists c. exact Ec. }
  destruct X as [b0 E0]. exists b0. split; [exact E0|]. destruct (start_ok _ _ _ _ _ E0) as (_ & dt & Hd & M). rewrite S in Hd. injection Hd as <-. intros n Hn. rewrite M by exact Hn. cbn [fst snd]. f_equal. ring.
Qed.
(** Data that are the target delayed by d, the energy decreasing: the delay is found, if t_0 is one of the times of the target. *)
Theorem C85_start_delayed : forall a target t0 d E, energies K dspl a = Ok E -> energies K dspl target = Ok E ->
  bd_u (ad_data a) = map (fun u => u + d) (bd_u (ad_data target)) -> List.length E = List.length (bd_u (ad_data target)) ->
  (forall i j, (i < j < List.length E)%nat -> nth j E 0 < nth i E 0) -> (forall i j, (i < j < List.length E)%nat -> nth i (bd_u (ad_data target)) 0 < nth j (bd_u (ad_data target)) 0) ->
  In t0 (bd_u (ad_data target)) -> exists b0, start K dspl svd proj true a target t0 = Ok b0 /\ forall p, on_scri p -> meaning b0 p = (fst p - d, snd p).
Proof.
  intros a target t0 d E HE HE' Hu LE Hd Hinc Hin. set (u := bd_u (ad_data target)) in *. destruct (In_nth u t0 0 Hin) as (i & Li & Hi).
  assert (Ni : is_nearest u t0 i).
  { split; [exact Li|]. assert (Z : Rabs (nth i u 0 - t0) = 0) by (rewrite Rminus_diag_eq by exact Hi; apply Rabs_R0). rewrite Z. split; intros j Hj; [apply Rabs_pos|].
    apply Rabs_pos_lt. intros F. specialize (Hinc j i ltac:(lia)). lra. }
  assert (HU : forall j, (j < List.length E)%nat -> j <> i -> nth j E 0 <> nth i E 0).
  { intros j Hj Hne. destruct (Nat.lt_ge_cases j i) as [L|L]; [specialize (Hd j i ltac:(lia))|specialize (Hd i j ltac:(lia))]; lra. }
  assert (La : List.length E = List.length (bd_u (ad_data a))) by (rewrite Hu, map_length; exact LE).
  destruct (C85_start a target t0 E E i i HE HE' Ni ltac:(lia) ltac:(lia) La eq_refl HU) as (b0 & E0 & M0). exists b0. split; [exact E0|].
  destruct (start_ok _ _ _ _ _ E0) as (_ & dt & _ & M). intros p Hp. rewrite M by exact Hp. assert (Q := M0 (snd p) Hp). rewrite M in Q by exact Hp. cbn [fst snd] in Q.
  apply (f_equal fst) in Q. cbn [fst] in Q. rewrite Hu in Q. rewrite (nth_indep _ 0 (0 + d)) in Q by (rewrite map_length; exact Li).
  rewrite (map_nth (fun x => x + d)), Hi in Q. f_equal. lra.
Qed.
(** When the energies do not change (there is no radiation) the guess takes the first sample to t_0, even if the data are the target. *)
Theorem C85_start_refuted : forall a t0 E, energies K dspl a = Ok E -> E <> [] -> List.length E = List.length (bd_u (ad_data a)) -> (forall i j, nth i E 0 = nth j E 0 \/ (List.length E <= i)%nat \/ (List.length E <= j)%nat) ->
  exists b0, start K dspl svd proj true a a t0 = Ok b0 /\ forall n, dotv n n = 1 -> meaning b0 (nth 0 (bd_u (ad_data a)) 0, n) = (t0, n).
Proof.
  intros a t0 E HE Hne LE Hc. set (u := bd_u (ad_data a)) in *.
  assert (Lp : (0 < List.length E)%nat) by (destruct E; [congruence|cbn; lia]).
  assert (Un : u <> []) by (intros F; rewrite F in LE; cbn in LE; lia).
  destruct (nearest_spec u t0 Un) as (i & Ei & Li & _).
  assert (N0 : nearest E (nth i E 0) = Ok 0%nat).
  { apply nearest_is. split; [exact Lp|]. destruct (Hc 0%nat i) as [Z|Z]; [|lia]. rewrite Z. split; intros j Hj; [|lia].
    rewrite Rminus_diag_eq by reflexivity. rewrite Rabs_R0. apply Rabs_pos. }
  assert (S : start_shift K dspl a a t0 = Ok (nth 0 u 0 - t0)).
  { unfold start_shift. rewrite HE. cbn [rbind]. fold u. rewrite Ei. cbn [rbind]. rewrite (nth_error_nth' E 0) by lia. rewrite N0. cbn [rbind]. rewrite (nth_error_nth' u 0) by lia. reflexivity. }
  assert (X : exists b0, start K dspl svd proj true a a t0 = Ok b0).
  { unfold start. rewrite S. cbn [rbind]. destruct (time_only_spec (nth 0 u 0 - t0)) as (tt & Et & Nt & _). rewrite Et. cbn [rbind].
    destruct (after_ok tt nothing (proj1 Nt) (proj1 nothing_normal)) as (c & Ec & _). exists c. exact Ec. }
  destruct X as [b0 E0]. exists b0. split; [exact E0|]. destruct (start_ok _ _ _ _ _ E0) as (_ & dt & Hd & M). rewrite S in Hd. injection Hd as <-. intros n Hn. rewrite M by exact Hn. cbn [fst snd]. f_equal. ring.
Qed.
End Frame.
End Maps.

(** ** The piece that is looked at *)
Definition rising (t : list R) : Prop := forall i j, (i < j < List.length t)%nat -> nth i t 0 < nth j t 0.
Lemma nearest_member : forall t x, rising t -> In x t -> exists i, nearest t x = Ok i /\ (i < List.length t)%nat /\ nth i t 0 = x.
Proof.
  intros t x Ht Hx. destruct (In_nth t x 0 Hx) as (i & Li & Hi). exists i. split; [|split; assumption]. rewrite <- Hi. apply nearest_match; [exact Li|].
  intros j Hj Hne. destruct (Nat.lt_ge_cases j i) as [L|L]; [specialize (Ht j i ltac:(lia))|specialize (Ht i j ltac:(lia))]; lra.
Qed.
(** When its ends are among the times, the window holds the times between them. *)
Theorem C85_window : forall t lo hi, rising t -> In lo t -> In hi t -> lo <= hi ->
  exists w, window t lo hi = Ok w /\ rising w /\ forall u, In u w <-> In u t /\ lo <= u <= hi.
Proof.
  intros t lo hi Ht Hl Hh Hle. destruct (nearest_member t lo Ht Hl) as (i & Ei & Li & Hi). destruct (nearest_member t hi Ht Hh) as (j & Ej & Lj & Hj).
  unfold window. rewrite Ei, Ej. cbn [rbind]. eexists. split; [reflexivity|].
  assert (Hij : (i <= j)%nat) by (destruct (Nat.le_gt_cases i j); [assumption|specialize (Ht j i ltac:(lia)); lra]).
  assert (L : List.length (firstn (Datatypes.S j - i) (skipn i t)) = (Datatypes.S j - i)%nat) by (rewrite firstn_length, skipn_length; lia).
  assert (Nw : forall k, (k < Datatypes.S j - i)%nat -> nth k (firstn (Datatypes.S j - i) (skipn i t)) 0 = nth (i + k) t 0).
  { intros k Hk. rewrite nth_firstn_lt by exact Hk. apply nth_skipn. }
  split.
  - intros k1 k2 [H1 H2]. rewrite L in H2. rewrite !Nw by lia. apply Ht. lia.
  - intros u. split.
    + intros Hu. destruct (In_nth _ u 0 Hu) as (k & Hk & <-). rewrite L in Hk. rewrite Nw by exact Hk. split; [apply nth_In; lia|]. rewrite <- Hi, <- Hj. split.
      * destruct k; [rewrite Nat.add_0_r; lra|]. left. apply Ht. lia.
      * destruct (Nat.eq_dec (i + k) j) as [->|]; [lra|]. left. apply Ht. lia.
    + intros [Hu [B1 B2]]. destruct (In_nth t u 0 Hu) as (k & Hk & <-).
      assert (i <= k <= j)%nat. { split; [destruct (Nat.le_gt_cases i k); [assumption|specialize (Ht k i ltac:(lia)); lra]|destruct (Nat.le_gt_cases k j); [assumption|specialize (Ht j k ltac:(lia)); lra]]. }
      replace k with (i + (k - i))%nat by lia. rewrite <- Nw by lia. apply nth_In. lia.
Qed.

(** The piece is cut before the times are moved.  Data late by no more than half the padding: all samples that will be compared are in the piece ... *)
Theorem C85_piece : forall t t0 padding d, rising t -> In (t0 - 3 / 2 * padding) t -> In (t0 + 3 / 2 * padding) t -> Rabs d <= padding / 2 ->
  exists w, window t (t0 - 3 / 2 * padding) (t0 + 3 / 2 * padding) = Ok w /\ forall u, In u t -> t0 - padding <= u - d <= t0 + padding -> In u w.
Proof.
  intros t t0 padding d Ht Hl Hh Hd. assert (P := Rabs_pos d). destruct (C85_window t _ _ Ht Hl Hh ltac:(lra)) as (w & E & _ & H). exists w. split; [exact E|]. intros u Iu B. apply H. split; [exact Iu|].
  assert (A := Rle_abs d). assert (A' := Rle_abs (- d)). rewrite Rabs_Ropp in A'. lra.
Qed.
(** ... late by more than one and a half paddings: no sample of the piece, once moved, is as late as t_0. *)
Theorem C85_piece_refuted : forall t t0 padding d, rising t -> In (t0 - 3 / 2 * padding) t -> In (t0 + 3 / 2 * padding) t -> 0 <= padding -> 3 / 2 * padding < d ->
  exists w, window t (t0 - 3 / 2 * padding) (t0 + 3 / 2 * padding) = Ok w /\ w <> [] /\ forall u, In u w -> u - d < t0.
Proof.
  intros t t0 padding d Ht Hl Hh Hp Hd. destruct (C85_window t _ _ Ht Hl Hh ltac:(lra)) as (w & E & _ & H). exists w. split; [exact E|]. split.
  - intros ->. apply (H (t0 - 3 / 2 * padding)). split; [exact Hl|lra].
  - intros u Iu. apply H in Iu. destruct Iu as [_ Iu]. lra.
Qed.

(** ** The error *)
(** Specification: the value of a mode of field number f at the time u, by the spline through the samples; the norm over the sphere of a field, and of the difference of two *)
Definition value_at (dspl : nat -> list R -> list C -> R -> C) (a : adata) (f : nat) (u : R) (l m : Z) : C :=
  dspl 0%nat (bd_u (ad_data a)) (map (fun j => ms_at (mts_of a f) j l m) (seq 0 (List.length (bd_u (ad_data a))))) u.
Definition size (L : Z) (g : Z -> Z -> C) : R := sqrt (rsum (fun lm => norm2 (g (fst lm) (snd lm))) (LMs L)).

Lemma increasingb_rising : forall t, increasingb t = true -> rising t.
Proof.
  induction t as [|x t IH]; intros H i j [Hij Hj]; [cbn in Hj; lia|]. destruct t as [|y t]; [cbn in Hj; lia|]. cbn [increasingb] in H. apply andb_true_iff in H. destruct H as [H1 H2].
  specialize (IH H2). destruct (Rltb_spec x y) as [Hxy|]; [|discriminate]. destruct j as [|j]; [lia|]. destruct i as [|i].
  - cbn [nth]. destruct j as [|j]; [exact Hxy|]. apply Rlt_trans with y; [exact Hxy|]. exact (IH 0%nat (Datatypes.S j) ltac:(cbn in *; lia)).
  - cbn [nth]. apply IH. cbn in *. lia.
Qed.
Lemma rising_increasingb : forall t, rising t -> increasingb t = true.
Proof.
  induction t as [|x t IH]; intros H; [reflexivity|]. destruct t as [|y t]; [reflexivity|]. cbn [increasingb]. apply andb_true_iff. split.
  - destruct (Rltb_spec x y); [reflexivity|]. specialize (H 0%nat 1%nat ltac:(cbn; lia)). cbn in H. lra.
  - apply IH. intros i j Hij. exact (H (Datatypes.S i) (Datatypes.S j) ltac:(cbn in *; lia)).
Qed.

Section Error.
Variable dspl : nat -> list R -> list C -> R -> C.
Variable integral : list R -> list R -> list R.
(** The integral of a multiple of a function is the multiple of the integral *)
Hypothesis integral_scale : forall c f t, integral (map (Rmult c) f) t = map (Rmult c) (integral f t).
Let value_at := value_at dspl.
(** Data at two times or more, increasing *)
Definition series (a : adata) : Prop := (0 <= bd_hi (ad_data a))%Z /\ (2 <= List.length (bd_u (ad_data a)))%nat /\ rising (bd_u (ad_data a)).
(** The integral over the times t of a function of time *)
Definition over (t : list R) (g : R -> R) : R := last (integral (map g t) t) 0.
Definition span (t : list R) : R := last t 0 - nth 0 t 0.

Lemma interp_values : forall a t, series a -> exists i, ad_interpolate dspl a t = Ok i /\ bd_u (ad_data i) = t /\ bd_hi (ad_data i) = bd_hi (ad_data a) /\
  forall f k l m, (f < 6)%nat -> (k < List.length t)%nat -> In (l, m) (LMs (bd_hi (ad_data a))) -> ms_at (mts_of i f) k l m = value_at a f (nth k t 0) l m.
Proof.
  intros a t (HL & H2 & HR). unfold ad_interpolate.
  set (row := fun f u => map (fun lm => value_at a f u (fst lm) (snd lm)) (LM_range 0 (bd_hi (ad_data a)))).
  rewrite (each_ok _ _ _ (fun f => map (row f) t)).
  2:{ intros f _. unfold mts_interpolate. change (3 <? 0)%nat with false. cbn [mts_of ms_u]. destruct (Nat.ltb_spec (List.length (bd_u (ad_data a))) 2) as [B|_]; [lia|]. rewrite (rising_increasingb _ HR). cbn [negb orb rbind ms_at].
      f_equal. apply nth_ext with (d := []) (d' := []); [rewrite !map_length, seq_length; reflexivity|]. intros k Hk. rewrite map_length, seq_length in Hk.
      set (r := fun i : nat => map _ _). rewrite (nth_indep _ [] (r 0%nat)) by (rewrite map_length, seq_length; exact Hk). rewrite (map_nth r), seq_nth by exact Hk.
      rewrite (nth_indep _ [] (row f 0)) by (rewrite map_length; exact Hk). rewrite (map_nth (row f)). cbn [Nat.add]. reflexivity. }
  cbn [rbind]. eexists. split; [reflexivity|]. cbn [ad_data bd_u bd_hi]. split; [reflexivity|]. split; [reflexivity|]. intros f k l m Hf Hk Hlm. apply LMs_In in Hlm.
  cbn [mts_of ms_at ad_data bd_hi bd_fields].
  destruct (Z.leb_spec 0 l); [|lia]. destruct (Z.leb_spec l (bd_hi (ad_data a))); [|lia]. destruct (Z.leb_spec (- l) m); [|lia]. destruct (Z.leb_spec m l); [|lia]. cbn [andb].
  set (g := fun f => map (row f) t). rewrite (nth_indep _ [] (g 0%nat)) by (rewrite map_length, seq_length; exact Hf). rewrite (map_nth g), seq_nth by exact Hf. cbn [Nat.add]. unfold g.
  rewrite (nth_indep _ [] (row f 0)) by (rewrite map_length; exact Hk). rewrite (map_nth (row f)). unfold row.
  transitivity (Modal_Proofs.mode 0 (map (fun lm => value_at a f (nth k t 0) (fst lm) (snd lm)) (LM_range 0 (bd_hi (ad_data a)))) l m); [reflexivity|].
  rewrite mode_map by (lia || (split; lia)). reflexivity.
Qed.

Lemma size_ext : forall L g h, (forall l m, In (l, m) (LMs L) -> g l m = h l m) -> size L g = size L h.
Proof. intros L g h H. unfold size. f_equal. apply rsum_ext. intros [l m] I. cbn [fst snd]. rewrite (H l m I). reflexivity. Qed.
Lemma norm_times : forall (f : mts) t L g, ms_u f = t -> ms_hi f = L -> (forall k l m, (k < List.length t)%nat -> In (l, m) (LMs L) -> ms_at f k l m = g (nth k t 0) l m) ->
  mts_norm f = map (fun u => size L (g u)) t.
Proof.
  intros f t L g Hu Hh H. unfold mts_norm. rewrite Hu, Hh. apply nth_ext with (d := 0) (d' := 0); [rewrite !map_length, seq_length; reflexivity|]. intros k Hk. rewrite map_length, seq_length in Hk.
  set (r := fun i => sqrt _). rewrite (nth_indep _ 0 (r 0%nat)) by (rewrite map_length, seq_length; exact Hk). rewrite (map_nth r), seq_nth by exact Hk.
  set (w := fun u => size L (g u)). rewrite (nth_indep (map w t) 0 (w 0)) by (rewrite map_length; exact Hk). rewrite (map_nth w). cbn [Nat.add]. unfold r, w. change (size L (ms_at f k) = size L (g (nth k t 0))).
  apply size_ext. intros l m I. apply H; assumption.
Qed.
(** The part of one field in the error *)
Definition reference (a : adata) (t : list R) (f : nat) : R := over t (fun u => size (bd_hi (ad_data a)) (value_at a f u)).
Definition deviation (a1 a2 : adata) (t : list R) (f : nat) : R := over t (fun u => size (bd_hi (ad_data a1)) (fun l m => (value_at a1 f u l m - value_at a2 f u l m)%C)).
Definition part (a1 a2 : adata) (t : list R) (f : nat) : xf :=
  xdiv (deviation a1 a2 t f) (if Req_EM_T (reference a1 t f) 0 then span t else reference a1 t f).
Lemma error_parts : forall a1 a2 t1 t2 t, series a1 -> series a2 -> bd_hi (ad_data a1) = bd_hi (ad_data a2) -> window (bd_u (ad_data a1)) t1 t2 = Ok t -> t <> [] ->
  rel_err_between_abds dspl integral a1 a2 t1 t2 = Ok (xdiv6 (fold_left xadd (map (part a1 a2 t) [5; 0; 1; 2; 3; 4]%nat) (Fin 0))).
Proof.
  intros a1 a2 t1 t2 t H1 H2 Hh Hw Ht. unfold rel_err_between_abds. rewrite Hw. cbn [rbind].
  destruct (interp_values a1 t H1) as (i1 & E1 & U1 & L1 & V1). destruct (interp_values a2 t H2) as (i2 & E2 & U2 & L2 & V2). rewrite E1, E2. cbn [rbind]. rewrite <- Hh, Z.eqb_refl. cbn [negb].
  rewrite (each_ok _ _ _ (part a1 a2 t)).
  - cbn [rbind]. destruct t; [congruence|reflexivity].
  - intros f If. assert (Hf : (f < 6)%nat) by (cbn in If; lia). unfold field_error, mts_sub. change (ms_s (mts_of i1 f)) with (ms_s (mts_of i2 f)). rewrite Z.eqb_refl. cbn [negb rbind].
    f_equal. set (d := mkmts _ _ _ _ _). assert (Nr : total integral (mts_of i1 f) = reference a1 t f).
    { unfold total, reference, over. rewrite (norm_times (mts_of i1 f) t (bd_hi (ad_data a1)) (value_at a1 f)); [cbn [mts_of ms_u]; rewrite U1; reflexivity|exact U1|exact L1|intros; apply V1; assumption]. }
    assert (Nd : total integral d = deviation a1 a2 t f).
    { unfold total, deviation, over. rewrite (norm_times d t (bd_hi (ad_data a1)) (fun u l m => (value_at a1 f u l m - value_at a2 f u l m)%C)); [change (ms_u d) with (bd_u (ad_data i1)); rewrite U1; reflexivity|exact U1| |].
      - change (ms_hi d) with (Z.max (bd_hi (ad_data i1)) (bd_hi (ad_data i2))). rewrite L1, L2, <- Hh. apply Z.max_id.
      - intros k l m Hk I. change (ms_at d k l m) with (ms_at (mts_of i1 f) k l m - ms_at (mts_of i2 f) k l m)%C. rewrite V1, V2 by (try assumption; rewrite <- Hh; exact I). reflexivity. }
    rewrite Nr, Nd. unfold part. cbn [mts_of ms_u]. rewrite U1. reflexivity.
Qed.
Lemma last_map : forall c l, last (map (Rmult c) l) 0 = c * last l 0.
Proof. induction l as [|x l IH]; [cbn; ring|]. destruct l as [|y l]; [reflexivity|]. cbn [map last] in *. exact IH. Qed.
Lemma over_scale : forall t c g h, (forall u, In u t -> h u = c * g u) -> over t h = c * over t g.
Proof. intros t c g h H. unfold over. replace (map h t) with (map (Rmult c) (map g t)) by (rewrite map_map; apply map_ext_in; intros u I; symmetry; apply H; exact I). rewrite integral_scale. apply last_map. Qed.
Lemma size_scale : forall L c g h, (forall l m, In (l, m) (LMs L) -> h l m = (RtoC c * g l m)%C) -> size L h = Rabs c * size L g.
Proof.
  intros L c g h H. unfold size. rewrite (rsum_ext _ (fun lm => c * c * norm2 (g (fst lm) (snd lm)))).
  - assert (P : forall l, 0 <= rsum (fun lm : Z * Z => norm2 (g (fst lm) (snd lm))) l) by (induction l as [|x l IH]; cbn [rsum]; [lra|assert (Q := norm2_nonneg (g (fst x) (snd x))); lra]).
    assert (S : forall l, rsum (fun lm : Z * Z => c * c * norm2 (g (fst lm) (snd lm))) l = c * c * rsum (fun lm => norm2 (g (fst lm) (snd lm))) l) by (induction l as [|x l IH]; cbn [rsum]; [ring|rewrite IH; ring]).
    rewrite S, sqrt_mult by (try apply P; nra). f_equal. apply sqrt_Rsqr_abs.
  - intros [l m] I. cbn [fst snd]. rewrite (H l m I). destruct (g l m) as [x y]. unfold norm2. cbn. ring.
Qed.
Lemma span_pos : forall t, rising t -> (2 <= List.length t)%nat -> 0 < span t.
Proof.
  intros t H L. unfold span. rewrite Times_Proofs.last_nth by (intros ->; cbn in L; lia). specialize (H 0%nat (List.length t - 1)%nat ltac:(lia)). lra.
Qed.
(** Data whose fields, at the times of the window, are those of the reference times 1 + c: the error is |c| times the share of the six fields that are there at all. *)
Theorem C85_error_multiple : forall a1 a2 t1 t2 t c present, series a1 -> series a2 -> bd_hi (ad_data a1) = bd_hi (ad_data a2) ->
  window (bd_u (ad_data a1)) t1 t2 = Ok t -> rising t -> (2 <= List.length t)%nat ->
  (forall f u l m, (f < 6)%nat -> In u t -> In (l, m) (LMs (bd_hi (ad_data a1))) -> value_at a2 f u l m = (RtoC (1 + c) * value_at a1 f u l m)%C) ->
  NoDup present -> (forall f, In f present <-> (f < 6)%nat /\ reference a1 t f <> 0) ->
  rel_err_between_abds dspl integral a1 a2 t1 t2 = Ok (Fin (Rabs c * INR (List.length present) / 6)).
Proof.
  intros a1 a2 t1 t2 t c present H1 H2 Hh Hw Hr Ht HV HN HP. assert (Hne : t <> []) by (intros ->; cbn in Ht; lia). rewrite (error_parts a1 a2 t1 t2 t) by assumption. f_equal.
  set (i := fun f => if Req_EM_T (reference a1 t f) 0 then 0 else 1).
  assert (P : forall f, (f < 6)%nat -> part a1 a2 t f = Fin (Rabs c * i f)).
  { intros f Hf. unfold part. assert (D : deviation a1 a2 t f = Rabs c * reference a1 t f).
    { unfold deviation, reference. rewrite <- (Rabs_Ropp c). apply over_scale. intros u Iu. apply size_scale. intros l m I. rewrite (HV f u l m Hf Iu I). apply C_eq; cbn; ring. }
    rewrite D. unfold i. assert (S := span_pos t Hr Ht). destruct (Req_EM_T (reference a1 t f) 0) as [Z|Z]; unfold xdiv.
    - destruct (Req_EM_T (span t) 0); [lra|]. f_equal. rewrite Z. field. exact n.
    - destruct (Req_EM_T (reference a1 t f) 0); [contradiction|]. f_equal. field. exact Z. }
  cbn [map]. rewrite !P by lia. cbn [fold_left xadd]. unfold xdiv6. f_equal.
  assert (C : INR (List.length present) = i 0%nat + i 1%nat + i 2%nat + i 3%nat + i 4%nat + i 5%nat).
  { set (keep := fun f => if Req_EM_T (reference a1 t f) 0 then false else true).
    assert (E : List.length present = List.length (filter keep (seq 0 6))).
    { apply Nat.le_antisymm; apply NoDup_incl_length.
      - exact HN.
      - intros f If. apply HP in If. apply filter_In. split; [apply in_seq; lia|]. unfold keep. destruct (Req_EM_T _ 0); tauto.
      - apply NoDup_filter, seq_NoDup.
      - intros f If. apply filter_In in If. destruct If as [If Hk]. apply in_seq in If. apply HP. split; [lia|]. unfold keep in Hk. destruct (Req_EM_T _ 0); [discriminate|assumption]. }
    rewrite E. unfold i. cbn [seq filter]. unfold keep. repeat (destruct (Req_EM_T _ 0)); cbn [List.length]; rewrite ?S_INR; cbn [INR]; ring. }
  rewrite C. field.
Qed.

(** In particular the error is zero when the fields agree at the times of the window. *)
Theorem C85_error_same : forall a1 a2 t1 t2 t, series a1 -> series a2 -> bd_hi (ad_data a1) = bd_hi (ad_data a2) ->
  window (bd_u (ad_data a1)) t1 t2 = Ok t -> rising t -> (2 <= List.length t)%nat ->
  (forall f u l m, (f < 6)%nat -> In u t -> In (l, m) (LMs (bd_hi (ad_data a1))) -> value_at a2 f u l m = value_at a1 f u l m) ->
  rel_err_between_abds dspl integral a1 a2 t1 t2 = Ok (Fin 0).
Proof.
  intros a1 a2 t1 t2 t H1 H2 Hh Hw Hr Ht HV.
  rewrite (C85_error_multiple a1 a2 t1 t2 t 0 (filter (fun f => if Req_EM_T (reference a1 t f) 0 then false else true) (seq 0 6))); try assumption.
  - do 2 f_equal. rewrite Rabs_R0. field.
  - intros f u l m Hf Iu I. rewrite (HV f u l m Hf Iu I). apply C_eq; cbn; ring.
  - apply NoDup_filter, seq_NoDup.
  - intros f. rewrite filter_In, in_seq. destruct (Req_EM_T (reference a1 t f) 0); split; intros [A B]; try discriminate; try contradiction; split; try lia; try assumption; reflexivity.
Qed.
(** Data stored to different degrees cannot be compared, and there is no error over an empty window. *)
Theorem C85_error_degrees : forall a1 a2 t1 t2 t, series a1 -> series a2 -> window (bd_u (ad_data a1)) t1 t2 = Ok t ->
  (bd_hi (ad_data a1) <> bd_hi (ad_data a2) -> rel_err_between_abds dspl integral a1 a2 t1 t2 = Err ValueError) /\
  (bd_hi (ad_data a1) = bd_hi (ad_data a2) -> t = [] -> rel_err_between_abds dspl integral a1 a2 t1 t2 = Err IndexError).
Proof.
  intros a1 a2 t1 t2 t H1 H2 Hw. unfold rel_err_between_abds. rewrite Hw. cbn [rbind].
  destruct (interp_values a1 t H1) as (i1 & E1 & _). destruct (interp_values a2 t H2) as (i2 & E2 & _). rewrite E1, E2. cbn [rbind]. split.
  - intros N. destruct (Z.eqb_spec (bd_hi (ad_data a1)) (bd_hi (ad_data a2))); [contradiction|reflexivity].
  - intros -> ->. rewrite Z.eqb_refl. reflexivity.
Qed.
(** Which of the two is the reference matters. *)
Theorem C85_error_symmetric_refuted : forall a1 a2 t1 t2 t present, series a1 -> series a2 -> bd_hi (ad_data a1) = bd_hi (ad_data a2) -> bd_u (ad_data a1) = bd_u (ad_data a2) ->
  window (bd_u (ad_data a1)) t1 t2 = Ok t -> rising t -> (2 <= List.length t)%nat ->
  (forall f u l m, (f < 6)%nat -> In u t -> In (l, m) (LMs (bd_hi (ad_data a1))) -> value_at a2 f u l m = (RtoC 2 * value_at a1 f u l m)%C) ->
  NoDup present -> (forall f, In f present <-> (f < 6)%nat /\ reference a1 t f <> 0) -> present <> [] ->
  exists x y, rel_err_between_abds dspl integral a1 a2 t1 t2 = Ok (Fin x) /\ rel_err_between_abds dspl integral a2 a1 t1 t2 = Ok (Fin y) /\ x = 2 * y /\ x <> y.
Proof.
  intros a1 a2 t1 t2 t present H1 H2 Hh Hu Hw Hr Ht HV HN HP Hne.
  exists (Rabs 1 * INR (List.length present) / 6), (Rabs (- (1 / 2)) * INR (List.length present) / 6).
  assert (RR : forall f, (f < 6)%nat -> reference a2 t f = 2 * reference a1 t f).
  { intros f Hf. unfold reference. rewrite <- (Rabs_right 2) at 1 by lra. rewrite <- Hh. apply over_scale. intros u Iu. apply size_scale. intros l m I. apply HV; assumption. }
  split; [|split; [|]].
  - apply (C85_error_multiple a1 a2 t1 t2 t 1 present); assumption.
  - apply (C85_error_multiple a2 a1 t1 t2 t (- (1 / 2)) present); try assumption; [symmetry; exact Hh|rewrite <- Hu; exact Hw| |].
    + rewrite <- Hh. intros f u l m Hf Iu I. rewrite (HV f u l m Hf Iu I). apply C_eq; cbn; field.
    + intros f. rewrite HP. split; intros [A B]; split; try exact A; rewrite RR in * by exact A; lra.
  - rewrite Rabs_R1, Rabs_Ropp, (Rabs_right (1 / 2)) by lra. assert (0 < INR (List.length present)) by (apply lt_0_INR; destruct present; [congruence|cbn; lia]). split; lra.
Qed.
(** Multiplying both by a number other than zero (other units) does not change the error if no field of the reference vanishes ... *)
Theorem C85_error_units : forall a1 a2 b1 b2 t1 t2 t c, series a1 -> series a2 -> series b1 -> series b2 ->
  bd_hi (ad_data a1) = bd_hi (ad_data a2) -> bd_hi (ad_data b1) = bd_hi (ad_data a1) -> bd_hi (ad_data b2) = bd_hi (ad_data a1) -> bd_u (ad_data b1) = bd_u (ad_data a1) ->
  window (bd_u (ad_data a1)) t1 t2 = Ok t -> t <> [] -> c <> 0 ->
  (forall f u l m, (f < 6)%nat -> In u t -> In (l, m) (LMs (bd_hi (ad_data a1))) -> value_at b1 f u l m = (RtoC c * value_at a1 f u l m)%C /\ value_at b2 f u l m = (RtoC c * value_at a2 f u l m)%C) ->
  (forall f, (f < 6)%nat -> reference a1 t f <> 0) ->
  rel_err_between_abds dspl integral b1 b2 t1 t2 = rel_err_between_abds dspl integral a1 a2 t1 t2.
Proof.
  intros a1 a2 b1 b2 t1 t2 t c A1 A2 B1 B2 Hh G1 G2 Gu Hw Hne Hc HV HR.
  assert (Hw' : window (bd_u (ad_data b1)) t1 t2 = Ok t) by (rewrite Gu; exact Hw). assert (Hh' : bd_hi (ad_data b1) = bd_hi (ad_data b2)) by congruence.
  rewrite (error_parts a1 a2 t1 t2 t), (error_parts b1 b2 t1 t2 t) by assumption. do 3 f_equal. apply map_ext_in. intros f If. assert (Hf : (f < 6)%nat) by (cbn in If; lia). unfold part.
  assert (Pc : 0 < Rabs c) by (apply Rabs_pos_lt; exact Hc).
  assert (R1 : reference b1 t f = Rabs c * reference a1 t f).
  { unfold reference. rewrite G1. apply over_scale. intros u Iu. apply size_scale. intros l m I. apply HV; assumption. }
  assert (D1 : deviation b1 b2 t f = Rabs c * deviation a1 a2 t f).
  { unfold deviation. rewrite G1. apply over_scale. intros u Iu. apply size_scale. intros l m I. destruct (HV f u l m Hf Iu I) as [-> ->]. apply C_eq; cbn; ring. }
  rewrite R1, D1. specialize (HR f Hf). assert (Z : Rabs c * reference a1 t f <> 0) by (apply Rmult_integral_contrapositive_currified; lra).
  destruct (Req_EM_T (Rabs c * reference a1 t f) 0); [contradiction|]. destruct (Req_EM_T (reference a1 t f) 0); [contradiction|]. unfold xdiv.
  destruct (Req_EM_T (Rabs c * reference a1 t f) 0); [contradiction|]. destruct (Req_EM_T (reference a1 t f) 0); [contradiction|]. f_equal. field. split; lra.
Qed.
(** ... but where the reference vanishes the difference itself, averaged over time, is taken: there the error depends on the units. *)
Theorem C85_error_units_refuted : forall a1 a2 b2 t1 t2 t c x, series a1 -> series a2 -> series b2 -> bd_hi (ad_data a1) = bd_hi (ad_data a2) -> bd_hi (ad_data b2) = bd_hi (ad_data a1) ->
  window (bd_u (ad_data a1)) t1 t2 = Ok t -> rising t -> (2 <= List.length t)%nat ->
  (forall f u l m, (f < 6)%nat -> In u t -> In (l, m) (LMs (bd_hi (ad_data a1))) -> value_at a1 f u l m = C0 /\ value_at b2 f u l m = (RtoC c * value_at a2 f u l m)%C) ->
  rel_err_between_abds dspl integral a1 a2 t1 t2 = Ok (Fin x) ->
  x = rsum (fun f => over t (fun u => size (bd_hi (ad_data a1)) (value_at a2 f u))) [0; 1; 2; 3; 4; 5]%nat / span t / 6 /\
  rel_err_between_abds dspl integral a1 b2 t1 t2 = Ok (Fin (Rabs c * x)).
Proof.
  intros a1 a2 b2 t1 t2 t c x A1 A2 B2 Hh G2 Hw Hr Ht HV H. assert (Hne : t <> []) by (intros ->; cbn in Ht; lia). assert (S := span_pos t Hr Ht).
  assert (R0 : forall f, (f < 6)%nat -> reference a1 t f = 0).
  { intros f Hf. unfold reference. rewrite (over_scale t 0 (fun _ => 0)); [ring|]. intros u Iu. rewrite (size_scale _ 0 (fun _ _ => C0)); [rewrite Rabs_R0; ring|].
    intros l m I. rewrite (proj1 (HV f u l m Hf Iu I)). apply C_eq; cbn; ring. }
  set (g := fun f => over t (fun u => size (bd_hi (ad_data a1)) (value_at a2 f u))).
  assert (P1 : forall f, (f < 6)%nat -> part a1 a2 t f = Fin (g f / span t)).
  { intros f Hf. unfold part. rewrite (R0 f Hf). destruct (Req_EM_T 0 0) as [_|F]; [|lra]. unfold xdiv. destruct (Req_EM_T (span t) 0); [lra|]. do 2 f_equal.
    unfold deviation, g. rewrite <- (Rmult_1_l (over t (fun u => size (bd_hi (ad_data a1)) (value_at a2 f u)))). apply over_scale. intros u Iu. rewrite <- (Rabs_R1), <- (Rabs_Ropp 1). apply size_scale. intros l m I. rewrite (proj1 (HV f u l m Hf Iu I)). apply C_eq; cbn; ring. }
  assert (P2 : forall f, (f < 6)%nat -> part a1 b2 t f = Fin (Rabs c * (g f / span t))).
  { intros f Hf. unfold part. rewrite (R0 f Hf). destruct (Req_EM_T 0 0) as [_|F]; [|lra]. unfold xdiv. destruct (Req_EM_T (span t) 0); [lra|]. f_equal.
    assert (D : deviation a1 b2 t f = Rabs c * g f). { unfold deviation, g. rewrite <- (Rabs_Ropp c). apply over_scale. intros u Iu. apply size_scale. intros l m I. destruct (HV f u l m Hf Iu I) as [-> ->]. apply C_eq; cbn; ring. }
    rewrite D. field. assumption. }
  rewrite (error_parts a1 a2 t1 t2 t) in H by assumption. cbn [map] in H. rewrite !P1 in H by lia. cbn [fold_left xadd] in H. unfold xdiv6 in H. injection H as <-.
  split; [cbn [rsum]; fold g; field; lra|]. rewrite (error_parts a1 b2 t1 t2 t) by (try assumption; congruence). cbn [map]. rewrite !P2 by lia. cbn [fold_left xadd]. unfold xdiv6. do 2 f_equal. field. lra.
Qed.
End Error.
