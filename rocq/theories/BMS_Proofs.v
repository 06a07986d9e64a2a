(** C31 (reordering) and C32 (group laws) of BMS transformations. *)
From Coq Require Import ZArith Reals List Bool Lia Lra.
From Verif Require Import Common Cplx Quat Times_Model Times_Proofs Kwargs_Model Transform_Model Transform_Proofs Spin_Model Spin_Proofs Lorentz_Proofs.
Import ListNotations.
Open Scope R_scope.

(** ** What a transformation does to the points of future null infinity: (retarded time u, direction n) *)
Definition point : Type := (R * vec3)%type.
Definition on_scri (p : point) : Prop := dotv (snd p) (snd p) = 1.
Definition translate (f : vec3 -> R) (p : point) : point := (fst p - f (snd p), snd p).
(** The frame moved by the Lorentz matrix [M]: the ray (1, n) has components (t, x) in the new frame, i.e. direction
    x / t, and times along it shrink by t. *)
Definition frame (M : mat) (p : point) : point :=
  let l := lam (minv M) (1, snd p) in (fst p / fst l, scalev (/ fst l) (snd l)).
(** The components of a transformation are applied in the given order; a supertranslation is a function on the
    sphere of directions of the frame reached so far, while rotors and boost velocities refer to the axes of the
    frame we started from. *)
Definition rot_mat (q : quat) : mat := rmat q.
Definition step (S : vec3 -> R) (q : quat) (v : vec3) (st : (point -> point) * mat) (c : comp) : (point -> point) * mat :=
  let '(phi, M) := st in
  let move X := (fun p => frame M (frame X (frame (minv M) (phi p))), mmul X M) in
  match c with
  | CS => (fun p => translate S (phi p), M)
  | CR => move (rmat q)
  | CB => move (bmat v)
  end.
Definition meaning (b : bmst) : point -> point :=
  fst (fold_left (step (s_fn (b_sup b)) (b_rot b) (b_boost b)) (b_order b) (fun p => p, mone)).

Definition orders := [SRB; RSB; RBS; SBR; BSR; BRS].
Definition good (b : bmst) : Prop :=
  good_rotor (b_rot b) /\ norm3 (b_boost b) < 1 /\ In (b_order b) orders /\ s_ell (b_sup b) = b_ell b.

(** ** Elementary facts about the action *)
Lemma lam_null : forall M n, mdet M = C1 -> dotv n n = 1 ->
  let l := lam M (1, n) in 0 < fst l /\ dotv (scalev (/ fst l) (snd l)) (scalev (/ fst l) (snd l)) = 1
  /\ l = (fst l * 1, scalev (fst l) (scalev (/ fst l) (snd l))).
Proof.
  intros M n D H l. assert (P := lam_future M n D H). fold l in P. assert (K := lam_minkowski M 1 n D). fold l in K.
  split; [exact P|]. destruct l as [t [[x y] z]]. cbn [fst snd] in *. unfold dotv, scalev in *. split.
  - replace (/ t * x * (/ t * x) + / t * y * (/ t * y) + / t * z * (/ t * z)) with ((x * x + y * y + z * z) / (t * t)) by (field; lra).
    replace (x * x + y * y + z * z) with (t * t) by lra. field. lra.
  - f_equal; [ring|]. f_equal; [f_equal|]; field; lra.
Qed.
Lemma frame_scri : forall M p, mdet M = C1 -> on_scri p -> on_scri (frame M p).
Proof. intros M [u n] D H. unfold on_scri, frame. cbn [snd fst]. apply (lam_null (minv M) n (mdet_minv M D) H). Qed.
Lemma translate_scri : forall f p, on_scri p -> on_scri (translate f p).
Proof. intros f [u n] H. exact H. Qed.
Lemma frame_mul : forall M N p, mdet M = C1 -> mdet N = C1 -> on_scri p -> frame (mmul M N) p = frame N (frame M p).
Proof.
  intros M N [u n] DM DN H. unfold frame. cbn [fst snd]. rewrite minv_mul, lam_mul by assumption.
  destruct (lam_null (minv M) n (mdet_minv M DM) H) as (P & U & E).
  assert (E2 := lam_scale (minv N) (fst (lam (minv M) (1, n))) 1 (scalev (/ fst (lam (minv M) (1, n))) (snd (lam (minv M) (1, n))))).
  rewrite <- E in E2. rewrite E2. cbn [fst snd].
  set (t := fst (lam (minv M) (1, n))) in *. set (m := scalev (/ t) (snd (lam (minv M) (1, n)))) in *.
  destruct (lam_null (minv N) m (mdet_minv N DN) U) as (P2 & _ & _). set (t2 := fst (lam (minv N) (1, m))) in *.
  f_equal; [field; lra|]. rewrite scalev_scalev. f_equal. field. lra.
Qed.
Lemma frame_one : forall p, frame mone p = p.
Proof.
  intros [u n]. unfold frame. assert (E : minv mone = mone) by (symmetry; apply minv_unique; [apply mdet_one|apply mmul_1_l]).
  rewrite E, lam_one. cbn [fst snd]. rewrite Rinv_1, scalev_1. f_equal. field.
Qed.
Lemma frame_inv_l : forall M p, mdet M = C1 -> on_scri p -> frame (minv M) (frame M p) = p.
Proof. intros M p D H. rewrite <- frame_mul, mul_minv_r by (try assumption; apply mdet_minv; exact D). apply frame_one. Qed.
Lemma frame_inv_r : forall M p, mdet M = C1 -> on_scri p -> frame M (frame (minv M) p) = p.
Proof. intros M p D H. rewrite <- frame_mul, mul_minv_l by (try assumption; apply mdet_minv; exact D). apply frame_one. Qed.
Lemma minv_sign : forall M N, mdet N = C1 -> same_up_to_sign M N -> same_up_to_sign (minv M) (minv N).
Proof. intros M N D [->| ->]; [left; reflexivity|right; apply minv_opp; exact D]. Qed.
Lemma frame_sign : forall M N p, mdet N = C1 -> same_up_to_sign M N -> frame M p = frame N p.
Proof. intros M N p D H. unfold frame. rewrite (lam_sign _ _ _ (minv_sign M N D H)). reflexivity. Qed.

(** Supertranslations seen from another frame. *)
Definition seen (M : mat) (f : vec3 -> R) (n : vec3) : R :=
  let l := lam (minv M) (1, n) in fst l * f (scalev (/ fst l) (snd l)).
Lemma translate_frame : forall M f p, mdet M = C1 -> on_scri p ->
  translate f (frame M p) = frame M (translate (seen M f) p).
Proof.
  intros M f [u n] D H. destruct (lam_null (minv M) n (mdet_minv M D) H) as (P & _ & _).
  unfold translate, frame, seen. cbn [fst snd]. f_equal. field. lra.
Qed.
Lemma translate_ext : forall f g p, on_scri p -> (forall n, dotv n n = 1 -> f n = g n) -> translate f p = translate g p.
Proof. intros f g [u n] H E. unfold translate. cbn [fst snd]. rewrite (E n H). reflexivity. Qed.
Lemma seen_ext : forall M f g n, mdet M = C1 -> dotv n n = 1 -> (forall n, dotv n n = 1 -> f n = g n) -> seen M f n = seen M g n.
Proof.
  intros M f g n D H E. unfold seen. destruct (lam_null (minv M) n (mdet_minv M D) H) as (_ & U & _). cbv zeta. rewrite (E _ U). reflexivity.
Qed.
Lemma seen_seen : forall M N f n, mdet M = C1 -> mdet N = C1 -> dotv n n = 1 -> seen M (seen N f) n = seen (mmul M N) f n.
Proof.
  intros M N f n DM DN H. unfold seen. rewrite minv_mul, lam_mul by assumption.
  destruct (lam_null (minv M) n (mdet_minv M DM) H) as (P & U & E).
  assert (E2 := lam_scale (minv N) (fst (lam (minv M) (1, n))) 1 (scalev (/ fst (lam (minv M) (1, n))) (snd (lam (minv M) (1, n))))).
  rewrite <- E in E2. rewrite E2. cbn [fst snd].
  set (t := fst (lam (minv M) (1, n))) in *. set (m := scalev (/ t) (snd (lam (minv M) (1, n)))) in *.
  destruct (lam_null (minv N) m (mdet_minv N DN) U) as (P2 & _ & _). set (t2 := fst (lam (minv N) (1, m))) in *.
  rewrite scalev_scalev. rewrite <- Rmult_assoc. f_equal. f_equal. f_equal. field. lra.
Qed.
Lemma seen_one : forall f n, seen mone f n = f n.
Proof.
  intros f n. unfold seen. assert (E : minv mone = mone) by (symmetry; apply minv_unique; [apply mdet_one|apply mmul_1_l]).
  rewrite E, lam_one. cbn [fst snd]. rewrite Rinv_1, scalev_1. ring.
Qed.
Lemma seen_sign : forall M N f n, mdet N = C1 -> same_up_to_sign M N -> seen M f n = seen N f n.
Proof. intros M N f n D H. unfold seen. rewrite (lam_sign _ _ _ (minv_sign M N D H)). reflexivity. Qed.

(** ** The meaning of each of the six orders in the form "translate, then move the frame" *)
Definition lmat (rf : bool) (q : quat) (v : vec3) : mat := if rf then mmul (bmat v) (rmat q) else mmul (rmat q) (bmat v).
Lemma det_rmat : forall q, good_rotor q -> mdet (rmat q) = C1.
Proof. intros q [H _]. rewrite rmat_det, H. reflexivity. Qed.
Lemma det_bmat : forall v, norm3 v < 1 -> mdet (bmat v) = C1.
Proof. intros v H. apply bmat_props. exact H. Qed.
Lemma det_lmat : forall rf q v, good_rotor q -> norm3 v < 1 -> mdet (lmat rf q v) = C1.
Proof. intros rf q v G H. destruct rf; cbn; rewrite mdet_mul, det_rmat, det_bmat by assumption; ring. Qed.
(** matrix and supertranslation of the equivalent normal form *)
Definition nf_rf (o : list comp) : bool := match index CR o, index CB o with Some i, Some j => Nat.ltb i j | _, _ => true end.
Definition nf_frame (o : list comp) (q : quat) (v : vec3) : mat :=     (* frame in which the supertranslation is given *)
  if order_eqb o RSB then rmat q else if order_eqb o BSR then bmat v
  else if order_eqb o RBS then lmat true q v else if order_eqb o BRS then lmat false q v else mone.

Lemma minv_mone : minv mone = mone.
Proof. symmetry. apply minv_unique; [apply mdet_one|apply mmul_1_l]. Qed.
Ltac scri := repeat match goal with
  | H : ?g |- ?g => exact H
  | |- on_scri (frame _ _) => apply frame_scri
  | |- on_scri (translate _ _) => apply translate_scri
  | |- mdet (minv _) = C1 => apply mdet_minv
  | |- mdet mone = C1 => exact mdet_one
  end.
Local Opaque lam minv rmat bmat mdet mmul.
Lemma meaning_nf : forall b p, good b -> on_scri p ->
  meaning b p = frame (lmat (nf_rf (b_order b)) (b_rot b) (b_boost b))
                  (translate (seen (nf_frame (b_order b) (b_rot b) (b_boost b)) (s_fn (b_sup b))) p).
Proof.
  intros [S q v o e] p (G & V & HO & _) H. unfold meaning. cbn [b_sup b_rot b_boost b_order] in *.
  assert (DR := det_rmat q G). assert (DB := det_bmat v V).
  assert (DL := det_lmat true q v G V). assert (DL' := det_lmat false q v G V).
  assert (X1 : forall X p, mdet X = C1 -> on_scri p -> frame X (frame (bmat v) (frame (minv X) (frame X p))) = frame (mmul (bmat v) X) p).
  { intros X p' DX H'. rewrite frame_inv_l, <- frame_mul by scri. reflexivity. }
  assert (X2 : forall X p, mdet X = C1 -> on_scri p -> frame X (frame (rmat q) (frame (minv X) (frame X p))) = frame (mmul (rmat q) X) p).
  { intros X p' DX H'. rewrite frame_inv_l, <- frame_mul by scri. reflexivity. }
  assert (T1 : forall f, translate (seen mone f) p = translate f p).
  { intros f. apply translate_ext; [exact H|]. intros; apply seen_one. }
  unfold orders in HO. cbn [In] in HO.
  repeat destruct HO as [<-|HO]; try contradiction; cbn [fold_left step fst SRB RSB RBS SBR BSR BRS];
    unfold nf_frame; cbn [order_eqb comp_eqb andb SRB RSB RBS SBR BSR BRS]; rewrite ?minv_mone, ?frame_one, ?mmul_1_r, ?T1.
  - rewrite X1 by scri. reflexivity.
  - rewrite translate_frame by scri. rewrite X1 by scri. reflexivity.
  - rewrite X1 by scri. change (mmul (bmat v) (rmat q)) with (lmat true q v). rewrite translate_frame by scri. reflexivity.
  - rewrite X2 by scri. reflexivity.
  - rewrite translate_frame by scri. rewrite X2 by scri. reflexivity.
  - rewrite X2 by scri. change (mmul (rmat q) (bmat v)) with (lmat false q v). rewrite translate_frame by scri. reflexivity.
Qed.

(** ** The code *)
Definition sphere_eq (f g : vec3 -> R) : Prop := forall n, dotv n n = 1 -> f n = g n.

Section Group.
  Variable svd : mat -> mat * (R * R) * mat.
  Hypothesis svd_ok : forall A, mdet A = C1 -> is_svd A (svd A).
  Variable proj : Z -> (vec3 -> R) -> vec3 -> R.

  Lemma l2s : forall q v o e b, good_rotor q -> norm3 v < 1 -> order_rf o b ->
    Lorentz_to_spin_matrix (mklorentz q v o e) = Ok (lmat b q v).
  Proof.
    intros q v o e b G V [_ Ho]. unfold Lorentz_to_spin_matrix. rewrite Ho. cbn [rbind mklorentz l_rot l_boost].
    rewrite rotation_spin_matrix_eq, boost_spin_matrix_eq by assumption. destruct b; reflexivity.
  Qed.
  Lemma s2l : forall A out b, mdet A = C1 -> order_rf out b ->
    exists q v, spin_matrix_to_Lorentz svd A out = mklorentz q v out 12 /\ good_rotor q /\ norm3 v < 1 /\ same_up_to_sign (lmat b q v) A.
  Proof.
    intros A out b D Ho.
    destruct (spin_back svd svd_ok A out b D Ho) as ((Gr & Gv) & _ & _ & A' & E & Sg).
    assert (S : exists q v, spin_matrix_to_Lorentz svd A out = mklorentz q v out 12).
    { unfold spin_matrix_to_Lorentz. rewrite (not_small A D). destruct (svd A) as [[u s] vh]. eexists _, _. reflexivity. }
    destruct S as (q & v & S). exists q, v. rewrite S in *. cbn [mklorentz l_rot l_boost] in Gr, Gv.
    repeat split; try (destruct Gr; assumption); try assumption.
    rewrite (l2s q v out 12 b Gr Gv Ho) in E. injection E as <-. exact Sg.
  Qed.

  (** The code's transformed supertranslation is the supertranslation seen from the other frame. *)
  Lemma ts_eq : forall S L M, Lorentz_to_spin_matrix L = Ok M -> mdet M = C1 ->
    exists g, transform_supertranslation svd proj S L = Ok (mks (proj (l_ell L) g) (l_ell L)) /\ sphere_eq g (seen M (s_fn S)).
  Proof.
    intros S L M E D. unfold transform_supertranslation, l_inverse. rewrite E. cbn [rbind].
    destruct (s2l (minv M) [CR; CB] true (mdet_minv M D)) as (q & v & -> & G & V & Sg); [split; reflexivity|].
    eexists. split; [reflexivity|]. intros n Hn. cbn [mklorentz l_rot l_boost].
    unfold seen. rewrite <- (lam_sign _ _ (1, n) Sg). cbn [lmat]. rewrite lam_mul, lam_rmat, lam_bmat by (try apply G; exact V).
    destruct (boost4 v (1, rotate3 q n)) as [k x]. reflexivity.
  Qed.

  Lemma mkbms_ok : forall S q v o e, In o orders -> (s_ell S <= e)%Z -> mkbms S q v o e = Ok (mkb (mks (s_fn S) e) q v o e).
  Proof.
    intros S q v o e Ho He. unfold mkbms. destruct (Z.leb_spec (s_ell S) e); [|lia]. f_equal. f_equal.
    unfold orders in Ho. cbn [In] in Ho. repeat destruct Ho as [<-|Ho]; try contradiction; reflexivity.
  Qed.
  Lemma mkbms_err : forall S q v o e, (e < s_ell S)%Z -> mkbms S q v o e = Err ValueError.
  Proof. intros S q v o e He. unfold mkbms. destruct (Z.leb_spec (s_ell S) e); [lia|reflexivity]. Qed.

  Lemma lr : forall q v o e out b b', good_rotor q -> norm3 v < 1 -> order_rf o b -> order_rf out b' ->
    order_eqb (l_order (mklorentz q v o e)) out = false -> inb CR out && inb CB out = true ->
    exists q' v', l_reorder svd (mklorentz q v o e) out = Ok (mklorentz q' v' out 12) /\ good_rotor q' /\ norm3 v' < 1 /\ same_up_to_sign (lmat b' q' v') (lmat b q v).
  Proof.
    intros q v o e out b b' G V Ho Ho' Ne Hin. unfold l_reorder. rewrite Hin, Ne, (l2s q v o e b G V Ho). cbn [negb rbind].
    destruct (s2l (lmat b q v) out b' (det_lmat b q v G V) Ho') as (q' & v' & -> & H). exists q', v'. split; [reflexivity|exact H].
  Qed.
  Lemma li : forall q v o e out b b', good_rotor q -> norm3 v < 1 -> order_rf o b -> order_rf out b' ->
    exists q' v', l_inverse svd (mklorentz q v o e) out = Ok (mklorentz q' v' out 12) /\ good_rotor q' /\ norm3 v' < 1 /\ same_up_to_sign (lmat b' q' v') (minv (lmat b q v)).
  Proof.
    intros q v o e out b b' G V Ho Ho'. unfold l_inverse. rewrite (l2s q v o e b G V Ho). cbn [rbind].
    destruct (s2l (minv (lmat b q v)) out b' (mdet_minv _ (det_lmat b q v G V)) Ho') as (q' & v' & -> & H). exists q', v'. split; [reflexivity|exact H].
  Qed.

  Lemma zero_lt_1 : norm3 (0, 0, 0) < 1.
  Proof. unfold norm3. replace (0 * 0 + 0 * 0 + 0 * 0) with 0 by ring. rewrite sqrt_0. lra. Qed.
  Lemma bmat_0 : bmat (0, 0, 0) = mone.
  Proof.
    assert (N0 : norm3 (0, 0, 0) = 0) by (unfold norm3; replace (0 * 0 + 0 * 0 + 0 * 0) with 0 by ring; apply sqrt_0).
    assert (G1 : gamma (0, 0, 0) = 1).
    { unfold gamma. rewrite N0. replace (1 - 0 ^ 2) with 1 by ring. rewrite sqrt_1. field. }
    Local Transparent bmat.
    unfold bmat. assert (HC : half_c (0, 0, 0) = 1) by (unfold half_c; rewrite G1; replace ((1 + 1) / 2) with 1 by field; apply sqrt_1).
    rewrite HC, G1. apply mat_eq; unfold hmatc, scalev, mone; cbn; apply C_eq; cbn; field.
    Local Opaque bmat.
  Qed.
  (** Whatever the ell_max of the transformation: only the modes with ell <= 12 of the re-expressed supertranslation
      survive, here when the supertranslation is moved behind the rotation (even a rotation by zero). *)
  Theorem C31_truncates_at_12 : forall b, good b -> b_order b = SRB -> (12 <= b_ell b)%Z ->
    exists g r, reorder svd proj b RSB = Ok r /\ b_ell r = b_ell b /\ s_fn (b_sup r) = proj 12 g
      /\ sphere_eq g (seen (minv (rmat (b_rot b))) (s_fn (b_sup b))).
  Proof.
    intros [S q v o e] (G & V & _ & He) Ho H12. cbn [b_sup b_rot b_boost b_order b_ell] in *. subst o.
    unfold reorder, to_normal, from_normal. cbn [b_sup b_rot b_boost b_order b_ell inb existsb comp_eqb orb andb negb order_eqb SRB RSB].
    fold SRB RSB. rewrite mkbms_ok by (try (left; reflexivity); lia). cbn [rbind b_sup b_rot b_boost b_order b_ell].
    destruct (li q (0, 0, 0) SRB e [CB; CR] true false G zero_lt_1) as (q' & v' & E & G' & V' & Sg); [split; reflexivity|split; reflexivity|].
    change (rev (l_order (mklorentz q (0, 0, 0) SRB e))) with [CB; CR]. rewrite E. cbn [rbind].
    destruct (ts_eq (mks (s_fn S) e) (mklorentz q' v' [CB; CR] 12) (lmat false q' v')) as (g & -> & Hg); [apply l2s; [exact G'|exact V'|split; reflexivity]|apply det_lmat; assumption|].
    cbn [rbind mklorentz l_ell s_ell s_fn] in *. rewrite mkbms_ok by (try (right; left; reflexivity); cbn; lia).
    exists g. eexists. split; [reflexivity|]. split; [reflexivity|]. split; [reflexivity|].
    intros n Hn. rewrite (Hg n Hn). cbn [lmat] in Sg |- *. rewrite bmat_0, mmul_1_l in Sg.
    apply seen_sign; [apply mdet_minv, det_rmat; exact G|exact Sg].
  Qed.

  (** Supertranslations for which the projection onto modes loses nothing: any class of functions closed under change
      of frame.  Below: the affine functions (the four-translations) are such a class; so is the class of all
      functions when the projection is idealised. *)
  Variable K : (vec3 -> R) -> Prop.
  Hypothesis K_ext : forall f g, K f -> sphere_eq f g -> K g.
  Hypothesis K_seen : forall M f, mdet M = C1 -> K f -> K (seen M f).
  Hypothesis K_add : forall f g, K f -> K g -> K (fun n => f n + g n).
  Hypothesis K_opp : forall f, K f -> K (fun n => - f n).
  Hypothesis proj_exact : forall e f, K f -> sphere_eq (proj e f) f.

  Lemma ts : forall S L M, Lorentz_to_spin_matrix L = Ok M -> mdet M = C1 -> K (s_fn S) ->
    exists S', transform_supertranslation svd proj S L = Ok S' /\ s_ell S' = l_ell L /\ sphere_eq (s_fn S') (seen M (s_fn S)) /\ K (s_fn S').
  Proof.
    intros S L M E D HK. destruct (ts_eq S L M E D) as (g & -> & Hg). eexists. split; [reflexivity|]. split; [reflexivity|].
    cbn [s_fn]. assert (Kg : K g) by (apply (K_ext (seen M (s_fn S))); [apply K_seen; assumption|intros n Hn; symmetry; apply Hg; exact Hn]).
    split.
    - intros n Hn. rewrite (proj_exact (l_ell L) g Kg n Hn). apply Hg. exact Hn.
    - apply (K_ext g); [exact Kg|]. intros n Hn. symmetry. apply proj_exact; assumption.
  Qed.

  (** Two transformations with the same normal form mean the same. *)
  Lemma same_meaning : forall b b' p, good b -> good b' -> on_scri p ->
    same_up_to_sign (lmat (nf_rf (b_order b')) (b_rot b') (b_boost b')) (lmat (nf_rf (b_order b)) (b_rot b) (b_boost b)) ->
    sphere_eq (seen (nf_frame (b_order b') (b_rot b') (b_boost b')) (s_fn (b_sup b'))) (seen (nf_frame (b_order b) (b_rot b) (b_boost b)) (s_fn (b_sup b))) ->
    meaning b' p = meaning b p.
  Proof.
    intros b b' p G G' H Hm Hs. rewrite !meaning_nf by assumption. rewrite (translate_ext _ _ p H Hs).
    apply frame_sign; [|exact Hm]. apply det_lmat; apply G.
  Qed.

  (** Stages of [reorder]. *)
  Lemma sign_refl : forall M, same_up_to_sign M M.
  Proof. left. reflexivity. Qed.

  Ltac rf := split; [reflexivity|intros; reflexivity].
  Lemma to_normal_ok : forall b, good b -> K (s_fn (b_sup b)) -> (b_order b = BRS -> (12 <= b_ell b)%Z) ->
    exists n, to_normal svd proj b = Ok n /\ good n /\ b_order n = SRB /\ b_ell n = b_ell b /\ K (s_fn (b_sup n))
      /\ same_up_to_sign (lmat true (b_rot n) (b_boost n)) (lmat (nf_rf (b_order b)) (b_rot b) (b_boost b))
      /\ sphere_eq (s_fn (b_sup n)) (seen (nf_frame (b_order b) (b_rot b) (b_boost b)) (s_fn (b_sup b))).
  Proof.
    intros [S q v o e] (G & V & HO & He) HK Hb. cbn [b_sup b_rot b_boost b_order b_ell] in *.
    assert (IS : In SRB orders) by (left; reflexivity).
    unfold to_normal. cbn [b_sup b_rot b_boost b_order b_ell].
    unfold orders in HO. cbn [In] in HO. repeat destruct HO as [<-|HO]; try contradiction; cbn [order_eqb comp_eqb andb SRB RSB RBS SBR BSR BRS];
      fold SRB RSB RBS SBR BSR BRS.
    - rewrite mkbms_ok by (auto; lia). eexists. split; [reflexivity|]. unfold good. cbn [b_sup b_rot b_boost b_order b_ell s_ell s_fn].
      repeat split; try assumption; try apply G; [apply sign_refl|]. intros n Hn. symmetry. apply seen_one.
    - destruct (ts S (mklorentz q (0, 0, 0) RSB e) (lmat true q (0, 0, 0))) as (S' & -> & E1 & E2 & E3); [apply l2s; [exact G|exact zero_lt_1|rf]|apply det_lmat; [exact G|exact zero_lt_1]|exact HK|].
      cbn [rbind]. cbn [mklorentz l_ell] in E1. rewrite mkbms_ok by (auto; lia). eexists. split; [reflexivity|]. unfold good. cbn [b_sup b_rot b_boost b_order b_ell s_ell s_fn].
      repeat split; try assumption; try apply G; [apply sign_refl|]. intros n Hn. rewrite (E2 n Hn). cbn [lmat]. rewrite bmat_0, mmul_1_l. reflexivity.
    - destruct (ts S (mklorentz q v RBS e) (lmat true q v)) as (S' & -> & E1 & E2 & E3); [apply l2s; [exact G|exact V|rf]|apply det_lmat; assumption|exact HK|].
      cbn [rbind]. cbn [mklorentz l_ell] in E1. rewrite mkbms_ok by (auto; lia). eexists. split; [reflexivity|]. unfold good. cbn [b_sup b_rot b_boost b_order b_ell s_ell s_fn].
      repeat split; try assumption; try apply G. apply sign_refl.
    - destruct (lr q v SBR e SRB false true G V) as (q' & v' & -> & G' & V' & Sg); [rf|rf|reflexivity|reflexivity|].
      cbn [rbind]. rewrite mkbms_ok by (auto; lia). eexists. split; [reflexivity|]. unfold good. cbn [b_sup b_rot b_boost b_order b_ell s_ell s_fn mklorentz l_rot l_boost].
      repeat split; try assumption; try apply G'. intros n Hn. symmetry. apply seen_one.
    - destruct (lr q v BSR e SRB false true G V) as (q' & v' & -> & G' & V' & Sg); [rf|rf|reflexivity|reflexivity|]. cbn [rbind].
      destruct (ts S (mklorentz q1 v BSR e) (lmat false q1 v)) as (S' & -> & E1 & E2 & E3); [apply l2s; [exact good_one|exact V|rf]|apply det_lmat; [exact good_one|exact V]|exact HK|].
      cbn [rbind]. cbn [mklorentz l_ell] in E1. rewrite mkbms_ok by (auto; lia). eexists. split; [reflexivity|]. unfold good. cbn [b_sup b_rot b_boost b_order b_ell s_ell s_fn mklorentz l_rot l_boost].
      repeat split; try assumption; try apply G'. intros n Hn. rewrite (E2 n Hn). cbn [lmat]. rewrite rmat_one, mmul_1_l. reflexivity.
    - destruct (lr q v BRS e SRB false true G V) as (q' & v' & -> & G' & V' & Sg); [rf|rf|reflexivity|reflexivity|]. cbn [rbind].
      destruct (ts S (mklorentz q' v' SRB 12) (lmat true q' v')) as (S' & -> & E1 & E2 & E3); [apply l2s; [exact G'|exact V'|rf]|apply det_lmat; assumption|exact HK|].
      cbn [rbind]. cbn [mklorentz l_ell] in E1. assert (12 <= e)%Z by (apply Hb; reflexivity). rewrite mkbms_ok by (auto; lia). eexists. split; [reflexivity|]. unfold good. cbn [b_sup b_rot b_boost b_order b_ell s_ell s_fn mklorentz l_rot l_boost].
      repeat split; try assumption; try apply G'. intros n Hn. rewrite (E2 n Hn). apply seen_sign; [apply det_lmat; assumption|exact Sg].
  Qed.

  Definition needs12 (out : list comp) : Prop := out = RSB \/ out = RBS \/ out = BSR \/ out = BRS.
  Lemma from_normal_ok : forall b out, good b -> b_order b = SRB -> K (s_fn (b_sup b)) -> In out orders -> (needs12 out -> (12 <= b_ell b)%Z) ->
    exists r, from_normal svd proj b out = Ok r /\ good r /\ b_order r = out /\ b_ell r = b_ell b /\ K (s_fn (b_sup r))
      /\ same_up_to_sign (lmat (nf_rf out) (b_rot r) (b_boost r)) (lmat true (b_rot b) (b_boost b))
      /\ sphere_eq (seen (nf_frame out (b_rot r) (b_boost r)) (s_fn (b_sup r))) (s_fn (b_sup b)).
  Proof.
    intros [S q v o e] out (G & V & _ & He) Eo HK HO Hb. cbn [b_sup b_rot b_boost b_order b_ell] in *. subst o.
    unfold from_normal. cbn [b_sup b_rot b_boost b_order b_ell].
    assert (back : forall M N f g, mdet M = C1 -> mdet N = C1 -> same_up_to_sign N (minv M) -> sphere_eq f (seen N g) -> sphere_eq (seen M f) g).
    { intros M N f g DM DN Sg E n Hn. rewrite (seen_ext M f (seen N g) n DM Hn E), seen_seen by assumption.
      rewrite (seen_sign (mmul M N) mone); [apply seen_one|apply mdet_one|].
      destruct Sg as [->| ->]; [left|right]; rewrite ?mopp_mul_r, mul_minv_r by exact DM; reflexivity. }
    assert (IO := HO). unfold orders in HO. cbn [In] in HO. repeat destruct HO as [<-|HO]; try contradiction; cbn [order_eqb comp_eqb andb SRB RSB RBS SBR BSR BRS];
      fold SRB RSB RBS SBR BSR BRS.
    - rewrite mkbms_ok by (auto; lia). eexists. split; [reflexivity|]. unfold good. cbn [b_sup b_rot b_boost b_order b_ell s_ell s_fn].
      repeat split; try assumption; try apply G; [apply sign_refl|]. intros n Hn. apply seen_one.
    - assert (12 <= e)%Z by (apply Hb; left; reflexivity).
      destruct (li q (0, 0, 0) SRB e [CB; CR] true false G zero_lt_1) as (q' & v' & E & G' & V' & Sg); [rf|rf|].
      change (rev (l_order (mklorentz q (0, 0, 0) SRB e))) with [CB; CR]. rewrite E. cbn [rbind].
      destruct (ts S (mklorentz q' v' [CB; CR] 12) (lmat false q' v')) as (S' & -> & E1 & E2 & E3); [apply l2s; [exact G'|exact V'|rf]|apply det_lmat; assumption|exact HK|].
      cbn [rbind]. cbn [mklorentz l_ell] in E1. rewrite mkbms_ok by (auto; lia). eexists. split; [reflexivity|]. unfold good. cbn [b_sup b_rot b_boost b_order b_ell s_ell s_fn].
      repeat split; try assumption; try apply G; [apply sign_refl|].
      change (nf_frame RSB q v) with (rmat q). apply (back (rmat q) (lmat false q' v')); [apply det_rmat; exact G|apply det_lmat; assumption| |exact E2].
      cbn [lmat] in Sg |- *. rewrite bmat_0, mmul_1_l in Sg. exact Sg.
    - assert (12 <= e)%Z by (apply Hb; right; left; reflexivity).
      destruct (li q v SRB e [CB; CR] true false G V) as (q' & v' & E & G' & V' & Sg); [rf|rf|].
      change (rev (l_order (mklorentz q v SRB e))) with [CB; CR]. rewrite E. cbn [rbind].
      destruct (ts S (mklorentz q' v' [CB; CR] 12) (lmat false q' v')) as (S' & -> & E1 & E2 & E3); [apply l2s; [exact G'|exact V'|rf]|apply det_lmat; assumption|exact HK|].
      cbn [rbind]. cbn [mklorentz l_ell] in E1. rewrite mkbms_ok by (auto; lia). eexists. split; [reflexivity|]. unfold good. cbn [b_sup b_rot b_boost b_order b_ell s_ell s_fn].
      repeat split; try assumption; try apply G; [apply sign_refl|].
      change (nf_frame RBS q v) with (lmat true q v). apply (back _ (lmat false q' v')); try (apply det_lmat; assumption); assumption.
    - destruct (lr q v SRB e SBR true false G V) as (q' & v' & -> & G' & V' & Sg); [rf|rf|reflexivity|reflexivity|].
      cbn [rbind]. rewrite mkbms_ok by (auto; lia). eexists. split; [reflexivity|]. unfold good. cbn [b_sup b_rot b_boost b_order b_ell s_ell s_fn mklorentz l_rot l_boost].
      repeat split; try assumption; try apply G'. intros n Hn. apply seen_one.
    - assert (12 <= e)%Z by (apply Hb; right; right; left; reflexivity).
      destruct (lr q v SRB e BSR true false G V) as (q' & v' & -> & G' & V' & Sg); [rf|rf|reflexivity|reflexivity|]. cbn [rbind].
      change (mklorentz q1 (l_boost (mklorentz q' v' BSR 12)) (l_order (mklorentz q' v' BSR 12)) (l_ell (mklorentz q' v' BSR 12))) with (mklorentz q1 v' [CB; CR] 12).
      destruct (li q1 v' [CB; CR] 12 [CR; CB] false true good_one V') as (q2 & v2 & E & G2 & V2 & Sg2); [rf|rf|].
      cbv zeta. change (rev (l_order (mklorentz q1 v' [CB; CR] 12))) with [CR; CB]. rewrite E. cbn [rbind].
      destruct (ts S (mklorentz q2 v2 [CR; CB] 12) (lmat true q2 v2)) as (S' & -> & E1 & E2 & E3); [apply l2s; [exact G2|exact V2|rf]|apply det_lmat; assumption|exact HK|].
      cbn [rbind]. cbn [mklorentz l_ell] in E1. rewrite mkbms_ok by (auto; lia). eexists. split; [reflexivity|]. unfold good. cbn [b_sup b_rot b_boost b_order b_ell s_ell s_fn mklorentz l_rot l_boost].
      repeat split; try assumption; try apply G'.
      change (nf_frame BSR q' v') with (bmat v'). apply (back (bmat v') (lmat true q2 v2)); [apply det_bmat; exact V'|apply det_lmat; assumption| |exact E2].
      cbn [lmat] in Sg2 |- *. rewrite rmat_one, mmul_1_l in Sg2. exact Sg2.
    - assert (12 <= e)%Z by (apply Hb; right; right; right; reflexivity).
      destruct (lr q v SRB e BRS true false G V) as (q' & v' & -> & G' & V' & Sg); [rf|rf|reflexivity|reflexivity|]. cbn [rbind].
      destruct (li q' v' BRS 12 [CR; CB] false true G' V') as (q2 & v2 & E & G2 & V2 & Sg2); [rf|rf|].
      change (rev (l_order (mklorentz q' v' BRS 12))) with [CR; CB]. rewrite E. cbn [rbind].
      destruct (ts S (mklorentz q2 v2 [CR; CB] 12) (lmat true q2 v2)) as (S' & -> & E1 & E2 & E3); [apply l2s; [exact G2|exact V2|rf]|apply det_lmat; assumption|exact HK|].
      cbn [rbind]. cbn [mklorentz l_ell] in E1. rewrite mkbms_ok by (auto; lia). eexists. split; [reflexivity|]. unfold good. cbn [b_sup b_rot b_boost b_order b_ell s_ell s_fn mklorentz l_rot l_boost].
      repeat split; try assumption; try apply G'.
      change (nf_frame BRS q' v') with (lmat false q' v'). apply (back _ (lmat true q2 v2)); try (apply det_lmat; assumption); assumption.
  Qed.

  Lemma in_all : forall out, In out orders -> inb CS out && inb CR out && inb CB out = true.
  Proof. intros out HO. unfold orders in HO. cbn [In] in HO. repeat destruct HO as [<-|HO]; try contradiction; reflexivity. Qed.

  (** *** C31 *)
  Lemma reorder_ok : forall b out, good b -> K (s_fn (b_sup b)) -> In out orders ->
    (b_order b = BRS -> (12 <= b_ell b)%Z) -> (needs12 out -> (12 <= b_ell b)%Z) ->
    exists r, reorder svd proj b out = Ok r /\ good r /\ b_order r = out /\ b_ell r = b_ell b /\ K (s_fn (b_sup r))
      /\ same_up_to_sign (lmat (nf_rf out) (b_rot r) (b_boost r)) (lmat (nf_rf (b_order b)) (b_rot b) (b_boost b))
      /\ sphere_eq (seen (nf_frame out (b_rot r) (b_boost r)) (s_fn (b_sup r))) (seen (nf_frame (b_order b) (b_rot b) (b_boost b)) (s_fn (b_sup b))).
  Proof.
    intros b out G HK HO H1 H2. unfold reorder. rewrite (in_all out HO). cbn [negb].
    destruct (to_normal_ok b G HK H1) as (n & -> & Gn & On & En & Kn & Mn & Sn). cbn [rbind].
    destruct (from_normal_ok n out Gn On Kn HO) as (r & -> & Gr & Or & Er & Kr & Mr & Sr); [rewrite En; exact H2|].
    exists r. split; [reflexivity|]. split; [exact Gr|]. split; [exact Or|]. split; [congruence|]. split; [exact Kr|]. split.
    - destruct Mr as [-> | ->], Mn as [-> | ->]; rewrite ?mopp_opp; [left|right|right|left]; reflexivity.
    - intros x Hx. rewrite (Sr x Hx). apply Sn. exact Hx.
  Qed.
  Theorem C31_reorder : forall b out, good b -> K (s_fn (b_sup b)) -> In out orders ->
    (b_order b = BRS -> (12 <= b_ell b)%Z) -> (needs12 out -> (12 <= b_ell b)%Z) ->
    exists r, reorder svd proj b out = Ok r /\ good r /\ b_order r = out /\ b_ell r = b_ell b /\ K (s_fn (b_sup r))
      /\ forall p, on_scri p -> meaning r p = meaning b p.
  Proof.
    intros b out G HK HO H1 H2. destruct (reorder_ok b out G HK HO H1 H2) as (r & E & Gr & Or & Er & Kr & Mr & Sr).
    exists r. repeat (split; [assumption|]). intros p Hp. apply same_meaning; try assumption; rewrite Or; assumption.
  Qed.
  (** The spherical harmonics of the re-expressed supertranslation are computed for ell_max = 12 whatever the ell_max of
      the transformation: below 12 the call fails. *)
  Theorem C31_small_ell_max : forall b out, good b -> K (s_fn (b_sup b)) -> In out orders -> (b_ell b < 12)%Z ->
    b_order b = BRS \/ needs12 out -> reorder svd proj b out = Err ValueError.
  Proof.
    intros b out G HK HO He Hor. unfold reorder. rewrite (in_all out HO). cbn [negb].
    assert (D : b_order b = BRS \/ b_order b <> BRS).
    { destruct G as (_ & _ & HB & _). unfold orders in HB. cbn [In] in HB. repeat destruct HB as [HB|HB]; try contradiction; rewrite <- HB; (left; reflexivity) || (right; discriminate). }
    destruct D as [D|D].
    - destruct b as [S q v o e]. destruct G as (G & V & _ & _). cbn [b_sup b_rot b_boost b_order b_ell] in *. subst o.
      unfold to_normal. cbn [b_sup b_rot b_boost b_order b_ell order_eqb comp_eqb andb SRB RSB RBS SBR BSR BRS]. fold SRB RSB RBS SBR BSR BRS.
      destruct (lr q v BRS e SRB false true G V) as (q' & v' & -> & G' & V' & Sg); [rf|rf|reflexivity|reflexivity|]. cbn [rbind].
      destruct (ts S (mklorentz q' v' SRB 12) (lmat true q' v')) as (S' & -> & E1 & E2 & E3); [apply l2s; [exact G'|exact V'|rf]|apply det_lmat; assumption|exact HK|].
      cbn [rbind]. cbn [mklorentz l_ell] in E1. rewrite mkbms_err by lia. reflexivity.
    - destruct Hor as [F|Hn]; [contradiction|].
      destruct (to_normal_ok b G HK) as (n & -> & Gn & On & En & Kn & Mn & Sn); [intros F; contradiction|]. cbn [rbind].
      destruct n as [S q v o e]. destruct Gn as (G' & V' & _ & _). cbn [b_sup b_rot b_boost b_order b_ell] in *. subst o e.
      unfold from_normal. cbn [b_sup b_rot b_boost b_order b_ell].
      destruct Hn as [-> |[-> |[-> | ->]]]; cbn [order_eqb comp_eqb andb SRB RSB RBS SBR BSR BRS]; fold SRB RSB RBS SBR BSR BRS.
      + destruct (li q (0, 0, 0) SRB (b_ell b) [CB; CR] true false G' zero_lt_1) as (q' & v' & E & G2 & V2 & Sg); [rf|rf|].
        change (rev (l_order (mklorentz q (0, 0, 0) SRB (b_ell b)))) with [CB; CR]. rewrite E. cbn [rbind].
        destruct (ts S (mklorentz q' v' [CB; CR] 12) (lmat false q' v')) as (S' & -> & E1 & E2 & E3); [apply l2s; [exact G2|exact V2|rf]|apply det_lmat; assumption|exact Kn|].
        cbn [rbind]. cbn [mklorentz l_ell] in E1. apply mkbms_err. lia.
      + destruct (li q v SRB (b_ell b) [CB; CR] true false G' V') as (q' & v' & E & G2 & V2 & Sg); [rf|rf|].
        change (rev (l_order (mklorentz q v SRB (b_ell b)))) with [CB; CR]. rewrite E. cbn [rbind].
        destruct (ts S (mklorentz q' v' [CB; CR] 12) (lmat false q' v')) as (S' & -> & E1 & E2 & E3); [apply l2s; [exact G2|exact V2|rf]|apply det_lmat; assumption|exact Kn|].
        cbn [rbind]. cbn [mklorentz l_ell] in E1. apply mkbms_err. lia.
      + destruct (lr q v SRB (b_ell b) BSR true false G' V') as (q' & v' & -> & G2 & V2 & Sg); [rf|rf|reflexivity|reflexivity|]. cbn [rbind].
        change (mklorentz q1 (l_boost (mklorentz q' v' BSR 12)) (l_order (mklorentz q' v' BSR 12)) (l_ell (mklorentz q' v' BSR 12))) with (mklorentz q1 v' [CB; CR] 12).
        destruct (li q1 v' [CB; CR] 12 [CR; CB] false true good_one V2) as (q2 & v2 & E & G3 & V3 & Sg2); [rf|rf|].
        cbv zeta. change (rev (l_order (mklorentz q1 v' [CB; CR] 12))) with [CR; CB]. rewrite E. cbn [rbind].
        destruct (ts S (mklorentz q2 v2 [CR; CB] 12) (lmat true q2 v2)) as (S' & -> & E1 & E2 & E3); [apply l2s; [exact G3|exact V3|rf]|apply det_lmat; assumption|exact Kn|].
        cbn [rbind]. cbn [mklorentz l_ell] in E1. apply mkbms_err. lia.
      + destruct (lr q v SRB (b_ell b) BRS true false G' V') as (q' & v' & -> & G2 & V2 & Sg); [rf|rf|reflexivity|reflexivity|]. cbn [rbind].
        destruct (li q' v' BRS 12 [CR; CB] false true G2 V2) as (q2 & v2 & E & G3 & V3 & Sg2); [rf|rf|].
        change (rev (l_order (mklorentz q' v' BRS 12))) with [CR; CB]. rewrite E. cbn [rbind].
        destruct (ts S (mklorentz q2 v2 [CR; CB] 12) (lmat true q2 v2)) as (S' & -> & E1 & E2 & E3); [apply l2s; [exact G3|exact V3|rf]|apply det_lmat; assumption|exact Kn|].
        cbn [rbind]. cbn [mklorentz l_ell] in E1. apply mkbms_err. lia.
  Qed.
  (** Orders that do not name all three components are refused. *)
  Theorem C31_missing_component : forall b out, (~ In CS out \/ ~ In CR out \/ ~ In CB out) -> reorder svd proj b out = Err ValueError.
  Proof.
    intros b out H. unfold reorder.
    assert (X : forall c, inb c out = true -> In c out).
    { intros c E. apply existsb_exists in E as (d & I & E). destruct c, d; try discriminate; exact I. }
    destruct (inb CS out) eqn:E1, (inb CR out) eqn:E2, (inb CB out) eqn:E3; try reflexivity.
    exfalso. destruct H as [H|[H|H]]; apply H; apply X; assumption.
  Qed.

  (** Going to another order and back gives the components back, the rotor up to sign. *)
  Lemma rmat_inj : forall p q, rmat p = rmat q -> p = q.
  Proof.
    Local Transparent rmat.
    intros [a b c d] [e f g h] E. assert (E0 := f_equal m00 E). assert (E1 := f_equal m01 E). unfold rmat in *. cbn in *.
    injection E0 as -> ->. injection E1 as H1 ->. f_equal. lra.
    Local Opaque rmat.
  Qed.
  Lemma bmat_inj : forall v w, norm3 v < 1 -> norm3 w < 1 -> mmul (bmat v) (bmat v) = mmul (bmat w) (bmat w) -> v = w.
  Proof.
    intros v w Hv Hw E.
    assert (L : forall l, boost4 v (boost4 v l) = boost4 w (boost4 w l)).
    { intros l. rewrite <- !lam_bmat, <- !lam_mul by assumption. rewrite E. reflexivity. }
    assert (Gv := gamma_pos v Hv). assert (Gw := gamma_pos w Hw). assert (Sv := gamma_sq v Hv). assert (Sw := gamma_sq w Hw).
    assert (Nv := norm3_sq v). assert (Nw := norm3_sq w).
    assert (X := L (1, (0, 0, 0))).
    assert (B : forall u, boost4 u (1, (0, 0, 0)) = (gamma u, scalev (gamma u) u)).
    { intros [[x y] z]. unfold boost4, dotv, plus3, scalev. f_equal; [ring|]. f_equal; [f_equal|]; ring. }
    rewrite !B in X.
    assert (B2 : forall u, norm3 u < 1 -> boost4 u (gamma u, scalev (gamma u) u) = (2 * gamma u * gamma u - 1, scalev (2 * gamma u * gamma u) u)).
    { intros u Hu. assert (Gu := gamma_pos u Hu). assert (Su := gamma_sq u Hu). assert (Nu := norm3_sq u).
      set (g := gamma u) in *. assert (D : g * g * dotv u u = g * g - 1) by (rewrite <- Nu; lra).
      assert (D2 : dotv u (scalev g u) = g * dotv u u) by (destruct u as [[x y] z]; unfold dotv, scalev; ring).
      unfold boost4. fold g. rewrite D2. f_equal; [nra|].
      assert (D3 : g * g + g * g / (1 + g) * (g * dotv u u) = 2 * g * g - g).
      { replace (g * g / (1 + g) * (g * dotv u u)) with (g * (g * g * dotv u u) / (1 + g)) by (field; lra). rewrite D. field. lra. }
      rewrite D3. destruct u as [[x y] z]. unfold plus3, scalev. f_equal; [f_equal|]; ring. }
    rewrite !B2 in X by assumption. assert (X1 := f_equal fst X). assert (X2 := f_equal snd X). cbn [fst snd] in X1, X2.
    assert (EG : gamma v = gamma w) by nra. rewrite EG in X2. set (g := gamma w) in *.
    assert (P : 2 * g * g <> 0) by nra.
    apply (f_equal (scalev (/ (2 * g * g)))) in X2. rewrite !scalev_scalev, Rinv_l, !scalev_1 in X2 by exact P. exact X2.
  Qed.
  Lemma unitary_rmat : forall q, good_rotor q -> mmul (rmat q) (mdag (rmat q)) = mone /\ mmul (mdag (rmat q)) (rmat q) = mone.
  Proof. intros q [H _]. exact (rmat_unitary q H). Qed.
  Lemma mdag_opp : forall M, mdag (mopp M) = mopp (mdag M).
  Proof. intros M. apply mat_eq; unfold mdag, mopp; cx. Qed.
  Lemma rotor_sign : forall X p q, mdet X = C1 -> same_up_to_sign (rmat p) (rmat q) -> p = q \/ p = qopp q.
  Proof.
    intros X p q D [E|E]; [left|right]; apply rmat_inj; [exact E|]. rewrite rmat_opp. exact E.
  Qed.
  Lemma lmat_unique : forall rf q v q' v', good_rotor q -> norm3 v < 1 -> good_rotor q' -> norm3 v' < 1 ->
    same_up_to_sign (lmat rf q' v') (lmat rf q v) -> v' = v /\ (q' = q \/ q' = qopp q).
  Proof.
    intros rf q v q' v' G V G' V' Sg.
    assert (DB := det_bmat v V).
    destruct (unitary_rmat q G) as [U1 U2]. destruct (unitary_rmat q' G') as [U1' U2'].
    destruct (bmat_props v V) as [_ Hb]. destruct (bmat_props v' V') as [_ Hb'].
    destruct rf; cbn [lmat] in Sg.
    - assert (E : mmul (mmul (bmat v') (rmat q')) (mdag (mmul (bmat v') (rmat q'))) = mmul (mmul (bmat v) (rmat q)) (mdag (mmul (bmat v) (rmat q)))).
      { destruct Sg as [-> | ->]; [reflexivity|]. rewrite mdag_opp, mopp_mul_l, mopp_mul_r, mopp_opp. reflexivity. }
      rewrite !mdag_mul, Hb, Hb' in E. rewrite !mmul_assoc in E. rewrite <- (mmul_assoc (bmat v') (rmat q')), <- (mmul_assoc (bmat v) (rmat q)), U1, U1', !mmul_1_r in E.
      apply bmat_inj in E; [|assumption|assumption]. subst v'. split; [reflexivity|]. apply (rotor_sign mone); [apply mdet_one|].
      destruct Sg as [E|E]; apply (f_equal (mmul (minv (bmat v)))) in E; rewrite ?mopp_mul_r, !mmul_assoc, mul_minv_l, !mmul_1_l in E by exact DB; [left|right]; exact E.
    - assert (E : mmul (mdag (mmul (rmat q') (bmat v'))) (mmul (rmat q') (bmat v')) = mmul (mdag (mmul (rmat q) (bmat v))) (mmul (rmat q) (bmat v))).
      { destruct Sg as [-> | ->]; [reflexivity|]. rewrite mdag_opp, mopp_mul_l, mopp_mul_r, mopp_opp. reflexivity. }
      rewrite !mdag_mul, Hb, Hb' in E. rewrite !mmul_assoc in E. rewrite <- (mmul_assoc (bmat v') (mdag (rmat q'))), <- (mmul_assoc (bmat v) (mdag (rmat q))), U2, U2', !mmul_1_r in E.
      apply bmat_inj in E; [|assumption|assumption]. subst v'. split; [reflexivity|]. apply (rotor_sign mone); [apply mdet_one|].
      destruct Sg as [E|E]; apply (f_equal (fun X => mmul X (minv (bmat v)))) in E; cbv beta in E; rewrite ?mopp_mul_l, <- !mmul_assoc, mul_minv_r, !mmul_1_r in E by exact DB; [left|right]; exact E.
  Qed.
  Lemma det_nf : forall o q v, good_rotor q -> norm3 v < 1 -> mdet (nf_frame o q v) = C1.
  Proof.
    intros o q v G V. unfold nf_frame.
    destruct (order_eqb o RSB); [apply det_rmat; exact G|]. destruct (order_eqb o BSR); [apply det_bmat; exact V|].
    destruct (order_eqb o RBS); [apply det_lmat; assumption|]. destruct (order_eqb o BRS); [apply det_lmat; assumption|apply mdet_one].
  Qed.
  Lemma seen_inj : forall M f g, mdet M = C1 -> sphere_eq (seen M f) (seen M g) -> sphere_eq f g.
  Proof.
    intros M f g D E n Hn.
    assert (X : forall h, seen (minv M) (seen M h) n = h n).
    { intros h. rewrite seen_seen, mul_minv_l by (try assumption; apply mdet_minv; exact D). apply seen_one. }
    rewrite <- (X f), <- (X g). apply seen_ext; [apply mdet_minv; exact D|exact Hn|exact E].
  Qed.
  Lemma nf_frame_opp : forall o q v, same_up_to_sign (nf_frame o (qopp q) v) (nf_frame o q v).
  Proof.
    intros o q v. unfold nf_frame. destruct (order_eqb o RSB); [right; apply rmat_opp|]. destruct (order_eqb o BSR); [left; reflexivity|].
    destruct (order_eqb o RBS); [right; cbn [lmat]; rewrite rmat_opp; apply mopp_mul_r|].
    destruct (order_eqb o BRS); [right; cbn [lmat]; rewrite rmat_opp; apply mopp_mul_l|left; reflexivity].
  Qed.
  Theorem C31_round_trip : forall b out, good b -> K (s_fn (b_sup b)) -> In out orders -> (12 <= b_ell b)%Z ->
    exists r b', reorder svd proj b out = Ok r /\ reorder svd proj r (b_order b) = Ok b'
      /\ b_order b' = b_order b /\ b_ell b' = b_ell b /\ b_boost b' = b_boost b
      /\ (b_rot b' = b_rot b \/ b_rot b' = qopp (b_rot b)) /\ sphere_eq (s_fn (b_sup b')) (s_fn (b_sup b)).
  Proof.
    intros b out G HK HO He.
    destruct (reorder_ok b out G HK HO) as (r & E & Gr & Or & Er & Kr & Mr & Sr); [intros; assumption|intros; assumption|].
    destruct (reorder_ok r (b_order b) Gr Kr) as (b' & E' & Gb & Ob & Eb & Kb & Mb & Sb); [apply G|rewrite Er; intros; assumption|rewrite Er; intros; assumption|].
    exists r, b'. split; [exact E|]. split; [exact E'|]. split; [exact Ob|]. split; [congruence|]. rewrite Or in Mb, Sb.
    assert (M : same_up_to_sign (lmat (nf_rf (b_order b)) (b_rot b') (b_boost b')) (lmat (nf_rf (b_order b)) (b_rot b) (b_boost b))).
    { destruct Mb as [-> | ->], Mr as [-> | ->]; rewrite ?mopp_opp; [left|right|right|left]; reflexivity. }
    destruct (lmat_unique _ _ _ _ _ (proj1 G) (proj1 (proj2 G)) (proj1 Gb) (proj1 (proj2 Gb)) M) as [Ev Eq].
    split; [exact Ev|]. split; [exact Eq|].
    apply (seen_inj (nf_frame (b_order b) (b_rot b) (b_boost b))); [apply det_nf; apply G|].
    intros n Hn. rewrite <- (Sr n Hn), <- (Sb n Hn). rewrite Ev.
    destruct Eq as [-> | ->]; [reflexivity|]. symmetry. apply seen_sign; [apply det_nf; apply G|apply nf_frame_opp].
  Qed.

  (** *** C32 *)
  Definition bms_one (e : Z) : bmst := mkb (szero e) q1 (0, 0, 0) SRB e.
  Theorem C32_identity : forall e p, good (bms_one e) /\ (on_scri p -> meaning (bms_one e) p = p).
  Proof.
    intros e p. assert (G : good (bms_one e)) by (split; [exact good_one|split; [exact zero_lt_1|split; [left; reflexivity|reflexivity]]]).
    split; [exact G|]. intros H. rewrite meaning_nf by assumption. cbn [bms_one b_order b_rot b_boost b_sup].
    change (nf_rf SRB) with true. cbn [lmat]. rewrite bmat_0, rmat_one, mmul_1_l, frame_one.
    destruct p as [u n]. unfold translate. cbn [fst snd]. f_equal. unfold seen. cbn [s_fn szero]. ring.
  Qed.

  (** [a * b] means: first b, then a. *)
  Theorem C32_product : forall a b, good a -> good b -> K (s_fn (b_sup a)) -> K (s_fn (b_sup b)) ->
    (b_order a = BRS -> (12 <= b_ell a)%Z) -> (b_order b = BRS -> (12 <= b_ell b)%Z) ->
    exists c, bms_mul svd proj a b = Ok c /\ good c /\ b_order c = SRB /\ b_ell c = Z.max (b_ell a) (b_ell b) /\ K (s_fn (b_sup c))
      /\ forall p, on_scri p -> meaning c p = meaning a (meaning b p).
  Proof.
    intros a b Ga Gb Ka Kb Ha Hb. unfold bms_mul.
    assert (IS : In SRB orders) by (left; reflexivity).
    assert (N12 : ~ needs12 SRB) by (intros [F|[F|[F|F]]]; discriminate).
    destruct (C31_reorder a SRB Ga Ka IS Ha) as (n1 & -> & G1 & O1 & E1 & K1 & M1); [contradiction|]. cbn [rbind].
    destruct (C31_reorder b SRB Gb Kb IS Hb) as (n2 & -> & G2 & O2 & E2 & K2 & M2); [contradiction|]. cbn [rbind].
    set (e := Z.max (b_ell a) (b_ell b)). unfold l_mul. rewrite O1, O2.
    destruct n1 as [S1 q1' v1 o1 e1], n2 as [S2 q2 v2 o2 e2]. cbn [b_sup b_rot b_boost b_order b_ell] in *. subst o1 o2.
    destruct G1 as (Gq1 & Gv1 & _ & Ge1), G2 as (Gq2 & Gv2 & _ & Ge2). cbn [b_sup b_rot b_boost b_order b_ell] in *.
    assert (D1 := det_lmat true q1' v1 Gq1 Gv1). assert (D2 := det_lmat true q2 v2 Gq2 Gv2).
    rewrite (l2s q1' v1 SRB e true), (l2s q2 v2 SRB e true) by (try assumption; rf). cbn [rbind].
    destruct (s2l (mmul (lmat true q2 v2) (lmat true q1' v1)) [CR; CB] true) as (q & v & -> & G & V & Sg); [rewrite mdet_mul, D1, D2; ring|rf|].
    destruct (ts (mks (s_fn S1) e) (mklorentz q2 v2 SRB e) (lmat true q2 v2)) as (S' & -> & X1 & X2 & X3); [apply l2s; [exact Gq2|exact Gv2|rf]|exact D2|exact K1|].
    cbn [rbind mklorentz l_rot l_boost]. cbn [s_fn] in X2. rewrite mkbms_ok by (auto; cbn; lia). cbn [s_fn].
    set (c := mkb (mks (fun x => s_fn S' x + s_fn S2 x) e) q v SRB e).
    assert (Gc : good c) by (split; [exact G|split; [exact V|split; [exact IS|reflexivity]]]).
    exists c. split; [reflexivity|]. split; [exact Gc|]. split; [reflexivity|]. split; [reflexivity|]. split; [apply K_add; assumption|].
    intros p Hp. rewrite <- M2 by exact Hp.
    set (n2 := mkb S2 q2 v2 SRB e2) in *. set (n1 := mkb S1 q1' v1 SRB e1) in *.
    assert (G1' : good n1) by (split; [exact Gq1|split; [exact Gv1|split; [exact IS|exact Ge1]]]).
    assert (G2' : good n2) by (split; [exact Gq2|split; [exact Gv2|split; [exact IS|exact Ge2]]]).
    rewrite (meaning_nf n2 p G2' Hp).
    assert (Hp2 : on_scri (frame (lmat (nf_rf (b_order n2)) (b_rot n2) (b_boost n2)) (translate (seen (nf_frame (b_order n2) (b_rot n2) (b_boost n2)) (s_fn (b_sup n2))) p))).
    { apply frame_scri; [exact D2|]. apply translate_scri. exact Hp. }
    rewrite <- M1 by exact Hp2. rewrite (meaning_nf n1 _ G1' Hp2), (meaning_nf c p Gc Hp).
    cbn [b_order b_rot b_boost b_sup n1 n2 c s_fn]. change (nf_rf SRB) with true.
    assert (NF : forall q v, nf_frame SRB q v = mone) by reflexivity. rewrite !NF.
    assert (DD : mdet (mmul (lmat true q2 v2) (lmat true q1' v1)) = C1) by (rewrite mdet_mul, D1, D2; ring).
    rewrite (frame_sign _ _ _ DD Sg).
    assert (T1 : forall f p, on_scri p -> translate (seen mone f) p = translate f p).
    { intros f p' Hp'. apply translate_ext; [exact Hp'|]. intros; apply seen_one. }
    assert (Hp3 : on_scri (translate (s_fn S2) p)) by (apply translate_scri; exact Hp).
    rewrite !T1 by scri.
    rewrite translate_frame by scri.
    rewrite frame_mul by scri. f_equal. f_equal.
    destruct p as [u n]. unfold translate. cbn [fst snd]. rewrite (X2 n Hp). f_equal. ring.
  Qed.

  Theorem C32_associative : forall a b c, good a -> good b -> good c ->
    K (s_fn (b_sup a)) -> K (s_fn (b_sup b)) -> K (s_fn (b_sup c)) ->
    (b_order a = BRS -> (12 <= b_ell a)%Z) -> (b_order b = BRS -> (12 <= b_ell b)%Z) -> (b_order c = BRS -> (12 <= b_ell c)%Z) ->
    exists ab bc l r, bms_mul svd proj a b = Ok ab /\ bms_mul svd proj b c = Ok bc
      /\ bms_mul svd proj ab c = Ok l /\ bms_mul svd proj a bc = Ok r
      /\ b_order l = b_order r /\ b_ell l = b_ell r /\ forall p, on_scri p -> meaning l p = meaning r p.
  Proof.
    intros a b c Ga Gb Gc Ka Kb Kc Ha Hb Hc.
    destruct (C32_product a b Ga Gb Ka Kb Ha Hb) as (ab & E1 & G1 & O1 & L1 & K1 & M1).
    destruct (C32_product b c Gb Gc Kb Kc Hb Hc) as (bc & E2 & G2 & O2 & L2 & K2 & M2).
    destruct (C32_product ab c G1 Gc K1 Kc) as (l & E3 & G3 & O3 & L3 & K3 & M3); [rewrite O1; discriminate|exact Hc|].
    destruct (C32_product a bc Ga G2 Ka K2) as (r & E4 & G4 & O4 & L4 & K4 & M4); [exact Ha|rewrite O2; discriminate|].
    exists ab, bc, l, r. repeat (split; [assumption|]). split; [congruence|]. split; [rewrite L3, L4, L1, L2; lia|].
    intros p Hp. rewrite M3, M4 by exact Hp.
    assert (Hs : on_scri (meaning c p)).
    { rewrite meaning_nf by assumption. apply frame_scri; [apply det_lmat; apply Gc|]. apply translate_scri. exact Hp. }
    rewrite M1 by exact Hs. rewrite M2 by exact Hp. reflexivity.
  Qed.

  Theorem C32_inverse : forall b output_order, good b -> K (s_fn (b_sup b)) ->
    In (match output_order with Some o => o | None => rev (b_order b) end) orders ->
    (12 <= b_ell b)%Z \/ (b_order b <> BRS /\ match output_order with Some o => o | None => rev (b_order b) end = BRS) ->
    exists i, inverse svd proj b output_order = Ok i /\ good i /\ b_ell i = b_ell b
      /\ b_order i = match output_order with Some o => o | None => rev (b_order b) end /\ K (s_fn (b_sup i))
      /\ forall p, on_scri p -> meaning i (meaning b p) = p /\ meaning b (meaning i p) = p.
  Proof.
    intros b oo Gb Kb HO Hc. unfold inverse. set (out := match oo with Some o => o | None => rev (b_order b) end) in *.
    assert (IS : In SRB orders) by (left; reflexivity).
    assert (N12 : ~ needs12 SRB) by (intros [F|[F|[F|F]]]; discriminate).
    destruct (C31_reorder b SRB Gb Kb IS) as (n & -> & G1 & O1 & E1 & K1 & M1); [destruct Hc as [Hc|[Hc _]]; [intros; exact Hc|contradiction]|contradiction|]. cbn [rbind].
    destruct n as [S q v o e]. cbn [b_sup b_rot b_boost b_order b_ell] in *. subst o e.
    destruct G1 as (Gq & Gv & _ & Ge). cbn [b_sup b_rot b_boost b_order b_ell] in Gq, Gv, Ge.
    assert (D := det_lmat true q v Gq Gv).
    destruct (li q v [CR; CB] (b_ell b) (rev [CR; CB]) true false Gq Gv) as (q' & v' & -> & G' & V' & Sg); [rf|rf|].
    cbn [rbind mklorentz l_rot l_boost]. change (rev SRB) with BRS.
    rewrite mkbms_ok by (try (unfold orders; cbn [In]; tauto); cbn; lia). cbn [s_fn rbind b_order].
    set (i := mkb (mks (fun x => - s_fn S x) (b_ell b)) q' v' BRS (b_ell b)).
    assert (IB : In BRS orders) by (unfold orders; cbn [In]; tauto).
    assert (Gi : good i) by (split; [exact G'|split; [exact V'|split; [exact IB|reflexivity]]]).
    assert (Ki : K (s_fn (b_sup i))) by (apply K_opp; exact K1).
    set (n := mkb S q v SRB (b_ell b)) in *.
    assert (Gn : good n) by (split; [exact Gq|split; [exact Gv|split; [exact IS|exact Ge]]]).
    assert (D' := det_lmat false q' v' G' V').
    assert (NF : nf_frame SRB q v = mone) by reflexivity.
    assert (Fr : forall p, on_scri p -> frame (lmat false q' v') p = frame (minv (lmat true q v)) p).
    { intros p Hp. apply frame_sign; [apply mdet_minv; exact D|exact Sg]. }
    assert (T1 : forall f p, on_scri p -> translate (seen mone f) p = translate f p).
    { intros f p' Hp'. apply translate_ext; [exact Hp'|]. intros; apply seen_one. }
    assert (Mi : forall p, on_scri p -> meaning i p = translate (fun x => - s_fn S x) (frame (minv (lmat true q v)) p)).
    { intros p Hp. rewrite (meaning_nf i p Gi Hp). cbn [i b_order b_rot b_boost b_sup s_fn].
      change (nf_rf BRS) with false. change (nf_frame BRS q' v') with (lmat false q' v').
      rewrite <- translate_frame by (try exact D'; exact Hp). rewrite Fr by exact Hp. reflexivity. }
    assert (Mn : forall p, on_scri p -> meaning b p = frame (lmat true q v) (translate (s_fn S) p)).
    { intros p Hp. rewrite <- M1 by exact Hp. rewrite (meaning_nf n p Gn Hp). cbn [n b_order b_rot b_boost b_sup s_fn].
      change (nf_rf SRB) with true. rewrite NF, T1 by exact Hp. reflexivity. }
    assert (Inv : forall p, on_scri p -> meaning i (meaning b p) = p /\ meaning b (meaning i p) = p).
    { intros p Hp. split.
      - rewrite Mn by exact Hp. rewrite Mi by (apply frame_scri; [exact D|apply translate_scri; exact Hp]).
        rewrite frame_inv_l by (try exact D; apply translate_scri; exact Hp). destruct p as [u x]. unfold translate. cbn [fst snd]. f_equal. ring.
      - rewrite Mi by exact Hp. assert (Hf : on_scri (frame (minv (lmat true q v)) p)) by (apply frame_scri; [apply mdet_minv; exact D|exact Hp]).
        rewrite Mn by (apply translate_scri; exact Hf).
        assert (TT : translate (s_fn S) (translate (fun x => - s_fn S x) (frame (minv (lmat true q v)) p)) = frame (minv (lmat true q v)) p).
        { destruct (frame (minv (lmat true q v)) p) as [u x]. unfold translate. cbn [fst snd]. f_equal. ring. }
        rewrite TT. apply frame_inv_r; assumption. }
    destruct (order_eqb BRS out) eqn:Eo.
    - assert (EO : out = BRS).
      { unfold orders in HO. cbn [In] in HO. repeat destruct HO as [HO|HO]; try contradiction; rewrite <- HO in *; try discriminate Eo; reflexivity. }
      exists i. split; [reflexivity|]. split; [exact Gi|]. split; [reflexivity|]. split; [rewrite EO; reflexivity|]. split; [exact Ki|exact Inv].
    - assert (H12 : (12 <= b_ell b)%Z) by (destruct Hc as [Hc|[_ Hc]]; [exact Hc|rewrite Hc in Eo; discriminate]).
      destruct (C31_reorder i out Gi Ki HO) as (r & E & Gr & Or & Er & Kr & Mr); [intros; exact H12|intros; exact H12|].
      exists r. split; [exact E|]. split; [exact Gr|]. split; [exact Er|]. split; [exact Or|]. split; [exact Kr|].
      assert (Sb : forall p, on_scri p -> on_scri (meaning b p)).
      { intros p Hp. rewrite Mn by exact Hp. apply frame_scri; [exact D|]. apply translate_scri. exact Hp. }
      intros p Hp. rewrite (Mr p Hp), (Mr (meaning b p)) by (apply Sb; exact Hp). apply Inv. exact Hp.
  Qed.

  (** With ell_max below 12 a transformation in normal order has an inverse, but the product with it fails. *)
  Theorem C32_small_ell_max_refuted : forall b, good b -> K (s_fn (b_sup b)) -> b_order b = SRB -> (b_ell b < 12)%Z ->
    exists i, inverse svd proj b None = Ok i /\ bms_mul svd proj b i = Err ValueError.
  Proof.
    intros b G HK Ho He. assert (IB : In BRS orders) by (unfold orders; cbn [In]; tauto).
    destruct (C32_inverse b None G HK) as (i & E & Gi & Ei & Oi & Ki & _).
    - rewrite Ho. exact IB.
    - right. rewrite Ho. split; [discriminate|reflexivity].
    - exists i. split; [exact E|]. unfold bms_mul.
      assert (IS : In SRB orders) by (left; reflexivity).
      assert (N12 : ~ needs12 SRB) by (intros [F|[F|[F|F]]]; discriminate).
      destruct (C31_reorder b SRB G HK IS) as (n1 & -> & _); [rewrite Ho; discriminate|contradiction|]. cbn [rbind].
      rewrite (C31_small_ell_max i SRB Gi Ki IS); [reflexivity|rewrite Ei; exact He|]. left. rewrite Oi, Ho. reflexivity.
  Qed.
End Group.

(** ** The hypotheses can be met *)

(** Four-translations: affine functions of the direction.  They are closed under change of frame, and their
    expansion has only modes with ell <= 1, so that every projection with ell_max >= 1 keeps them exactly; in that
    case the theorems above hold without any idealisation: they describe the Poincare group. *)
Definition affine (f : vec3 -> R) : Prop := exists a w, sphere_eq f (fun n => a + dotv w n).
Lemma affine_ext : forall f g, affine f -> sphere_eq f g -> affine g.
Proof. intros f g (a & w & H) E. exists a, w. intros n Hn. rewrite <- (E n Hn). apply H. exact Hn. Qed.
Lemma affine_add : forall f g, affine f -> affine g -> affine (fun n => f n + g n).
Proof.
  intros f g (a & w & H) (b & u & E). exists (a + b), (plus3 w u). intros n Hn. rewrite (H n Hn), (E n Hn).
  destruct w as [[w1 w2] w3], u as [[u1 u2] u3], n as [[x y] z]. unfold dotv, plus3. ring.
Qed.
Lemma affine_opp : forall f, affine f -> affine (fun n => - f n).
Proof.
  intros f (a & w & H). exists (- a), (scalev (-1) w). intros n Hn. rewrite (H n Hn).
  destruct w as [[w1 w2] w3], n as [[x y] z]. unfold dotv, scalev. ring.
Qed.
Lemma lam_linear : forall M, exists t0 tv x0 xv y0 yv z0 zv, forall n,
  lam M (1, n) = (t0 + dotv tv n, (x0 + dotv xv n, y0 + dotv yv n, z0 + dotv zv n)).
Proof.
  Local Transparent lam mmul.
  intros [[a b] [c d] [e f] [g h]].
  set (T := fun n => fst (lam (mkm (mkC a b) (mkC c d) (mkC e f) (mkC g h)) (1, n))).
  set (X := fun n => snd (lam (mkm (mkC a b) (mkC c d) (mkC e f) (mkC g h)) (1, n))).
  set (p1 := fun v : vec3 => fst (fst v)). set (p2 := fun v : vec3 => snd (fst v)). set (p3 := fun v : vec3 => snd v).
  set (o := (0, 0, 0)). set (ex := (1, 0, 0)). set (ey := (0, 1, 0)). set (ez := (0, 0, 1)).
  exists (T o), (T ex - T o, T ey - T o, T ez - T o).
  exists (p1 (X o)), (p1 (X ex) - p1 (X o), p1 (X ey) - p1 (X o), p1 (X ez) - p1 (X o)).
  exists (p2 (X o)), (p2 (X ex) - p2 (X o), p2 (X ey) - p2 (X o), p2 (X ez) - p2 (X o)).
  exists (p3 (X o)), (p3 (X ex) - p3 (X o), p3 (X ey) - p3 (X o), p3 (X ez) - p3 (X o)).
  intros [[x y] z]. unfold T, X, p1, p2, p3, o, ex, ey, ez, lam, dotv, hmatc, mmul, mdag. cbn.
  f_equal; [field|]. f_equal; [f_equal|]; field.
  Local Opaque lam mmul.
Qed.
Lemma affine_seen : forall M f, mdet M = C1 -> affine f -> affine (seen M f).
Proof.
  intros M f D (a & w & H). destruct (lam_linear (minv M)) as (t0 & tv & x0 & xv & y0 & yv & z0 & zv & L).
  destruct w as [[w1 w2] w3].
  exists (a * t0 + w1 * x0 + w2 * y0 + w3 * z0), (plus3 (scalev a tv) (plus3 (scalev w1 xv) (plus3 (scalev w2 yv) (scalev w3 zv)))).
  intros n Hn. unfold seen. destruct (lam_null (minv M) n (mdet_minv M D) Hn) as (P & U & _).
  rewrite (H _ U). rewrite L in *. cbn [fst snd] in *. set (t := t0 + dotv tv n) in *.
  transitivity (a * t + dotv (w1, w2, w3) (x0 + dotv xv n, y0 + dotv yv n, z0 + dotv zv n)).
  - unfold dotv, scalev. field. lra.
  - unfold t. destruct tv as [[t1 t2] t3], xv as [[x1 x2] x3], yv as [[y1 y2] y3], zv as [[z1 z2] z3], n as [[n1 n2] n3].
    unfold dotv, plus3, scalev. ring.
Qed.

(** A singular value decomposition of the matrices of determinant one. *)
Definition to_minus_z (w : vec3) : quat :=        (* rotor turning (0, 0, -1) into the unit vector w *)
  let '(x, y, z) := w in
  if Req_EM_T z 1 then mkq 0 1 0 0 else let m := sqrt (2 - 2 * z) in mkq ((1 - z) / m) (y / m) (- x / m) 0.
Definition svd2 (A : mat) : mat * (R * R) * mat :=
  let H := mmul A (mdag A) in
  let c := (re (m00 H) + re (m11 H)) / 2 in
  let w := (- re (m01 H), - im (m01 H), (re (m11 H) - re (m00 H)) / 2) in
  let n := norm3 w in
  let u := if Req_EM_T n 0 then mone else rmat (to_minus_z (scalev (/ n) w)) in
  let s := (sqrt (c + n), sqrt (c - n)) in
  (u, s, mmul (mmul (mdiag (/ fst s, / snd s)) (mdag u)) A).
Lemma to_minus_z_ok : forall w, dotv w w = 1 -> qnorm2 (to_minus_z w) = 1 /\ rotate3 (to_minus_z w) (0, 0, -1) = w.
Proof.
  intros [[x y] z] H. unfold dotv in H. unfold to_minus_z. destruct (Req_EM_T z 1) as [E|E].
  - subst z. assert (S : Rsqr x + Rsqr y = 0) by (unfold Rsqr; lra).
    assert (x = 0) by exact (Rplus_sqr_eq_0_l _ _ S). assert (y = 0) by (rewrite Rplus_comm in S; exact (Rplus_sqr_eq_0_l _ _ S)). subst x y.
    split; [unfold qnorm2; cbn; ring|]. unfold rotate3, qvec, qmul, qconj. cbn. f_equal; [f_equal|]; ring.
  - assert (Z1 : z <= 1). { destruct (Rle_dec z 1); [assumption|]. exfalso. assert (X1 := Rle_0_sqr x). assert (X2 := Rle_0_sqr y). unfold Rsqr in *. nra. }
    assert (P : 0 < 2 - 2 * z) by lra. set (m := sqrt (2 - 2 * z)).
    assert (M2 : m * m = 2 - 2 * z) by (apply sqrt_sqrt; lra). assert (Mp : 0 < m) by (apply sqrt_lt_R0; exact P). clearbody m.
    assert (Ez : z = 1 - m * m / 2) by lra. assert (XY : y * y = m * m - (m * m) * (m * m) / 4 - x * x) by (rewrite Ez in H; lra).
    split.
    + unfold qnorm2. cbn. replace ((1 - z) / m * ((1 - z) / m) + y / m * (y / m) + - x / m * (- x / m) + 0 * 0) with (((1 - z) * (1 - z) + y * y + x * x) / (m * m)) by (field; lra).
      replace ((1 - z) * (1 - z) + y * y + x * x) with (m * m) by lra. field. lra.
    + unfold rotate3, qvec, qmul, qconj. cbn. f_equal; [f_equal|].
      * rewrite Ez. field. lra.
      * rewrite Ez. field. lra.
      * apply Rmult_eq_reg_r with (m * m); [|nra].
        match goal with |- ?l * (m * m) = _ => replace (l * (m * m)) with (- (1 - z) * (1 - z) + y * y + x * x) by (field; lra) end.
        rewrite XY. rewrite Ez. field.
Qed.
Lemma one_sided : forall X Y, mmul X Y = mone -> mmul Y X = mone.
Proof.
  Local Transparent mmul.
  intros X Y E. set (adj := mkm (m11 X) (- m01 X)%C (- m10 X)%C (m00 X)).
  assert (D : (mdet X * mdet Y)%C = C1) by (rewrite <- mdet_mul, E; apply mdet_one).
  Local Transparent mdet.
  assert (A1 : mmul adj X = mscale (mdet X) mone) by (apply mat_eq; unfold adj, mmul, mscale, mone, mdet; cbn [m00 m01 m10 m11]; ring).
  assert (A2 : mscale (mdet X) Y = adj).
  { rewrite <- (mmul_1_r adj), <- E, mmul_assoc, A1. apply mat_eq; unfold mmul, mscale, mone; cbn [m00 m01 m10 m11]; ring. }
  assert (A3 : Y = mscale (mdet Y) adj).
  { rewrite <- A2. apply mat_eq; unfold mscale; cbn [m00 m01 m10 m11].
    - transitivity ((mdet X * mdet Y) * m00 Y)%C; [rewrite D|]; ring.
    - transitivity ((mdet X * mdet Y) * m01 Y)%C; [rewrite D|]; ring.
    - transitivity ((mdet X * mdet Y) * m10 Y)%C; [rewrite D|]; ring.
    - transitivity ((mdet X * mdet Y) * m11 Y)%C; [rewrite D|]; ring. }
  assert (A4 : mmul (mscale (mdet Y) adj) X = mscale (mdet Y) (mmul adj X)) by (apply mat_eq; unfold mmul, mscale; cbn [m00 m01 m10 m11]; ring).
  rewrite A3, A4, A1. transitivity (mscale (mdet X * mdet Y)%C mone); [apply mat_eq; unfold mscale; cbn [m00 m01 m10 m11]; ring|].
  rewrite D. apply mat_eq; unfold mscale, mone; cbn [m00 m01 m10 m11]; ring.
  Local Opaque mmul mdet.
Qed.
Lemma svd2_ok : forall A, mdet A = C1 -> is_svd A (svd2 A).
Proof.
  intros A D. unfold svd2, is_svd. set (H := mmul A (mdag A)).
  set (c := (re (m00 H) + re (m11 H)) / 2). set (w := (- re (m01 H), - im (m01 H), (re (m11 H) - re (m00 H)) / 2)). set (n := norm3 w).
  assert (HH : H = hmatc c w) by (apply hermitian_form; unfold H; rewrite mdag_mul, mdag_dag; reflexivity).
  assert (HL : lam A (1, (0, 0, 0)) = (c, w)).
  { apply lam_unique. rewrite <- HH. assert (E : hmatc 1 (0, 0, 0) = mone) by (apply mat_eq; unfold hmatc, mone; cx). rewrite E, mmul_1_r. reflexivity. }
  assert (Mk := lam_minkowski A 1 (0, 0, 0) D).
  assert (HL' : lam A (@pair R vec3 1 (0, 0, 0)) = (c, w)) by exact HL. rewrite HL' in Mk. cbn [fst snd] in Mk. rewrite <- (norm3_sq w) in Mk. fold n in Mk.
  replace (dotv (0, 0, 0) (0, 0, 0)) with 0 in Mk by (unfold dotv; ring).
  assert (Nn : 0 <= n) by apply norm3_nonneg.
  assert (Cp : 0 <= c).
  { unfold c, H. Local Transparent mmul. unfold mmul, mdag. cbn [m00 m01 m10 m11]. Local Opaque mmul.
    destruct (m00 A) as [a1 a2], (m01 A) as [b1 b2], (m10 A) as [c1 c2], (m11 A) as [d1 d2]. cbn.
    assert (X1 := Rle_0_sqr a1). assert (X2 := Rle_0_sqr a2). assert (X3 := Rle_0_sqr b1). assert (X4 := Rle_0_sqr b2).
    assert (X5 := Rle_0_sqr c1). assert (X6 := Rle_0_sqr c2). assert (X7 := Rle_0_sqr d1). assert (X8 := Rle_0_sqr d2). unfold Rsqr in *. lra. }
  assert (Cn : n < c) by nra.
  set (s1 := sqrt (c + n)). set (s2 := sqrt (c - n)). cbn [fst snd].
  assert (S1 : s1 * s1 = c + n) by (apply sqrt_sqrt; lra). assert (S2 : s2 * s2 = c - n) by (apply sqrt_sqrt; lra).
  assert (P1 : 0 < s1) by (apply sqrt_lt_R0; lra). assert (P2 : 0 < s2) by (apply sqrt_lt_R0; lra).
  assert (Ord : s2 <= s1) by (apply sqrt_le_1_alt; lra). clearbody s1 s2.
  set (u := if Req_EM_T n 0 then mone else rmat (to_minus_z (scalev (/ n) w))).
  assert (DG : mdiag (s1 * s1, s2 * s2) = hmatc c (0, 0, - n)) by (rewrite S1, S2; apply mat_eq; unfold mdiag, hmatc; cx).
  assert (U : unitary u /\ H = mmul (mmul u (mdiag (s1 * s1, s2 * s2))) (mdag u)).
  { rewrite DG, HH. unfold u. destruct (Req_EM_T n 0) as [Z|Z].
    - assert (Ed : mdag mone = mone) by (apply mat_eq; unfold mdag, mone; cx).
      split; [split; rewrite Ed; apply mmul_1_l|]. rewrite Ed, mmul_1_l, mmul_1_r. rewrite Z. apply norm3_zero in Z. rewrite Z. f_equal. f_equal. ring.
    - assert (Un : dotv (scalev (/ n) w) (scalev (/ n) w) = 1).
      { rewrite <- norm3_sq, norm3_scale by (left; apply Rinv_0_lt_compat; lra). fold n. field. exact Z. }
      destruct (to_minus_z_ok _ Un) as [Q R0]. set (q := to_minus_z (scalev (/ n) w)) in *. split; [apply rmat_unitary; exact Q|].
      assert (L : lam (rmat q) (c, (0, 0, - n)) = (c, w)).
      { rewrite lam_rmat by exact Q. f_equal.
        assert (Rs : forall a v, rotate3 q (scalev a v) = scalev a (rotate3 q v)).
        { intros a [[v1 v2] v3]. unfold rotate3, scalev, qvec, qmul, qconj. cbn. f_equal; [f_equal|]; ring. }
        replace (0, 0, - n) with (scalev n (0, 0, -1)) by (unfold scalev; f_equal; [f_equal|]; ring).
        rewrite Rs, R0, scalev_scalev, Rinv_r, scalev_1 by exact Z. reflexivity. }
      assert (X := lam_spec (rmat q) c (0, 0, - n)).
      assert (L' : lam (rmat q) (@pair R vec3 c (0, 0, - n)) = (c, w)) by exact L. rewrite L' in X. exact X. }
  destruct U as [[U1 U2] HU].
  set (T := mdiag (/ s1, / s2)).
  Local Transparent mmul.
  assert (ST : mmul (mdiag (s1, s2)) T = mone) by (apply mat_eq; unfold T, mmul, mdiag, mone; cbn [m00 m01 m10 m11 fst snd]; apply C_eq; cbn; field; lra).
  assert (TST : mmul (mmul T (mdiag (s1 * s1, s2 * s2))) T = mone) by (apply mat_eq; unfold T, mmul, mdiag, mone; cbn [m00 m01 m10 m11 fst snd]; apply C_eq; cbn; field; lra).
  Local Opaque mmul.
  assert (Td : mdag T = T) by (apply mat_eq; unfold T, mdag, mdiag; cx).
  set (vh := mmul (mmul T (mdag u)) A).
  assert (V1 : mmul vh (mdag vh) = mone).
  { unfold vh. rewrite !mdag_mul, mdag_dag, Td. rewrite !mmul_assoc. rewrite <- (mmul_assoc (mmul T (mdag u)) A). fold H. rewrite HU, !mmul_assoc.
    rewrite <- (mmul_assoc T (mdag u) u), U2, mmul_1_r. rewrite <- (mmul_assoc (mmul T (mdiag (s1 * s1, s2 * s2))) (mdag u) u), U2, mmul_1_r. exact TST. }
  split; [split; assumption|]. split; [split; [exact V1|apply one_sided; exact V1]|]. split; [lra|].
  unfold vh. rewrite !mmul_assoc, <- (mmul_assoc u (mdiag (s1, s2)) T), ST, mmul_1_r, U1. symmetry. apply mmul_1_l.
Qed.

(** A transformation with all three components non-trivial: time translation by 2 and a space translation, a rotation
    and a boost at three fifths of the speed of light; with it every hypothesis of C31 and C32 holds. *)
Definition sample (o : list comp) (e : Z) : bmst :=
  mkb (mks (fun n => 2 + dotv (1, -1, 0) n) e) (mkq (3 / 5) 0 (4 / 5) 0) (0, 3 / 5, 0) o e.
Example C31_case : forall o e, In o orders ->
  good (sample o e) /\ affine (s_fn (b_sup (sample o e))) /\ (forall A, mdet A = C1 -> is_svd A (svd2 A))
  /\ (forall f g, affine f -> sphere_eq f g -> affine g) /\ (forall M f, mdet M = C1 -> affine f -> affine (seen M f))
  /\ (forall f, affine f -> sphere_eq ((fun (_ : Z) f => f) e f) f)
  /\ exists p, on_scri p /\ meaning (sample SRB e) p <> p.
Proof.
  intros o e Ho. destruct C33_case as [R1 V1]. split; [split; [exact R1|split; [exact V1|split; [exact Ho|reflexivity]]]|].
  split; [exists 2, (1, -1, 0); intros n Hn; reflexivity|]. split; [exact svd2_ok|]. split; [exact affine_ext|]. split; [exact affine_seen|].
  split; [intros f _ n Hn; reflexivity|].
  assert (G : good (sample SRB e)) by (split; [exact R1|split; [exact V1|split; [left; reflexivity|reflexivity]]]).
  exists (0, (0, 0, 1)). assert (H : on_scri (0, (0, 0, 1))) by (unfold on_scri, dotv; cbn; ring). split; [exact H|].
  intros F. apply (f_equal fst) in F. rewrite meaning_nf in F by assumption. unfold frame in F.
  cbn [sample b_order b_rot b_boost b_sup s_fn] in F.
  assert (NF : forall q v, nf_frame SRB q v = mone) by reflexivity. rewrite NF in F.
  unfold translate in F. cbn [fst snd] in F. rewrite seen_one in F.
  match type of F with _ / ?t = _ => assert (P : 0 < t) end.
  { apply lam_future; [apply mdet_minv; apply det_lmat; assumption|]. unfold dotv. ring. }
  match type of F with _ / ?t = _ => set (t0 := t) in * end. unfold dotv in F.
  assert (F2 : (0 - (2 + (1 * 0 + -1 * 0 + 0 * 1))) / t0 * t0 = 0) by (rewrite F; ring).
  unfold Rdiv in F2. rewrite Rmult_assoc, Rinv_l in F2 by lra. lra.
Qed.
