(** * C89: rotating data to the angular velocity of a target strain *)
From Coq Require Import String Reals ZArith List Bool Lia Lra.
From Verif Require Import Common Cplx Quat Modes_Model Create_Model Ops_Model Ops_Proofs Times_Model Tables_Model Modal_Model Kwargs_Model Transform_Model Rotate_Model
  Modes_Proofs Modal_Proofs Rotate_Proofs Times_Proofs Kwargs_Proofs Validity_Proofs Transform_Proofs Wigner_Model Wigner_Proofs Sphere_Model Sphere_Proofs Harmonics_Proofs
  Pipeline_Model Pipeline_Proofs ABD_Model ABD_Proofs ABDBalance_Proofs ABDPointwise_Proofs Zturn_Model Zturn_Proofs Motion_Model Motion_Proofs Superrest_Model Superrest_Proofs Spin_Model Spin_Proofs Lorentz_Proofs BMS_Proofs
  Abdpipe_Model Abdpipe_Proofs Constraints_Model Constraints_Proofs Charges_Model Charges_Proofs Product_Proofs Gridmul_Model Gridmul_Proofs Eth_Proofs Bianchi_Proofs Bianchimodes_Proofs Averages_Proofs Nonradiative_Proofs Rest_Model Rest_Proofs Passes_Model Passes_Proofs Velocity_Model Velocity_Proofs Resterr_Model
  Resterr_Proofs Follow_Model.
Import ListNotations.
Open Scope R_scope.

Section Follow.
Variable spline : list R -> list C -> res (R -> C).
Variable map2salm : Z -> Z -> list C -> Z -> Z -> list C.
Variable dspl : nat -> list R -> list C -> R -> C.
Variable integral : list R -> list R -> list R.
Variable undefined : res xf.
Variable svd : mat -> mat * (R * R) * mat.
Variable proj : Z -> (vec3 -> R) -> vec3 -> R.
Variable value : list C -> vec3 -> R.
Variable stored : supertr -> list C.
Variable alignment : list (option vec3) -> list vec3 -> list R -> res quat.
Notation pass := (follow_pass spline map2salm dspl integral undefined svd proj value stored alignment).
Notation directions := (velocity_directions dspl).
Notation error_velocity := (error_velocity dspl integral undefined).

(** The error of a round is the one rel_err_for_abd_in_superrest finds. *)
Lemma error_same : forall a h s, target_direction dspl h = Ok s -> follow_error dspl integral undefined s a = error_velocity a h.
Proof.
  intros a h s E. unfold follow_error, Resterr_Model.error_velocity, velocity_directions. rewrite E. cbn [rbind]. destruct (news dspl a) as [n|e]; cbn [rbind]; [|reflexivity].
  destruct (angular_velocity dspl n) as [w|e]; cbn [rbind]; [|reflexivity]. f_equal. generalize (bd_u (ad_data a)). induction w as [|v w IH]; intros [|x u]; cbn [map combine]; try reflexivity. rewrite IH. reflexivity.
Qed.

(** ** Whatever the data, the target and the rotation found between them *)
(** The result is the frame of the round with the least error, or no rotation if no error is less than infinite. *)
Theorem C89_best : forall a h N tol b errs, pass a h N tol = Ok (b, errs) ->
  boost b = (0, 0, 0) /\ (forall k, nth k (sup b) C0 = C0) /\ (Z.of_nat (length errs) <= Z.max 0 N + 1)%Z /\
  ((b = identity /\ forall e, In e errs -> xlt e PInf = false) \/
   exists a' e, ad_transform spline map2salm a (rotation_kwargs (rot b)) = Ok a' /\ error_velocity a' h = Ok e /\ In e errs /\ forall e', In e' errs -> xlt e' e = false).
Proof.
  intros a h N tol b errs H. unfold follow_pass in H. destruct (target_direction dspl h) as [s|] eqn:Es; [|discriminate]. cbn [rbind] in H.
  destruct (C38_rotation _ _ _ _ _ _ _ _ _ _ H) as [Hb Hs]. split; [exact Hb|]. split; [exact Hs|]. unfold rot_solver in H.
  destruct (C38_solver _ _ _ _ _ _ _ _ H) as (l & P & -> & HL & _ & _ & HB). split; [cbn [length]; rewrite map_length; lia|].
  assert (G : forall st e, In (st, e) l -> ad_transform spline map2salm a (rotation_kwargs (rot (fst st))) = Ok (snd st) /\ error_velocity (snd st) h = Ok e).
  { clear - P Es. induction P as [|i st st' e l E P IH]; intros x y I; [destruct I|]. destruct I as [I|I]; [|apply IH; exact I]. injection I as <- <-.
    destruct st as [b0 d0]. unfold rot_body in E. destruct (follow_align _ _ _ _) as [n|]; [|discriminate]. cbn [rbind] in E. destruct (compose _ _ _ _ _ n b0) as [c|]; [|discriminate]. cbn [rbind] in E.
    unfold followed in E. cbn [rot rot_strip] in E. destruct (ad_transform _ _ _ _) as [a'|] eqn:Et; [|discriminate]. cbn [rbind] in E. destruct (follow_error _ _ _ s a') as [x|] eqn:Ee; [|discriminate]. cbn [rbind] in E.
    rewrite Ee in E. injection E as <- <-. cbn [fst snd rot]. split; [exact Et|]. rewrite <- (error_same _ _ _ Es). exact Ee. }
  destruct HB as [(e & k & Nk & Fe & Le & _)|[-> NB]].
  - right. rewrite nth_error_map in Nk. destruct (nth_error l k) as [[st e1]|] eqn:E; [|discriminate]. injection Nk as <- <-. cbn [fst snd] in *. apply nth_error_In in E. destruct (G _ _ E) as [G1 G2].
    exists (snd st), e1. split; [exact G1|]. split; [exact G2|]. split; [right; change e1 with (snd (st, e1)); apply in_map; exact E|].
    intros e' [<-|I]; [destruct e1; reflexivity|]. apply in_map_iff in I. destruct I as ([st2 e2] & <- & I). apply In_nth_error in I. destruct I as [j Ij]. apply (Le j (fst st2)). rewrite nth_error_map, Ij. reflexivity.
  - left. split; [reflexivity|]. intros e' [<-|I]; [reflexivity|]. apply in_map_iff in I. destruct I as ([st2 e2] & <- & I). apply In_nth_error in I. destruct I as [j Ij]. apply (NB j (fst st2)). rewrite nth_error_map, Ij. reflexivity.
Qed.
(** A target without a direction of the angular velocity at some time raises ValueError before any round. *)
Theorem C89_no_direction : forall a h n w N tol i, target_news dspl h = Ok n -> angular_velocity dspl n = Ok w -> nth_error w i = Some (0, 0, 0) -> pass a h N tol = Err ValueError.
Proof.
  intros a h n w N tol i En Ew Hi. unfold follow_pass, target_direction. rewrite En. cbn [rbind]. rewrite Ew. cbn [rbind].
  assert (Z0 : direction (0, 0, 0) = None). { unfold direction. destruct (Req_EM_T (norm3 (0, 0, 0)) 0) as [|Q]; [reflexivity|]. exfalso. apply Q. unfold norm3. transitivity (sqrt 0); [f_equal; ring|apply sqrt_0]. }
  assert (A : all_of (map direction w) = None). { clear - Hi Z0. revert i Hi. induction w as [|v w IH]; intros [|i] Hi; try discriminate; cbn [map all_of]; [injection Hi as ->; rewrite Z0; reflexivity|]. rewrite (IH i Hi). destruct (direction v); reflexivity. }
  rewrite A. reflexivity.
Qed.
(** So does every strain quadratic in time, in particular that of the data themselves. *)
Theorem C89_quadratic : forall a h c N tol, derives dspl -> Transform_Proofs.increasing (ms_u h) -> (4 <= length (ms_u h))%nat -> (forall l m, c 3%nat l m = C0) -> cubic_series h c -> pass a h N tol = Err ValueError.
Proof. intros a h c N tol HD HI H4 H3 HC. unfold follow_pass. rewrite (C87_target_quadratic dspl h c HD HI H4 H3 HC). reflexivity. Qed.

(** ** One round *)
Section Round.
Variable a : adata.
Let b := ad_data a.
Let n := (2 * (2 * bd_hi b + 1) + 1)%Z.
Hypothesis HS : Abdpipe_Proofs.passes spline.
Hypothesis HD : linear_spline dspl.
Hypothesis Hb : data_ok b.
Hypothesis Hi : Transform_Proofs.increasing (bd_u b).
Hypothesis H2 : (2 <= length (bd_u b))%nat.
Hypothesis HL : (1 <= bd_hi b)%Z.
Hypothesis HX : forall f, (f < 6)%nat -> exact map2salm (spin_of f) n n.
Hypothesis svd_ok : forall A, mdet A = C1 -> is_svd A (svd A).
Lemma directions_turned : forall q, qnorm2 q = 1 -> exists a', ad_transform spline map2salm a (rotation_kwargs q) = Ok a' /\ bd_u (ad_data a') = bd_u b /\
  directions a' = match directions a with Ok d => Ok (map (option_map (rotv (qconj q))) d) | Err e => Err e end.
Proof using HS HD Hb Hi H2 HL HX.
  intros q Hq. assert (Hc : qnorm2 (qconj q) = 1) by (rewrite qnorm2_conj; exact Hq).
  destruct (transform_turned spline map2salm a (rotation_kwargs q) q HS Hb Hi H2 (rotation_kwargs_only q Hq) eq_refl) as (a' & Et & T); [cbn [rotation_kwargs k_working_ell_max dflt]; fold b; lia|exact HX|].
  exists a'. split; [exact Et|]. assert (Eu := proj1 T). assert (Eh := proj1 (proj2 T)). fold b in Eu, Eh. split; [exact Eu|].
  assert (Dm := dot_mine dspl a Hi H2). assert (Dt := dot_turned dspl q a a' T Hi H2). unfold velocity_directions, news. rewrite Dm, Dt. cbn [rbind].
  set (m := mts_scale 2 (der dspl 1 (mts_bar (sigma a)))). set (m' := mts_scale 2 (der dspl 1 (mts_bar (sigma a')))).
  assert (Tn : turned_series q m m').
  { split; [exact Eu|]. split; [exact Eh|]. intros j l k Hj Hl Hm. assert (X := turned_scale q (-2) 2 _ _ _ _ (rates_turned dspl HD q a a' T Hi H2 HL j Hj)). apply X; cbn; lia. }
  rewrite (C87_angular_velocity dspl q m m' HD Hq Tn). destruct (angular_velocity dspl m) as [ws|e]; cbn [rbind]; [|reflexivity]. rewrite !map_map. f_equal. apply map_ext. intros v. apply direction_turned. exact Hc.
Qed.
(** The mean distance of the directions [d], turned by [r], from those of the target *)
Definition distance_after (r : quat) (d : list (option vec3)) (s : R -> vec3) : res xf :=
  average_of integral undefined (map (fun x => option_map (fun v => norm3 (v3add (rotv r v) (v3scale (-1) (s (snd x))))) (fst x)) (combine d (bd_u b))) (bd_u b).
(** [r] is what the alignment returns: the frame is rotated by its inverse, which turns the directions by [r]. *)
Theorem C89_round : forall h s d r e N tol, target_direction dspl h = Ok s -> directions a = Ok d -> alignment d (map s (bd_u b)) (bd_u b) = Ok r -> qnorm2 r = 1 -> r <> qopp q1 ->
  distance_after r d s = Ok e -> xlt e PInf = true -> (N = 1 \/ 1 <= N /\ xlt e tol = true)%Z ->
  exists t a', pass a h N tol = Ok (t, [PInf; e]) /\ (rot t = qconj r \/ rot t = qopp (qconj r)) /\ boost t = (0, 0, 0) /\ (forall k, nth k (sup t) C0 = C0) /\
    ad_transform spline map2salm a (rotation_kwargs (rot t)) = Ok a' /\ directions a' = Ok (map (option_map (rotv r)) d) /\ error_velocity a' h = Ok e.
Proof using HS HD Hb Hi H2 HL HX svd_ok.
  intros h s d r e N tol Es Ed Ea Hr Nr He Fe HN. assert (Iq : qinv r = qconj r) by (unfold qinv; rewrite Hr; destruct r; unfold qscale, qconj; cbn; f_equal; field).
  assert (G : good_rotor (qconj r)). { split; [rewrite qnorm2_conj; exact Hr|]. intros Q. apply Nr. rewrite <- (qconj_involutive r), Q. unfold qopp, qconj, q1. cbn. f_equal; ring. }
  destruct (compose_rotations svd svd_ok proj value stored (Superrest_Model.mkbms (repeat C0 169) (qconj r) (0, 0, 0)) identity) as (c & Ec & Gc & Q); cbn [rot boost identity];
    [exact G|exact good_q1|reflexivity|reflexivity|rewrite qmul_1_l; exact G|]. cbn [rot identity] in Q. rewrite qmul_1_l in Q.
  destruct (directions_turned (rot c) (proj1 Gc)) as (a' & Et & Eu & Ed'). rewrite Ed in Ed'.
  assert (RR : forall v, rotv (qconj (rot c)) v = rotv r v).
  { intros v. destruct Q as [-> | ->]; [rewrite qconj_involutive; reflexivity|]. rewrite rotv_qopp, qconj_involutive. reflexivity. }
  assert (Ed2 : directions a' = Ok (map (option_map (rotv r)) d)) by (rewrite Ed'; f_equal; apply map_ext; intros [v|]; [cbn; rewrite RR; reflexivity|reflexivity]).
  assert (Ee : follow_error dspl integral undefined s a' = Ok e).
  { unfold follow_error. rewrite Ed2, Eu. cbn [rbind]. rewrite <- He. unfold distance_after. f_equal. generalize (bd_u b). clear. induction d as [|[v|] d IH]; intros [|x u]; cbn [map combine]; try reflexivity; rewrite IH; reflexivity. }
  exists (rot_strip c), a'. split; [|split; [exact Q|split; [reflexivity|split; [intros k; apply nth_zeros|split; [exact Et|split; [exact Ed2|rewrite <- (error_same _ _ _ Es); exact Ee]]]]]].
  unfold follow_pass. rewrite Es. cbn [rbind]. unfold rot_solver, run.
  assert (EN : exists m, Z.to_nat N = Datatypes.S m /\ (m = 0%nat \/ xlt e tol = true)) by (exists (Z.to_nat N - 1)%nat; split; [lia|destruct HN as [->|[_ T]]; [left; reflexivity|right; exact T]]).
  destruct EN as (m & -> & Hm). cbn [solve]. replace (xlt PInf tol) with false by (destruct tol; reflexivity).
  assert (B : rot_body (compose svd proj value stored SRB) adata a (followed spline map2salm dspl integral undefined s a) (follow_align dspl alignment s)
    (fun a' => match follow_error dspl integral undefined s a' with Ok e => e | Err _ => NaN end) 0 (identity, a) = Ok ((rot_strip c, a'), e)).
  { unfold rot_body. unfold follow_align at 1. rewrite Ed. cbn [rbind]. unfold rotation_from_vectors. fold b. rewrite Ea. cbn [rbind]. rewrite Iq, Ec. cbn [rbind]. unfold followed at 1. cbn [rot rot_strip]. rewrite Et. cbn [rbind]. rewrite Ee. cbn [rbind]. rewrite Ee. reflexivity. }
  rewrite B. cbn [rbind pymin xmin1]. rewrite Fe. cbn [fst app]. destruct Hm as [-> |T]; [reflexivity|]. destruct m as [|m]; cbn [solve]; [reflexivity|]. rewrite T. reflexivity.
Qed.
(** If the alignment returns a rotation taking the directions of the data to those of the target, one round is enough. *)
Lemma zero_average : forall d s r, (forall t, last (integral (map (fun _ => 0) t) t) 0 = 0) -> length d = length (bd_u b) ->
  (forall i, (i < length (bd_u b))%nat -> exists v, nth_error d i = Some (Some v) /\ rotv r v = s (nth i (bd_u b) 0)) -> distance_after r d s = Ok (Fin 0).
Proof using Hi H2.
  intros d s r HI LD H. unfold distance_after.
  match goal with |- average_of _ _ (map ?F _) _ = _ => assert (E : map F (combine d (bd_u b)) = map (fun _ => Some 0) (bd_u b)) end.
  { clear - LD H. revert d LD H. generalize (bd_u b). induction l as [|x u IH]; intros [|v d] LD H; try discriminate LD; [reflexivity|]. cbn [combine map]. f_equal.
    - destruct (H 0%nat ltac:(cbn; lia)) as (w & Ew & Es). cbn in Ew, Es. injection Ew as ->. cbn [fst snd option_map]. rewrite Es. f_equal. destruct (s x) as [[p q] z]. unfold v3add, v3scale, norm3. transitivity (sqrt 0); [f_equal; ring|apply sqrt_0].
    - apply IH; [injection LD as LD; exact LD|]. intros i Hi. exact (H (Datatypes.S i) ltac:(cbn; lia)). }
  rewrite E. unfold average_of. assert (AZ : all_of (map (fun _ : R => Some 0) (bd_u b)) = Some (map (fun _ => 0) (bd_u b))) by (generalize (bd_u b); clear; induction l as [|x u IH]; [reflexivity|]; cbn [map all_of]; rewrite IH; reflexivity). rewrite AZ. unfold average, xdiv. rewrite HI.
  destruct (Req_EM_T _ 0) as [Z|Z]; [exfalso|f_equal; f_equal; unfold Rdiv; ring].
  assert (P : exists x y l, bd_u b = x :: y :: l) by (destruct (bd_u b) as [|x [|y l]]; [cbn in H2; lia|cbn in H2; lia|eauto]). destruct P as (x & y & l & P). assert (Q := Hi). rewrite P in Q, Z.
  assert (I : In (last (x :: y :: l) 0) (y :: l)). { change (last (x :: y :: l) 0) with (last (y :: l) 0). clear. revert y. induction l as [|z l IH]; intros y; [left; reflexivity|right; apply IH]. }
  assert (L := increasing_lt _ _ Q _ I). cbn [nth] in Z. lra.
Qed.
Lemma directions_len : forall d, directions a = Ok d -> length d = length (bd_u b).
Proof using Hi H2.
  intros d E. unfold velocity_directions, news in E. rewrite (dot_mine dspl a Hi H2) in E. cbn [rbind] in E. destruct (angular_velocity dspl _) as [w|] eqn:W; [|discriminate]. cbn [rbind] in E. injection E as <-. rewrite map_length.
  unfold angular_velocity in W. destruct (mts_dot dspl _); [|discriminate]. cbn [rbind] in W. apply each_len in W. rewrite seq_length in W. exact W.
Qed.
Theorem C89_reached : forall h s d r N tol, target_direction dspl h = Ok s -> directions a = Ok d -> alignment d (map s (bd_u b)) (bd_u b) = Ok r -> qnorm2 r = 1 -> r <> qopp q1 ->
  (forall t, last (integral (map (fun _ => 0) t) t) 0 = 0) ->
  (forall i, (i < length (bd_u b))%nat -> exists v, nth_error d i = Some (Some v) /\ rotv r v = s (nth i (bd_u b) 0)) -> (1 <= N)%Z -> xlt (Fin 0) tol = true ->
  exists t a', pass a h N tol = Ok (t, [PInf; Fin 0]) /\ boost t = (0, 0, 0) /\ (forall k, nth k (sup t) C0 = C0) /\
    ad_transform spline map2salm a (rotation_kwargs (rot t)) = Ok a' /\ error_velocity a' h = Ok (Fin 0) /\ directions a' = Ok (map (fun u => Some (s u)) (bd_u b)).
Proof using HS HD Hb Hi H2 HL HX svd_ok.
  intros h s d r N tol Es Ed Ea Hr Nr HI Hd HN Ht. assert (LD := directions_len d Ed).
  destruct (C89_round h s d r (Fin 0) N tol Es Ed Ea Hr Nr (zero_average d s r HI LD Hd) eq_refl (or_intror (conj HN Ht))) as (t & a' & E & _ & B & S0 & Et & Ed' & Ee).
  exists t, a'. split; [exact E|]. split; [exact B|]. split; [exact S0|]. split; [exact Et|]. split; [exact Ee|]. rewrite Ed'. f_equal.
  clear - LD Hd. revert d LD Hd. generalize (bd_u b). induction l as [|x u IH]; intros [|v d] LD H; try discriminate LD; [reflexivity|]. cbn [map]. f_equal.
  - destruct (H 0%nat ltac:(cbn; lia)) as (w & Ew & Es). cbn in Ew, Es. injection Ew as ->. cbn. rewrite Es. reflexivity.
  - apply IH; [injection LD as LD; exact LD|]. intros i Hi. exact (H (Datatypes.S i) ltac:(cbn; lia)).
Qed.
(** If instead it returns the rotation taking the directions of the target to those of the data, the round leaves the data at twice the angle: the error is the mean
    distance of the target from itself turned twice. *)
Theorem C89_other_sense : forall h s d r e N tol, target_direction dspl h = Ok s -> directions a = Ok d -> alignment d (map s (bd_u b)) (bd_u b) = Ok r -> qnorm2 r = 1 -> r <> qopp q1 ->
  (forall i, (i < length (bd_u b))%nat -> nth_error d i = Some (Some (rotv r (s (nth i (bd_u b) 0))))) ->
  average integral (map (fun u => norm3 (v3add (rotv r (rotv r (s u))) (v3scale (-1) (s u)))) (bd_u b)) (bd_u b) = e -> xlt e PInf = true -> (N = 1 \/ 1 <= N /\ xlt e tol = true)%Z ->
  exists t, pass a h N tol = Ok (t, [PInf; e]).
Proof using HS HD Hb Hi H2 HL HX svd_ok.
  intros h s d r e N tol Es Ed Ea Hr Nr Hd He Fe HN. assert (LD := directions_len d Ed).
  assert (E : distance_after r d s = Ok e).
  { unfold distance_after. rewrite <- He. assert (Q : d = map (fun u => Some (rotv r (s u))) (bd_u b)).
    { clear - LD Hd. revert d LD Hd. generalize (bd_u b). induction l as [|x u IH]; intros [|v d] LD H; try discriminate LD; [reflexivity|]. cbn [map]. f_equal; [specialize (H 0%nat ltac:(cbn; lia)); cbn in H; injection H as ->; reflexivity|].
      apply IH; [injection LD as LD; exact LD|]. intros i Hi. exact (H (Datatypes.S i) ltac:(cbn; lia)). }
    rewrite Q. unfold average_of. match goal with |- context [all_of ?L] => assert (A : all_of L = Some (map (fun u => norm3 (v3add (rotv r (rotv r (s u))) (v3scale (-1) (s u)))) (bd_u b))) end.
    { generalize (bd_u b). clear. induction l as [|x u IH]; [reflexivity|]. cbn [map combine all_of fst snd option_map]. cbn [map combine fst snd option_map] in IH. rewrite IH. reflexivity. }
    rewrite A. reflexivity. }
  destruct (C89_round h s d r e N tol Es Ed Ea Hr Nr E Fe HN) as (t & a' & P & _). exists t. exact P.
Qed.
End Round.
End Follow.

(** ** A case: the strain of the data seen from a frame turned by half a turn about the x axis is the target *)
Lemma target_at : forall dspl h n v u, (forall ys i, length ys = length u -> (i < length u)%nat -> dspl 0%nat u ys (nth i u 0) = nth i ys C0) -> ms_u h = u ->
  target_news dspl h = Ok n -> angular_velocity dspl n = Ok v -> length v = length u -> (forall i, (i < length u)%nat -> direction (nth i v (0, 0, 0)) <> None) ->
  exists s, target_direction dspl h = Ok s /\ forall i, (i < length u)%nat -> direction (nth i v (0, 0, 0)) = Some (s (nth i u 0)).
Proof.
  intros dspl h n v u HN Hu En Ev Lv HD. unfold target_direction. rewrite En. cbn [rbind]. rewrite Ev. cbn [rbind].
  assert (AO : forall l : list vec3, (forall i, (i < length l)%nat -> direction (nth i l (0, 0, 0)) <> None) -> exists r, all_of (map direction l) = Some r /\ forall i, (i < length l)%nat -> direction (nth i l (0, 0, 0)) = Some (nth i r (0, 0, 0))).
  { induction l as [|x l IH]; intros H; [exists []; split; [reflexivity|intros i Hi; cbn in Hi; lia]|]. destruct (IH (fun i Hi => H (Datatypes.S i) ltac:(cbn; lia))) as (r & E & Er). assert (Hx := H 0%nat ltac:(cbn; lia)). cbn [nth] in Hx.
    destruct (direction x) as [d|] eqn:Ex; [|contradiction]. exists (d :: r). cbn [map all_of]. rewrite Ex, E. split; [reflexivity|]. intros [|i] Hi; cbn [nth]; [exact Ex|apply Er; cbn in Hi; lia]. }
  destruct (AO v) as (r & Er & Ar); [intros i Hi; apply HD; lia|]. rewrite Er, Hu. eexists. split; [reflexivity|]. intros i Hi. cbv beta. rewrite Ar by lia. f_equal.
  assert (Lr : length r = length u) by (apply all_of_len in Er; rewrite map_length in Er; transitivity (length v); assumption).
  assert (CS : forall c, component_spline dspl u r c (nth i u 0) = c (nth i r (0, 0, 0))).
  { intros c. unfold component_spline. rewrite HN; [|rewrite map_length; exact Lr|exact Hi]. rewrite (nth_indep _ C0 (RtoC (c (0, 0, 0)))) by (rewrite map_length; lia). rewrite (map_nth (fun w => RtoC (c w))). reflexivity. }
  rewrite !CS. destruct (nth i r (0, 0, 0)) as [[x y] z]. reflexivity.
Qed.
Lemma ex_rising_directions : exists s, target_direction ex_dspl (strain ex_rising) = Ok s /\ (forall i, (i < 4)%nat -> s (nth i [1; 2; 3; 4] 0) = (0, 0, -1)) /\
  velocity_directions ex_dspl ex_rising = Ok (repeat (Some (0, 0, -1)) 4).
Proof.
  assert (HD := ex_dspl_derives).
  assert (I : increasing (ms_u (mts_bar (sigma ex_rising)))) by (cbn; repeat (constructor; try lra)). assert (L4 : (4 <= length (ms_u (mts_bar (sigma ex_rising))))%nat) by (cbn; lia).
  destruct (der_cubic ex_dspl _ _ HD I L4 ex_rising_bar) as [E1 S1]. set (g := der ex_dspl 1 (mts_bar (sigma ex_rising))) in *. set (m := mts_scale 2 g).
  assert (Sm := scale_series 2 g _ S1). fold m in Sm. destruct (der_cubic ex_dspl m _ HD I L4 Sm) as [E2 S2]. set (m' := der ex_dspl 1 m) in *.
  assert (Sh := scale_series 2 _ _ ex_rising_bar). fold (strain ex_rising) in Sh. destruct (der_cubic ex_dspl (strain ex_rising) _ HD I L4 Sh) as [F1 R1]. set (h1 := der ex_dspl 1 (strain ex_rising)) in *.
  destruct (der_cubic ex_dspl h1 _ HD I L4 R1) as [F2 R2]. set (n := der ex_dspl 1 h1) in *. destruct (der_cubic ex_dspl n _ HD I L4 R2) as [F3 R3]. set (n' := der ex_dspl 1 n) in *.
  assert (V : forall f f' (x y x' y' : R -> R), ms_hi f = 2%Z -> ms_hi f' = 2%Z -> ms_u f = [1; 2; 3; 4] -> (forall t, 1 <= t -> x t <> 0 /\ 0 < x t * y' t - y t * x' t) ->
    (forall i l k, (i < 4)%nat -> ms_at f i l k = ex_wave (x (nth i [1; 2; 3; 4] 0)) (y (nth i [1; 2; 3; 4] 0)) l k) -> (forall i l k, (i < 4)%nat -> ms_at f' i l k = ex_wave (x' (nth i [1; 2; 3; 4] 0)) (y' (nth i [1; 2; 3; 4] 0)) l k) ->
    mts_dot ex_dspl f = Ok f' -> exists w, angular_velocity ex_dspl f = Ok w /\ forall i, (i < 4)%nat -> direction (nth i w (0, 0, 0)) = Some (0, 0, -1)).
  { intros f f' x y x' y' Hh Hh' Hu P Ef Ef' D. set (F := fun i => let t := nth i [1; 2; 3; 4] 0 in (0, 0, - (x t * y' t - y t * x' t) / (2 * (x t * x t + y t * y t))) : vec3). exists (map F (seq 0 4)). split.
    - unfold angular_velocity. rewrite D. cbn [rbind]. rewrite Hu. apply each_ok. intros i Ii. apply in_seq in Ii. unfold angular_velocity_at. rewrite Hh. apply ex_wave_velocity.
      + apply P. destruct i as [|[|[|[|i]]]]; cbn; try lra. cbn in Ii. lia.
      + assert (M := row_modes f i). rewrite Hh in M. apply (has_modes_ext _ _ _ _ _ M). intros; apply Ef. cbn in Ii. lia.
      + assert (M := row_modes f' i). rewrite Hh' in M. apply (has_modes_ext _ _ _ _ _ M). intros; apply Ef'. cbn in Ii. lia.
    - intros i Ii. rewrite (nth_indep _ (0, 0, 0) (F 0%nat)) by (rewrite map_length, seq_length; exact Ii). rewrite map_nth, seq_nth by exact Ii. unfold F. cbv zeta. cbn [Nat.add]. set (t := nth i [1; 2; 3; 4] 0). assert (Ht : 1 <= t) by (unfold t; destruct i as [|[|[|[|i]]]]; cbn; try lra; lia).
      destruct (P t Ht) as [P1 P2]. apply down. assert (Q : 0 < 2 * (x t * x t + y t * y t)) by nra. unfold Rdiv. apply Ropp_lt_cancel. rewrite Ropp_0, Ropp_mult_distr_l, Ropp_involutive. apply Rmult_lt_0_compat; [exact P2|apply Rinv_0_lt_compat; exact Q]. }
  destruct (V m m' (fun t => t) (fun t => t * t / 2) (fun _ => 1) (fun t => t)) as (w & Ew & Dw); [reflexivity..| | | |exact E2|].
  { intros t Ht. split; [lra|]. nra. }
  { intros i l k Hi. rewrite Sm by (change (length (ms_u m)) with 4%nat; exact Hi). change (ms_u m) with [1; 2; 3; 4]. cbn [Nat.ltb Nat.leb INR]. unfold ex_wave, cubic. destruct (_ && _)%bool; apply C_eq; cbn [re im Cadd Cscale C0]; field. }
  { intros i l k Hi. rewrite S2 by (change (length (ms_u m')) with 4%nat; exact Hi). change (ms_u m') with [1; 2; 3; 4]. cbn [Nat.ltb Nat.leb INR]. unfold ex_wave, cubic. destruct (_ && _)%bool; apply C_eq; cbn [re im Cadd Cscale C0]; field. }
  destruct (V n n' (fun _ => 1) (fun t => t) (fun _ => 0) (fun _ => 1)) as (v & Ev & Dv); [reflexivity..| | | |exact F3|].
  { intros t Ht. split; [lra|]. nra. }
  { intros i l k Hi. rewrite R2 by (change (length (ms_u n)) with 4%nat; exact Hi). change (ms_u n) with [1; 2; 3; 4]. cbn [Nat.ltb Nat.leb INR]. unfold ex_wave, cubic. destruct (_ && _)%bool; apply C_eq; cbn [re im Cadd Cscale C0]; field. }
  { intros i l k Hi. rewrite R3 by (change (length (ms_u n')) with 4%nat; exact Hi). change (ms_u n') with [1; 2; 3; 4]. cbn [Nat.ltb Nat.leb INR]. unfold ex_wave, cubic. destruct (_ && _)%bool; apply C_eq; cbn [re im Cadd Cscale C0]; field. }
  assert (Lv : length v = 4%nat) by (unfold angular_velocity in Ev; rewrite F3 in Ev; cbn [rbind] in Ev; apply each_len in Ev; exact Ev).
  assert (Lw : length w = 4%nat) by (unfold angular_velocity in Ew; rewrite E2 in Ew; cbn [rbind] in Ew; apply each_len in Ew; exact Ew).
  destruct (target_at ex_dspl (strain ex_rising) n v [1; 2; 3; 4]) as (s & Es & Hs); [| reflexivity| |exact Ev|exact Lv| |].
  - intros ys i Hy Hi. destruct ys as [|y0 [|y1 [|y2 [|y3 [|y4 ys]]]]]; try discriminate Hy. destruct y0, y1, y2, y3.
    destruct i as [|[|[|[|i]]]]; cbn in Hi; try lia; cbn [nth ex_dspl]; unfold dd; apply C_eq; cbn; field.
  - unfold target_news. rewrite F1. cbn [rbind]. exact F2.
  - intros i Hi. rewrite Dv by exact Hi. discriminate.
  - exists s. split; [exact Es|]. split; [intros i Hi; specialize (Hs i Hi); rewrite Dv in Hs by exact Hi; injection Hs as Hs; symmetry; exact Hs|].
    unfold velocity_directions, news, sigma_bar_dot. rewrite E1. cbn [rbind]. fold m. rewrite Ew. cbn [rbind]. f_equal. clear - Dw Lw. destruct w as [|w0 [|w1 [|w2 [|w3 [|w4 w]]]]]; try discriminate Lw. cbn [map repeat].
    assert (D0 := Dw 0%nat ltac:(lia)). assert (D1 := Dw 1%nat ltac:(lia)). assert (D2 := Dw 2%nat ltac:(lia)). assert (D3 := Dw 3%nat ltac:(lia)). cbn [nth] in D0, D1, D2, D3. rewrite D0, D1, D2, D3. reflexivity.
Qed.
Definition half_turn : quat := mkq 0 1 0 0.
Definition ex_turned_strain : Constraints_Model.mts := let h := strain ex_rising in Constraints_Model.mkmts (ms_s h) (ms_hi h) (ms_tr h) (ms_u h) (fun i l m => turn wigner_D half_turn (ms_at h i) l m).
Example C89_case_reached : exists map2salm t a', (forall f, (f < 6)%nat -> exact map2salm (spin_of f) 11 11) /\
  follow_pass cubic_or_lookup map2salm ex_dspl (riemann 0) (Err ValueError) svd2 (fun _ f => f) (fun _ _ => 0) (fun _ => repeat C0 169) (fun _ _ _ => Ok half_turn) ex_rising ex_turned_strain 10 (Fin (/ 10 ^ 12))
    = Ok (t, [PInf; Fin 0]) /\
  velocity_directions ex_dspl ex_rising = Ok (repeat (Some (0, 0, -1)) 4) /\
  ad_transform cubic_or_lookup map2salm ex_rising (rotation_kwargs (rot t)) = Ok a' /\ velocity_directions ex_dspl a' = Ok (repeat (Some (0, 0, 1)) 4).
Proof.
  destruct (exact_exists 11) as [mm HX]. destruct (sampled_data_ok 2 [1; 2; 3; 4] ex_rising_at InertialFrame ltac:(lia)) as [O1 _].
  destruct ex_rising_directions as (s & Es & Hs & Ed). assert (Hq : qnorm2 half_turn = 1) by (unfold qnorm2, half_turn; cbn; ring).
  assert (T : turned_series half_turn (strain ex_rising) ex_turned_strain) by (split; [reflexivity|]; split; [reflexivity|]; intros; reflexivity).
  assert (TT := target_turned ex_dspl half_turn _ _ ex_dspl_linear Hq T). rewrite Es in TT. destruct (target_direction ex_dspl ex_turned_strain) as [s'|] eqn:Es'; [|contradiction].
  assert (S1 : forall i, (i < 4)%nat -> s' (nth i [1; 2; 3; 4] 0) = (0, 0, 1)).
  { intros i Hi. rewrite TT, Hs by exact Hi. unfold rotv, half_turn, qvec, qconj, qmul. cbn. apply (f_equal2 pair); [apply (f_equal2 pair)|]; ring. }
  assert (I : Transform_Proofs.increasing (bd_u (ad_data ex_rising))) by (cbn; repeat (constructor; try lra)).
  destruct (C89_reached cubic_or_lookup mm ex_dspl (riemann 0) (Err ValueError) svd2 (fun _ f => f) (fun _ _ => 0) (fun _ => repeat C0 169) (fun _ _ _ => Ok half_turn) ex_rising
    cubic_or_lookup_passes ex_dspl_linear O1 I ltac:(cbn; lia) ltac:(cbn; lia) HX svd2_ok ex_turned_strain s' _ half_turn 10 (Fin (/ 10 ^ 12)) Es' Ed eq_refl Hq) as (t & a' & E & _ & _ & Et & _ & Ed').
  - intros Q. apply (f_equal qx) in Q. cbn in Q. lra.
  - exact riemann_zero.
  - intros i Hi. change (length (bd_u (ad_data ex_rising))) with 4%nat in Hi. exists (0, 0, -1). change (bd_u (ad_data ex_rising)) with [1; 2; 3; 4]. rewrite S1 by exact Hi. split; [destruct i as [|[|[|[|i]]]]; try reflexivity; lia|].
    unfold rotv, half_turn, qvec, qconj, qmul. cbn. apply (f_equal2 pair); [apply (f_equal2 pair)|]; ring.
  - lia.
  - unfold xlt. destruct (Rltb_spec 0 (/ 10 ^ 12)) as [|N]; [reflexivity|exfalso; apply N; apply Rinv_0_lt_compat; apply pow_lt; lra].
  - exists mm, t, a'. split; [exact HX|]. split; [exact E|]. split; [exact Ed|]. split; [exact Et|]. rewrite Ed'. f_equal. change (bd_u (ad_data ex_rising)) with [1; 2; 3; 4]. cbn [map].
    assert (D0 := S1 0%nat ltac:(lia)). assert (D1 := S1 1%nat ltac:(lia)). assert (D2 := S1 2%nat ltac:(lia)). assert (D3 := S1 3%nat ltac:(lia)). cbn [nth] in D0, D1, D2, D3. rewrite D0, D1, D2, D3. reflexivity.
Qed.
(** The same data and their strain seen from a frame turned about the x axis by another angle, the alignment taking the target to the data *)
Definition part_turn : quat := mkq (3 / 5) (4 / 5) 0 0.
Definition ex_part_strain : Constraints_Model.mts := let h := strain ex_rising in Constraints_Model.mkmts (ms_s h) (ms_hi h) (ms_tr h) (ms_u h) (fun i l m => turn wigner_D part_turn (ms_at h i) l m).
Example C89_case_other_sense : exists map2salm t, (forall f, (f < 6)%nat -> exact map2salm (spin_of f) 11 11) /\
  follow_pass cubic_or_lookup map2salm ex_dspl (riemann 0) (Err ValueError) svd2 (fun _ f => f) (fun _ _ => 0) (fun _ => repeat C0 169) (fun _ _ _ => Ok part_turn) ex_rising ex_part_strain 1 (Fin (/ 10 ^ 12))
    = Ok (t, [PInf; Fin (48 / 25)]).
Proof.
  destruct (exact_exists 11) as [mm HX]. destruct (sampled_data_ok 2 [1; 2; 3; 4] ex_rising_at InertialFrame ltac:(lia)) as [O1 _].
  destruct ex_rising_directions as (s & Es & Hs & Ed). assert (Hq : qnorm2 part_turn = 1) by (unfold qnorm2, part_turn; cbn; field).
  assert (T : turned_series part_turn (strain ex_rising) ex_part_strain) by (split; [reflexivity|]; split; [reflexivity|]; intros; reflexivity).
  assert (TT := target_turned ex_dspl part_turn _ _ ex_dspl_linear Hq T). rewrite Es in TT. destruct (target_direction ex_dspl ex_part_strain) as [s'|] eqn:Es'; [|contradiction].
  assert (S1 : forall i, (i < 4)%nat -> s' (nth i [1; 2; 3; 4] 0) = (0, - 24 / 25, 7 / 25)).
  { intros i Hi. rewrite TT, Hs by exact Hi. unfold rotv, part_turn, qvec, qconj, qmul. cbn. apply (f_equal2 pair); [apply (f_equal2 pair)|]; field. }
  assert (I : Transform_Proofs.increasing (bd_u (ad_data ex_rising))) by (cbn; repeat (constructor; try lra)).
  assert (R1 : rotv part_turn (0, - 24 / 25, 7 / 25) = (0, 0, -1)) by (unfold rotv, part_turn, qvec, qconj, qmul; cbn; apply (f_equal2 pair); [apply (f_equal2 pair)|]; field).
  assert (R2 : rotv part_turn (0, 0, -1) = (0, 24 / 25, 7 / 25)) by (unfold rotv, part_turn, qvec, qconj, qmul; cbn; apply (f_equal2 pair); [apply (f_equal2 pair)|]; field).
  destruct (C89_other_sense cubic_or_lookup mm ex_dspl (riemann 0) (Err ValueError) svd2 (fun _ f => f) (fun _ _ => 0) (fun _ => repeat C0 169) (fun _ _ _ => Ok part_turn) ex_rising
    cubic_or_lookup_passes ex_dspl_linear O1 I ltac:(cbn; lia) ltac:(cbn; lia) HX svd2_ok ex_part_strain s' _ part_turn (Fin (48 / 25)) 1 (Fin (/ 10 ^ 12)) Es' Ed eq_refl Hq) as (t & E).
  - intros Q. apply (f_equal qx) in Q. cbn in Q. lra.
  - intros i Hi. change (length (bd_u (ad_data ex_rising))) with 4%nat in Hi. change (bd_u (ad_data ex_rising)) with [1; 2; 3; 4]. rewrite S1, R1 by exact Hi. destruct i as [|[|[|[|i]]]]; try reflexivity; lia.
  - change (bd_u (ad_data ex_rising)) with [1; 2; 3; 4]. cbn [map]. assert (D0 := S1 0%nat ltac:(lia)). assert (D1 := S1 1%nat ltac:(lia)). assert (D2 := S1 2%nat ltac:(lia)). assert (D3 := S1 3%nat ltac:(lia)). cbn [nth] in D0, D1, D2, D3. rewrite D0, D1, D2, D3, R1, R2.
    assert (V : norm3 (v3add (0, 24 / 25, 7 / 25) (v3scale (-1) (0, - 24 / 25, 7 / 25))) = 48 / 25) by (unfold v3add, v3scale, norm3; transitivity (sqrt (48 / 25 * (48 / 25))); [f_equal; field|apply sqrt_square; lra]).
    rewrite V. unfold average, xdiv. cbn [riemann last nth]. destruct (Req_EM_T (4 - 1) 0) as [Q|_]; [lra|]. f_equal. field.
  - reflexivity.
  - left. reflexivity.
  - exists mm, t. split; [exact HX|exact E].
Qed.
