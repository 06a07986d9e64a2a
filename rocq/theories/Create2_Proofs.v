(** * C61, continued: units, broadcasting, SpECTRE files, interpolation times *)
From Coq Require Import String Ascii ZArith Reals List Bool Lia Lra.
From Verif Require Import Common Cplx Times_Model Times_Proofs Modes_Model Modes_Proofs Tables_Model H5_Model Finite_Model Driver_Model
  Finite_Proofs Accept_Proofs ABD_Model ABD_Proofs Create_Model Create_Proofs.
Import ListNotations.
Open Scope R_scope.

(** ** Units *)
(** The same waveform with the unit of length divided by [lam]. *)
Definition in_other_units (lam : R) (x : loaded) : loaded :=
  mkloaded (mkuwave (map (Rmult lam) (u_t (l_w x))) (map (map (Cscale (powerRZ lam (dimension (u_type (l_w x)))))) (u_data (l_w x)))
                    (u_type (l_w x)) (u_r (l_w x)) (u_m (l_w x))) (l_min x) (l_max x).
Lemma dimensionless_units : forall lam M x, 0 < lam -> M <> 0 -> u_m (l_w x) = false ->
  make_variable_dimensionless (l_w (in_other_units lam x)) (lam * M) = make_variable_dimensionless (l_w x) M.
Proof.
  intros lam M x Hl HM Hm. unfold make_variable_dimensionless, in_other_units. cbn [l_w u_m u_t u_data u_type u_r]. rewrite Hm.
  assert (HlM : lam * M <> 0) by (apply Rmult_integral_contrapositive; split; lra).
  assert (G : forall f g, f * powerRZ lam (dimension (u_type (l_w x))) = g ->
     mkuwave (map (fun t => t / (lam * M)) (map (Rmult lam) (u_t (l_w x)))) (map (map (Cscale f)) (map (map (Cscale (powerRZ lam (dimension (u_type (l_w x)))))) (u_data (l_w x)))) (u_type (l_w x)) (u_r (l_w x)) true
     = mkuwave (map (fun t => t / M) (u_t (l_w x))) (map (map (Cscale g)) (u_data (l_w x))) (u_type (l_w x)) (u_r (l_w x)) true).
  { intros f g E. f_equal.
    - rewrite map_map. apply map_ext. intros t. field. lra.
    - rewrite map_map. apply map_ext. intros r. rewrite map_map. apply map_ext. intros c. rewrite <- E. apply C_eq; cbn; ring. }
  destruct (existsb (Z.eqb (u_type (l_w x))) [psi4; psi3; psi2; psi1; psi0]) eqn:Ex.
  - cbn [rbind]. f_equal. apply G. apply existsb_exists in Ex as (d & Hd & E). apply Z.eqb_eq in E. rewrite E.
    rewrite powerRZ_mult, Rmult_assoc, (Rmult_comm (powerRZ M _)), <- Rmult_assoc, <- powerRZ_add by lra.
    replace (d - 4 + dimension d)%Z with 0%Z; [cbn; ring|]. cbn [In] in Hd.
    repeat match type of Hd with _ \/ _ => destruct Hd as [<-|Hd] end; try contradiction; reflexivity.
  - destruct (Z.eqb_spec (u_type (l_w x)) h) as [E|_].
    + cbn [rbind]. f_equal. apply G. rewrite E. change (dimension h) with 1%Z. rewrite powerRZ_1. field. lra.
    + destruct (Z.eqb_spec (u_type (l_w x)) hdot) as [E|_]; [|reflexivity].
      cbn [rbind]. f_equal. apply G. rewrite E. change (dimension hdot) with 0%Z. cbn. ring.
Qed.
Lemma times_eq_scale : forall lam a b, 0 < lam -> times_eq (map (Rmult lam) a) (map (Rmult lam) b) = times_eq a b.
Proof.
  intros lam a b Hl. assert (E : forall x y, Reqb (lam * x) (lam * y) = Reqb x y).
  { intros x y. unfold Reqb. destruct (Req_EM_T x y) as [->|N], (Req_EM_T (lam * _) (lam * _)) as [E|N']; auto; exfalso; try congruence.
    apply N. apply Rmult_eq_reg_l with lam; lra. }
  unfold times_eq. rewrite !map_length. destruct (Nat.eqb_spec (length a) (length b)) as [L|N].
  - f_equal. clear - E. revert b. induction a as [|x a IH]; intros [|y b]; auto. cbn. rewrite E, IH. reflexivity.
  - assert (A1 : forall x l, forallb (Reqb (lam * x)) (map (Rmult lam) l) = forallb (Reqb x) l).
    { intros x l. induction l; auto. cbn. rewrite E, IHl. reflexivity. }
    assert (A2 : forall y l, forallb (fun x => Reqb x (lam * y)) (map (Rmult lam) l) = forallb (fun x => Reqb x y) l).
    { intros y l. induction l; auto. cbn. rewrite E, IHl. reflexivity. }
    destruct a as [|x [|x2 a]]; [| |].
    + destruct b as [|y [|y2 b]]; auto.
    + change (map (Rmult lam) [x]) with [lam * x]. cbv iota. rewrite A1. reflexivity.
    + destruct b as [|y [|y2 b]]; auto. change (map (Rmult lam) [y]) with [lam * y].
      change (map (Rmult lam) (x :: x2 :: a)) with (lam * x :: lam * x2 :: map (Rmult lam) a). cbv iota.
      change (lam * x :: lam * x2 :: map (Rmult lam) a) with (map (Rmult lam) (x :: x2 :: a)). rewrite A2. reflexivity.
Qed.

(** The result does not depend on the unit of length of the files, if the mass is given in the same unit. *)
Theorem C61_units : forall load to_float fmt convention kwargs M lam, 0 < lam -> M <> 0 ->
  (forall l f x, load fmt l f = Ok x -> u_m (l_w x) = false) ->
  create (fun g l f => rmap (in_other_units lam) (load g l f)) to_float fmt convention (Some (lam * M)) kwargs
  = create load to_float fmt convention (Some M) kwargs.
Proof.
  intros load tf fmt convention kwargs M lam Hl HM Hm. unfold create.
  set (sc := map (fun p : string * loaded => (fst p, in_other_units lam (snd p)))).
  assert (EL : load_all (fun g l f => rmap (in_other_units lam) (load g l f)) fmt kwargs = rmap sc (load_all load fmt kwargs)).
  { unfold load_all. induction (given_labels kwargs) as [|l ls IH]; [reflexivity|]. cbn [map_res]. rewrite IH. clear IH.
    destruct (get_key l kwargs) as [f|]; [|reflexivity]. cbn [rbind]. destruct (mem fmt formats); [|reflexivity].
    destruct (load fmt l f) as [x|]; [|reflexivity]. cbn [rmap rbind].
    match goal with |- rbind (rmap sc ?q) _ = _ => destruct q end; reflexivity. }
  rewrite EL. clear EL.
  assert (HWs : forall WMs, load_all load fmt kwargs = Ok WMs -> forall p, In p WMs -> u_m (l_w (snd p)) = false).
  { unfold load_all. induction (given_labels kwargs) as [|l ls IH]; intros WMs H p Hp; cbn [map_res] in H; [injection H as <-; destruct Hp|].
    apply rbind_inv in H as (q & Eq & H). apply rbind_inv in H as (qs & Eqs & H). injection H as <-.
    destruct Hp as [<-|Hp]; [|eauto]. apply rbind_inv in Eq as (f & _ & Eq). destruct (mem fmt formats); [|discriminate].
    apply rbind_inv in Eq as (x & Ex & Eq). injection Eq as <-. cbn [snd]. eauto. }
  destruct (load_all load fmt kwargs) as [WMs|e]; [|reflexivity]. specialize (HWs WMs eq_refl). cbn [rmap rbind].
  unfold assemble. destruct WMs as [|[l0 ref] WMs1] eqn:EWs; [reflexivity|]. rewrite <- EWs in *.
  assert (Esc : sc WMs = (l0, in_other_units lam ref) :: sc WMs1) by (rewrite EWs; reflexivity). rewrite Esc. rewrite <- Esc.
  assert (EC : forall q, check_times (u_t (l_w (in_other_units lam ref))) (sc q) = check_times (u_t (l_w ref)) q).
  { induction q as [|[l x] q IH]; auto. cbn [sc map fst snd check_times]. cbn [in_other_units l_w u_t]. rewrite times_eq_scale by auto.
    destruct (times_eq (u_t (l_w ref)) (u_t (l_w x))) as [[|]|]; cbn [rbind]; auto. }
  rewrite EC. destruct (check_times (u_t (l_w ref)) WMs); [|reflexivity]. cbn [rbind].
  assert (EA : map_res (fun p => let? x := adjust tf (Some (lam * M)) None (snd p) in Ok (fst p, x)) (sc WMs)
             = map_res (fun p => let? x := adjust tf (Some M) None (snd p) in Ok (fst p, x)) WMs).
  { clear - HWs Hl HM. induction WMs as [|[l x] WMs IH]; [reflexivity|]. cbn [sc map fst snd map_res].
    rewrite IH by (intros p Hp; apply HWs; right; auto). 
    assert (E : adjust tf (Some (lam * M)) None (in_other_units lam x) = adjust tf (Some M) None x).
    { unfold adjust. rewrite dimensionless_units; auto. apply (HWs (l, x)). left. auto. }
    rewrite E. reflexivity. }
  rewrite EA. reflexivity.
Qed.

(** A file with the single mode (0, 0) beside files with more modes is copied into every mode. *)
Theorem C61_monopole_refuted : exists load to_float kwargs x1 x2 a,
  file_of load "sxs" kwargs "Psi4" = Some x1 /\ file_of load "sxs" kwargs "Psi2" = Some x2 /\ valid x1 /\ valid x2 /\
  l_max x1 = 1%Z /\ l_min x2 = 0%Z /\ l_max x2 = 0%Z /\ u_data (l_w x2) = [[Ci]] /\
  create load to_float "sxs" "spec" None kwargs = Ok a /\ a_L a = 1%Z /\
  forall l m, (0 <= l <= 1)%Z -> (- l <= m <= l)%Z -> row_modes 0 1 (nth 0 (a_psi2 a) []) l m = Ci.
Proof.
  set (x1 := mkloaded (mkuwave [0] [[C1; C1; C1; C1]] psi4 true true) 0 1).
  set (x2 := mkloaded (mkuwave [0] [[Ci]] psi2 true true) 0 0).
  set (load := fun (_ l _ : string) => @Ok loaded (if String.eqb l "Psi2" then x2 else x1)).
  set (kw := [("Psi4", "a"); ("Psi2", "b")]%string).
  assert (V1 : valid x1). { repeat split; cbn; try lia. intros r [<-|[]]. reflexivity. }
  assert (V2 : valid x2). { repeat split; cbn; try lia. intros r [<-|[]]. reflexivity. }
  assert (E : exists a, create load (fun _ => None) "sxs" "spec" None kw = Ok a /\ a_L a = 1%Z /\ a_psi2 a = [[Cscale 1 Ci; Cscale 1 Ci; Cscale 1 Ci; Cscale 1 Ci]]).
  { unfold create. change (load_all load "sxs" kw) with (Ok [("Psi4"%string, x1); ("Psi2"%string, x2)]). cbn [rbind]. unfold assemble.
    cbn [check_times x1 x2 l_w u_t]. rewrite times_eq_refl. cbn [rbind].
    assert (A : forall x, u_t (l_w x) = [0] -> length (u_data (l_w x)) = 1%nat ->
      exists y, adjust (fun _ => None) None None x = Ok y /\ l_min y = l_min x /\ l_max y = l_max x /\ u_t (l_w y) = [0] /\ u_data (l_w y) = u_data (l_w x)).
    { intros x Et Ed. unfold adjust. cbn [rbind]. rewrite Et. unfold index_is_monotonic. cbn [last].
      replace (if Rltb 0 (0 - 0) then mono_up 0 [] else mono_down 0 []) with (@nil bool) by (destruct (Rltb 0 (0 - 0)); reflexivity).
      cbn [rbind length]. rewrite Ed. cbn [Nat.eqb]. eexists. split; [reflexivity|]. cbn [l_min l_max l_w u_t u_data mask_select].
      repeat split. destruct (u_data (l_w x)) as [|r [|]]; try discriminate. reflexivity. }
    destruct (A x1 eq_refl eq_refl) as (y1 & E1 & A1 & A2 & A3 & A4). destruct (A x2 eq_refl eq_refl) as (y2 & E2 & B1 & B2 & B3 & B4).
    cbn [map_res snd fst]. fold x1 x2. rewrite E1. cbn [rbind]. rewrite E2. cbn [rbind]. rewrite A3, A2.
    change (conversion_factor "spec") with (@Ok (list R) [2; - sqrt 2; 1; -1 / sqrt 2; 1 / 2; 1 / 2]). cbn [rbind].
    cbn [assoc String.eqb Ascii.eqb Bool.eqb]. cbn [l_max x1].
    unfold field. rewrite A1, A4, B1, B4. cbn [l_min x1 x2 l_w u_data map nth].
    eexists. split; [reflexivity|]. split; reflexivity. }
  destruct E as (a & Ea & EL & E2). exists load, (fun _ => None), kw, x1, x2, a. repeat (split; [solve [reflexivity|assumption]|]).
  rewrite E2. intros l m Hl Hm. rewrite row_modes_in by lia. cbn [nth].
  assert (Ci = Cscale 1 Ci) as <- by (apply C_eq; cbn; ring).
  assert ((l, m) = (0, 0) \/ (l, m) = (1, -1) \/ (l, m) = (1, 0) \/ (l, m) = (1, 1))%Z as X.
  { assert (l = 0 \/ l = 1)%Z as [->| ->] by lia; [left; f_equal; lia|]. assert (m = -1 \/ m = 0 \/ m = 1)%Z as [->|[->| ->]] by lia; tauto. }
  destruct X as [X|[X|[X|X]]]; injection X as -> ->; reflexivity.
Qed.

(** ** Times to interpolate to *)
Lemma argmin_from_spec : forall l best besti i, exists j v,
  argmin_from best besti i l = j /\ (forall x, In x l -> v <= x) /\ v <= best /\
  ((j = besti /\ v = best) \/ (exists k, j = (i + k)%nat /\ nth_error l k = Some v /\ v < best)).
Proof.
  induction l as [|x l IH]; intros best besti i.
  - exists besti, best. cbn. repeat split; auto; try lra. intros x [].
  - cbn [argmin_from]. destruct (Rltb_spec x best) as [H|H].
    + destruct (IH x i (S i)) as (j & v & E & Hv & Hvx & Hc). exists j, v. split; auto. split; [|split; [lra|]].
      * intros y [<-|Hy]; auto.
      * right. destruct Hc as [[-> ->]|(k & -> & Hk & Hlt)]; [exists 0%nat; repeat split; auto; lia|exists (S k); repeat split; auto; [lia|lra]].
    + destruct (IH best besti (S i)) as (j & v & E & Hv & Hvx & Hc). exists j, v. split; auto. split; [|split; auto].
      * intros y [<-|Hy]; auto. lra.
      * destruct Hc as [Hc|(k & -> & Hk & Hlt)]; [auto|right; exists (S k); repeat split; auto; lia].
Qed.
Lemma argmin_spec : forall l i, argmin l = Ok i -> exists v, nth_error l i = Some v /\ forall x, In x l -> v <= x.
Proof.
  intros [|x l] i H; [discriminate|]. cbn [argmin] in H. injection H as H.
  destruct (argmin_from_spec l x 0 1) as (j & v & E & Hv & Hvx & Hc). exists v. split.
  - destruct Hc as [[-> ->]|(k & -> & Hk & _)]; [rewrite <- H, E; reflexivity|]. rewrite <- H, E. exact Hk.
  - intros y [<-|Hy]; auto.
Qed.

Lemma nth_error_firstn_lt : forall A (l : list A) n k, (k < n)%nat -> nth_error (firstn n l) k = nth_error l k.
Proof. induction l as [|x l IH]; intros [|n] [|k] H; auto; try lia. cbn. apply IH. lia. Qed.
Lemma nth_error_skipn : forall A (l : list A) n k, nth_error (skipn n l) k = nth_error l (n + k).
Proof. induction l as [|x l IH]; intros [|n] k; auto. - destruct k; reflexivity. - cbn. apply IH. Qed.

Theorem C61_interpolation : forall ti t out, strictly_up ti -> nth 0 t 0 <= last t 0 -> interpolation_times ti t = Ok out ->
  exists p q, In p ti /\ In q ti /\
    (forall x, In x ti -> Rabs (p - nth 0 t 0) <= Rabs (x - nth 0 t 0)) /\ (forall x, In x ti -> Rabs (q - last t 0) <= Rabs (x - last t 0)) /\
    (forall x, In x out <-> In x ti /\ p < x < q) /\ strictly_up out /\
    (forall x, In x out -> nth 0 t 0 < x < last t 0).
Proof.
  intros ti t out Hup Ht H. unfold interpolation_times in H. apply rbind_inv in H as (i & Ei & H). apply rbind_inv in H as (j & Ej & H).
  assert (Eo : out = firstn (j - (i + 1)) (skipn (i + 1) ti)) by congruence. clear H.
  apply argmin_spec in Ei as (vi & Ei & Hi). apply argmin_spec in Ej as (vj & Ej & Hj).
  rewrite nth_error_map in Ei, Ej. destruct (nth_error ti i) as [p|] eqn:Ep; [|discriminate]. destruct (nth_error ti j) as [q|] eqn:Eq; [|discriminate].
  cbn in Ei, Ej. injection Ei as <-. injection Ej as <-.
  assert (Hmin1 : forall x, In x ti -> Rabs (p - nth 0 t 0) <= Rabs (x - nth 0 t 0)).
  { intros x Hx. apply Hi. apply in_map_iff. exists x. auto. }
  assert (Hmin2 : forall x, In x ti -> Rabs (q - last t 0) <= Rabs (x - last t 0)).
  { intros x Hx. apply Hj. apply in_map_iff. exists x. auto. }
  exists p, q. split; [eapply nth_error_In; eauto|]. split; [eapply nth_error_In; eauto|]. split; auto. split; auto.
  assert (Hlt : forall a b x y, nth_error ti a = Some x -> nth_error ti b = Some y -> (x < y <-> (a < b)%nat)).
  { assert (Hlt0 : forall a b x y, nth_error ti a = Some x -> nth_error ti b = Some y -> (a < b)%nat -> x < y).
    { intros a b x y Ha Hb Hab. assert (Lb : (b < length ti)%nat) by (apply nth_error_Some; congruence).
      specialize (Hup a b ltac:(lia)). rewrite (nth_error_nth _ _ _ Ha), (nth_error_nth _ _ _ Hb) in Hup. exact Hup. }
    intros a b x y Ha Hb. split; [|eauto]. intros Hxy. destruct (lt_eq_lt_dec a b) as [[|E]|E]; auto; exfalso.
    - subst. assert (x = y) by congruence. lra.
    - specialize (Hlt0 b a y x Hb Ha E). lra. }
  assert (Hnth : forall k x, nth_error out k = Some x <-> nth_error ti (i + 1 + k) = Some x /\ (i + 1 + k < j)%nat).
  { intros k x. subst out. destruct (Nat.lt_ge_cases k (j - (i + 1))) as [L|L].
    - rewrite nth_error_firstn_lt by auto. rewrite nth_error_skipn. split; [split; auto; lia|tauto].
    - split; [|lia]. intros E. assert (X : (k < length (firstn (j - (i + 1)) (skipn (i + 1) ti)))%nat) by (apply nth_error_Some; congruence).
      rewrite firstn_length in X. lia. }
  assert (Hin : forall x, In x out <-> In x ti /\ p < x < q).
  { intros x. split.
    - intros Hx. apply In_nth_error in Hx as [k Hk]. apply Hnth in Hk as [Hk Hkj]. split; [eapply nth_error_In; eauto|].
      split; [apply (Hlt i (i + 1 + k)%nat); auto; lia|apply (Hlt (i + 1 + k)%nat j); auto].
    - intros [Hx [H1 H2]]. apply In_nth_error in Hx as [k Hk]. apply (Hlt i k) in H1; auto. apply (Hlt k j) in H2; auto.
      apply nth_error_In with (k - (i + 1))%nat. apply Hnth. replace (i + 1 + (k - (i + 1)))%nat with k by lia. auto. }
  split; auto. split.
  - intros a b Hab. assert (exists x, nth_error out a = Some x) as [x Hx].
    { destruct (nth_error out a) eqn:E; [eauto|]. apply nth_error_None in E. lia. }
    assert (exists y, nth_error out b = Some y) as [y Hy].
    { destruct (nth_error out b) eqn:E; [eauto|]. apply nth_error_None in E. lia. }
    rewrite (nth_error_nth _ _ _ Hx), (nth_error_nth _ _ _ Hy). apply Hnth in Hx as [Hx _]. apply Hnth in Hy as [Hy _].
    apply (Hlt _ _ _ _ Hx Hy). lia.
  - intros x Hx. apply Hin in Hx as [Hx [H1 H2]]. specialize (Hmin1 x Hx). specialize (Hmin2 x Hx). revert Hmin1 Hmin2. unfold Rabs.
    repeat destruct Rcase_abs; intros; lra.
Qed.
(** Not all requested times within the range of the data are used: the one nearest to each end is dropped. *)
Theorem C61_interpolation_ends_refuted : exists ti t, strictly_up ti /\ strictly_up t /\
  (forall x, In x ti -> nth 0 t 0 < x < last t 0) /\ interpolation_times ti t = Ok [2] /\ ti = [1; 2; 3].
Proof.
  exists [1; 2; 3], [0; 4]. repeat split.
  - intros i j Hij. cbn in Hij. destruct i as [|[|i]], j as [|[|[|j]]]; try lia; cbn; lra.
  - intros i j Hij. cbn in Hij. destruct i as [|[|i]], j as [|[|j]]; try lia; cbn; lra.
  - cbn in H. destruct H as [<-|[<-|[<-|[]]]]; cbn; lra.
  - cbn in H. destruct H as [<-|[<-|[<-|[]]]]; cbn; lra.
  - unfold interpolation_times. cbn [map nth last argmin argmin_from].
    assert (A1 : Rabs (1 - 0) = 1) by (rewrite Rabs_right; lra). assert (A2 : Rabs (2 - 0) = 2) by (rewrite Rabs_right; lra).
    assert (A3 : Rabs (3 - 0) = 3) by (rewrite Rabs_right; lra). assert (B1 : Rabs (1 - 4) = 3) by (rewrite Rabs_left; lra).
    assert (B2 : Rabs (2 - 4) = 2) by (rewrite Rabs_left; lra). assert (B3 : Rabs (3 - 4) = 1) by (rewrite Rabs_left; lra).
    rewrite A1, A2, A3, B1, B2, B3.
    repeat match goal with |- context [Rltb ?a ?b] => destruct (Rltb_spec a b); [try lra|try lra] end. reflexivity.
Qed.

(** ** SpECTRE files *)
Lemma complex_view_spec : forall n r c, (length r <= n)%nat -> complex_view r = Ok c ->
  length r = (2 * length c)%nat /\ forall i, nth i c C0 = mkC (nth (2 * i) r 0) (nth (2 * i + 1) r 0).
Proof.
  induction n as [|n IH]; intros r c Hn H.
  - destruct r; [|cbn in Hn; lia]. injection H as <-. split; auto. intros i. rewrite !nth_overflow by (cbn; lia). reflexivity.
  - destruct r as [|x [|y r]].
    + injection H as <-. split; auto. intros i. rewrite !nth_overflow by (cbn; lia). reflexivity.
    + discriminate.
    + cbn [complex_view] in H. apply rbind_inv in H as (c' & Ec & H). injection H as <-. cbn [length] in Hn.
      destruct (IH r c' ltac:(lia) Ec) as [L E]. split; [cbn [length]; lia|]. intros [|i]; [reflexivity|].
      cbn [nth]. rewrite E. replace (2 * S i)%nat with (S (S (2 * i))) by lia. reflexivity.
Qed.
(** The value of mode (l, m) in a row of real columns: time, then real and imaginary part of each mode. *)
Definition column_pair (row : list R) (l m : Z) : C :=
  let i := Z.to_nat (l * (l + 1) + m) in mkC (nth (2 * i + 1) row 0) (nth (2 * i + 2) row 0).
Definition time_column (d : dataset) : list R := map (fun r => nth 0 r 0) d.

Lemma take_is : forall A (l : list A) Ind t d, take l Ind = Ok t -> t = map (fun i => nth i l d) Ind.
Proof.
  intros A l Ind. induction Ind as [|i r IH]; intros t d H; cbn [take] in H; [injection H as <-; reflexivity|].
  destruct (nth_error l i) eqn:E; [|discriminate]. apply rbind_inv in H as (t' & Et & H). injection H as <-. cbn [map].
  rewrite (nth_error_nth _ _ d E). f_equal. auto.
Qed.

Lemma read_spectre_spec : forall cce suffix WMs, read_spectre cce suffix = Ok WMs ->
  exists strain Ind L, assoc ("Strain" ++ suffix)%string cce = Some strain /\
    spec_monotonic_indices (time_column strain) = Ok Ind /\
    L = (Z.sqrt ((Z.of_nat (length (nth 0 strain [])) - 1) / 2) - 1)%Z /\
    map fst WMs = spectre_labels /\
    forall l, In l spectre_labels -> exists d x, assoc (l ++ suffix)%string cce = Some d /\ assoc l WMs = Some x /\
      u_t (l_w x) = map (fun i => nth i (time_column strain) 0) Ind /\ u_type (l_w x) = code_of l /\ u_m (l_w x) = false /\
      l_min x = 0%Z /\ l_max x = L /\ length (u_data (l_w x)) = length Ind /\
      (forall r, In r (u_data (l_w x)) -> length r = length (LM_range 0 L)) /\
      forall k ll mm, (k < length Ind)%nat -> (0 <= ll <= L)%Z -> (- ll <= mm <= ll)%Z ->
        row_modes 0 L (nth k (u_data (l_w x)) []) ll mm = column_pair (nth (nth k Ind 0%nat) d []) ll mm.
Proof.
  intros cce suffix WMs H. unfold read_spectre in H. apply rbind_inv in H as (strain & Es & H). apply rbind_inv in H as (Ind & EI & H).
  apply rbind_inv in H as (time & Et & H). fold (time_column strain) in *.
  set (L := (Z.sqrt ((Z.of_nat (length (nth 0 strain [])) - 1) / 2) - 1)%Z) in *.
  exists strain, Ind, L. unfold get_key in Es. destruct (assoc ("Strain" ++ suffix)%string cce) as [s|]; [|discriminate]. injection Es as ->.
  split; auto. split; auto. split; auto. apply (take_is _ _ _ _ 0) in Et.
  apply map_res_inv in H.
  assert (G : forall ls W, Forall2 (fun label q => (let? d := get_key (label ++ suffix)%string cce in let? rows := take d Ind in
       let? data := map_res (fun r => complex_view (tl r)) rows in
       if forallb (fun r => (length r =? length (LM_range 0 L))%nat) data
       then Ok (label, mkloaded (mkuwave time data (code_of label) true false) 0 L) else Err ValueError) = Ok q) ls W ->
     map fst W = ls /\ forall l, In l ls -> exists d x, assoc (l ++ suffix)%string cce = Some d /\ assoc l W = Some x /\
      u_t (l_w x) = map (fun i => nth i (time_column strain) 0) Ind /\ u_type (l_w x) = code_of l /\ u_m (l_w x) = false /\
      l_min x = 0%Z /\ l_max x = L /\ length (u_data (l_w x)) = length Ind /\
      (forall r, In r (u_data (l_w x)) -> length r = length (LM_range 0 L)) /\
      forall k ll mm, (k < length Ind)%nat -> (0 <= ll <= L)%Z -> (- ll <= mm <= ll)%Z ->
        row_modes 0 L (nth k (u_data (l_w x)) []) ll mm = column_pair (nth (nth k Ind 0%nat) d []) ll mm).
  { clear H. intros ls W F. induction F as [|l0 q ls W E F IH]; [split; [auto|intros l []]|]. destruct IH as [IH1 IH2].
    apply rbind_inv in E as (d & Ed & E). apply rbind_inv in E as (rows & Er & E). apply rbind_inv in E as (data & Edata & E).
    destruct (forallb _ data) eqn:Ef; [|discriminate].
    assert (q = (l0, mkloaded (mkuwave time data (code_of l0) true false) 0 L)) by congruence. subst q. clear E.
    cbn [map fst]. split; [congruence|]. intros l Hl. cbn [assoc]. destruct (String.eqb_spec l0 l) as [<-|N].
    - unfold get_key in Ed. destruct (assoc (l0 ++ suffix)%string cce) as [d'|]; [|discriminate]. injection Ed as ->.
      eexists d, _. split; [reflexivity|]. split; [reflexivity|]. cbn [l_w l_min l_max u_t u_data u_type u_m].
      split; auto. split; auto. split; auto. split; auto. split; auto.
      apply (take_is _ _ _ _ []) in Er.
      assert (Ld : length data = length Ind).
      { apply map_res_inv in Edata. apply Forall2_len in Edata. rewrite Er, map_length in Edata. auto. }
      split; auto. rewrite forallb_forall in Ef. split; [intros r Hr; apply Nat.eqb_eq; auto|].
      intros k ll mm Hk Hll Hmm. rewrite row_modes_in by lia.
      destruct (map_res_nth _ _ _ _ _ [] [] k Edata) as [_ Ek]; [rewrite Er, map_length; auto|].
      assert (Hrow : nth k rows [] = nth (nth k Ind 0%nat) d []).
      { rewrite Er. rewrite nth_indep with (d' := nth 0%nat d []) by (rewrite map_length; auto). exact (map_nth (fun i => nth i d []) Ind 0%nat k). }
      rewrite Hrow in Ek. destruct (complex_view_spec _ _ _ (le_n _) Ek) as [_ X]. rewrite X.
      unfold column_pair, LM_index. replace (ll * (ll + 1) - 0 ^ 2 + mm)%Z with (ll * (ll + 1) + mm)%Z by ring.
      set (i := Z.to_nat (ll * (ll + 1) + mm)). set (row := nth (nth k Ind 0%nat) d []).
      assert (Htl : forall j, nth j (tl row) 0 = nth (S j) row 0) by (intros j; destruct row; [destruct j; reflexivity|reflexivity]).
      rewrite !Htl. f_equal; f_equal; lia.
    - apply IH2. destruct Hl; [contradiction|auto]. }
  apply G. exact H.
Qed.

(** Where the data are and which radius is subtracted: the first group with "Spectre" in its name, which contains the
    radius after the first "R"; otherwise the group "Cce" and the radius passed in. *)
Inductive located (f : cce_file) (given : option string) : string -> string -> string -> Prop :=
| in_spectre_group : forall key before rest, find (contains "Spectre") (map fst f) = Some key -> cut "R" key = Some (before, rest) ->
    located f given key "" (substring 0 4 (match cut "R" rest with Some (c, _) => c | None => rest end))
| in_cce_group : forall s, f <> [] -> find (contains "Spectre") (map fst f) = None -> given = Some s -> located f given "Cce" ".dat" s.

Definition scale_of (mass : option R) : R := match mass with Some M => M | None => 1 end.

Theorem C61_spectre : forall to_float convention mass radius f a, good_mass mass -> create_spectre to_float convention mass radius f = Ok a ->
  exists key suffix s r cce strain Ind, located f radius key suffix s /\ to_float s = Some r /\
    assoc key f = Some cce /\ assoc ("Strain" ++ suffix)%string cce = Some strain /\
    spec_monotonic_indices (time_column strain) = Ok Ind /\
    a_t a = map (fun i => nth i (time_column strain) 0 / scale_of mass - r) Ind /\
    a_L a = (Z.sqrt ((Z.of_nat (length (nth 0 strain [])) - 1) / 2) - 1)%Z /\
    ((3 <= length (nth 0 strain []))%nat ->
     (forall n, (n < 5)%nat -> exists d, assoc (weyl_label n ++ suffix)%string cce = Some d /\ length (weyl a n) = length Ind /\
       forall k l m, (k < length Ind)%nat -> (0 <= l <= a_L a)%Z -> (- l <= m <= l)%Z ->
         row_modes 0 (a_L a) (nth k (weyl a n) []) l m =
         Cscale (weyl_factor convention n / powerRZ (scale_of mass) (3 - Z.of_nat n)) (column_pair (nth (nth k Ind 0%nat) d []) l m)) /\
     length (a_sigma a) = length Ind /\
     forall k l m, (k < length Ind)%nat -> (0 <= l <= a_L a)%Z -> (- l <= m <= l)%Z ->
       row_modes 0 (a_L a) (nth k (a_sigma a) []) l m =
       Cscale (strain_factor convention / scale_of mass * sgn m) (Conj (column_pair (nth (nth k Ind 0%nat) strain []) l (- m)))).
Proof.
  intros tf convention mass radius f a HM H. unfold create_spectre in H.
  destruct (spectre_key (map fst f) radius) as [[[key suffix] rad]|] eqn:Ek; [|discriminate]. cbn [rbind] in H.
  apply rbind_inv in H as (cce & Ecce & H). apply rbind_inv in H as (WMs & EW & H).
  unfold get_key in Ecce. destruct (assoc key f) as [c0|] eqn:Eas; [|discriminate]. injection Ecce as ->.
  apply read_spectre_spec in EW as (strain & Ind & L & Es & EI & EL & Efst & HW).
  assert (Hrad : exists s r, rad = Some s /\ tf s = Some r /\ located f radius key suffix s).
  { pose proof H as H0. apply assemble_inv in H0 as (l0 & ref & W1 & W' & ref' & cv & sg & _ & _ & _ & Ea & _).
    unfold adjust in Ea. apply rbind_inv in Ea as (w & _ & Ea). apply rbind_inv in Ea as (t & Et & _).
    destruct rad as [s|]; [|discriminate]. destruct (tf s) as [r|] eqn:Er; [|discriminate]. exists s, r. split; auto. split; auto.
    unfold spectre_key in Ek. destruct (map fst f) as [|k0 ks] eqn:Ef; [discriminate|]. rewrite <- Ef in Ek.
    destruct (find (contains "Spectre") (map fst f)) as [x|] eqn:Ex.
    - destruct (cut "R" x) as [[b0 rest]|] eqn:Ec; [|discriminate].
      assert (key = x /\ suffix = ""%string /\ s = substring 0 4 (match cut "R" rest with Some (c, _) => c | None => rest end)) as (-> & -> & ->) by (repeat split; congruence).
      econstructor; eauto.
    - assert (key = "Cce" /\ suffix = ".dat" /\ radius = Some s)%string as (-> & -> & ->) by (repeat split; congruence).
      constructor; auto. intros ->. discriminate. }
  destruct Hrad as (s & r & -> & Er & Hloc).
  assert (HwIn : forall n, (n < 5)%nat -> In (weyl_label n) spectre_labels) by (intros n Hn; do 5 (destruct n as [|n]; [cbn; tauto|]); lia).
  exists key, suffix, s, r, cce, strain, Ind. split; auto. split; auto. split; auto. split; auto. split; auto.
  destruct (spec_indices_range _ _ EI) as [HIne HIr].
  (* the times are already monotonic *)
  set (T := map (fun i => nth i (time_column strain) 0) Ind) in *.
  assert (ET : spec_monotonic_indices T = Ok (seq 0 (length Ind))).
  { assert (Hne : time_column strain <> []) by (intros X; rewrite X in EI; discriminate).
    destruct (C10_monotonic_indices _ Hne) as (idx & E & _ & _ & _ & Hk). assert (idx = Ind) by congruence. subst idx.
    replace (length Ind) with (length T) by (apply map_length). apply C10_keeps_monotone.
    - unfold T. destruct Ind; [contradiction|discriminate].
    - cbv zeta in Hk. fold T in Hk. destruct (Rltb _ _) in Hk; destruct Hk as [Hk _]; [left|right]; exact Hk. }
  assert (Hhd : exists l0 ref, hd_error WMs = Some (l0, ref) /\ In l0 spectre_labels /\ assoc l0 WMs = Some ref).
  { destruct WMs as [|[l0 ref] W]; [discriminate|]. exists l0, ref. split; auto. split; [rewrite <- Efst; left; auto|]. cbn. rewrite String.eqb_refl. auto. }
  destruct Hhd as (l0 & ref & Ehd & Hl0 & Eref).
  assert (Hall : forall l x, In (l, x) WMs -> In l spectre_labels /\ assoc l WMs = Some x).
  { intros l x HI. split; [rewrite <- Efst; apply in_map_iff; exists (l, x); auto|]. apply In_assoc; auto. rewrite Efst. repeat constructor; cbn; intuition discriminate. }
  assert (Hadj : exists ref', adjust tf mass (Some (Some s)) ref = Ok ref' /\ a_t a = u_t (l_w ref') /\ a_L a = l_max ref').
  { apply assemble_inv in H as (l1 & ref1 & W1 & W' & ref' & cv & sg & E1 & _ & _ & E2 & _ & E3 & E4 & _). exists ref'. rewrite E1 in Ehd. cbn in Ehd.
    assert (ref1 = ref) by congruence. subst. auto. }
  destruct (HW l0 Hl0) as (d0 & x0 & _ & Ex0 & Ut0 & Uty0 & Um0 & Ul0 & UL0 & UD0 & _). assert (x0 = ref) by congruence. subst x0.
  destruct Hadj as (ref' & Eadj & Eat & EaL).
  assert (Htu : forall x, u_m (l_w x) = false -> time_unit mass x = scale_of mass) by (intros x X; unfold time_unit, scale_of; rewrite X; destruct mass; auto).
  destruct (adjust_spec _ _ _ _ _ HM ltac:(rewrite Ut0, UD0; unfold T; rewrite map_length; auto) Eadj) as (r' & Ind' & Hr' & EI' & _ & Emax' & Et' & _).
  cbn [radius_ok] in Hr'. assert (r' = r) by congruence. subst r'. rewrite Ut0, ET in EI'. assert (Ind' = seq 0 (length Ind)) by congruence. subst Ind'.
  assert (ELL : a_L a = L) by congruence.
  assert (Hseq : forall k, (k < length Ind)%nat -> nth k (seq 0 (length Ind)) 0%nat = k) by (intros k Hk; rewrite seq_nth; auto).
  split.
  { rewrite Eat, Et', Ut0. unfold new_time. rewrite (Htu ref Um0). unfold T. clear.
    rewrite <- (map_length (fun i => nth i (time_column strain) 0) Ind). 
    transitivity (map (fun t => t / scale_of mass - r) (map (fun i => nth i (time_column strain) 0) Ind)); [|apply map_map].
    generalize (map (fun i => nth i (time_column strain) 0) Ind). intros q.
    transitivity (map (fun t => t / scale_of mass - r) (map (fun i => nth i q 0) (seq 0 (length q)))); [symmetry; apply map_map|]. f_equal.
    induction q as [|y q IH]; auto. cbn [length seq map nth]. f_equal. rewrite <- seq_shift, map_map. exact IH. }
  split; [congruence|]. intros H3.
  assert (HL0 : (0 <= L)%Z).
  { rewrite EL. assert (1 <= Z.sqrt ((Z.of_nat (length (nth 0 strain [])) - 1) / 2))%Z; [|lia].
    apply (Z.sqrt_le_mono 1). apply Z.div_le_lower_bound; lia. }
  apply C61_assembled in H; auto.
  2: { intros l x HI. destruct (Hall l x HI) as [Hl Ex]. destruct (HW l Hl) as (d & x' & _ & Ex' & Ut & _ & _ & U1 & U2 & UD & UR & _). assert (x' = x) by congruence. subst x'.
       split; [lia|]. split; [rewrite UD, Ut; unfold T; rewrite map_length; auto|]. rewrite U1, U2. auto. }
  destruct H as (_ & l1 & ref1 & Ind1 & r1 & sg & Eh1 & EI1 & _ & _ & _ & Hw & Hs & Ls & Hsig).
  assert (ref1 = ref) by congruence. subst ref1. rewrite Ut0, ET in EI1. assert (Ind1 = seq 0 (length Ind)) by congruence. subst Ind1.
  rewrite seq_length in *. split; [|split; auto].
  - intros n Hn. destruct (HW (weyl_label n) (HwIn n Hn)) as (d & x & Ed & Ex & Ut & Uty & Um & U1 & U2 & UD & UR & Uval).
    exists d. split; auto. destruct (Hw n Hn) as [Hlen Hk]. rewrite seq_length in *. split; auto. intros k l m Hk' Hl Hm.
    specialize (Hk k Hk'). rewrite Ex in Hk. destruct (Hk ltac:(congruence)) as [_ X]. rewrite X, U1, Hseq by auto.
    rewrite ELL in *. rewrite Uval by auto. f_equal. unfold Rdiv. do 2 f_equal. unfold data_unit. rewrite (Htu x Um), Uty.
    f_equal. clear - Hn. do 5 (destruct n as [|n]; [reflexivity|]). lia.
  - intros k l m Hk' Hl Hm. rewrite Hsig by auto. destruct Hs as [_ Hk]. rewrite seq_length in *. specialize (Hk k Hk').
    assert (Hh : assoc "h" WMs = None).
    { destruct (assoc "h" WMs) as [y|] eqn:E; auto. apply assoc_In, Hall in E as [E _]. cbn in E. intuition discriminate. }
    unfold strain_entry in Hk. rewrite Hh in Hk.
    destruct (HW "Strain"%string ltac:(cbn; tauto)) as (d & x & Ed & Ex & Ut & Uty & Um & U1 & U2 & UD & UR & Uval).
    assert (d = strain) by congruence. subst d. rewrite Ex in Hk. destruct (Hk ltac:(congruence)) as [_ X]. unfold fbar. rewrite X, U1, Hseq by auto.
    rewrite ELL in *. rewrite Uval by (auto; lia). unfold data_unit. rewrite (Htu x Um), Uty. change (dimension (code_of "Strain")) with 1%Z. rewrite powerRZ_1.
    rewrite sgn_add. change (sgn 2) with 1. apply C_eq; cbn; ring.
Qed.
(** The radius is subtracted from times in units of the mass without being divided by the mass. *)
Theorem C61_radius_units_refuted : forall to_float convention M radius f a, 0 < M -> M <> 1 ->
  create_spectre to_float convention (Some M) radius f = Ok a ->
  exists key suffix s r cce strain Ind, located f radius key suffix s /\ to_float s = Some r /\ assoc key f = Some cce /\
    assoc ("Strain" ++ suffix)%string cce = Some strain /\ spec_monotonic_indices (time_column strain) = Ok Ind /\ length (a_t a) = length Ind /\
    (r <> 0 -> forall k, (k < length Ind)%nat -> nth k (a_t a) 0 <> (nth (nth k Ind 0%nat) (time_column strain) 0 - r) / M).
Proof.
  intros tf convention M radius f a HM HM1 H. apply C61_spectre in H; [|auto].
  destruct H as (key & suffix & s & r & cce & strain & Ind & A1 & A2 & A3 & A4 & A5 & Et & _).
  exists key, suffix, s, r, cce, strain, Ind. repeat (split; [assumption|]). split; [rewrite Et; apply map_length|].
  intros Hr k Hk. rewrite Et. rewrite nth_indep with (d' := nth 0%nat (time_column strain) 0 / scale_of (Some M) - r) by (rewrite map_length; auto).
  rewrite (map_nth (fun i => nth i (time_column strain) 0 / scale_of (Some M) - r)). cbn [scale_of]. intros E.
  assert (r / M = r) by (unfold Rdiv in *; lra). apply HM1. apply Rmult_eq_reg_l with r; auto. rewrite Rmult_1_r. rewrite <- H at 1. field. lra.
Qed.
(** Without a radius in the name of the group, the radius has to be given. *)
Theorem C61_radius_needed : forall to_float convention mass f a,
  find (contains "Spectre") (map fst f) = None -> create_spectre to_float convention mass None f <> Ok a.
Proof.
  intros tf convention mass f a Hn H. unfold create_spectre in H. destruct (spectre_key (map fst f) None) as [[[key suffix] rad]|] eqn:Ek; [|discriminate].
  cbn [rbind] in H. unfold spectre_key in Ek. rewrite Hn in Ek. destruct (map fst f); [discriminate|]. assert (rad = None) by congruence. subst rad.
  apply rbind_inv in H as (cce & _ & H). apply rbind_inv in H as (WMs & _ & H).
  apply assemble_inv in H as (? & ref & ? & ? & ref' & ? & ? & _ & _ & _ & E & _). unfold adjust in E. apply rbind_inv in E as (w & _ & E). discriminate.
Qed.

(** A file with one mode and two times, at radius 100 and mass 2. *)
Definition small_set : dataset := [[0; 3; 1]; [1; 3; 2]].
Definition small_file : cce_file :=
  [("SpectreR0100"%string, map (fun l => (l, small_set)) spectre_labels)].
Example C61_spectre_case : exists a, create_spectre (fun s => if String.eqb s "0100" then Some 100 else None) "spec" (Some 2) None small_file = Ok a /\
  a_t a = [0 / 2 - 100; 1 / 2 - 100] /\ a_L a = 0%Z /\ row_modes 0 0 (nth 1 (a_psi4 a) []) 0%Z 0%Z = mkC 3 2 /\
  row_modes 0 0 (nth 1 (a_psi0 a) []) 0%Z 0%Z = mkC (3 / 4) (1 / 2) /\ row_modes 0 0 (nth 1 (a_sigma a) []) 0%Z 0%Z = mkC (3 / 4) (- (1 / 2)).
Proof.
  assert (EI : spec_monotonic_indices [0; 1] = Ok [0; 1]%nat).
  { apply C10_keeps_monotone; [discriminate|]. left. intros i j Hij. cbn in Hij. assert (i = 0 /\ j = 1)%nat as [-> ->] by lia. cbn. lra. }
  set (x := fun l => mkloaded (mkuwave [0; 1] [[mkC 3 1]; [mkC 3 2]] (code_of l) true false) 0 0).
  assert (ER : read_spectre (map (fun l => (l, small_set)) spectre_labels) "" = Ok (map (fun l => (l, x l)) spectre_labels)).
  { unfold read_spectre. change (get_key ("Strain" ++ "") (map (fun l => (l, small_set)) spectre_labels)) with (@Ok dataset small_set).
    cbn [rbind]. change (map (fun r => nth 0 r 0) small_set) with [0; 1]. rewrite EI. cbn [rbind]. reflexivity. }
  assert (EA : forall l, exists y, adjust (fun s => if String.eqb s "0100" then Some 100 else None) (Some 2) (Some (Some "0100"%string)) (x l) = Ok y \/ ~ In l spectre_labels).
  { intros l. destruct (in_dec string_dec l spectre_labels) as [Hl|Hl]; [|exists (x l); auto]. 
    assert (Em : index_is_monotonic [0 / 2 - 100; 1 / 2 - 100] = Ok [true; true]).
    { unfold index_is_monotonic. cbn [last mono_up mono_down]. destruct (Rltb_spec 0 (1 / 2 - 100 - (0 / 2 - 100))); [|lra].
      destruct (Rleb_spec (1 / 2 - 100) (0 / 2 - 100)); [lra|reflexivity]. }
    assert (exists w, make_variable_dimensionless (l_w (x l)) 2 = Ok w /\ u_t w = [0 / 2; 1 / 2] /\ length (u_data w) = 2%nat) as (w & Ew & Et & Ed).
    { cbn in Hl. repeat match type of Hl with _ \/ _ => destruct Hl as [<-|Hl] end; try contradiction; cbn; eexists; split; try reflexivity; split; reflexivity. }
    unfold adjust. rewrite Ew. cbn [rbind]. change (String.eqb "0100" "0100") with true. cbv iota. cbn [rbind]. rewrite Et. cbn [map]. rewrite Em. cbn [rbind length]. rewrite Ed. cbn [Nat.eqb].
    eexists. left. reflexivity. }
  assert (exists a, create_spectre (fun s => if String.eqb s "0100" then Some 100 else None) "spec" (Some 2) None small_file = Ok a) as [a Ha].
  { unfold create_spectre. change (spectre_key (map fst small_file) None) with (@Ok (string * string * option string) ("SpectreR0100", "", Some "0100"))%string.
    cbn [rbind]. change (get_key "SpectreR0100" small_file) with (@Ok (list (string * dataset)) (map (fun l => (l, small_set)) spectre_labels)). cbn [rbind].
    rewrite ER. cbn [rbind]. unfold assemble. cbn [map spectre_labels].
    cbn [check_times x l_w u_t]. rewrite times_eq_refl. cbn [rbind].
    assert (G : forall l, In l spectre_labels -> exists y, adjust (fun s => if String.eqb s "0100" then Some 100 else None) (Some 2) (Some (Some "0100"%string)) (x l) = Ok y /\
        l_min y = 0%Z /\ l_max y = 0%Z /\ length (u_t (l_w y)) = 2%nat /\ exists c1 c2, u_data (l_w y) = [[c1]; [c2]]).
    { intros l Hl. destruct (EA l) as (y & [E|N]); [|contradiction]. exists y. split; auto.
      apply adjust_spec in E; [|cbn; lra|reflexivity]. destruct E as (r & Ind & _ & EI' & E1 & E2 & E3 & E4). cbn [x l_w u_t] in EI'.
      rewrite EI in EI'. injection EI' as <-. cbn in E1, E2. split; auto. split; auto. split; [rewrite E3; reflexivity|].
      rewrite E4. eexists _, _. reflexivity. }
    destruct (G "Psi4"%string ltac:(cbn; tauto)) as (y4 & A4 & B4 & L4 & T4 & c4 & d4 & D4).
    destruct (G "Psi3"%string ltac:(cbn; tauto)) as (y3 & A3 & B3 & L3 & T3 & c3 & d3 & D3).
    destruct (G "Psi2"%string ltac:(cbn; tauto)) as (y2 & A2 & B2 & L2 & T2 & c2 & d2 & D2).
    destruct (G "Psi1"%string ltac:(cbn; tauto)) as (y1 & A1 & B1 & L1 & T1 & c1 & d1 & D1).
    destruct (G "Psi0"%string ltac:(cbn; tauto)) as (y0 & A0 & B0 & L0 & T0 & c0 & d0 & D0).
    destruct (G "Strain"%string ltac:(cbn; tauto)) as (ys & As & Bs & Lls & Ts & cs & ds & Ds).
    cbn [map_res snd fst]. rewrite A4. cbn [rbind]. rewrite A3. cbn [rbind]. rewrite A2. cbn [rbind]. rewrite A1. cbn [rbind]. rewrite A0. cbn [rbind]. rewrite As. cbn [rbind].
    change (conversion_factor "spec") with (@Ok (list R) [2; - sqrt 2; 1; -1 / sqrt 2; 1 / 2; 1 / 2]). cbn [rbind].
    cbn [assoc String.eqb Ascii.eqb Bool.eqb]. unfold field. rewrite B4, B3, B2, B1, B0, Bs, D4, D3, D2, D1, D0, Ds, T4, L4. cbn [map nth].
    eexists. reflexivity. }
  exists a. split; auto. assert (G2 : good_mass (Some 2)) by (cbn; lra). pose proof (C61_spectre _ _ _ _ _ _ G2 Ha) as (key & suffix & s & r & cce & strain & Ind & Hloc & Hr & Hc & Hs & HI & Et & EL & Hrest).
  assert (key = "SpectreR0100" /\ suffix = "" /\ s = "0100")%string as (-> & -> & ->).
  { destruct Hloc as [k0 b0 rest0 F0 C0'|s0 N0 F0 G0].
    - change (find (contains "Spectre") (map fst small_file)) with (Some "SpectreR0100"%string) in F0. injection F0 as <-.
      change (cut "R" "SpectreR0100") with (Some ("Spectre", "0100"))%string in C0'. injection C0' as <- <-. auto.
    - discriminate. }
  change (assoc "SpectreR0100" small_file) with (Some (map (fun l => (l, small_set)) spectre_labels)) in Hc.
  assert (Ecce : cce = map (fun l => (l, small_set)) spectre_labels) by (clear - Hc; congruence). subst cce. clear Hc.
  change (assoc ("Strain" ++ "") (map (fun l => (l, small_set)) spectre_labels)) with (Some small_set) in Hs. assert (strain = small_set) by (clear - Hs; congruence). subst strain.
  change (time_column small_set) with [0; 1] in HI, Et. rewrite EI in HI. assert (Ind = [0; 1]%nat) by congruence. subst Ind.
  change (String.eqb "0100" "0100") with true in Hr. injection Hr as <-.
  split; [rewrite Et; reflexivity|]. change (a_L a = 0%Z) in EL. split; auto. destruct (Hrest ltac:(cbn; lia)) as (Hw & Lsig & Hsig). rewrite EL in *.
destruct (factors "spec" [2; - sqrt 2; 1; -1 / sqrt 2; 1 / 2; 1 / 2] eq_refl) as (_ & Hf & Hf5).
  pose proof (Hf 0%nat ltac:(lia)) as W0. pose proof (Hf 4%nat ltac:(lia)) as W4. cbn [nth] in W0, W4, Hf5.
  assert (Hset : forall l d, In l spectre_labels -> assoc (l ++ "")%string (map (fun l => (l, small_set)) spectre_labels) = Some d -> d = small_set).
  { intros l d Hl E. cbn in Hl. repeat match type of Hl with _ \/ _ => destruct Hl as [<-|Hl] end; try contradiction; cbn in E; congruence. }
  split; [|split].
  - destruct (Hw 4%nat ltac:(lia)) as (d & Ed & _ & X). apply Hset in Ed; [|cbn; tauto]. subst d.
    specialize (X 1%nat 0%Z 0%Z ltac:(cbn; lia) ltac:(lia) ltac:(lia)). change (weyl a 4) with (a_psi4 a) in X. rewrite X, <- W4.
    change (3 - Z.of_nat 4)%Z with (- (1))%Z. rewrite powerRZ_neg'. cbn [scale_of]. rewrite powerRZ_1. apply C_eq; cbn; field.
  - destruct (Hw 0%nat ltac:(lia)) as (d & Ed & _ & X). apply Hset in Ed; [|cbn; tauto]. subst d.
    specialize (X 1%nat 0%Z 0%Z ltac:(cbn; lia) ltac:(lia) ltac:(lia)). change (weyl a 0) with (a_psi0 a) in X. rewrite X, <- W0.
    change (3 - Z.of_nat 0)%Z with (Z.of_nat 3). rewrite <- pow_powerRZ. apply C_eq; cbn; field.
  - specialize (Hsig 1%nat 0%Z 0%Z ltac:(cbn; lia) ltac:(lia) ltac:(lia)). rewrite Hsig, <- Hf5. change (sgn 0) with 1. apply C_eq; cbn; field.
Qed.
