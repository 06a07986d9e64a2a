(** * C61: asymptotic data built from files of the Weyl scalars and the strain *)
From Coq Require Import String Ascii ZArith Reals List Bool Lia Lra.
From Verif Require Import Common Cplx Times_Model Times_Proofs Modes_Model Modes_Proofs Tables_Model H5_Model Finite_Model Driver_Model
  Finite_Proofs Accept_Proofs ABD_Model ABD_Proofs Create_Model.
Import ListNotations.
Open Scope R_scope.

(** ** Specification *)
(** The function of (ell, m) stored in a row with all modes between two values of ell. *)
Definition row_modes (a b : Z) (row : list C) : modes := fun l m =>
  if ((a <=? l) && (l <=? b) && (- l <=? m) && (m <=? l))%Z then nth (Z.to_nat (LM_index l m a)) row C0 else C0.
(** A loaded waveform is consistent. *)
Definition valid (x : loaded) : Prop :=
  (0 <= l_min x <= l_max x)%Z /\ length (u_data (l_w x)) = length (u_t (l_w x)) /\
  forall r, In r (u_data (l_w x)) -> length r = length (LM_range (l_min x) (l_max x)).
(** Unit of time, and unit of the quantity, that a waveform is divided by. *)
Definition time_unit (mass : option R) (x : loaded) : R :=
  match mass with Some M => if u_m (l_w x) then 1 else M | None => 1 end.
Definition data_unit (mass : option R) (x : loaded) : R := powerRZ (time_unit mass x) (dimension (u_type (l_w x))).
(** Factor between the two conventions for the Weyl scalar psi_n: (-sqrt 2)^(2-n); and for the strain. *)
Definition weyl_factor (convention : string) (n : nat) : R :=
  if String.eqb convention "spec" then powerRZ (- sqrt 2) (2 - Z.of_nat n) else 1.
Definition strain_factor (convention : string) : R := if String.eqb convention "spec" then / 2 else 1.

Lemma row_modes_out : forall a b row l m, ~ ((a <= l <= b)%Z /\ (- l <= m <= l)%Z) -> row_modes a b row l m = C0.
Proof.
  intros a b row l m H. unfold row_modes.
  destruct (Z.leb_spec a l), (Z.leb_spec l b), (Z.leb_spec (- l) m), (Z.leb_spec m l); cbn; auto. exfalso. apply H. lia.
Qed.
Lemma row_modes_in : forall a b row l m, (a <= l <= b)%Z -> (- l <= m <= l)%Z ->
  row_modes a b row l m = nth (Z.to_nat (LM_index l m a)) row C0.
Proof.
  intros a b row l m H1 H2. unfold row_modes.
  destruct (Z.leb_spec a l), (Z.leb_spec l b), (Z.leb_spec (- l) m), (Z.leb_spec m l); cbn; auto; lia.
Qed.

(** ** Times *)
Lemma index_is_monotonic_incr : forall f y, (forall a b, a < b <-> f a < f b) -> index_is_monotonic (map f y) = index_is_monotonic y.
Proof.
  intros f y Hf.
  assert (Hle : forall a b, Rleb (f a) (f b) = Rleb a b).
  { intros a b. specialize (Hf b a). destruct (Rleb_spec (f a) (f b)) as [H|H], (Rleb_spec a b) as [H1|H1]; auto; exfalso.
    - apply Rnot_le_lt in H1. apply Hf in H1. lra.
    - apply Rnot_le_lt in H. apply Hf in H. lra. }
  assert (Hup : forall l m, mono_up (f m) (map f l) = mono_up m l).
  { induction l as [|a l IH]; intros m; auto. cbn [map mono_up]. rewrite Hle. destruct (Rleb a m); rewrite IH; auto. }
  assert (Hdn : forall l m, mono_down (f m) (map f l) = mono_down m l).
  { induction l as [|a l IH]; intros m; auto. cbn [map mono_down]. rewrite Hle. destruct (Rleb m a); rewrite IH; auto. }
  destruct y as [|y0 t]; auto. cbn [map]. unfold index_is_monotonic. f_equal.
  assert (Hlast : last (f y0 :: map f t) 0 = f (last (y0 :: t) 0)).
  { rewrite !last_nth by discriminate. change (f y0 :: map f t) with (map f (y0 :: t)).
    rewrite map_length. rewrite nth_indep with (d' := f 0) by (rewrite map_length; cbn; lia). apply map_nth. }
  rewrite Hlast, Hup, Hdn.
  replace (Rltb 0 (f (last (y0 :: t) 0) - f y0)) with (Rltb 0 (last (y0 :: t) 0 - y0)); auto.
  set (z := last (y0 :: t) 0). specialize (Hf y0 z).
  destruct (Rltb_spec 0 (z - y0)) as [H|H], (Rltb_spec 0 (f z - f y0)) as [H1|H1]; auto; exfalso.
  - apply H1. assert (y0 < z) by lra. apply Hf in H0. lra.
  - apply H. assert (f y0 < f z) by lra. apply Hf in H0. lra.
Qed.
Lemma index_is_monotonic_length : forall y m, index_is_monotonic y = Ok m -> length m = length y.
Proof.
  intros y m H. destruct (C10_flags_are_records y) as (m' & E & L & _); [intros ->; discriminate|]. congruence.
Qed.
Lemma mask_select_nth : forall A (d : A) m s (l : list A), length m = length l ->
  mask_select m l = map (fun i => nth (i - s) l d) (mask_select m (seq s (length l))).
Proof.
  intros A d. induction m as [|b m IH]; intros s [|x l] H; try discriminate; auto. injection H as H.
  cbn [mask_select length seq]. specialize (IH (S s) l H).
  assert (X : map (fun i => nth (i - s) (x :: l) d) (mask_select m (seq (S s) (length l))) = mask_select m l).
  { rewrite IH. apply map_ext_in. intros i Hi. rewrite <- H in Hi. apply mask_select_seq_In in Hi.
    replace (i - s)%nat with (S (i - S s)) by lia. reflexivity. }
  destruct b; [|auto]. cbn [map]. rewrite X. f_equal. rewrite Nat.sub_diag. reflexivity.
Qed.
Lemma mask_select_is : forall A (d : A) m (l : list A), length m = length l ->
  mask_select m l = map (fun i => nth i l d) (mask_select m (seq 0 (length l))).
Proof. intros. rewrite (mask_select_nth A d m 0) by auto. apply map_ext. intros i. rewrite Nat.sub_0_r. reflexivity. Qed.

Lemma Reqb_true : forall x y, Reqb x y = true <-> x = y.
Proof. intros. unfold Reqb. destruct (Req_EM_T x y); split; congruence. Qed.
Lemma pairs_eq : forall a b, length a = length b -> forallb (fun p => Reqb (fst p) (snd p)) (combine a b) = true -> a = b.
Proof.
  induction a as [|x a IH]; intros [|y b] L H; try discriminate; auto. cbn in H. apply andb_true_iff in H as [H1 H2].
  apply Reqb_true in H1. f_equal; auto.
Qed.
Lemma constant_monotone : forall y t, (forall z, In z t -> z = y) -> spec_monotonic_indices (y :: t) = Ok [0%nat].
Proof.
  intros y t H. unfold spec_monotonic_indices, index_is_monotonic.
  assert (E : last (y :: t) 0 = y).
  { revert y H. induction t as [|a t IH]; intros y H; auto. assert (a = y) by (apply H; left; auto). subst a.
    change (last (y :: y :: t) 0) with (last (y :: t) 0). apply IH. intros z Hz. apply H. right. auto. }
  rewrite E. destruct (Rltb_spec 0 (y - y)); [lra|]. cbn [rmap mask_select length seq]. do 2 f_equal.
  clear E. generalize 1%nat. induction t as [|a t IH]; intros s; auto. cbn [mono_down length seq].
  assert (a = y) by (apply H; left; auto). subst a. destruct (Rleb_spec y y); [|lra]. cbn [mask_select]. apply IH.
  intros z Hz. apply H. right. auto.
Qed.
(** Equal times (with broadcasting) are filtered alike. *)
Lemma times_eq_filtered : forall a b, times_eq a b = Ok true -> a <> [] -> b <> [] ->
  spec_monotonic_indices a = spec_monotonic_indices b /\
  forall Ind i, spec_monotonic_indices a = Ok Ind -> In i Ind -> nth i a 0 = nth i b 0.
Proof.
  intros a b H Ha Hb. unfold times_eq in H. destruct (Nat.eqb_spec (length a) (length b)) as [E|N].
  - injection H as H. apply pairs_eq in H; auto. subst. auto.
  - destruct a as [|x a]; [contradiction|]. destruct b as [|y b]; [contradiction|].
    assert (G : forall p q r, (forall z, In z r -> z = q) -> (forall z, In z p -> z = q) ->
      spec_monotonic_indices (q :: p) = spec_monotonic_indices (q :: r) /\
      forall Ind i, spec_monotonic_indices (q :: p) = Ok Ind -> In i Ind -> nth i (q :: p) 0 = nth i (q :: r) 0).
    { intros p q r H1 H2. rewrite !constant_monotone by auto. split; auto. intros Ind i E Hi. injection E as <-. destruct Hi as [<-|[]]. reflexivity. }
    destruct a as [|x2 a].
    + injection H as H. apply andb_true_iff in H as [H1 H2]. apply Reqb_true in H1. subst y. apply G; [|intros z []].
      intros z Hz. symmetry. apply Reqb_true. rewrite forallb_forall in H2. auto.
    + destruct b as [|y2 b]; [|discriminate]. injection H as H. apply andb_true_iff in H as [H1 H2]. apply Reqb_true in H1. subst y.
      apply G; [intros z []|]. intros z Hz. apply Reqb_true. change (forallb (fun x0 => Reqb x0 x) (x2 :: a) = true) in H2.
      rewrite forallb_forall in H2. auto.
Qed.

(** ** Units and filter *)
Lemma dimensionless_spec : forall w M w', M <> 0 -> make_variable_dimensionless w M = Ok w' ->
  u_type w' = u_type w /\ u_t w' = map (fun t => t / (if u_m w then 1 else M)) (u_t w) /\
  u_data w' = map (map (Cscale (/ powerRZ (if u_m w then 1 else M) (dimension (u_type w))))) (u_data w).
Proof.
  intros w M w' HM H. unfold make_variable_dimensionless in H. destruct (u_m w) eqn:Em.
  - injection H as <-. split; auto. split.
    + rewrite <- (map_id (u_t w)) at 1. apply map_ext. intros. field.
    + rewrite <- (map_id (u_data w)) at 1. apply map_ext. intros r. rewrite <- (map_id r) at 1. apply map_ext. intros c.
      rewrite powerRZ_R1, Rinv_1. apply C_eq; cbn; ring.
  - assert (Hf : forall d, In d [psi4; psi3; psi2; psi1; psi0] -> powerRZ M (d - 4) = / powerRZ M (dimension d)).
    { intros d Hd. rewrite <- powerRZ_neg'. f_equal. cbn [In] in Hd.
      repeat match type of Hd with _ \/ _ => destruct Hd as [<-|Hd] end; try contradiction; reflexivity. }
    destruct (existsb (Z.eqb (u_type w)) [psi4; psi3; psi2; psi1; psi0]) eqn:Ex.
    + cbn [rbind] in H. injection H as <-. cbn [u_type u_t u_data]. repeat split.
      apply existsb_exists in Ex as (d & Hd & E). apply Z.eqb_eq in E. rewrite E, Hf by auto. reflexivity.
    + destruct (Z.eqb_spec (u_type w) h) as [E|_].
      * cbn [rbind] in H. injection H as <-. cbn [u_type u_t u_data]. repeat split. rewrite E.
        replace (powerRZ M (dimension h)) with M by (change (dimension h) with 1%Z; symmetry; apply powerRZ_1). unfold Rdiv. rewrite Rmult_1_l. reflexivity.
      * destruct (Z.eqb_spec (u_type w) hdot) as [E|_]; [|discriminate].
        cbn [rbind] in H. injection H as <-. cbn [u_type u_t u_data]. repeat split. rewrite E.
        change (dimension hdot) with 0%Z. rewrite powerRZ_O. rewrite Rinv_1. reflexivity.
Qed.

Definition good_mass (mass : option R) : Prop := match mass with Some M => 0 < M | None => True end.
Lemma time_unit_pos : forall mass x, good_mass mass -> 0 < time_unit mass x.
Proof. intros [M|] x H; unfold time_unit; cbn in H; [destruct (u_m (l_w x))|]; lra. Qed.
(** Retarded times: in units of the mass, minus the radius as it stands. *)
Definition new_time (mass : option R) (r : R) (x : loaded) (t : R) : R := t / time_unit mass x - r.
Definition radius_ok (to_float : string -> option R) (radius : option (option string)) (r : R) : Prop :=
  match radius with None => r = 0 | Some None => False | Some (Some s) => to_float s = Some r end.

Lemma adjust_spec : forall to_float mass radius x y, good_mass mass -> length (u_data (l_w x)) = length (u_t (l_w x)) ->
  adjust to_float mass radius x = Ok y ->
  exists r Ind, radius_ok to_float radius r /\ spec_monotonic_indices (u_t (l_w x)) = Ok Ind /\
    l_min y = l_min x /\ l_max y = l_max x /\
    u_t (l_w y) = map (fun i => new_time mass r x (nth i (u_t (l_w x)) 0)) Ind /\
    u_data (l_w y) = map (fun i => map (Cscale (/ data_unit mass x)) (nth i (u_data (l_w x)) [])) Ind.
Proof.
  intros tf mass radius x y HM HL H. unfold adjust in H.
  set (u := time_unit mass x).
  assert (exists w, (match mass with Some M => make_variable_dimensionless (l_w x) M | None => Ok (l_w x) end) = Ok w /\
     u_t w = map (fun t => t / u) (u_t (l_w x)) /\ u_data w = map (map (Cscale (/ data_unit mass x))) (u_data (l_w x))) as (w & E & Ht & Hd).
  { unfold u, data_unit. destruct mass as [M|]; cbn [time_unit].
    - destruct (make_variable_dimensionless (l_w x) M) as [w|] eqn:E; [|discriminate]. exists w. split; auto.
      apply dimensionless_spec in E; [|cbn in HM; lra]. destruct E as (_ & A & B). auto.
    - exists (l_w x). split; auto. split.
      + rewrite <- (map_id (u_t (l_w x))) at 1. apply map_ext. intros. field.
      + rewrite <- (map_id (u_data (l_w x))) at 1. apply map_ext. intros r. rewrite <- (map_id r) at 1. apply map_ext. intros c.
        rewrite powerRZ_R1, Rinv_1. apply C_eq; cbn; ring. }
  rewrite E in H. cbn [rbind] in H.
  assert (exists r t, radius_ok tf radius r /\ t = map (new_time mass r x) (u_t (l_w x)) /\
    (match radius with None => Ok (u_t w) | Some None => Err TypeError
     | Some (Some s) => match tf s with Some r => Ok (map (fun t => t - r) (u_t w)) | None => Err ValueError end end) = Ok t) as (r & t & Hr & Et & E2).
  { destruct radius as [[s|]|]; cbn [radius_ok] in *.
    - destruct (tf s) as [r|] eqn:Es; [|discriminate]. exists r, (map (fun t => t - r) (u_t w)). repeat split; auto.
      rewrite Ht, map_map. reflexivity.
    - discriminate.
    - exists 0, (u_t w). repeat split; auto. rewrite Ht. apply map_ext. intros. unfold new_time. fold u. ring. }
  rewrite E2 in H. cbn [rbind] in H.
  assert (Em : index_is_monotonic t = index_is_monotonic (u_t (l_w x))).
  { rewrite Et. apply index_is_monotonic_incr. intros a b. unfold new_time. fold u.
    assert (0 < / u) by (apply Rinv_0_lt_compat; apply time_unit_pos; auto). unfold Rdiv. split; intros; nra. }
  rewrite Em in H. destruct (index_is_monotonic (u_t (l_w x))) as [mask|] eqn:Emask; [|discriminate]. cbn [rbind] in H.
  destruct (Nat.eqb_spec (length mask) (length (u_data w))) as [Elen|]; [|discriminate]. injection H as <-.
  exists r, (mask_select mask (seq 0 (length (u_t (l_w x))))). split; auto. unfold spec_monotonic_indices. rewrite Emask. cbn [rmap].
  split; auto. cbn [l_w l_min l_max u_t u_data]. repeat split.
  - assert (Hlm := index_is_monotonic_length _ _ Emask).
    rewrite (mask_select_is _ 0) by (rewrite Et, map_length; auto). rewrite Et, map_length. apply map_ext_in.
    intros i Hi. rewrite <- Hlm in Hi. apply mask_select_seq_In in Hi.
    rewrite nth_indep with (d' := new_time mass r x 0) by (rewrite map_length; lia). apply map_nth.
  - assert (Hlm := index_is_monotonic_length _ _ Emask).
    rewrite (mask_select_is _ []) by auto. rewrite Hd, map_length, HL. apply map_ext_in.
    intros i Hi. exact (map_nth (map (Cscale (/ data_unit mass x))) (u_data (l_w x)) [] i).
Qed.

(** ** Filling *)
Lemma LM_start : forall a, (0 <= a)%Z -> LM_index a (- a) 0 = (a ^ 2)%Z.
Proof. intros. unfold LM_index. nia. Qed.
Lemma fill_row_modes : forall L a row out f, (0 <= a <= L)%Z -> length row = length (LM_range a L) ->
  fill_row (length (LM_range 0 L)) (Z.to_nat (LM_index a (- a) 0)) (map (Cscale f) row) = Ok out ->
  length out = length (LM_range 0 L) /\
  forall l m, row_modes 0 L out l m = Cscale f (row_modes a L row l m).
Proof.
  intros L a row out f Ha Hr H. rewrite LM_start in H by lia.
  pose proof (LM_range_length 0 L ltac:(lia) ltac:(lia)) as E0. pose proof (LM_range_length a L ltac:(lia) ltac:(lia)) as Ea.
  unfold fill_row in H. rewrite map_length, Hr in H.
  destruct (Nat.eqb_spec (length (LM_range a L)) (length (LM_range 0 L) - Z.to_nat (a ^ 2))) as [_|N]; [|exfalso; nia].
  assert (Eo : out = (repeat C0 (Nat.min (Z.to_nat (a ^ 2)) (length (LM_range 0 L))) ++ map (Cscale f) row)%list) by congruence.
  clear H. subst out. rewrite app_length, repeat_length, map_length, Hr.
  rewrite Nat.min_l by nia. split; [nia|]. intros l m.
  destruct (Z_le_dec 0 l); [destruct (Z_le_dec l L); [destruct (Z_le_dec (- l) m); [destruct (Z_le_dec m l)|]|]|];
    try (rewrite !row_modes_out by lia; unfold C0; apply C_eq; cbn; ring).
  rewrite row_modes_in by lia. destruct (Z_lt_dec l a) as [Hl|Hl].
  - rewrite (row_modes_out a) by lia. rewrite app_nth1 by (rewrite repeat_length; unfold LM_index; nia).
    rewrite nth_repeat. unfold C0; apply C_eq; cbn; ring.
  - rewrite row_modes_in by lia. rewrite app_nth2 by (rewrite repeat_length; unfold LM_index; nia). rewrite repeat_length.
    replace (Z.to_nat (LM_index l m 0) - Z.to_nat (a ^ 2))%nat with (Z.to_nat (LM_index l m a)) by (unfold LM_index; nia).
    rewrite <- (map_nth (Cscale f)). f_equal. unfold C0; apply C_eq; cbn; ring.
Qed.
Lemma bar_row_modes : forall L row, (0 <= L)%Z -> forall l m, row_modes 0 L (bar_row 2 L row) l m = fbar 2 (row_modes 0 L row) l m.
Proof.
  intros L row HL l m. unfold fbar.
  destruct (Z_le_dec 0 l); [destruct (Z_le_dec l L); [destruct (Z_le_dec (- l) m); [destruct (Z_le_dec m l)|]|]|];
    try (rewrite !row_modes_out by lia; unfold C0; apply C_eq; cbn; ring).
  rewrite !row_modes_in by lia. unfold bar_row.
  destruct (C01_index_is_position 0 L l m) as [A B]; try lia.
  apply nth_error_nth. rewrite nth_error_map, B. reflexivity.
Qed.
Lemma bar_row_length : forall s L row, length (bar_row s L row) = length (LM_range 0 L).
Proof. intros. unfold bar_row. apply map_length. Qed.

(** ** The parts of a successful call *)
Lemma rbind_inv : forall A B (x : res A) (k : A -> res B) y, rbind x k = Ok y -> exists a, x = Ok a /\ k a = Ok y.
Proof. intros A B [a|e] k y H; [eauto|discriminate]. Qed.
Lemma factors : forall convention cv, conversion_factor convention = Ok cv ->
  (convention = "moreschi-boyle" \/ convention = "spec")%string /\
  (forall n, (n < 5)%nat -> nth n cv 0 = weyl_factor convention n) /\ nth 5 cv 0 = strain_factor convention.
Proof.
  intros convention cv H. unfold conversion_factor in H.
  assert (Hs : sqrt 2 * sqrt 2 = 2) by (apply sqrt_sqrt; lra). assert (Hp : 0 < sqrt 2) by (apply sqrt_lt_R0; lra).
  destruct (String.eqb_spec convention "moreschi-boyle") as [->|_].
  - injection H as <-. split; auto. split; [|reflexivity]. intros n Hn. unfold weyl_factor.
    change (String.eqb "moreschi-boyle" "spec") with false. cbv iota.
    do 5 (destruct n as [|n]; [reflexivity|]). lia.
  - destruct (String.eqb_spec convention "spec") as [->|_]; [|discriminate].
    injection H as <-. split; auto. split; [|unfold strain_factor; change (String.eqb "spec" "spec") with true; cbn; lra].
    intros n Hn. unfold weyl_factor. change (String.eqb "spec" "spec") with true. cbv iota.
    assert (H2 : - sqrt 2 * - sqrt 2 = 2) by nra.
    assert (P2 : powerRZ (- sqrt 2) 2 = 2) by (unfold powerRZ; change (Pos.to_nat 2) with 2%nat; simpl pow; rewrite Rmult_1_r; auto).
    destruct n as [|n]; [change (2 - Z.of_nat 0)%Z with 2%Z; rewrite P2; reflexivity|].
    destruct n as [|n]; [change (2 - Z.of_nat 1)%Z with 1%Z; rewrite powerRZ_1; reflexivity|].
    destruct n as [|n]; [change (2 - Z.of_nat 2)%Z with 0%Z; reflexivity|].
    destruct n as [|n]; [change (2 - Z.of_nat 3)%Z with (- (1))%Z; rewrite powerRZ_neg', powerRZ_1; cbn [nth]; field; lra|].
    destruct n as [|n]; [change (2 - Z.of_nat 4)%Z with (- (2))%Z; rewrite powerRZ_neg', P2; cbn [nth]; lra|]. lia.
Qed.

Lemma check_times_In : forall ref WMs l x, check_times ref WMs = Ok Datatypes.tt -> In (l, x) WMs -> times_eq ref (u_t (l_w x)) = Ok true.
Proof.
  induction WMs as [|[l0 x0] WMs IH]; intros l x H HI; [destruct HI|]. cbn [check_times] in H.
  apply rbind_inv in H as (e & E & H). destruct e; [|discriminate]. destruct HI as [HI|HI]; [injection HI as -> ->; auto|eauto].
Qed.
Definition adjusted tf mass radius (p q : string * loaded) : Prop := fst q = fst p /\ adjust tf mass radius (snd p) = Ok (snd q).
Lemma assoc_adjusted : forall tf mass radius WMs WMs' l, Forall2 (adjusted tf mass radius) WMs WMs' ->
  match assoc l WMs with
  | Some x => exists y, assoc l WMs' = Some y /\ adjust tf mass radius x = Ok y
  | None => assoc l WMs' = None
  end.
Proof.
  intros tf mass radius WMs WMs' l H. induction H as [|[a x] [b y] WMs WMs' HP H IH]; [reflexivity|].
  destruct HP as [E1 E2]. cbn in E1, E2. subst b. cbn [assoc]. destruct (String.eqb a l); eauto.
Qed.
Lemma assoc_In : forall A l (d : list (string * A)) v, assoc l d = Some v -> In (l, v) d.
Proof.
  induction d as [|[k w] d IH]; intros v H; [discriminate|]. cbn [assoc] in H.
  destruct (String.eqb_spec k l) as [->|]; [injection H as ->; left; auto|right; auto].
Qed.

Definition weyl (a : abd) (n : nat) : list (list C) := nth n [a_psi0 a; a_psi1 a; a_psi2 a; a_psi3 a; a_psi4 a] [].
Definition weyl_label (n : nat) : string := nth n ["Psi0"; "Psi1"; "Psi2"; "Psi3"; "Psi4"]%string ""%string.
Definition strain_entry (WMs : list (string * loaded)) : option loaded :=
  match assoc "h" WMs with Some x => Some x | None => assoc "Strain" WMs end.

Lemma assemble_inv : forall tf convention mass radius WMs a, assemble tf convention mass radius WMs = Ok a ->
  exists l0 ref WMs1 WMs' ref' cv s, WMs = (l0, ref) :: WMs1 /\
    check_times (u_t (l_w ref)) WMs = Ok Datatypes.tt /\
    Forall2 (adjusted tf mass radius) WMs WMs' /\ adjust tf mass radius ref = Ok ref' /\
    conversion_factor convention = Ok cv /\ a_t a = u_t (l_w ref') /\ a_L a = l_max ref' /\
    (forall n, (n < 5)%nat -> field cv n (length (a_t a)) (a_L a) (assoc (weyl_label n) WMs') = Ok (weyl a n)) /\
    field cv 5 (length (a_t a)) (a_L a) (strain_entry WMs') = Ok s /\
    a_sigma a = match strain_entry WMs' with None => s | Some _ => map (bar_row 2 (a_L a)) s end.
Proof.
  intros tf convention mass radius WMs a H. unfold assemble in H. destruct WMs as [|[l0 ref] WMs1]; [discriminate|].
  apply rbind_inv in H as ([] & Ec & H). apply rbind_inv in H as (WMs' & Ea & H).
  apply map_res_inv in Ea.
  assert (F : Forall2 (adjusted tf mass radius) ((l0, ref) :: WMs1) WMs').
  { clear - Ea. induction Ea as [|p q l l' E _ IH]; constructor; auto. apply rbind_inv in E as (y & E & E2). injection E2 as <-. split; auto. }
  destruct WMs' as [|[l0' ref'] WMs1']; [discriminate|]. clear Ea.
  apply rbind_inv in H as (cv & Ecv & H).
  apply rbind_inv in H as (p4 & E4 & H). apply rbind_inv in H as (p3 & E3 & H). apply rbind_inv in H as (p2 & E2 & H).
  apply rbind_inv in H as (p1 & E1 & H). apply rbind_inv in H as (p0 & E0 & H). apply rbind_inv in H as (s & Es & H).
  exists l0, ref, WMs1, ((l0', ref') :: WMs1'), ref', cv, s.
  assert (Hinj : forall u v : abd, Ok u = Ok v -> v = u) by congruence.
  assert (Ha : a = mkabd (u_t (l_w ref')) (l_max ref') p0 p1 p2 p3 p4
     (match strain_entry ((l0', ref') :: WMs1') with None => s | Some _ => map (bar_row 2 (l_max ref')) s end)) by (apply Hinj; exact H).
  subst a. cbn [a_t a_L a_sigma]. split; auto. split; auto. split; auto. split.
  { inversion F as [|? ? ? ? [_ X]]; auto. }
  split; auto. split; auto. split; auto. split; [|split; auto].
  intros n Hn. do 5 (destruct n as [|n]; [assumption|]). lia.
Qed.

Lemma map_res_nth : forall A B (f : A -> res B) l ys da db k, map_res f l = Ok ys -> (k < length l)%nat ->
  length ys = length l /\ f (nth k l da) = Ok (nth k ys db).
Proof.
  intros A B f l ys da db k H Hk. apply map_res_inv in H. split; [symmetry; eapply Forall2_len; eauto|].
  revert k Hk. induction H as [|x y l ys E _ IH]; intros k Hk; [cbn in Hk; lia|]. destruct k; cbn; auto. apply IH. cbn in Hk. lia.
Qed.

(** A field holds the data of [x] (divided by its unit, times [f]) at the samples [Ind]. *)
Definition holds (mass : option R) (L : Z) (Ind : list nat) (f : R) (o : option loaded) (rows : list (list C)) : Prop :=
  length rows = length Ind /\
  forall k, (k < length Ind)%nat ->
    match o with
    | None => length (nth k rows []) = length (LM_range 0 L) /\ forall l m, row_modes 0 L (nth k rows []) l m = C0
    | Some x => l_max x = L -> length (nth k rows []) = length (LM_range 0 L) /\ forall l m,
        row_modes 0 L (nth k rows []) l m = Cscale (f / data_unit mass x) (row_modes (l_min x) L (nth (nth k Ind 0%nat) (u_data (l_w x)) []) l m)
    end.

Lemma field_absent : forall mass cv i L Ind f rows, field cv i (length Ind) L None = Ok rows -> holds mass L Ind f None rows.
Proof.
  intros mass cv i L Ind f rows H. cbn [field] in H. injection H as <-. unfold zeros2. split; [apply repeat_length|].
  intros k Hk.
  assert (Hz : nth k (repeat (repeat C0 (length (LM_range 0 L))) (length Ind)) [] = repeat C0 (length (LM_range 0 L))).
  { rewrite nth_indep with (d' := repeat C0 (length (LM_range 0 L))) by (rewrite repeat_length; auto). apply nth_repeat. }
  rewrite Hz. split; [apply repeat_length|]. intros l m. unfold row_modes. destruct (_ && _)%bool; auto. apply nth_repeat.
Qed.
Lemma field_present : forall cv i L Ind x y rows mass, valid x ->
  (forall j, In j Ind -> (j < length (u_t (l_w x)))%nat) ->
  l_min y = l_min x -> u_data (l_w y) = map (fun j => map (Cscale (/ data_unit mass x)) (nth j (u_data (l_w x)) [])) Ind ->
  field cv i (length Ind) L (Some y) = Ok rows -> holds mass L Ind (nth i cv 0) (Some x) rows.
Proof.
  intros cv i L Ind x y rows mass (Hl & Hlen & Hrow) HI Emin Ed H. cbn [field] in H. rewrite Emin, Ed in H.
  unfold fill_rows in H. rewrite !map_length, Nat.eqb_refl in H. cbn [rbind] in H. split.
  { apply map_res_inv in H. apply Forall2_len in H. rewrite !map_length in H. auto. }
  intros k Hk HL.
  destruct (map_res_nth _ _ _ _ _ (map (Cscale (nth i cv 0)) (map (Cscale (/ data_unit mass x)) (nth 0%nat (u_data (l_w x)) []))) [] k H) as [_ E];
    [rewrite !map_length; auto|].
  rewrite map_nth in E. rewrite map_nth with (f := fun j => map (Cscale (/ data_unit mass x)) (nth j (u_data (l_w x)) [])) in E.
  set (row := nth (nth k Ind 0%nat) (u_data (l_w x)) []) in *.
  assert (Hr : length row = length (LM_range (l_min x) (l_max x))).
  { apply Hrow. apply nth_In. rewrite Hlen. apply HI. apply nth_In. auto. }
  rewrite map_map in E.
  rewrite (map_ext _ (Cscale (nth i cv 0 / data_unit mass x))) in E by (intros c; apply C_eq; cbn; unfold Rdiv; ring).
  rewrite <- HL in *. apply fill_row_modes in E; auto.
Qed.

(** ** Main statement *)
Lemma spec_indices_range : forall y Ind, spec_monotonic_indices y = Ok Ind -> Ind <> [] /\ forall j, In j Ind -> (j < length y)%nat.
Proof.
  intros y Ind H. destruct (C10_monotonic_indices y) as (idx & E & Hhd & _ & Hr & _).
  - intros ->. discriminate.
  - assert (idx = Ind) by congruence. subst. split; auto. intros ->. discriminate.
Qed.
Lemma radius_unique : forall tf radius r r', radius_ok tf radius r -> radius_ok tf radius r' -> r = r'.
Proof. intros tf [[s|]|] r r' H H'; cbn in *; try contradiction; congruence. Qed.

Theorem C61_assembled : forall to_float convention mass radius WMs a, good_mass mass ->
  (forall l x, In (l, x) WMs -> valid x) -> assemble to_float convention mass radius WMs = Ok a ->
  (convention = "moreschi-boyle" \/ convention = "spec")%string /\
  exists l0 ref Ind r s, hd_error WMs = Some (l0, ref) /\ spec_monotonic_indices (u_t (l_w ref)) = Ok Ind /\
    radius_ok to_float radius r /\ a_L a = l_max ref /\
    a_t a = map (fun i => new_time mass r ref (nth i (u_t (l_w ref)) 0)) Ind /\
    (forall n, (n < 5)%nat -> holds mass (a_L a) Ind (weyl_factor convention n) (assoc (weyl_label n) WMs) (weyl a n)) /\
    holds mass (a_L a) Ind (strain_factor convention) (strain_entry WMs) s /\ length (a_sigma a) = length Ind /\
    (forall k, (k < length Ind)%nat -> forall l m,
       row_modes 0 (a_L a) (nth k (a_sigma a) []) l m = fbar 2 (row_modes 0 (a_L a) (nth k s [])) l m).
Proof.
  intros tf convention mass radius WMs a HM HV H.
  apply assemble_inv in H as (l0 & ref & WMs1 & WMs' & ref' & cv & s & EW & Ec & F & Er & Ecv & Et & EL & Hw & Hs & Esig).
  apply factors in Ecv as (Hconv & Hcv & Hcv5). split; auto.
  assert (Vref : valid ref) by (apply (HV l0); rewrite EW; left; auto).
  destruct (adjust_spec _ _ _ _ _ HM (proj1 (proj2 Vref)) Er) as (r & Ind & Hr & EI & _ & EmaxR & EtR & _).
  destruct (spec_indices_range _ _ EI) as [HIne HIr].
  exists l0, ref, Ind, r, s. split; [rewrite EW; auto|]. split; auto. split; auto. split; [congruence|]. split; [congruence|].
  assert (ET : length (a_t a) = length Ind) by (rewrite Et, EtR; apply map_length). rewrite ET in *.
  assert (G : forall i l, holds mass (a_L a) Ind (nth i cv 0) (assoc l WMs) (match field cv i (length Ind) (a_L a) (assoc l WMs') with Ok q => q | _ => [] end)
             \/ exists e, field cv i (length Ind) (a_L a) (assoc l WMs') = Err e).
  { intros i l. destruct (field cv i (length Ind) (a_L a) (assoc l WMs')) as [rows|e] eqn:Ef; [left|right; eauto].
    pose proof (assoc_adjusted _ _ _ _ _ l F) as A. destruct (assoc l WMs) as [x|] eqn:Ex.
    - destruct A as (y & Ey & Ay). apply assoc_In in Ex. assert (Vx := HV _ _ Ex).
      destruct (adjust_spec _ _ _ _ _ HM (proj1 (proj2 Vx)) Ay) as (r' & Ind' & _ & EI' & EminX & _ & _ & EdX).
      assert (Ind' = Ind).
      { destruct (times_eq_filtered (u_t (l_w ref)) (u_t (l_w x))) as [Q _].
        - eapply check_times_In; eauto.
        - intros X. rewrite X in EI. discriminate.
        - intros X. rewrite X in EI'. discriminate.
        - congruence. }
      subst Ind'. rewrite Ey in Ef. eapply field_present; eauto. apply spec_indices_range in EI'. tauto.
    - rewrite A in Ef. eapply field_absent; eauto. }
  split.
  { intros n Hn. destruct (G n (weyl_label n)) as [X|[e X]]; rewrite Hw in X by auto; [|discriminate]. rewrite Hcv in X by auto. exact X. }
  assert (HS : holds mass (a_L a) Ind (strain_factor convention) (strain_entry WMs) s).
  { rewrite <- Hcv5. unfold strain_entry in *.
    pose proof (assoc_adjusted _ _ _ _ _ "h"%string F) as A. destruct (assoc "h" WMs) as [x|] eqn:Eh.
    - destruct A as (y & Ey & _). rewrite Ey in Hs. destruct (G 5%nat "h"%string) as [X|[e X]]; rewrite Ey, Hs in X; [|discriminate].
      rewrite Eh in X. exact X.
    - rewrite A in Hs. destruct (G 5%nat "Strain"%string) as [X|[e X]]; rewrite Hs in X; [exact X|discriminate]. }
  split; auto. destruct HS as [Ls HS].
  assert (HL : (0 <= a_L a)%Z) by (rewrite EL, EmaxR; destruct Vref; lia).
  rewrite Esig. clear Esig Hs.
  assert (Hstrain : match strain_entry WMs' with None => strain_entry WMs = None | Some _ => True end).
  { unfold strain_entry. pose proof (assoc_adjusted _ _ _ _ _ "h"%string F) as A. pose proof (assoc_adjusted _ _ _ _ _ "Strain"%string F) as B.
    destruct (assoc "h" WMs) as [x|]; [destruct A as (y & Ey & _); rewrite Ey; auto|]. rewrite A.
    destruct (assoc "Strain" WMs) as [x|]; [destruct B as (y & Ey & _); rewrite Ey; auto|]. rewrite B. auto. }
  destruct (strain_entry WMs') as [xs|].
  - rewrite map_length. split; auto. intros k Hk l m. rewrite <- bar_row_modes by auto. f_equal.
    rewrite nth_indep with (d' := bar_row 2 (a_L a) []) by (rewrite map_length; lia). apply map_nth.
  - split; auto. intros k Hk l m. rewrite Hstrain in HS. destruct (HS k Hk) as [_ Z]. unfold fbar. rewrite !Z. unfold C0. apply C_eq; cbn; ring.
Qed.

(** ** From files *)
(** What the reader of the format returns for the file given under a label. *)
Definition file_of (load : string -> string -> string -> res loaded) (fmt : string) (kwargs : list (string * string)) (l : string) : option loaded :=
  match assoc l kwargs with Some f => match load fmt l f with Ok x => Some x | Err _ => None end | None => None end.

Lemma assoc_map_self : forall load fmt kwargs ls WMs, 
  map_res (fun l => let? f := get_key l kwargs in if mem fmt formats then let? x := load fmt l f in Ok (l, x) else Err ValueError) ls = Ok WMs ->
  map fst WMs = ls /\ (forall l, In l ls -> assoc l WMs = file_of load fmt kwargs l) /\ (forall l, ~ In l ls -> assoc l WMs = None).
Proof.
  intros load fmt kwargs ls WMs H. apply map_res_inv in H. induction H as [|l0 [l1 x1] ls WMs E _ IH].
  { repeat split; auto. intros l []. }
  apply rbind_inv in E as (f & Ef & E). destruct (mem fmt formats); [|discriminate]. apply rbind_inv in E as (x & Ex & E).
  injection E as -> ->. destruct IH as (IH1 & IH2 & IH3). cbn [map fst]. split; [congruence|]. split.
  - intros l Hl. cbn [assoc]. destruct (String.eqb_spec l1 l) as [<-|N].
    + unfold get_key in Ef. unfold file_of. destruct (assoc l1 kwargs); [|discriminate]. injection Ef as ->. rewrite Ex. reflexivity.
    + apply IH2. destruct Hl; [contradiction|auto].
  - intros l Hl. cbn [assoc]. destruct (String.eqb_spec l1 l) as [<-|N]; [exfalso; apply Hl; left; auto|]. apply IH3. intros X. apply Hl. right. auto.
Qed.
Lemma load_all_spec : forall load fmt kwargs WMs, load_all load fmt kwargs = Ok WMs ->
  map fst WMs = given_labels kwargs /\ (forall l, In l labels -> assoc l WMs = file_of load fmt kwargs l) /\ (forall l, ~ In l labels -> assoc l WMs = None).
Proof.
  intros load fmt kwargs WMs H. apply assoc_map_self in H as (H1 & H2 & H3). split; auto. split.
  - intros l Hl. destruct (assoc l kwargs) as [f|] eqn:E.
    + apply H2. unfold given_labels. apply filter_In. rewrite E. auto.
    + unfold file_of. rewrite E. apply H3. unfold given_labels. rewrite filter_In, E. intros [_ X]. discriminate.
  - intros l Hl. apply H3. unfold given_labels. rewrite filter_In. tauto.
Qed.
Lemma weyl_label_In : forall n, (n < 5)%nat -> In (weyl_label n) labels.
Proof. intros n Hn. do 5 (destruct n as [|n]; [cbn; tauto|]). lia. Qed.
Lemma NoDup_labels : NoDup labels.
Proof. repeat constructor; cbn; intuition discriminate. Qed.
Lemma In_assoc : forall A (d : list (string * A)) l v, NoDup (map fst d) -> In (l, v) d -> assoc l d = Some v.
Proof.
  induction d as [|[k w] d IH]; intros l v HN HI; [destruct HI|]. cbn [map fst] in HN. inversion HN; subst. cbn [assoc].
  destruct HI as [HI|HI]; [injection HI as -> ->; rewrite String.eqb_refl; auto|].
  destruct (String.eqb_spec k l) as [->|]; [|auto]. exfalso. apply H1. apply in_map_iff. exists (l, v). auto.
Qed.
Lemma loaded_In : forall load fmt kwargs WMs l x, load_all load fmt kwargs = Ok WMs -> In (l, x) WMs -> In l labels /\ file_of load fmt kwargs l = Some x.
Proof.
  intros load fmt kwargs WMs l x H HI. apply load_all_spec in H as (H1 & H2 & H3).
  assert (Hl : In l labels).
  { assert (In l (given_labels kwargs)) by (rewrite <- H1; apply in_map_iff; exists (l, x); auto). apply filter_In in H. tauto. }
  split; auto. rewrite <- H2 by auto. apply In_assoc; auto. rewrite H1. apply NoDup_filter, NoDup_labels.
Qed.

(** The object built from files: its times are those of the first file given (in the order Psi4, ..., Psi0, h)
    that form a monotonic sequence, in units of the mass; each Weyl scalar and the shear hold the data of
    the corresponding file at those times, and are zero without a file. *)
Theorem C61_fields : forall load to_float fmt convention mass kwargs a, good_mass mass ->
  (forall l x, In l labels -> file_of load fmt kwargs l = Some x -> valid x) ->
  create load to_float fmt convention mass kwargs = Ok a ->
  exists l0 ref Ind, hd_error (given_labels kwargs) = Some l0 /\ file_of load fmt kwargs l0 = Some ref /\
    spec_monotonic_indices (u_t (l_w ref)) = Ok Ind /\ a_L a = l_max ref /\
    a_t a = map (fun i => nth i (u_t (l_w ref)) 0 / time_unit mass ref) Ind /\
    (forall n, (n < 5)%nat -> holds mass (a_L a) Ind (weyl_factor convention n) (file_of load fmt kwargs (weyl_label n)) (weyl a n)) /\
    length (a_sigma a) = length Ind /\
    forall k, (k < length Ind)%nat ->
      match file_of load fmt kwargs "h" with
      | None => forall l m, row_modes 0 (a_L a) (nth k (a_sigma a) []) l m = C0
      | Some x => l_max x = a_L a -> forall l m, row_modes 0 (a_L a) (nth k (a_sigma a) []) l m =
          Cscale (strain_factor convention / data_unit mass x) (fbar 2 (row_modes (l_min x) (a_L a) (nth (nth k Ind 0%nat) (u_data (l_w x)) [])) l m)
      end.
Proof.
  intros load tf fmt convention mass kwargs a HM HV H. unfold create in H. apply rbind_inv in H as (WMs & EW & H).
  apply C61_assembled in H; auto.
  2: { intros l x HI. destruct (loaded_In _ _ _ _ _ _ EW HI). eauto. }
  destruct H as (_ & l0 & ref & Ind & r & s & Eh & EI & Hr & EL & Et & Hw & [_ Hs] & Ls & Hsig). cbn in Hr. subst r.
  destruct WMs as [|q WMs1]; [discriminate|]. injection Eh as ->.
  assert (HI0 := loaded_In _ _ _ _ _ _ EW (or_introl eq_refl)).
  pose proof (load_all_spec _ _ _ _ EW) as (H1 & H2 & H3).
  exists l0, ref, Ind. split; [rewrite <- H1; reflexivity|]. split; [tauto|]. split; auto. split; auto. split.
  { rewrite Et. apply map_ext. intros. unfold new_time. ring. }
  split. { intros n Hn. rewrite <- H2 by (apply weyl_label_In; auto). auto. }
  split; auto. intros k Hk. specialize (Hs k Hk). specialize (Hsig k Hk).
  assert (Es : strain_entry ((l0, ref) :: WMs1) = file_of load fmt kwargs "h").
  { unfold strain_entry. rewrite H2 by (cbn; tauto). destruct (file_of load fmt kwargs "h"); auto. apply H3. cbn. intuition discriminate. }
  rewrite Es in Hs. destruct (file_of load fmt kwargs "h") as [x|].
  - intros HL l m. rewrite Hsig. unfold fbar. destruct (Hs HL) as [_ Z]. rewrite Z. apply C_eq; cbn; ring.
  - intros l m. rewrite Hsig. unfold fbar. destruct Hs as [_ Z]. rewrite Z. unfold C0. apply C_eq; cbn; ring.
Qed.

(** ** The strain read back *)
Theorem C61_strain : forall load to_float fmt convention mass kwargs a x, good_mass mass ->
  (forall l x, In l labels -> file_of load fmt kwargs l = Some x -> valid x) ->
  create load to_float fmt convention mass kwargs = Ok a ->
  file_of load fmt kwargs "h" = Some x -> l_max x = a_L a ->
  exists Ind, spec_monotonic_indices (u_t (l_w x)) = Ok Ind /\ length (strain_of a) = length Ind /\
  forall k l m, (k < length Ind)%nat -> (2 <= l)%Z ->
    row_modes 2 (a_L a) (nth k (strain_of a) []) l m =
    Cscale (2 * strain_factor convention / data_unit mass x) (row_modes (l_min x) (a_L a) (nth (nth k Ind 0%nat) (u_data (l_w x)) []) l m).
Proof.
  intros load tf fmt convention mass kwargs a x HM HV H Hx HL.
  pose proof H as H0. apply C61_fields in H0; auto. destruct H0 as (l0 & ref & Ind & Hl0 & Href & EI & EL & _ & _ & Ls & Hsig).
  assert (EIx : spec_monotonic_indices (u_t (l_w x)) = Ok Ind).
  { unfold create in H. apply rbind_inv in H as (WMs & EW & H).
    apply assemble_inv in H as (l1 & ref1 & WMs1 & WMs' & ref' & cv & s & EWs & Ec & F & Er & _).
    pose proof (load_all_spec _ _ _ _ EW) as (H1 & H2 & H3).
    assert (Hx2 : assoc "h" WMs = Some x) by (rewrite H2; [auto|cbn; tauto]).
    assert (ref1 = ref).
    { rewrite EWs in H1. cbn [map fst] in H1. rewrite <- H1 in Hl0. cbn [hd_error] in Hl0. injection Hl0 as ->.
      assert (HI : In (l0, ref1) WMs) by (rewrite EWs; left; auto). destruct (loaded_In _ _ _ _ _ _ EW HI). congruence. }
    subst ref1. pose proof (assoc_adjusted _ _ _ _ _ "h"%string F) as A. rewrite Hx2 in A. destruct A as (y & _ & Ay).
    apply assoc_In in Hx2. assert (Vx : valid x) by (apply (HV "h"%string); [cbn; tauto|auto]).
    destruct (adjust_spec _ _ _ _ _ HM (proj1 (proj2 Vx)) Ay) as (r' & Ind' & _ & EI' & _).
    destruct (times_eq_filtered (u_t (l_w ref)) (u_t (l_w x))) as [Q _].
    - eapply check_times_In; eauto.
    - intros X. rewrite X in EI. discriminate.
    - intros X. rewrite X in EI'. discriminate.
    - congruence. }
  exists Ind. split; auto. unfold strain_of. split; [rewrite map_length; auto|].
  intros k l m Hk Hl. specialize (Hsig k Hk). rewrite Hx in Hsig. specialize (Hsig HL).
  set (f := row_modes (l_min x) (a_L a) (nth (nth k Ind 0%nat) (u_data (l_w x)) [])) in *.
  rewrite nth_indep with (d' := (fun r => skipn 4 (map (Cscale 2) (bar_row 2 (a_L a) r))) []) by (rewrite map_length; lia).
  rewrite (map_nth (fun r => skipn 4 (map (Cscale 2) (bar_row 2 (a_L a) r)))).
  set (row := nth k (a_sigma a) []) in *.
  assert (HL0 : (0 <= a_L a)%Z) by (rewrite <- HL; destruct (HV "h"%string x) as [X _]; [cbn; tauto|auto|lia]).
  assert (E : row_modes 2 (a_L a) (skipn 4 (map (Cscale 2) (bar_row 2 (a_L a) row))) l m = Cscale 2 (row_modes 0 (a_L a) (bar_row 2 (a_L a) row) l m)).
  { destruct (Z_le_dec l (a_L a)); [destruct (Z_le_dec (- l) m); [destruct (Z_le_dec m l)|]|];
      try (rewrite !row_modes_out by lia; unfold C0; apply C_eq; cbn; ring).
    rewrite !row_modes_in by lia. rewrite <- (map_nth (Cscale 2)).
    replace (Cscale 2 C0) with C0 by (unfold C0; apply C_eq; cbn; ring).
    replace (Z.to_nat (LM_index l m 0)) with (4 + Z.to_nat (LM_index l m 2))%nat by (unfold LM_index; nia).
    set (big := map (Cscale 2) (bar_row 2 (a_L a) row)). rewrite <- (firstn_skipn 4 big) at 2.
    assert (length big = length (LM_range 0 (a_L a))) by (unfold big; rewrite map_length; apply bar_row_length).
    pose proof (LM_range_length 0 (a_L a) ltac:(lia) ltac:(lia)).
    rewrite app_nth2; rewrite firstn_length_le by nia; [f_equal; lia|lia]. }
  rewrite E, bar_row_modes by auto. unfold fbar at 1. rewrite Hsig. unfold fbar. rewrite Z.opp_involutive.
  assert (Hsg : sgn (2 + m) * sgn (2 + - m) = 1).
  { rewrite <- sgn_add. replace (2 + m + (2 + - m))%Z with 4%Z by ring. reflexivity. }
  transitivity (Cscale (2 * (strain_factor convention / data_unit mass x) * (sgn (2 + m) * sgn (2 + - m))) (f l m)).
  - apply C_eq; cbn; ring.
  - rewrite Hsg. apply C_eq; cbn; unfold Rdiv; ring.
Qed.

(** In the SpEC convention the strain of the object is that of the file, in units of the mass. *)
Theorem C61_spec_strain : forall load to_float fmt mass kwargs a x, good_mass mass ->
  (forall l x, In l labels -> file_of load fmt kwargs l = Some x -> valid x) ->
  create load to_float fmt "spec" mass kwargs = Ok a ->
  file_of load fmt kwargs "h" = Some x -> l_max x = a_L a ->
  exists Ind, spec_monotonic_indices (u_t (l_w x)) = Ok Ind /\ length (strain_of a) = length Ind /\
  forall k l m, (k < length Ind)%nat -> (2 <= l)%Z ->
    row_modes 2 (a_L a) (nth k (strain_of a) []) l m =
    Cscale (/ data_unit mass x) (row_modes (l_min x) (a_L a) (nth (nth k Ind 0%nat) (u_data (l_w x)) []) l m).
Proof.
  intros load tf fmt mass kwargs a x HM HV H Hx HL. destruct (C61_strain load tf fmt "spec"%string mass kwargs a x HM HV H Hx HL) as (Ind & A & B & D).
  exists Ind. split; auto. split; auto. intros k l m Hk Hl. rewrite D by auto. f_equal.
  change (strain_factor "spec") with (/ 2). unfold Rdiv. lra.
Qed.
(** ... but not in the Moreschi-Boyle convention, where the strain of the file is taken for the (conjugate) shear. *)
Theorem C61_moreschi_boyle_strain_refuted : forall load to_float fmt mass kwargs a x, good_mass mass ->
  (forall l x, In l labels -> file_of load fmt kwargs l = Some x -> valid x) ->
  create load to_float fmt "moreschi-boyle" mass kwargs = Ok a ->
  file_of load fmt kwargs "h" = Some x -> l_max x = a_L a ->
  exists Ind, spec_monotonic_indices (u_t (l_w x)) = Ok Ind /\
  forall k l m, (k < length Ind)%nat -> (2 <= l)%Z ->
    row_modes 2 (a_L a) (nth k (strain_of a) []) l m =
    Cscale (2 / data_unit mass x) (row_modes (l_min x) (a_L a) (nth (nth k Ind 0%nat) (u_data (l_w x)) []) l m).
Proof.
  intros load tf fmt mass kwargs a x HM HV H Hx HL. destruct (C61_strain load tf fmt "moreschi-boyle"%string mass kwargs a x HM HV H Hx HL) as (Ind & A & B & D).
  exists Ind. split; auto. intros k l m Hk Hl. rewrite D by auto. f_equal. change (strain_factor "moreschi-boyle") with 1. unfold Rdiv. lra.
Qed.

(** ** Consistency of the files *)
(** All files have the ell_max of the first, except files with the single mode (0, 0). *)
Theorem C61_ell_max : forall load to_float fmt convention mass kwargs a l x, good_mass mass ->
  (forall l x, In l labels -> file_of load fmt kwargs l = Some x -> valid x) ->
  create load to_float fmt convention mass kwargs = Ok a ->
  In l labels -> file_of load fmt kwargs l = Some x ->
  l_max x = a_L a \/ (l_min x = 0 /\ l_max x = 0)%Z.
Proof.
  intros load tf fmt convention mass kwargs a l x HM HV H Hl Hx. unfold create in H. apply rbind_inv in H as (WMs & EW & H).
  apply assemble_inv in H as (l1 & ref1 & WMs1 & WMs' & ref' & cv & s & EWs & Ec & F & Er & _ & Et & EL & Hw & Hs & _).
  pose proof (load_all_spec _ _ _ _ EW) as (H1 & H2 & H3).
  pose proof (assoc_adjusted _ _ _ _ _ l F) as A. rewrite H2, Hx in A by auto. destruct A as (y & Ey & Ay).
  assert (Vx : valid x) by (apply (HV l); auto).
  destruct (adjust_spec _ _ _ _ _ HM (proj1 (proj2 Vx)) Ay) as (r' & Ind & _ & EI & Emin & Emax & _ & Ed).
  destruct (spec_indices_range _ _ EI) as [Hne HI].
  assert (exists i rows, field cv i (length (a_t a)) (a_L a) (Some y) = Ok rows) as (i & rows & Ef).
  { cbn in Hl. destruct Hl as [<-|[<-|[<-|[<-|[<-|[<-|[]]]]]]]; rewrite <- Ey.
    - exists 4%nat, (weyl a 4). apply (Hw 4%nat). lia.
    - exists 3%nat, (weyl a 3). apply (Hw 3%nat). lia.
    - exists 2%nat, (weyl a 2). apply (Hw 2%nat). lia.
    - exists 1%nat, (weyl a 1). apply (Hw 1%nat). lia.
    - exists 0%nat, (weyl a 0). apply (Hw 0%nat). lia.
    - exists 5%nat, s. unfold strain_entry in Hs. rewrite Ey in *. exact Hs. }
  cbn [field] in Ef. rewrite Emin, Ed in Ef. unfold fill_rows in Ef. apply rbind_inv in Ef as (rs & Ers & Ef).
  assert (Hrs : exists row out, length row = length (LM_range (l_min x) (l_max x)) /\
    fill_row (length (LM_range 0 (a_L a))) (Z.to_nat (LM_index (l_min x) (- l_min x) 0)) row = Ok out).
  { set (g := fun j => map (Cscale (nth i cv 0)) (map (Cscale (/ data_unit mass x)) (nth j (u_data (l_w x)) []))).
    assert (Hg : forall j, In j Ind -> length (g j) = length (LM_range (l_min x) (l_max x))).
    { intros j Hj. unfold g. rewrite !map_length. destruct Vx as (_ & V2 & V3). apply V3, nth_In. rewrite V2. auto. }
    rewrite map_map in Ers. fold g in Ers. destruct Ind as [|j0 Ind]; [contradiction|].
    destruct rs as [|r0 rs].
    - exfalso. destruct (_ =? _)%nat; [discriminate|]. cbn [map] in Ers. destruct (map g Ind); [|discriminate].
      assert (L1 : length (a_t a) = 0%nat) by (destruct (length (a_t a)); [auto|discriminate]).
      assert (VR : valid ref1).
      { assert (HIr : In (l1, ref1) WMs) by (rewrite EWs; left; auto). destruct (loaded_In _ _ _ _ _ _ EW HIr). eauto. }
      destruct (adjust_spec _ _ _ _ _ HM (proj1 (proj2 VR)) Er) as (r2 & Ind2 & _ & EI2 & _ & _ & Et2 & _).
      rewrite Et, Et2, map_length in L1. apply spec_indices_range in EI2 as [X _]. destruct Ind2; [auto|discriminate].
    - apply map_res_inv in Ef. inversion Ef as [|? out ? ? E0]; subst. exists r0, out. split; auto.
      destruct (_ =? _)%nat.
      + assert (r0 = g j0) by (cbn [map] in Ers; congruence). subst r0. apply Hg. left. auto.
      + cbn [map] in Ers. destruct (map g Ind); [|discriminate]. assert (r0 = g j0).
        { destruct (length (a_t a)); [discriminate|]. cbn [repeat] in Ers. congruence. }
        subst r0. apply Hg. left. auto. }
  destruct Hrs as (row & out & Hr & Eo). destruct Vx as ((V1 & V1') & _). rewrite LM_start in Eo by lia.
  assert (VL : (0 <= a_L a)%Z).
  { assert (HIr : In (l1, ref1) WMs) by (rewrite EWs; left; auto). destruct (loaded_In _ _ _ _ _ _ EW HIr) as [X1 X2].
    assert (VR : valid ref1) by eauto. destruct (adjust_spec _ _ _ _ _ HM (proj1 (proj2 VR)) Er) as (r2 & Ind2 & _ & _ & _ & Em2 & _).
    destruct VR as [VR _]. rewrite EL, Em2. lia. }
  pose proof (LM_range_length 0 (a_L a) ltac:(lia) ltac:(lia)) as E0.
  pose proof (LM_range_length (l_min x) (l_max x) ltac:(lia) ltac:(lia)) as Ea.
  unfold fill_row in Eo. destruct (Nat.eqb_spec (length row) (length (LM_range 0 (a_L a)) - Z.to_nat (l_min x ^ 2))) as [E|N].
  - left. rewrite Hr in E. nia.
  - right. destruct row as [|c [|c2 row]]; try discriminate. cbn in Hr. rewrite <- Hr in Ea. nia.
Qed.

(** ** When the call succeeds *)
Lemma map_res_all : forall A B (f : A -> res B) l, (forall x, In x l -> exists y, f x = Ok y) -> exists ys, map_res f l = Ok ys.
Proof.
  induction l as [|x l IH]; intros H; [eexists; reflexivity|]. destruct (H x (or_introl eq_refl)) as [y Ey].
  destruct IH as [ys Eys]; [intros z Hz; apply H; right; auto|]. exists (y :: ys). cbn [map_res]. rewrite Ey. cbn [rbind]. rewrite Eys. reflexivity.
Qed.
Lemma times_eq_refl : forall t, times_eq t t = Ok true.
Proof.
  intros t. unfold times_eq. rewrite Nat.eqb_refl. f_equal. induction t as [|x t IH]; auto. cbn. apply andb_true_iff. split; auto. apply Reqb_true. auto.
Qed.
Definition readable (mass : option R) (x : loaded) : Prop :=
  mass = None \/ u_m (l_w x) = true \/ extrapolated_type (u_type (l_w x)).

Lemma adjust_ok : forall tf mass x, good_mass mass -> valid x -> readable mass x -> u_t (l_w x) <> [] ->
  exists y, adjust tf mass None x = Ok y.
Proof.
  intros tf mass x HM (V1 & V2 & V3) HR Hne. unfold adjust.
  assert (exists w, (match mass with Some M => make_variable_dimensionless (l_w x) M | None => Ok (l_w x) end) = Ok w) as [w Ew].
  { destruct mass as [M|]; [|eauto]. unfold make_variable_dimensionless. destruct (u_m (l_w x)) eqn:Em; [eauto|].
    destruct HR as [X|[X|X]]; try congruence. unfold extrapolated_type in X. cbn [In] in X.
    destruct (existsb (Z.eqb (u_type (l_w x))) [psi4; psi3; psi2; psi1; psi0]) eqn:E; [cbn [rbind]; eauto|].
    destruct X as [X|[X|X]]; [rewrite <- X; cbn; eauto|rewrite <- X; cbn; eauto|exfalso].
    assert (existsb (Z.eqb (u_type (l_w x))) [psi4; psi3; psi2; psi1; psi0] = true); [|congruence].
    apply existsb_exists. exists (u_type (l_w x)). split; [|apply Z.eqb_refl]. cbn [In]. tauto. }
  rewrite Ew. cbn [rbind].
  assert (Hw : length (u_t w) = length (u_t (l_w x)) /\ length (u_data w) = length (u_data (l_w x))).
  { destruct mass as [M|]; [|injection Ew as <-; auto]. apply dimensionless_spec in Ew; [|cbn in HM; lra].
    destruct Ew as (_ & -> & ->). rewrite !map_length. auto. }
  destruct (u_t w) as [|t0 t] eqn:Et. { exfalso. destruct (u_t (l_w x)); [auto|cbn in Hw; lia]. }
  cbn [rbind].
  destruct (C10_flags_are_records (t0 :: t)) as (m & Em & Lm & _); [discriminate|].
  rewrite Em. cbn [rbind]. rewrite Lm. destruct (Nat.eqb_spec (length (t0 :: t)) (length (u_data w))) as [|N]; [eauto|]. exfalso. apply N. lia.
Qed.

(** Valid files of the accepted types with the same non-empty times and the same ell_max are accepted. *)
Theorem C61_accepts : forall load to_float fmt convention mass kwargs t L, good_mass mass ->
  mem fmt formats = true -> (convention = "moreschi-boyle" \/ convention = "spec")%string ->
  given_labels kwargs <> [] -> t <> [] ->
  (forall l f, In l labels -> assoc l kwargs = Some f ->
     exists x, load fmt l f = Ok x /\ valid x /\ readable mass x /\ u_t (l_w x) = t /\ l_max x = L) ->
  exists a, create load to_float fmt convention mass kwargs = Ok a.
Proof.
  intros load tf fmt convention mass kwargs t L HM Hfmt Hconv Hne Ht HF. unfold create, load_all.
  destruct (map_res_all _ _ (fun l => let? f := get_key l kwargs in if mem fmt formats then let? x := load fmt l f in Ok (l, x) else Err ValueError) (given_labels kwargs)) as [WMs EW].
  { intros l Hl. unfold given_labels in Hl. apply filter_In in Hl as [Hl Hf]. unfold get_key.
    destruct (assoc l kwargs) as [f|] eqn:E; [|discriminate]. cbn [rbind]. rewrite Hfmt.
    destruct (HF l f Hl E) as (x & Ex & _). rewrite Ex. cbn [rbind]. eauto. }
  rewrite EW. cbn [rbind].
  assert (HW : forall l x, In (l, x) WMs -> valid x /\ readable mass x /\ u_t (l_w x) = t /\ l_max x = L).
  { intros l x HI. destruct (loaded_In load fmt kwargs WMs l x EW HI) as [Hl Hx]. unfold file_of in Hx.
    destruct (assoc l kwargs) as [f|] eqn:E; [|discriminate]. destruct (HF l f Hl E) as (x' & Ex & P). rewrite Ex in Hx. injection Hx as ->. exact P. }
  assert (HWne : WMs <> []).
  { intros ->. apply load_all_spec in EW as (X & _). cbn in X. auto. }
  unfold assemble. destruct WMs as [|[l0 ref] WMs1] eqn:EWs; [contradiction|]. rewrite <- EWs in *. clear EW.
  assert (Href : In (l0, ref) WMs) by (rewrite EWs; left; auto).
  destruct (HW _ _ Href) as (Vr & Rr & Tr & Lr).
  assert (Ec : forall q, (forall p, In p q -> In p WMs) -> check_times (u_t (l_w ref)) q = Ok Datatypes.tt).
  { induction q as [|[l x] q IH]; intros Hq; auto. cbn [check_times]. destruct (HW l x (Hq _ (or_introl eq_refl))) as (_ & _ & Tx & _).
    rewrite Tr, Tx, times_eq_refl. cbn [rbind]. rewrite <- Tr. apply IH. intros p Hp. apply Hq. right. auto. }
  rewrite Ec by auto. cbn [rbind].
  destruct (map_res_all _ _ (fun p => let? x := adjust tf mass None (snd p) in Ok (fst p, x)) WMs) as [WMs' EA].
  { intros [l x] HI. cbn [fst snd]. destruct (HW l x HI) as (Vx & Rx & Tx & _). destruct (adjust_ok tf mass x) as [y Ey]; auto; [congruence|].
    rewrite Ey. cbn [rbind]. eauto. }
  rewrite EA. cbn [rbind]. apply map_res_inv in EA.
  assert (F : Forall2 (adjusted tf mass None) WMs WMs').
  { clear - EA. induction EA as [|p q l l' E _ IH]; constructor; auto. apply rbind_inv in E as (y & E & E2). injection E2 as <-. split; auto. }
  assert (HW' : forall l y, In (l, y) WMs' -> exists x Ind, valid x /\ l_max y = L /\ l_min y = l_min x /\ l_max x = L /\
       length (u_data (l_w y)) = length (u_t (l_w y)) /\ spec_monotonic_indices t = Ok Ind /\ length (u_t (l_w y)) = length Ind /\
       forall r, In r (u_data (l_w y)) -> length r = length (LM_range (l_min x) L)).
  { intros l y HI. clear - F HI HW HM. assert (exists p, In p WMs /\ adjusted tf mass None p (l, y)) as ([l' x] & HI' & E1 & E2).
    { induction F as [|p q P Q R F IH]; [destruct HI|]. destruct HI as [->|HI]; [exists p; split; [left|]; auto|].
      destruct IH as (p' & A & B); auto. { intros l1 x1 X. apply (HW l1). right. auto. } exists p'. split; [right|]; auto. }
    cbn [fst snd] in E1, E2. destruct (HW l' x HI') as (Vx & Rx & Tx & Lx).
    destruct (adjust_spec _ _ _ _ _ HM (proj1 (proj2 Vx)) E2) as (r & Ind & _ & EI & Emin & Emax & Et & Ed).
    exists x, Ind. split; auto. split; [congruence|]. split; auto. split; auto. rewrite Et, Ed, !map_length. split; auto. split; [congruence|]. split; auto.
    intros r0 Hr0. apply in_map_iff in Hr0 as (j & <- & Hj). rewrite map_length. destruct Vx as (V1 & V2 & V3). rewrite <- Lx. apply V3, nth_In.
    rewrite V2. eapply spec_indices_range; eauto. }
  inversion F as [X1|p q P Q [_ Er] F2 X1 X2]; [congruence|]. subst WMs'. destruct q as [l0' ref']. rewrite EWs in X1. injection X1 as -> _.
  cbn [snd] in Er. destruct (HW' l0' ref' (or_introl eq_refl)) as (x0 & Ind & _ & L0 & _ & _ & _ & EI & LI & _).
  rewrite L0, LI.
  assert (exists cv, conversion_factor convention = Ok cv) as [cv Ecv] by (destruct Hconv as [-> | ->]; cbn; eauto).
  rewrite Ecv. cbn [rbind].
  assert (HFi : forall i o, match o with None => True | Some y => exists l, In (l, y) ((l0', ref') :: Q) end -> exists rows, field cv i (length Ind) L o = Ok rows).
  { intros i [y|] Hy; [|cbn; eauto]. destruct Hy as [l Hy]. destruct (HW' l y Hy) as (x & Ind' & Vx & _ & Emin & Lx & Hd & EI' & LI' & Hrow).
    assert (Ind' = Ind) by congruence. subst Ind'. cbn [field]. unfold fill_rows. rewrite map_length, Hd, LI', Nat.eqb_refl. cbn [rbind].
    apply map_res_all. intros r Hr. apply in_map_iff in Hr as (r0 & <- & Hr0). unfold fill_row. rewrite map_length, Hrow by auto.
    destruct Vx as ((V1 & V1') & _). rewrite Emin, LM_start by lia.
    pose proof (LM_range_length 0 L ltac:(lia) ltac:(lia)). pose proof (LM_range_length (l_min x) L ltac:(lia) ltac:(lia)).
    destruct (Nat.eqb_spec (length (LM_range (l_min x) L)) (length (LM_range 0 L) - Z.to_nat (l_min x ^ 2))) as [|N]; [eauto|exfalso; nia]. }
  assert (HFa : forall i l, exists rows, field cv i (length Ind) L (assoc l ((l0', ref') :: Q)) = Ok rows).
  { intros i l. apply HFi. destruct (assoc l ((l0', ref') :: Q)) as [y|] eqn:E; auto. exists l. apply assoc_In. auto. }
  destruct (HFa 4%nat "Psi4"%string) as [p4 E4]. destruct (HFa 3%nat "Psi3"%string) as [p3 E3]. destruct (HFa 2%nat "Psi2"%string) as [p2 E2].
  destruct (HFa 1%nat "Psi1"%string) as [p1 E1]. destruct (HFa 0%nat "Psi0"%string) as [p0 E0].
  destruct (HFi 5%nat (match assoc "h" ((l0', ref') :: Q) with Some x => Some x | None => assoc "Strain" ((l0', ref') :: Q) end)) as [s Es].
  { destruct (assoc "h" ((l0', ref') :: Q)) as [y|] eqn:E; [exists "h"%string; apply assoc_In; auto|].
    destruct (assoc "Strain" ((l0', ref') :: Q)) as [y|] eqn:E5; auto. exists "Strain"%string. apply assoc_In. auto. }
  rewrite E4. cbn [rbind]. rewrite E3. cbn [rbind]. rewrite E2. cbn [rbind]. rewrite E1. cbn [rbind]. rewrite E0. cbn [rbind]. rewrite Es. cbn [rbind]. eauto.
Qed.

(** ** Conventions *)
(** The equations for Weyl scalars and strain in the conventions of SpEC (spin weights 2 - n, and -2 for the strain). *)
Record spec_equations (K : Z -> Z -> Z -> Z -> Z -> Z -> Z -> R) (L : Z) (S : nat -> R -> modes) (hh hd hdd : R -> modes) : Prop := {
  se_0 : forall u l m, has_derivative (fun x => S 0%nat x l m) u
    (Cscale (- (1/2)) (eth 1 (S 1%nat u) l m) + Cscale (3/4) (multiply K L L 2 0 (fbar (-2) (hh u)) (S 2%nat u) l m))%C;
  se_1 : forall u l m, has_derivative (fun x => S 1%nat x l m) u
    (Cscale (- (1/2)) (eth 0 (S 2%nat u) l m) + Cscale (1/2) (multiply K L L 2 (-1) (fbar (-2) (hh u)) (S 3%nat u) l m))%C;
  se_2 : forall u l m, has_derivative (fun x => S 2%nat x l m) u
    (Cscale (- (1/2)) (eth (-1) (S 3%nat u) l m) + Cscale (1/4) (multiply K L L 2 (-2) (fbar (-2) (hh u)) (S 4%nat u) l m))%C;
  se_3 : forall u l m, S 3%nat u l m = Cscale (1/2) (eth (-2) (hd u) l m);
  se_4 : forall u l m, S 4%nat u l m = (- hdd u l m)%C;
  se_h : forall u l m, has_derivative (fun x => hh x l m) u (hd u l m);
  se_hd : forall u l m, has_derivative (fun x => hd x l m) u (hdd u l m) }.
(** What C61_fields says is stored for such data (in the factors of the specification above). *)
Definition stored_fields (S : nat -> R -> modes) (hh : R -> modes) (u : R) : bondi :=
  let f n := fscale (weyl_factor "spec" n) (S n u) in
  mkbondi (f 0%nat) (f 1%nat) (f 2%nat) (f 3%nat) (f 4%nat) (fscale (strain_factor "spec") (fbar 2 (hh u))).

Lemma hd_cscale : forall c f u d, has_derivative f u d -> has_derivative (fun x => Cscale c (f x)) u (Cscale c d).
Proof. intros c f u d [A B]. split; cbn; apply (derivable_pt_lim_scal (fun x => _)); assumption. Qed.
Lemma hd_conj : forall f u d, has_derivative f u d -> has_derivative (fun x => Conj (f x)) u (Conj d).
Proof. intros f u d [A B]. split; cbn; auto. apply (derivable_pt_lim_opp (fun x => _)). assumption. Qed.
Lemma hd_ext : forall f g u d, (forall x, f x = g x) -> has_derivative f u d -> has_derivative g u d.
Proof. intros f g u d H [A B]. split; eapply derivable_pt_lim_ext; try eassumption; intros; cbn; rewrite H; auto. Qed.
Lemma hd_cscale_iff : forall c f u d, c <> 0 -> (has_derivative (fun x => Cscale c (f x)) u (Cscale c d) <-> has_derivative f u d).
Proof.
  intros c f u d Hc. split; [|apply hd_cscale]. intros H. apply (hd_cscale (/ c)) in H.
  eapply hd_eq; [eapply hd_ext; [|exact H]|]; [intros x|]; apply C_eq; cbn; field; auto.
Qed.

Theorem C61_spec_equations : forall K L S hh hd hdd,
  bondi_equations K L (stored_fields S hh) (fun u => fscale (1/2) (fbar 2 (hd u))) (fun u => fscale (1/2) (fbar 2 (hdd u)))
  <-> spec_equations K L S hh hd hdd.
Proof.
  intros K L S hh hd hdd.
  assert (Hp : 0 < sqrt 2) by (apply sqrt_lt_R0; lra). assert (Hs : sqrt 2 * sqrt 2 = 2) by (apply sqrt_sqrt; lra).
  destruct (factors "spec" [2; - sqrt 2; 1; -1 / sqrt 2; 1 / 2; 1 / 2] eq_refl) as (_ & Hf & Hf5).
  pose proof (Hf 0%nat ltac:(lia)) as W0. pose proof (Hf 1%nat ltac:(lia)) as W1. pose proof (Hf 2%nat ltac:(lia)) as W2.
  pose proof (Hf 3%nat ltac:(lia)) as W3. pose proof (Hf 4%nat ltac:(lia)) as W4. cbn [nth] in W0, W1, W2, W3, W4, Hf5.
  assert (Hinv : / sqrt 2 = sqrt 2 / 2) by (apply Rmult_eq_reg_l with (sqrt 2); [rewrite Rinv_r by lra; lra|lra]).
  assert (Hm2 : forall f l m, fbar 2 f l m = fbar (-2) f l m).
  { intros f l m. unfold fbar. rewrite !sgn_add. reflexivity. }
  assert (Hbb : forall f l m, fbar 2 (fbar 2 f) l m = f l m) by (intros f l m; rewrite Hm2; apply (fbar_fbar 2)).
  assert (HM : forall a f g l m, multiply K L L 2 a (fbar 2 f) g l m = multiply K L L 2 a (fbar (-2) f) g l m).
  { intros. apply multiply_ext; auto. }
  assert (Hder : forall F G u, (forall l m, has_derivative (fun x => fscale (1/2) (fbar 2 (F x)) l m) u (fscale (1/2) (fbar 2 (G u)) l m))
                 <-> (forall l m, has_derivative (fun x => F x l m) u (G u l m))).
  { intros F G u. assert (Hone : forall s, sgn (2 + s) * sgn (2 + - s) = 1).
    { intros s. rewrite <- sgn_add. replace (2 + s + (2 + - s))%Z with 4%Z by ring. reflexivity. }
    split; intros H l m.
    - specialize (H l (- m)%Z). unfold fscale, fbar in H. apply (proj1 (hd_cscale_iff (1/2) _ u _ ltac:(lra))) in H.
      apply hd_conj, (hd_cscale (sgn (2 + m))) in H. rewrite !Z.opp_involutive in H. specialize (Hone m).
      eapply hd_eq; [eapply hd_ext; [|exact H]|].
      + intros x. cbv beta. rewrite ?Z.opp_involutive. destruct (F x l m) as [p q]. transitivity (Cscale (sgn (2 + m) * sgn (2 + - m)) (mkC p q)); [apply C_eq; cbn; ring|rewrite Hone; apply C_eq; cbn; ring].
      + destruct (G u l m) as [p q]. transitivity (Cscale (sgn (2 + m) * sgn (2 + - m)) (mkC p q)); [apply C_eq; cbn; ring|rewrite Hone; apply C_eq; cbn; ring].
    - unfold fscale, fbar. apply hd_cscale, hd_cscale, hd_conj, H. }
  unfold stored_fields. split; intros H.
  - destruct H as [E0 E1 E2 E3 E4 Es Ess]. cbn [b_psi0 b_psi1 b_psi2 b_psi3 b_psi4 b_sigma] in *.
    rewrite <- ?W0, <- ?W1, <- ?W2, <- ?W3, <- ?W4, <- ?Hf5 in *.
    constructor; intros u l m.
    + apply (hd_cscale_iff 2); [lra|]. eapply hd_eq; [exact (E0 u l m)|]. rewrite ?eth_scale, ?multiply_scale_l, ?multiply_scale_r, HM.
      unfold eth_GHP, fscale. rewrite Hinv. apply C_eq; cbn; field_simplify; rewrite ?Rpow_mult_distr; try replace (sqrt 2 ^ 2) with 2 by (cbn; lra); field.
    + apply (hd_cscale_iff (- sqrt 2)); [lra|]. eapply hd_eq; [exact (E1 u l m)|]. rewrite ?eth_scale, ?multiply_scale_l, ?multiply_scale_r, HM.
      unfold eth_GHP, fscale. unfold Rdiv. rewrite Hinv. apply C_eq; cbn; field.
    + eapply hd_eq; [eapply hd_ext; [|exact (E2 u l m)]|]. { intros x. unfold fscale. apply C_eq; cbn; ring. }
      rewrite ?eth_scale, ?multiply_scale_l, ?multiply_scale_r, HM.
      unfold eth_GHP, fscale. unfold Rdiv. rewrite Hinv. apply C_eq; cbn; field_simplify; try replace (sqrt 2 ^ 2) with 2 by (cbn; lra); field.
    + specialize (E3 u l m). rewrite (eth_ext (-2) _ (fscale (1/2) (hd u))) in E3 by (rewrite fbar_scale; unfold fscale; rewrite Hbb; auto).
      rewrite eth_scale in E3. unfold eth_GHP, fscale in E3. unfold Rdiv in E3. rewrite Hinv in E3.
      pose proof (f_equal re E3) as Ere. pose proof (f_equal im E3) as Eim. cbn in Ere, Eim. apply C_eq; cbn; nra.
    + specialize (E4 u l m). rewrite fbar_scale, Hbb in E4. unfold fscale in E4.
      pose proof (f_equal re E4) as Ere. pose proof (f_equal im E4) as Eim. cbn in Ere, Eim. apply C_eq; cbn; lra.
    + apply (proj1 (Hder hh hd u)). intros l' m'. exact (Es u l' m').
    + apply (proj1 (Hder hd hdd u)). intros l' m'. exact (Ess u l' m').
  - destruct H as [E0 E1 E2 E3 E4 Es Ess]. constructor; intros u l m; cbn [b_psi0 b_psi1 b_psi2 b_psi3 b_psi4 b_sigma];
      rewrite <- ?W0, <- ?W1, <- ?W2, <- ?W3, <- ?W4, <- ?Hf5.
    + eapply hd_eq; [apply (hd_cscale 2), E0|]. rewrite ?eth_scale, ?multiply_scale_l, ?multiply_scale_r, HM.
      unfold eth_GHP, fscale. rewrite Hinv. apply C_eq; cbn; field_simplify; try replace (sqrt 2 ^ 2) with 2 by (cbn; lra); field.
    + eapply hd_eq; [apply (hd_cscale (- sqrt 2)), E1|]. rewrite ?eth_scale, ?multiply_scale_l, ?multiply_scale_r, HM.
      unfold eth_GHP, fscale. unfold Rdiv. rewrite Hinv. apply C_eq; cbn; field.
    + eapply hd_eq; [apply (hd_cscale 1), E2|]. rewrite ?eth_scale, ?multiply_scale_l, ?multiply_scale_r, HM.
      unfold eth_GHP, fscale. unfold Rdiv. rewrite Hinv. apply C_eq; cbn; field_simplify; try replace (sqrt 2 ^ 2) with 2 by (cbn; lra); field.
    + rewrite (eth_ext (-2) _ (fscale (1/2) (hd u))) by (rewrite fbar_scale; unfold fscale; rewrite Hbb; auto).
      rewrite eth_scale. unfold eth_GHP, fscale. rewrite E3. apply C_eq; cbn; field; lra.
    + rewrite fbar_scale, Hbb. unfold fscale. rewrite E4. apply C_eq; cbn; field.
    + apply (proj2 (Hder hh hd u)). intros l' m'. apply Es.
    + apply (proj2 (Hder hd hdd u)). intros l' m'. apply Ess.
Qed.

(** ** Errors *)
Theorem C61_no_data : forall load to_float fmt convention mass kwargs,
  (forall l, In l labels -> assoc l kwargs = None) -> create load to_float fmt convention mass kwargs = Err ValueError.
Proof.
  intros load tf fmt convention mass kwargs H. unfold create, load_all.
  replace (given_labels kwargs) with (@nil string); auto. unfold given_labels. symmetry. apply filter_none.
  intros l Hl. rewrite H; auto.
Qed.
Theorem C61_unknown_format : forall load to_float fmt convention mass kwargs,
  mem fmt formats = false -> create load to_float fmt convention mass kwargs = Err ValueError.
Proof.
  intros load tf fmt convention mass kwargs H. unfold create, load_all.
  destruct (given_labels kwargs) as [|l ls] eqn:E; [reflexivity|]. cbn [map_res].
  assert (Hl : In l (given_labels kwargs)) by (rewrite E; left; auto). unfold given_labels in Hl. apply filter_In in Hl as [_ Hl].
  unfold get_key. destruct (assoc l kwargs); [|discriminate]. cbn [rbind]. rewrite H. reflexivity.
Qed.
Theorem C61_unknown_convention : forall load to_float fmt convention mass kwargs a,
  (convention <> "moreschi-boyle" /\ convention <> "spec")%string -> create load to_float fmt convention mass kwargs <> Ok a.
Proof.
  intros load tf fmt convention mass kwargs a [N1 N2] H. unfold create in H. apply rbind_inv in H as (WMs & _ & H).
  apply assemble_inv in H as (? & ? & ? & ? & ? & cv & ? & _ & _ & _ & _ & E & _). apply factors in E as [[E|E] _]; auto.
Qed.
Lemma adjust_nonempty : forall tf mass radius x y, adjust tf mass radius x = Ok y -> u_t (l_w x) <> [].
Proof.
  intros tf mass radius x y H E. unfold adjust in H. apply rbind_inv in H as (w & Ew & H).
  assert (Et : u_t w = []).
  { destruct mass as [M|]; [|congruence]. unfold make_variable_dimensionless in Ew. destruct (u_m (l_w x)); [congruence|].
    apply rbind_inv in Ew as (f & _ & Ew). assert (w = mkuwave (map (fun t => t / M) (u_t (l_w x))) (map (map (Cscale f)) (u_data (l_w x))) (u_type (l_w x)) (u_r (l_w x)) true) by congruence.
    subst w. cbn [u_t]. rewrite E. reflexivity. }
  rewrite Et in H. destruct radius as [[s|]|]; [destruct (tf s)| |]; discriminate.
Qed.
(** Files whose times differ at any sample are never combined. *)
Theorem C61_times_must_agree : forall load to_float fmt convention mass kwargs a l1 l2 x1 x2,
  create load to_float fmt convention mass kwargs = Ok a ->
  In l1 labels -> In l2 labels -> file_of load fmt kwargs l1 = Some x1 -> file_of load fmt kwargs l2 = Some x2 ->
  u_t (l_w x1) = u_t (l_w x2) \/
  exists t, (forall s, In s (u_t (l_w x1)) -> s = t) /\ (forall s, In s (u_t (l_w x2)) -> s = t).
Proof.
  intros load tf fmt convention mass kwargs a l1 l2 x1 x2 H H1 H2 F1 F2. unfold create in H. apply rbind_inv in H as (WMs & EW & H).
  apply assemble_inv in H as (l0 & ref & WMs1 & WMs' & ref' & cv & s & EWs & Ec & _ & Eadj & _).
  apply adjust_nonempty in Eadj. pose proof (load_all_spec _ _ _ _ EW) as (_ & HA & _).
  assert (T : forall l x, In l labels -> file_of load fmt kwargs l = Some x -> times_eq (u_t (l_w ref)) (u_t (l_w x)) = Ok true).
  { intros l x Hl Hx. eapply check_times_In; eauto. apply assoc_In. rewrite HA; eauto. }
  assert (G : forall b, times_eq (u_t (l_w ref)) b = Ok true -> b = u_t (l_w ref) \/
     exists t, (forall s, In s (u_t (l_w ref)) -> s = t) /\ (forall s, In s b -> s = t)).
  { intros b E. unfold times_eq in E. destruct (Nat.eqb_spec (length (u_t (l_w ref))) (length b)) as [L|N].
    - left. symmetry. apply pairs_eq; auto. congruence.
    - right. assert (E' : (exists y, u_t (l_w ref) = [y] /\ forallb (Reqb y) b = true) \/ exists y, b = [y] /\ forallb (fun x => Reqb x y) (u_t (l_w ref)) = true).
      { destruct (u_t (l_w ref)) as [|y [|y2 r]]; [contradiction|left; exists y; split; auto; congruence|].
        destruct b as [|z [|z2 b]]; [discriminate|right; exists z; split; auto; congruence|discriminate]. }
      destruct E' as [(y & -> & E')|(y & -> & E')]; rewrite forallb_forall in E'; exists y.
      + split; [intros s0 [<-|[]]; auto|]. intros s0 Hs. symmetry. apply Reqb_true. auto.
      + split; [|intros s0 [<-|[]]; auto]. intros s0 Hs. apply Reqb_true. auto. }
  destruct (G _ (T l1 x1 H1 F1)) as [E1|(t1 & A1 & B1)], (G _ (T l2 x2 H2 F2)) as [E2|(t2 & A2 & B2)].
  - left. congruence.
  - right. exists t2. rewrite E1. auto.
  - right. exists t1. rewrite E2. auto.
  - right. exists t1. split; auto. assert (t1 = t2).
    { destruct (u_t (l_w ref)) as [|y r]; [contradiction|]. rewrite <- (A1 y), <- (A2 y) by (left; auto). reflexivity. }
    subst t2. auto.
Qed.
(** The documented error for different times is not the one raised: composing its message fails first. *)
Theorem C61_times_error_refuted : exists load to_float kwargs x1 x2,
  file_of load "sxs" kwargs "Psi4" = Some x1 /\ file_of load "sxs" kwargs "h" = Some x2 /\ valid x1 /\ valid x2 /\
  length (u_t (l_w x1)) = length (u_t (l_w x2)) /\ u_t (l_w x1) <> u_t (l_w x2) /\
  create load to_float "sxs" "spec" None kwargs = Err TypeError.
Proof.
  set (x1 := mkloaded (mkuwave [0; 1] [[C1]; [C1]] psi4 true true) 0 0).
  set (x2 := mkloaded (mkuwave [0; 2] [[C1]; [C1]] h true true) 0 0).
  exists (fun _ l _ => Ok (if String.eqb l "h" then x2 else x1)), (fun _ => None), [("Psi4", "a"); ("h", "b")]%string, x1, x2.
  assert (Hr : forall r, In r [[C1]; [C1]] -> length r = length (LM_range 0 0)) by (intros r [<-|[<-|[]]]; reflexivity).
  split; [reflexivity|]. split; [reflexivity|]. split; [repeat split; cbn; try lia; exact Hr|]. split; [repeat split; cbn; try lia; exact Hr|].
  split; [reflexivity|]. split; [intros E; injection E; lra|].
  unfold create, load_all. change (given_labels [("Psi4", "a"); ("h", "b")]%string) with ["Psi4"; "h"]%string.
  cbn [map_res get_key assoc String.eqb Ascii.eqb Bool.eqb rbind mem existsb formats orb]. unfold assemble.
  cbn [check_times x1 x2 l_w u_t rbind]. rewrite times_eq_refl. cbn [rbind]. unfold times_eq. cbn [length Nat.eqb combine forallb fst snd rbind].
  replace (Reqb 1 2) with false by (unfold Reqb; destruct (Req_EM_T 1 2); [lra|reflexivity]). rewrite andb_false_r. reflexivity.
Qed.

(** Times are compared before the units are converted: one file already in units of the mass and one not
    are combined although their times (in units of the mass) differ. *)
Theorem C61_mixed_units_refuted : exists load to_float kwargs x1 x2 a,
  file_of load "sxs" kwargs "Psi4" = Some x1 /\ file_of load "sxs" kwargs "h" = Some x2 /\ valid x1 /\ valid x2 /\
  create load to_float "sxs" "spec" (Some 2) kwargs = Ok a /\
  (forall i, (i < 2)%nat -> nth i (a_t a) 0 = nth i (u_t (l_w x1)) 0 / time_unit (Some 2) x1) /\
  nth 1 (a_t a) 0 <> nth 1 (u_t (l_w x2)) 0 / time_unit (Some 2) x2.
Proof.
  set (x1 := mkloaded (mkuwave [0; 1] [[C1]; [C1]] psi4 true true) 0 0).
  set (x2 := mkloaded (mkuwave [0; 1] [[C1]; [C1]] h true false) 0 0).
  set (load := fun (_ l _ : string) => @Ok loaded (if String.eqb l "h" then x2 else x1)).
  set (kw := [("Psi4", "a"); ("h", "b")]%string).
  assert (Hr : forall r, In r [[C1]; [C1]] -> length r = length (LM_range 0 0)) by (intros r [<-|[<-|[]]]; reflexivity).
  assert (V1 : valid x1) by (repeat split; cbn; try lia; exact Hr). assert (V2 : valid x2) by (repeat split; cbn; try lia; exact Hr).
  destruct (C61_accepts load (fun _ => None) "sxs" "spec" (Some 2) kw [0; 1] 0%Z) as [a Ha]; cbn; auto; try lra; try discriminate.
  { intros l f Hl Hf. exists (if String.eqb l "h" then x2 else x1). split; [reflexivity|]. destruct (String.eqb l "h").
    - split; auto. split; [right; right; cbn; tauto|]. auto.
    - split; auto. split; [right; left; reflexivity|]. auto. }
  exists load, (fun _ => None), kw, x1, x2, a. split; [reflexivity|]. split; [reflexivity|]. split; auto. split; auto. split; auto.
  assert (E : a_t a = [0 / 1; 1 / 1]).
  { destruct (C61_fields load (fun _ => None) "sxs" "spec" (Some 2) kw a) as (l0 & ref & Ind & E0 & Eref & EI & _ & Et & _); auto; [cbn; lra| |].
    - intros l x Hl Hx. assert (x = x1 \/ x = x2) as [->| ->]; auto. unfold file_of in Hx. destruct (assoc l kw); [|discriminate].
      unfold load in Hx. injection Hx as <-. destruct (String.eqb l "h"); auto.
    - assert (El0 : "Psi4"%string = l0) by (change (hd_error (given_labels kw)) with (Some "Psi4"%string) in E0; congruence). subst l0.
      assert (Er : x1 = ref) by (change (file_of load "sxs" kw "Psi4") with (Some x1) in Eref; congruence). subst ref.
      cbn [x1 l_w u_t] in EI, Et. assert (EI' : spec_monotonic_indices [0; 1] = Ok [0; 1]%nat).
      { apply C10_keeps_monotone; [discriminate|]. left. intros i j Hij. cbn in Hij. assert (i = 0 /\ j = 1)%nat as [-> ->] by lia. cbn. lra. }
      rewrite EI' in EI. injection EI as <-. rewrite Et. reflexivity. }
  rewrite E. split.
  - intros i Hi. destruct i as [|[|i]]; [reflexivity|reflexivity|lia].
  - cbn. lra.
Qed.
