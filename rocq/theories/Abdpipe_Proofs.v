(** * BMS transformation of asymptotic Bondi data, from end to end *)
From Coq Require Import Reals ZArith List Bool Lia Lra.
From Verif Require Import Common Cplx Quat Modes_Model Times_Model Tables_Model Modal_Model Kwargs_Model Transform_Model Rotate_Model
  Modes_Proofs Modal_Proofs Rotate_Proofs Times_Proofs Kwargs_Proofs Transform_Proofs Wigner_Model Wigner_Proofs Sphere_Model Sphere_Proofs Harmonics_Proofs
  Pipeline_Model Pipeline_Proofs Abdpipe_Model.
Import ListNotations.
Open Scope R_scope.

(** ** Specification *)
(** Mode (l, m) of field number f (psi0 ... psi4, sigma) at time number i *)
Definition bmode (b : bdata) (f i : nat) (l m : Z) : C := mode 0 (nth i (nth f (bd_fields b) []) []) l m.
Definition data_ok (b : bdata) : Prop :=
  (0 <= bd_hi b)%Z /\ length (bd_fields b) = 6%nat /\
  forall f, (f < 6)%nat -> length (nth f (bd_fields b) []) = length (bd_u b) /\
    forall row, In row (nth f (bd_fields b) []) -> length row = length (LM_range 0 (bd_hi b)).
Definition spin_of (f : nat) : Z := nth f [2; 1; 0; -1; -2; 2]%Z 0%Z.
(** Value of one field at a rotor, and all of them *)
Definition point (b : bdata) (f i : nat) (q : quat) : C := field (spin_of f) (bd_hi b) (bmode b f i) q.
Definition points (b : bdata) (i : nat) (q : quat) : fields :=
  mkfields (point b 0 i q) (point b 1 i q) (point b 2 i q) (point b 3 i q) (point b 4 i q) (point b 5 i q).
Definition part (f : nat) (x : fields) : C := nth f [f0 x; f1 x; f2 x; f3 x; f4 x; fs x] C0.
(** Interpolation hits its points, if there are at least two, in increasing order. *)
Definition passes (spline : list R -> list C -> res (R -> C)) : Prop :=
  forall xs ys, increasing xs -> (2 <= length xs)%nat -> length ys = length xs ->
  exists f, spline xs ys = Ok f /\ forall i, (i < length xs)%nat -> f (nth i xs 0) = nth i ys C0.

Lemma real_modes_id : forall a L, (0 <= L)%Z -> Kwargs_Proofs.has_modes a L -> is_real a L -> real_modes a = a /\ ell_max_of a = L.
Proof.
  intros a L HL Hm HR. assert (EL : ell_max_of a = L).
  { unfold ell_max_of. unfold Kwargs_Proofs.has_modes in Hm. rewrite Hm, Z.sqrt_square by lia. lia. }
  split; [|exact EL]. unfold real_modes. rewrite EL. transitivity (map (fun lm => mode 0 a (fst lm) (snd lm)) (LM_range 0 L)); [|symmetry; apply row_map; [lia|apply full_length; assumption]].
  apply map_ext_in. intros [l m] I. apply LM_range_In in I. cbn [fst snd]. rewrite !pos_eq. rewrite <- mode_at_0.
  rewrite <- (real_part_id a L HR l m) by lia. reflexivity.
Qed.
Lemma abd_direction_ok : forall a L v q, (1 <= L)%Z -> Kwargs_Proofs.has_modes a L -> is_real a L -> abd_direction a v q = Ok (direction_of a L v q).
Proof.
  intros a L v q HL Hm HR. destruct (real_modes_id a L ltac:(lia) Hm HR) as [_ EL]. unfold abd_direction. rewrite EL. cbv zeta.
  pose proof (direction_data_ok sigma a L L v q ltac:(lia) Hm HR) as D. unfold direction_data in D. change (sigma =? h)%Z with false in D. cbv iota in D.
  assert (EC : cut 0 (LM_index L L 0 + 1) (SWSH 2 L q) = SWSH 2 L q).
  { unfold SWSH. change 0%Z with (LM_index 0 (- 0) 0) at 1. apply cut_range; lia. }
  rewrite EC in D. exact D.
Qed.
Lemma evaluate6_ok : forall b q n, data_ok b -> (n < length (bd_u b))%nat -> evaluate6 b q n = Ok (map (fun f => point b f n q) (seq 0 6)).
Proof.
  intros b q n (H0 & H6 & H) Hn. unfold evaluate6.
  assert (EC : combine spins (bd_fields b) = map (fun f => (spin_of f, nth f (bd_fields b) [])) (seq 0 6)).
  { destruct (bd_fields b) as [|x0 [|x1 [|x2 [|x3 [|x4 [|x5 [|]]]]]]]; try discriminate. reflexivity. }
  rewrite EC. assert (EM : forall A B D (f : B -> res D) (m : A -> B) l, each f (map m l) = each (fun x => f (m x)) l).
  { intros A B D f m. induction l as [|a l IH]; [reflexivity|]. cbn [map each]. rewrite IH. reflexivity. }
  rewrite EM. apply each_ok. intros f Hf. apply in_seq in Hf. cbn [fst snd]. destruct (H f ltac:(lia)) as [HL HR].
  rewrite (nth_error_nth' _ []) by lia. pose proof (HR (nth n (nth f (bd_fields b) []) []) ltac:(apply nth_In; lia)) as RL.
  unfold tensordot, SWSH. rewrite map_length, RL, Nat.eqb_refl. f_equal. unfold point, field, bmode.
  rewrite (row_map 0 (bd_hi b) (nth n (nth f (bd_fields b) []) [])) at 1 by (assumption || lia). rewrite dotl_map. reflexivity.
Qed.

Lemma each_ext : forall A B (f g : A -> res B) l, (forall x, In x l -> f x = g x) -> each f l = each g l.
Proof.
  intros A B f g. induction l as [|a l IH]; intros H; [reflexivity|]. cbn [each]. rewrite (H a (or_introl eq_refl)). rewrite IH by (intros; apply H; right; assumption). reflexivity.
Qed.
Section Points.
Variable spline : list R -> list C -> res (R -> C).
Hypothesis spline_hits : passes spline.

Lemma resample6_ok : forall v d u col newt, norm3 v < 1 -> unitv (d_r d) -> increasing u -> (2 <= length u)%nat -> length col = length u ->
  exists fs, resample6 spline v d u col newt = Ok (map (fun f => map (fs f) newt) (seq 0 6)) /\
    (forall f, spline (knots v d u) (map (fun x => nth f x C0) col) = Ok (fs f)) /\
    forall f n, (f < 6)%nat -> (n < length u)%nat -> fs f (kfactor v (d_r d) * (nth n u 0 - d_alpha d)) = nth f (nth n col []) C0.
Proof.
  intros v d u col newt Hv Hd Hi H2 HL.
  assert (IK : increasing (knots v d u)).
  { unfold knots. apply increasing_map; [|exact Hi]. intros x y L. pose proof (kfactor_pos v (d_r d) Hv Hd). apply Rmult_lt_compat_l; lra. }
  assert (LK : length (knots v d u) = length u) by (unfold knots; apply map_length).
  set (ys := fun f => map (fun x => nth f x C0) col).
  exists (fun f => match spline (knots v d u) (ys f) with Ok g => g | Err _ => fun _ => C0 end).
  assert (S : forall f, exists g, spline (knots v d u) (ys f) = Ok g /\ forall i, (i < length (knots v d u))%nat -> g (nth i (knots v d u) 0) = nth i (ys f) C0).
  { intros f. apply spline_hits; [exact IK|lia|]. unfold ys. rewrite map_length. lia. }
  split; [|split].
  - unfold resample6. apply each_ok. intros f _. destruct (S f) as (g & Eg & _). fold (ys f). rewrite Eg. reflexivity.
  - intros f. destruct (S f) as (g & Eg & _). fold (ys f). rewrite Eg. reflexivity.
  - intros f n Hf Hn. destruct (S f) as (g & Eg & Hg). rewrite Eg.
    assert (EK : nth n (knots v d u) 0 = kfactor v (d_r d) * (nth n u 0 - d_alpha d)).
    { unfold knots. rewrite (nth_indep _ 0 ((fun t => kfactor v (d_r d) * (t - d_alpha d)) 0)) by (rewrite map_length; exact Hn). rewrite (map_nth (fun t => kfactor v (d_r d) * (t - d_alpha d))). reflexivity. }
    rewrite <- EK, Hg by lia. unfold ys. rewrite (nth_indep _ C0 ((fun x => nth f x C0) [])) by (rewrite map_length; lia). rewrite (map_nth (fun x => nth f x C0)). reflexivity.
Qed.
Variable map2salm : Z -> Z -> list C -> Z -> Z -> list C.

(** Whatever the transformation, the modes that come out are those of values on the grid that agree, wherever an input time meets a new time slice,
    with the documented mixture of the six fields in that direction. *)

(** The function interpolated for one field in one direction *)
Definition track (b : bdata) (p : processed) (q : quat) (f : nat) : R -> C :=
  let d := direction_of (p_super p) (ell_max_of (p_super p)) (p_boost p) q in
  match spline (knots (p_boost p) d (bd_u b)) (map (fun m => part f (abd_point (p_boost p) d (nth m (bd_u b) 0) (points b m q))) (seq 0 (length (bd_u b)))) with
  | Ok g => g | Err _ => fun _ => C0 end.
Lemma abd_grid : forall b k p, data_ok b -> increasing (bd_u b) -> (2 <= length (bd_u b))%nat -> abd_process (bd_hi b) k = Ok p ->
  let n := (2 * p_working p + 1)%Z in let L := ell_max_of (p_super p) in
  let rotors := map (grid_rotor (p_rotation p) (p_boost p)) (grid_points n n) in
  let dirs := map (direction_of (p_super p) L (p_boost p)) rotors in
  exists newt, new_slices (p_boost p) (nth 0 (p_super p) C0) dirs (bd_u b) = Ok newt /\
    abd_transform spline map2salm b k =
      (let? out := each (fun f => each (fun i =>
          let row := map2salm n n (map (fun q => track b p q f (nth i newt 0)) rotors) (spin_of f) (p_output p) in
          if (Z.of_nat (length row) =? (p_output p + 1) ^ 2)%Z then Ok row else Err ValueError) (seq 0 (length newt))) (seq 0 6) in
       Ok (mkbd newt (p_output p) out InertialFrame [])).
Proof.
  intros b k p H Hi H2 Hp n L rotors dirs. destruct (C28_real _ _ _ Hp) as (L' & HL & Hm & HR). destruct (real_modes_id _ L' ltac:(lia) Hm HR) as [ER EL].
  assert (ELL : L = L') by exact EL. subst L'. destruct (C28_parameters _ _ _ Hp) as (Hq & Hv & Hw & _). assert (H0 := proj1 H).
  assert (UR : forall q, In q rotors -> qnorm2 q = 1).
  { intros q I. apply in_map_iff in I. destruct I as (r & <- & I). apply grid_rotor_unit; [exact Hq|]. apply (grid_points_unit _ _ _ I). }
  assert (NE : rotors <> []).
  { intros E. apply (grid_points_nonempty n n); [unfold n; lia|unfold n; lia|]. apply map_eq_nil in E. exact E. }
  assert (NS : exists out, new_slices (p_boost p) (nth 0 (p_super p) C0) dirs (bd_u b) = Ok out).
  { unfold new_slices. destruct (bd_u b) as [|t0 t]; [cbn in H2; lia|]. assert (DN : exists d ds, dirs = d :: ds) by (unfold dirs; destruct rotors; [congruence|cbn [map]; eauto]).
    destruct DN as (d & ds & ->). cbn [map np_max np_min rbind]. eexists. reflexivity. }
  destruct NS as [newt Eo]. exists newt. split; [exact Eo|].
  assert (EM : forall A B D (f : B -> res D) (m : A -> B) l, each f (map m l) = each (fun x => f (m x)) l).
  { intros A B D f m. induction l as [|a l IH]; [reflexivity|]. cbn [map each]. rewrite IH. reflexivity. }
  set (colf := fun q => map (fun m => list6 (abd_point (p_boost p) (direction_of (p_super p) L (p_boost p) q) (nth m (bd_u b) 0) (points b m q))) (seq 0 (length (bd_u b)))).
  unfold abd_transform. rewrite Hp. cbn [rbind]. fold n. cbv zeta. rewrite ER. fold rotors.
  rewrite (each_ok _ _ _ (direction_of (p_super p) L (p_boost p))).
  2: { intros q Iq. apply abd_direction_ok; assumption. }
  cbn [rbind]. fold dirs.
  assert (EC : combine rotors dirs = map (fun q => (q, direction_of (p_super p) L (p_boost p) q)) rotors).
  { unfold dirs. rewrite <- (map_id rotors) at 1. apply combine_maps. }
  rewrite EC, EM. cbn [fst snd]. rewrite (each_ok _ _ _ colf).
  2: { intros q _. unfold column6, colf. apply each_ok. intros m Hm'. apply in_seq in Hm'. rewrite evaluate6_ok by (assumption || lia). cbn [rbind]. reflexivity. }
  cbn [rbind]. rewrite Eo. cbn [rbind]. unfold dirs. rewrite combine_maps, EM. cbn [fst snd].
  rewrite (each_ok _ _ _ (fun q => map (fun f => map (track b p q f) newt) (seq 0 6))).
  2: { intros q Iq. destruct (resample6_ok (p_boost p) (direction_of (p_super p) L (p_boost p) q) (bd_u b) (colf q) newt) as (fs & Ef & Hsp & _); try assumption.
       - cbn [direction_of d_r]. apply direction_unit, UR, Iq.
       - unfold colf. rewrite map_length, seq_length. reflexivity.
       - rewrite Ef. f_equal. apply map_ext_in. intros f If. apply map_ext. intros u. unfold track. fold L. specialize (Hsp f). unfold colf in Hsp. rewrite map_map in Hsp.
         unfold part. fold (list6). match goal with |- context [spline ?x ?y] => replace (spline x y) with (Ok (fs f)) end; reflexivity. }
  cbn [rbind].
  change (combine (seq 0 6) spins) with (map (fun f => (f, spin_of f)) (seq 0 6)). rewrite EM. cbn [fst snd].
  apply (f_equal (fun r => rbind r (fun out => Ok (mkbd newt (p_output p) out InertialFrame [])))). apply each_ext. intros f If. apply in_seq in If. unfold decompose. rewrite EM.
  apply each_ext. intros i Ii. apply in_seq in Ii. cbv zeta.
  assert (EV : map (fun c => nth i (nth f c []) C0) (map (fun q => map (fun f => map (track b p q f) newt) (seq 0 6)) rotors) = map (fun q => track b p q f (nth i newt 0)) rotors).
  { rewrite map_map. apply map_ext. intros q.
    rewrite (nth_indep _ [] ((fun f => map (track b p q f) newt) 0%nat)) by (rewrite map_length, seq_length; lia). rewrite (map_nth (fun f => map (track b p q f) newt)), seq_nth by lia. cbn [Nat.add].
    rewrite (nth_indep _ C0 (track b p q f 0)) by (rewrite map_length; lia). apply map_nth. }
  rewrite EV. reflexivity.
Qed.
(** Whatever the transformation: the grid, the new times, and the values decomposed; at every point of the grid and new time that is the image of a time of the
    data, the value is that of the fields there, mixed as in C30. *)
Theorem C69_points : forall b k p, data_ok b -> increasing (bd_u b) -> (2 <= length (bd_u b))%nat -> abd_process (bd_hi b) k = Ok p ->
  let n := (2 * p_working p + 1)%Z in let L := ell_max_of (p_super p) in
  let rotors := map (grid_rotor (p_rotation p) (p_boost p)) (grid_points n n) in
  let dirs := map (direction_of (p_super p) L (p_boost p)) rotors in
  exists newt vals, new_slices (p_boost p) (nth 0 (p_super p) C0) dirs (bd_u b) = Ok newt /\
    (forall f i, (f < 6)%nat -> (i < length newt)%nat -> length (vals f i) = length rotors) /\
    (forall f i j m q, (f < 6)%nat -> (i < length newt)%nat -> nth_error rotors j = Some q -> (m < length (bd_u b))%nat ->
       nth i newt 0 = kfactor (p_boost p) (direction q) * (nth m (bd_u b) 0 - re (field 0 L (mode_at (p_super p)) q)) ->
       nth j (vals f i) C0 = part f (abd_point (p_boost p) (direction_of (p_super p) L (p_boost p) q) (nth m (bd_u b) 0) (points b m q))) /\
    ((forall f i, (f < 6)%nat -> (i < length newt)%nat -> Z.of_nat (length (map2salm n n (vals f i) (spin_of f) (p_output p))) = ((p_output p + 1) ^ 2)%Z) ->
     abd_transform spline map2salm b k =
       Ok (mkbd newt (p_output p) (map (fun f => map (fun i => map2salm n n (vals f i) (spin_of f) (p_output p)) (seq 0 (length newt))) (seq 0 6)) InertialFrame [])) /\
    ((exists f i, (f < 6)%nat /\ (i < length newt)%nat /\ Z.of_nat (length (map2salm n n (vals f i) (spin_of f) (p_output p))) <> ((p_output p + 1) ^ 2)%Z) ->
     abd_transform spline map2salm b k = Err ValueError).
Proof.
  intros b k p H Hi H2 Hp n L rotors dirs. destruct (abd_grid b k p H Hi H2 Hp) as (newt & Eo & EA). destruct (C28_parameters _ _ _ Hp) as (Hq & Hv & _).
  fold n L rotors dirs in Eo, EA. exists newt, (fun f i => map (fun q => track b p q f (nth i newt 0)) rotors).
  split; [exact Eo|]. split; [intros; apply map_length|]. split; [|split].
  - intros f i j m q Hf Hi' Hj Hm Ht. assert (Lj : (j < length rotors)%nat) by (apply nth_error_Some; congruence).
    rewrite (nth_indep _ C0 ((fun q => track b p q f (nth i newt 0)) q1)) by (rewrite map_length; exact Lj). rewrite (map_nth (fun q => track b p q f (nth i newt 0))).
    rewrite (nth_error_nth _ _ _ Hj). assert (Iq := nth_error_In _ _ Hj). assert (Uq : qnorm2 q = 1).
    { apply in_map_iff in Iq. destruct Iq as (r & <- & I). apply grid_rotor_unit; [exact Hq|]. apply (grid_points_unit _ _ _ I). }
    set (colq := map (fun m => list6 (abd_point (p_boost p) (direction_of (p_super p) L (p_boost p) q) (nth m (bd_u b) 0) (points b m q))) (seq 0 (length (bd_u b)))).
    destruct (resample6_ok (p_boost p) (direction_of (p_super p) L (p_boost p) q) (bd_u b) colq newt) as (fs & Ef & Hsp & Hff); try assumption.
    { cbn [direction_of d_r]. apply direction_unit, Uq. } { unfold colq. rewrite map_length, seq_length. reflexivity. }
    assert (ET : track b p q f = fs f).
    { unfold track. fold L. specialize (Hsp f). unfold colq in Hsp. rewrite map_map in Hsp. match goal with |- context [spline ?x ?y] => replace (spline x y) with (Ok (fs f)) end; reflexivity. }
    rewrite ET, Ht. cbn [direction_of d_r d_alpha] in Hff. rewrite Hff by assumption. unfold colq.
    rewrite (nth_indep _ [] ((fun m => list6 (abd_point (p_boost p) (direction_of (p_super p) L (p_boost p) q) (nth m (bd_u b) 0) (points b m q))) 0%nat)) by (rewrite map_length, seq_length; exact Hm).
    rewrite (map_nth (fun m => list6 (abd_point (p_boost p) (direction_of (p_super p) L (p_boost p) q) (nth m (bd_u b) 0) (points b m q)))), seq_nth by exact Hm. reflexivity.
  - intros HS. rewrite EA. rewrite (each_ok _ _ _ (fun f => map (fun i => map2salm n n (map (fun q => track b p q f (nth i newt 0)) rotors) (spin_of f) (p_output p)) (seq 0 (length newt)))); [reflexivity|].
    intros f Hf. apply in_seq in Hf. apply each_ok. intros i Hi'. apply in_seq in Hi'. cbv zeta. rewrite HS by lia. rewrite Z.eqb_refl. reflexivity.
  - intros (f & i & Hf & Hi' & HS). rewrite EA.
    match goal with |- rbind ?e _ = _ => assert (EE : e = Err ValueError) end; [|rewrite EE; reflexivity].
    assert (K : forall g, each (fun i => let row := map2salm n n (map (fun q => track b p q g (nth i newt 0)) rotors) (spin_of g) (p_output p) in
          if (Z.of_nat (length row) =? (p_output p + 1) ^ 2)%Z then Ok row else Err ValueError) (seq 0 (length newt)) = Err ValueError \/
        exists y, each (fun i => let row := map2salm n n (map (fun q => track b p q g (nth i newt 0)) rotors) (spin_of g) (p_output p) in
          if (Z.of_nat (length row) =? (p_output p + 1) ^ 2)%Z then Ok row else Err ValueError) (seq 0 (length newt)) = Ok y).
    { intros g. generalize (seq 0 (length newt)). induction l as [|x l IH]; [right; eexists; reflexivity|]. cbn [each]. cbv zeta in *. destruct (Z.eqb _ _); [|left; reflexivity]. cbn [rbind].
      destruct IH as [-> | (y & ->)]; [left; reflexivity|right; eexists; reflexivity]. }
    apply each_err.
    + intros g _. destruct (K g) as [E|E]; [right|left]; exact E.
    + exists f. split; [apply in_seq; lia|]. apply each_err.
      * intros x _. cbv zeta. destruct (Z.eqb _ _); [left; eexists; reflexivity|right; reflexivity].
      * exists i. split; [apply in_seq; lia|]. cbv zeta. destruct (Z.eqb_spec (Z.of_nat (length (map2salm n n (map (fun q => track b p q f (nth i newt 0)) rotors) (spin_of f) (p_output p)))) ((p_output p + 1) ^ 2)); [contradiction|reflexivity].
Qed.

(** ** Rotations and time translations *)
Lemma abd_rotation_process : forall e k q a, rotation_only k q a -> (e <= dflt (2 * e + 1) (k_working_ell_max k))%Z ->
  abd_process e k = Ok (mkproc q (0, 0, 0) [constant_as_ell_0_mode a; C0; C0; C0] (dflt (2 * e + 1)%Z (k_working_ell_max k)) (dflt e (k_output_ell_max k))).
Proof.
  intros e k q a (K1 & K2 & K3 & K4 & K5 & K6) Hw. unfold abd_process, read_super. rewrite K1. cbn [rbind].
  assert (EO : exists s, override k [C0; C0; C0; C0] = Ok ([constant_as_ell_0_mode a; C0; C0; C0], s)).
  { unfold override. cbn [get nth_error rbind]. rewrite K2, K3. destruct (vector_from_ell_1_modes [C0; C0; C0]) as [[vx vy] vz]. cbn [rbind].
    destruct K6 as [-> | [-> ->]]; [|rewrite constant_0]; eexists; reflexivity. }
  destruct EO as [sa EO].
  match goal with |- rbind (override k ?l) _ = _ => change l with [C0; C0; C0; C0] end. rewrite EO. cbn [rbind]. cbv zeta.
  destruct (Z.ltb_spec (dflt (2 * e + 1)%Z (k_working_ell_max k)) e); [lia|]. rewrite K5, K4. cbn [rbind]. unfold read_boost. cbn [vec3_of].
  assert (N0 : norm3 (0, 0, 0) = 0) by (unfold norm3; replace (0 * 0 + 0 * 0 + 0 * 0) with 0 by ring; apply sqrt_0).
  rewrite N0. destruct (Rleb_spec 1 0); [lra|]. reflexivity.
Qed.
Lemma zero_field : forall s L (a : Z -> Z -> C) q, (forall l m, (0 <= l <= L)%Z -> (- l <= m <= l)%Z -> a l m = C0) -> field s L a q = C0.
Proof.
  intros s L a q H. unfold field. apply csum_const0. intros [l m] I. apply LM_range_In in I. cbn [fst snd]. rewrite H by lia. ring.
Qed.
Lemma time_direction : forall a q, direction_of [constant_as_ell_0_mode a; C0; C0; C0] 1 (0, 0, 0) q = mkdir (direction q) a C0 C0 C0.
Proof.
  intros a q. unfold direction_of. rewrite time_field.
  assert (Z1 : forall m, (-1 <= m <= 1)%Z -> mode_at [constant_as_ell_0_mode a; C0; C0; C0] 1 m = C0).
  { intros m Hm. assert (B : (m = -1 \/ m = 0 \/ m = 1)%Z) by lia. destruct B as [-> | [-> | ->]]; reflexivity. }
  f_equal.
  - apply zero_field. intros l m Hl Hm. assert (B : (l = 0 \/ l = 1)%Z) by lia. destruct B as [-> | ->].
    + change (IZR (0 * (0 + 1))) with 0. rewrite sqrt_0. apply C_eq; cbn; ring.
    + rewrite Z1 by lia. apply C_eq; cbn; ring.
  - apply zero_field. intros l m Hl Hm. assert (B : (l = 0 \/ l = 1)%Z) by lia. destruct B as [-> | ->].
    + change (IZR (0 * (0 + 1))) with 0. rewrite sqrt_0. apply C_eq; cbn; ring.
    + rewrite Z1 by lia. apply C_eq; cbn; ring.
  - apply zero_field. intros l m Hl Hm. destruct (Z.eqb_spec l 1) as [->|]; [|reflexivity].
    assert (B : (m = -1 \/ m = 0 \/ m = 1)%Z) by lia. unfold vector_as_ell_1_modes.
    set (w := sqrt (2 * PI / 3)). destruct B as [-> | [-> | ->]]; [change (Z.to_nat (-1 + 1)) with 0%nat | change (Z.to_nat (0 + 1)) with 1%nat | change (Z.to_nat (1 + 1)) with 2%nat];
      cbn [nth]; unfold Cscale, C0; cbn [re im]; f_equal; ring.
Qed.
Lemma still_k : forall r, one_over_k (0, 0, 0) r = 1 /\ kfactor (0, 0, 0) r = 1.
Proof.
  intros [[x y] z]. unfold kfactor, one_over_k, gamma. assert (Nz : norm3 (0, 0, 0) = 0) by (unfold norm3; replace (0 * 0 + 0 * 0 + 0 * 0) with 0 by ring; apply sqrt_0).
  rewrite Nz. replace (1 - 0 ^ 2) with 1 by ring. rewrite sqrt_1. unfold dotv. split; field.
Qed.
Lemma still_point : forall r a u x, abd_point (0, 0, 0) (mkdir r a C0 C0 C0) u x = x.
Proof.
  intros r a u [x0 x1 x2 x3 x4 xs]. unfold abd_point. cbn [d_r d_eth2]. rewrite (proj1 (still_k r)).
  assert (X0 : abd_X (0, 0, 0) (mkdir r a C0 C0 C0) u = C0). { unfold abd_X, ethk_over_k. cbn [d_alpha d_r d_vr1 d_eth]. apply C_eq; cbn; ring. }
  rewrite X0. unfold horner. cbn [f0 f1 f2 f3 f4 fs]. f_equal; apply C_eq; cbn; ring.
Qed.

Theorem C69_rotation : forall b k q a, data_ok b -> increasing (bd_u b) -> (2 <= length (bd_u b))%nat -> rotation_only k q a ->
  let w := dflt (2 * bd_hi b + 1)%Z (k_working_ell_max k) in let out := dflt (bd_hi b) (k_output_ell_max k) in
  (bd_hi b <= w)%Z -> (0 <= out <= w)%Z -> (forall f, (f < 6)%nat -> exact map2salm (spin_of f) (2 * w + 1) (2 * w + 1)) ->
  exists b', abd_transform spline map2salm b k = Ok b' /\ bd_u b' = map (fun t => t - a) (bd_u b) /\ bd_hi b' = out /\ data_ok b' /\
    bd_frameType b' = InertialFrame /\ bd_frame b' = [] /\
    forall f i l m, (f < 6)%nat -> (i < length (bd_u b))%nat -> valid 0 out l m ->
      bmode b' f i l m = if ((Z.abs (spin_of f) <=? l) && (l <=? bd_hi b))%Z then turn wigner_D q (bmode b f i) l m else C0.
Proof.
  intros b k q a H Hi H2 HK w out Hw Ho HX. pose proof (abd_rotation_process (bd_hi b) k q a HK Hw) as Hp. fold w out in Hp. assert (H0 := proj1 H).
  assert (Hq : qnorm2 q = 1) by exact (rotation_unit _ _ _ HK).
  destruct (C69_points b k _ H Hi H2 Hp) as (newt & vals & ET & EL & EV & EA & _). cbn [p_rotation p_boost p_super p_working p_output] in *.
  change (ell_max_of [constant_as_ell_0_mode a; C0; C0; C0]) with 1%Z in *. set (n := (2 * w + 1)%Z) in *. set (pts := grid_points n n) in *.
  assert (RM : map (grid_rotor q (0, 0, 0)) pts = map (qmul q) pts).
  { apply map_ext_in. intros p I. apply (C55_parallel q p (0, 0, 0) Hq (grid_points_unit _ _ _ I)). }
  rewrite RM in *.
  assert (UD : forall p, In p pts -> qnorm2 (qmul q p) = 1) by (intros p I; rewrite qnorm2_mul, Hq, (grid_points_unit _ _ _ I); ring).
  cbn [nth] in ET. rewrite (C29_time_translation a) in ET.
  2: { intros Z. rewrite Z in H2. cbn in H2. lia. }
  2: { exact Hi. }
  2: { intros Z. apply map_eq_nil, map_eq_nil in Z. revert Z. apply grid_points_nonempty; unfold n; lia. }
  2: { intros d I. apply in_map_iff in I. destruct I as (p' & <- & I). apply in_map_iff in I. destruct I as (p & <- & I).
       rewrite time_direction. cbn [d_alpha d_r]. split; [reflexivity|apply direction_unit, UD, I]. }
  injection ET as ET. assert (LT : length newt = length (bd_u b)) by (rewrite <- ET; apply map_length).
  assert (VV : forall f i, (f < 6)%nat -> (i < length newt)%nat -> vals f i = map (field (spin_of f) (bd_hi b) (turn wigner_D q (bmode b f i))) pts).
  { intros f i Hf Hi'. pose proof (EL f i Hf Hi') as LV. rewrite map_length in LV.
    apply nth_ext with (d := C0) (d' := field (spin_of f) (bd_hi b) (turn wigner_D q (bmode b f i)) q1); [rewrite map_length; exact LV|].
    intros j Hj. rewrite LV in Hj. rewrite map_nth.
    assert (Eq : nth_error (map (qmul q) pts) j = Some (qmul q (nth j pts q1))) by (apply map_nth_error, nth_error_nth'; exact Hj).
    assert (ETi : nth i newt 0 = kfactor (0, 0, 0) (direction (qmul q (nth j pts q1))) * (nth i (bd_u b) 0 - re (field 0 1 (mode_at [constant_as_ell_0_mode a; C0; C0; C0]) (qmul q (nth j pts q1))))).
    { rewrite time_field, (proj2 (still_k _)), <- ET. rewrite (nth_indep _ 0 ((fun t => t - a) 0)) by (rewrite map_length; lia). rewrite (map_nth (fun t => t - a)). cbn. ring. }
    rewrite (EV f i j i _ Hf Hi' Eq ltac:(lia) ETi). rewrite time_direction, still_point. rewrite C68_field_rotation by lia.
    destruct f as [|[|[|[|[|[|f]]]]]]; try lia; reflexivity. }
  assert (MM : forall f i, (f < 6)%nat -> (i < length newt)%nat -> map2salm n n (vals f i) (spin_of f) out =
     map (fun lm => if ((Z.abs (spin_of f) <=? fst lm) && (fst lm <=? bd_hi b))%Z then turn wigner_D q (bmode b f i) (fst lm) (snd lm) else C0) (LM_range 0 out)).
  { intros f i Hf Hi'. rewrite VV by assumption. apply (HX f Hf); unfold n; lia. }
  rewrite EA.
  2: { intros f i Hf Hi'. rewrite MM by assumption. rewrite map_length. pose proof (LM_range_length 0 out ltac:(lia) ltac:(lia)). nia. }
  eexists. split; [reflexivity|]. cbn [bd_u bd_hi bd_frameType bd_frame]. split; [symmetry; exact ET|]. split; [reflexivity|].
  assert (NF : forall f, (f < 6)%nat -> nth f (map (fun f => map (fun i => map2salm n n (vals f i) (spin_of f) out) (seq 0 (length newt))) (seq 0 6)) [] =
     map (fun i => map2salm n n (vals f i) (spin_of f) out) (seq 0 (length newt))).
  { intros f Hf. destruct f as [|[|[|[|[|[|f]]]]]]; try lia; reflexivity. }
  split; [split; [cbn [bd_hi]; lia|]; split; [reflexivity|]; intros f Hf; cbn [bd_fields bd_u bd_hi]; rewrite NF by exact Hf; split|].
  - rewrite map_length, seq_length. reflexivity.
  - intros row I. apply in_map_iff in I. destruct I as (i & <- & I). apply in_seq in I. rewrite MM by lia. apply map_length.
  - split; [reflexivity|]. split; [reflexivity|]. intros f i l m Hf Hi' Hv. unfold bmode at 1. cbn [bd_fields]. rewrite NF by exact Hf.
    rewrite (nth_indep _ [] ((fun i => map2salm n n (vals f i) (spin_of f) out) 0%nat)) by (rewrite map_length, seq_length; lia).
    rewrite (map_nth (fun i => map2salm n n (vals f i) (spin_of f) out)), seq_nth by lia. cbn [Nat.add]. rewrite MM by lia. rewrite mode_map by (assumption || lia). reflexivity.
Qed.

Lemma data_equal : forall b b', data_ok b -> data_ok b' -> bd_u b = bd_u b' -> bd_hi b = bd_hi b' -> bd_frameType b = bd_frameType b' -> bd_frame b = bd_frame b' ->
  (forall f i l m, (f < 6)%nat -> (i < length (bd_u b))%nat -> valid 0 (bd_hi b) l m -> bmode b f i l m = bmode b' f i l m) -> b = b'.
Proof.
  intros [u hi fs ft fr] [u' hi' fs' ft' fr'] (H0 & H6 & H) (H0' & H6' & H') E1 E2 E3 E4 HB. cbn [bd_u bd_hi bd_fields bd_frameType bd_frame] in *. subst. f_equal.
  apply nth_ext with (d := []) (d' := []); [lia|]. intros f Hf. destruct (H f ltac:(lia)) as [L1 R1]. destruct (H' f ltac:(lia)) as [L2 R2].
  apply nth_ext with (d := []) (d' := []); [lia|]. intros i Hi.
  rewrite (row_map 0 hi' (nth i (nth f fs []) [])), (row_map 0 hi' (nth i (nth f fs' []) [])); try lia; try (apply R1; apply nth_In; lia); try (apply R2; apply nth_In; lia).
  apply map_ext_in. intros [l m] I. apply LM_range_In in I. apply (HB f i l m); [lia|lia|split; lia].
Qed.

(** One transformation after another is the transformation with the product of the rotations and the sum of the time translations. *)
Theorem C69_rotation_compose : forall b k1 k2 k3 q1' q2' a1 a2, data_ok b -> increasing (bd_u b) -> (2 <= length (bd_u b))%nat ->
  rotation_only k1 q1' a1 -> rotation_only k2 q2' a2 -> rotation_only k3 (qmul q1' q2') (a1 + a2) ->
  (forall k, In k [k1; k2; k3] -> k_working_ell_max k = None /\ k_output_ell_max k = None) ->
  (forall f, (f < 6)%nat -> exact map2salm (spin_of f) (4 * bd_hi b + 3) (4 * bd_hi b + 3)) ->
  rbind (abd_transform spline map2salm b k1) (fun b1 => abd_transform spline map2salm b1 k2) = abd_transform spline map2salm b k3.
Proof.
  intros b k1 k2 k3 p q a1 a2 H Hi H2 K1 K2 K3 HN HX. assert (H0 := proj1 H).
  assert (N : (2 * (2 * bd_hi b + 1) + 1 = 4 * bd_hi b + 3)%Z) by lia.
  destruct (HN k1 ltac:(cbn; auto)) as [N1 O1]. destruct (HN k2 ltac:(cbn; auto)) as [N2 O2]. destruct (HN k3 ltac:(cbn; auto)) as [N3 O3].
  destruct (C69_rotation b k1 p a1 H Hi H2 K1) as (b1 & E1 & U1 & L1 & D1 & T1 & F1 & V1); rewrite ?N1, ?O1; cbn [dflt]; try lia; [rewrite N; exact HX|].
  destruct (C69_rotation b k3 _ _ H Hi H2 K3) as (b3 & E3 & U3 & L3 & D3 & T3 & F3 & V3); rewrite ?N3, ?O3; cbn [dflt]; try lia; [rewrite N; exact HX|].
  rewrite O1 in *. rewrite O3 in *. cbn [dflt] in *.
  assert (Hi1 : increasing (bd_u b1)) by (rewrite U1; apply shifted_increasing; exact Hi).
  assert (H21 : (2 <= length (bd_u b1))%nat) by (rewrite U1, map_length; exact H2).
  destruct (C69_rotation b1 k2 q a2 D1 Hi1 H21 K2) as (b2 & E2 & U2 & L2 & D2 & T2 & F2 & V2); rewrite ?N2, ?O2, ?L1; cbn [dflt]; try lia; [rewrite N; exact HX|].
  rewrite O2, L1 in *. cbn [dflt] in *. rewrite E1. cbn [rbind]. rewrite E2, E3. f_equal.
  apply data_equal; try congruence; try assumption.
  - rewrite U2, U1, U3, map_map. apply map_ext. intros; ring.
  - intros f i l m Hf Hi' Hv. rewrite U2, U1, !map_length in Hi'. rewrite L2 in Hv. assert (Hv' := Hv). destruct Hv' as [Hl Hm].
    rewrite V2, V3 by (try assumption; rewrite U1, map_length; assumption). destruct (Z.leb_spec l (bd_hi b)); [|lia]. rewrite andb_true_r.
    destruct (Z.leb_spec (Z.abs (spin_of f)) l) as [Hs|]; [|reflexivity].
    rewrite (turn_ext wigner_D q _ (turn wigner_D p (bmode b f i))).
    + apply (turn_turn wigner_D doc_mul); [exact (rotation_unit _ _ _ K1)|exact (rotation_unit _ _ _ K2)|lia|lia].
    + intros k Hk. rewrite V1 by (assumption || (split; lia)). destruct (Z.leb_spec l (bd_hi b)); [|lia]. destruct (Z.leb_spec (Z.abs (spin_of f)) l); [reflexivity|lia].
Qed.

(** Without a transformation, data without meaningless modes (those below the spin weight) come back as they were. *)
Theorem C69_identity : forall b k, data_ok b -> increasing (bd_u b) -> (2 <= length (bd_u b))%nat -> rotation_only k q1 0 ->
  k_working_ell_max k = None -> k_output_ell_max k = None ->
  (forall f i l m, (f < 6)%nat -> (i < length (bd_u b))%nat -> valid 0 (bd_hi b) l m -> (l < Z.abs (spin_of f))%Z -> bmode b f i l m = C0) ->
  (forall f, (f < 6)%nat -> exact map2salm (spin_of f) (4 * bd_hi b + 3) (4 * bd_hi b + 3)) ->
  abd_transform spline map2salm b k = Ok (mkbd (bd_u b) (bd_hi b) (bd_fields b) InertialFrame []).
Proof.
  intros b k H Hi H2 HK N1 O1 HZ HX. assert (H0 := proj1 H). assert (N : (2 * (2 * bd_hi b + 1) + 1 = 4 * bd_hi b + 3)%Z) by lia.
  destruct (C69_rotation b k q1 0 H Hi H2 HK) as (b1 & E1 & U1 & L1 & D1 & T1 & F1 & V1); rewrite ?N1, ?O1; cbn [dflt]; try lia; [rewrite N; exact HX|].
  rewrite O1 in *. cbn [dflt] in *. rewrite E1. f_equal. assert (U : bd_u b1 = bd_u b) by (rewrite U1; rewrite <- (map_id (bd_u b)) at 2; apply map_ext; intros; ring).
  apply data_equal; try assumption.
  intros f i l m Hf Hi' Hv. rewrite U in Hi'. rewrite L1 in Hv. rewrite V1 by assumption. destruct Hv as [Hl Hm]. destruct (Z.leb_spec l (bd_hi b)); [|lia]. rewrite andb_true_r.
  destruct (Z.leb_spec (Z.abs (spin_of f)) l) as [Hs|]; [apply (turn_one wigner_D C25_wigner_one); lia|]. symmetry. apply (HZ f i l m); try assumption. split; lia.
Qed.

(** The frame of the data plays no role: data in any frame are treated as inertial data with the same modes, and so labelled. *)
Theorem C69_frame_refuted : forall b k ft fr, abd_transform spline map2salm (mkbd (bd_u b) (bd_hi b) (bd_fields b) ft fr) k = abd_transform spline map2salm b k /\
  forall b', abd_transform spline map2salm b k = Ok b' -> bd_frameType b' = InertialFrame /\ bd_frame b' = [].
Proof.
  intros b k ft fr. split; [reflexivity|]. intros b'. unfold abd_transform.
  repeat match goal with |- rbind ?r _ = _ -> _ => destruct r; cbn [rbind]; [|discriminate] end. intros E. injection E as <-. split; reflexivity.
Qed.
(** Arguments that are refused *)
Theorem C69_refused : forall b k e, abd_process (bd_hi b) k = Err e -> abd_transform spline map2salm b k = Err e.
Proof. intros b k e E. unfold abd_transform. rewrite E. reflexivity. Qed.
End Points.

(** ** The two implementations agree *)
(** Factors between the fields of AsymptoticBondiData and waveforms, as in C30 *)
Definition conv (f : nat) : R := nth f [/ 2; - / sqrt 2; 1; - sqrt 2; 2; 1] 0.
(** A waveform with the modes of one field of the data *)
Definition carries (w : pwave) (b : bdata) (f : nat) : Prop :=
  wave_ok w /\ pw_t w = bd_u b /\ pw_hi w = bd_hi b /\ pw_dataType w = (Z.of_nat f + 1)%Z /\ pw_r w = true /\
  forall i l m, (i < length (bd_u b))%nat -> valid (Z.abs (spin_of f)) (bd_hi b) l m -> mode_of w i l m = Cscale (conv f) (bmode b f i l m).
(** Complex values are interpolated by their real and imaginary parts; interpolation and decomposition are linear. *)
Definition by_parts (spline : list R -> list R -> res (R -> R)) (cspline : list R -> list C -> res (R -> C)) : Prop :=
  forall xs ys, (4 <= length xs)%nat -> cspline xs ys = (let? fr := spline xs (map re ys) in let? fi := spline xs (map im ys) in Ok (fun u => mkC (fr u) (fi u))).
Definition scales (spline : list R -> list R -> res (R -> R)) : Prop :=
  forall c xs ys f, spline xs ys = Ok f -> exists g, spline xs (map (Rmult c) ys) = Ok g /\ forall u, g u = c * f u.
Definition linear (map2salm : Z -> Z -> list C -> Z -> Z -> list C) : Prop :=
  forall nt np c vals s L, map2salm nt np (map (Cscale c) vals) s L = map (Cscale c) (map2salm nt np vals s L).

Lemma spin_spin : forall f, (f < 6)%nat -> spin (Z.of_nat f + 1) = spin_of f.
Proof. intros f Hf. destruct f as [|[|[|[|[|[|f]]]]]]; try lia; reflexivity. Qed.
Lemma field_scale : forall s L c (a b : Z -> Z -> C) q, (forall l m, valid (Z.abs s) L l m -> a l m = Cscale c (b l m)) -> field s L a q = Cscale c (field s L b q).
Proof.
  intros s L c a b q H. unfold field. generalize (fun x (I : In x (LM_range 0 L)) => I). generalize (LM_range 0 L) at 1 3 4. induction l as [|[l m] r IH]; intros I.
  - cbn. apply C_eq; cbn; ring.
  - cbn [csum fst snd]. rewrite IH by (intros; apply I; right; assumption). pose proof (I (l, m) (or_introl eq_refl)) as B. apply LM_range_In in B.
    destruct (Z_lt_le_dec l (Z.abs s)) as [Lo|Hi]; [rewrite swsh_low by exact Lo|rewrite H by (split; lia)]; apply C_eq; cbn; ring.
Qed.
Lemma carries_point : forall w b f i q, (f < 6)%nat -> (i < length (bd_u b))%nat -> carries w b f -> at_point w i q = Cscale (conv f) (point b f i q).
Proof.
  intros w b f i q Hf Hi (HW & Ht & Hh & HD & Hr & HM). unfold at_point, point. rewrite HD, Hh, spin_spin by exact Hf. apply field_scale. intros l m V. apply HM; assumption.
Qed.
Lemma still_trivial : forall v a L q, ~ nontrivial v a -> trivial_dir (direction_of a L v q).
Proof.
  intros v a L q N. assert (V : v = (0, 0, 0)).
  { destruct v as [[x y] z]. destruct (Req_EM_T x 0) as [->|Nx]; [|exfalso; apply N; left; congruence]. destruct (Req_EM_T y 0) as [->|Ny]; [|exfalso; apply N; left; congruence].
    destruct (Req_EM_T z 0) as [->|Nz]; [|exfalso; apply N; left; congruence]. reflexivity. }
  assert (A : forall l m, (1 <= l)%Z -> (- l <= m <= l)%Z -> mode_at a l m = C0).
  { intros l m Hl Hm. unfold mode_at. destruct (Cnonzero_spec (nth (Z.to_nat (l * l + l + m)) a C0)) as [E|E].
    - exfalso. apply N. right. exists (Z.to_nat (l * l + l + m) - 1)%nat. replace (S (Z.to_nat (l * l + l + m) - 1)) with (Z.to_nat (l * l + l + m)) by nia. exact E.
    - destruct (nth (Z.to_nat (l * l + l + m)) a C0) as [x y]. destruct (Req_EM_T x 0) as [->|Nx]; [|exfalso; apply E; intros Z; injection Z; congruence].
      destruct (Req_EM_T y 0) as [->|Ny]; [reflexivity|exfalso; apply E; intros Z; injection Z; congruence]. }
  subst v. unfold trivial_dir, direction_of. cbn [d_eth d_eth2 d_vr1]. split; [|split].
  - apply zero_field. intros l m Hl Hm. assert (B : (l = 0 \/ 1 <= l)%Z) by lia. destruct B as [-> | B].
    + change (IZR (0 * (0 + 1))) with 0. rewrite sqrt_0. apply C_eq; cbn; ring.
    + rewrite A by lia. apply C_eq; cbn; ring.
  - apply zero_field. intros l m Hl Hm. assert (B : (l = 0 \/ 1 <= l)%Z) by lia. destruct B as [-> | B].
    + change (IZR (0 * (0 + 1))) with 0. rewrite sqrt_0. apply C_eq; cbn; ring.
    + rewrite A by lia. apply C_eq; cbn; ring.
  - pose proof (time_direction 0 q) as T. exact (f_equal d_vr1 T).
Qed.
(** The value at one point and time *)
Lemma upper_part : forall X p p' a c e f, (f < 5)%nat -> (forall g, (f <= g < 5)%nat -> part g p = part g p') -> part f (horner X p a c e) = part f (horner X p' a c e).
Proof.
  intros X p p' a c e f Hf H. destruct f as [|[|[|[|[|f]]]]]; try lia; unfold horner, part in *; cbn [nth f0 f1 f2 f3 f4 fs];
    try (pose proof (H 0%nat ltac:(lia)) as G0; cbn in G0; rewrite G0); try (pose proof (H 1%nat ltac:(lia)) as G1; cbn in G1; rewrite G1);
    try (pose proof (H 2%nat ltac:(lia)) as G2; cbn in G2; rewrite G2); try (pose proof (H 3%nat ltac:(lia)) as G3; cbn in G3; rewrite G3);
    try (pose proof (H 4%nat ltac:(lia)) as G4; cbn in G4; rewrite G4); reflexivity.
Qed.
Definition above (f : nat) (p : fields) : fields :=
  let z g := if (g <? f)%nat then C0 else part g p in mkfields (z 0%nat) (z 1%nat) (z 2%nat) (z 3%nat) (z 4%nat) C0.
Lemma weyl_part : forall p g, (g < 5)%nat -> weyl (to_spec p) (S g) = Cscale (conv g) (part g p).
Proof. intros p g Hg. destruct g as [|[|[|[|[|g]]]]]; try lia; unfold conv, part; cbn [nth weyl to_spec f0 f1 f2 f3 f4]; try reflexivity. apply C_eq; cbn; ring. Qed.
Lemma scalars_above : forall w aux b f n q, (f < 5)%nat -> (n < length (bd_u b))%nat -> carries w b f ->
  (forall f', (f < f' < 5)%nat -> exists x, aux (S f') = Some x /\ carries x b f') -> scalars w aux n q = to_spec (above f (points b n q)).
Proof.
  intros w aux b f n q Hf Hn HC HA.
  assert (Z0 : forall c, Cscale c C0 = C0) by (intros; apply C_eq; cbn; ring).
  assert (K : forall g, (g < 5)%nat ->
    (if (Z.of_nat (S g) <? pw_dataType w)%Z then C0 else if (Z.of_nat (S g) =? pw_dataType w)%Z then at_point w n q else match aux (S g) with Some x => at_point x n q | None => C0 end)
    = Cscale (conv g) (if (g <? f)%nat then C0 else point b g n q)).
  { intros g Hg. assert (HC' := HC). destruct HC' as (_ & _ & _ & HD & _). rewrite HD. destruct (Nat.ltb_spec g f).
    - destruct (Z.ltb_spec (Z.of_nat (S g)) (Z.of_nat f + 1)); [symmetry; apply Z0|lia].
    - destruct (Z.ltb_spec (Z.of_nat (S g)) (Z.of_nat f + 1)); [lia|]. destruct (Z.eqb_spec (Z.of_nat (S g)) (Z.of_nat f + 1)).
      + assert (g = f) by lia. subst g. apply carries_point; (assumption || lia).
      + destruct (HA g ltac:(lia)) as (x & -> & Hx). apply carries_point; (assumption || lia). }
  unfold scalars. rewrite (K 0%nat), (K 1%nat), (K 2%nat), (K 3%nat), (K 4%nat) by lia.
  unfold to_spec, above. cbn [f0 f1 f2 f3 f4 fs]. unfold part, points. cbn [nth f0 f1 f2 f3 f4 fs]. unfold conv. cbn [nth]. f_equal; try reflexivity; apply C_eq; cbn; ring.
Qed.
Lemma point_agree : forall w aux b f g n q, (f < 6)%nat -> (n < length (bd_u b))%nat -> carries w b f -> norm3 (gp_boost g) < 1 -> qnorm2 q = 1 ->
  (nontrivial (gp_boost g) (gp_super g) -> forall f', (f < f' < 5)%nat -> exists x, aux (S f') = Some x /\ carries x b f') ->
  transformed w aux g n q = Ok (Cscale (conv f) (part f (abd_point (gp_boost g) (direction_of (gp_super g) (gp_ell_super g) (gp_boost g) q) (nth n (bd_u b) 0) (points b n q)))).
Proof.
  intros w aux b f g n q Hf Hn HC Hv Hq HA. assert (HC' := HC). destruct HC' as (HW & Ht & Hh & HD & Hr & HM). unfold transformed. rewrite Hr, Ht, HD.
  set (d := direction_of (gp_super g) (gp_ell_super g) (gp_boost g) q). assert (Ud : unitv (d_r d)) by (apply direction_unit; exact Hq).
  assert (FT : flag (gp_boost g) (gp_super g) = false -> trivial_dir d).
  { intros F. apply still_trivial. unfold flag in F. destruct (nontrivial_spec (gp_boost g) (gp_super g)); [discriminate|assumption]. }
  rewrite (carries_point w b f n q Hf Hn HC).
  assert (B : (f = 5 \/ f < 5)%nat) by lia. destruct B as [-> | B].
  - change (Z.of_nat 5 + 1)%Z with sigma. destruct (C30_agree_shear (flag (gp_boost g) (gp_super g)) (gp_boost g) d (nth n (bd_u b) 0) (points b n q) (scalars w aux n q) Hv Ud FT) as [E _].
    change (fs (points b n q)) with (point b 5 n q) in E. unfold conv, part. cbn [nth]. replace (Cscale 1 (point b 5 n q)) with (point b 5 n q) by (apply C_eq; cbn; ring). rewrite E. f_equal. apply C_eq; cbn; ring.
  - pose proof (C30_agree (flag (gp_boost g) (gp_super g)) (gp_boost g) d (nth n (bd_u b) 0) (above f (points b n q)) (S f) Hv Ud FT ltac:(lia)) as E.
    rewrite !weyl_part in E by exact B.
    assert (EP : part f (abd_point (gp_boost g) d (nth n (bd_u b) 0) (above f (points b n q))) = part f (abd_point (gp_boost g) d (nth n (bd_u b) 0) (points b n q))).
    { unfold abd_point. apply upper_part; [exact B|]. intros g' Hg. unfold above. destruct g' as [|[|[|[|[|g']]]]]; try lia; unfold part at 1; cbn [nth f0 f1 f2 f3 f4];
        match goal with |- (if (?x <? f)%nat then _ else _) = _ => destruct (Nat.ltb_spec x f); [lia|reflexivity] end. }
    assert (EQ : part f (above f (points b n q)) = point b f n q).
    { unfold above. destruct f as [|[|[|[|[|f]]]]]; try lia; reflexivity. }
    rewrite EP, EQ in E. replace (Z.of_nat (S f)) with (Z.of_nat f + 1)%Z in E by lia.
    assert (DN : nontrivial (gp_boost g) (gp_super g) \/ ~ nontrivial (gp_boost g) (gp_super g)) by (destruct (nontrivial_spec (gp_boost g) (gp_super g)); auto). destruct DN as [NT|NT].
    + rewrite (scalars_above w aux b f n q B Hn HC (HA NT)). exact E.
    + rewrite (grid_point_fields _ _ _ _ _ _ _ (to_spec (above f (points b n q)))); [exact E|]. unfold flag. destruct (nontrivial_spec (gp_boost g) (gp_super g)); [contradiction|reflexivity].
Qed.
(** The arguments are read alike, if the supertranslation is that of a real function. *)
Lemma read_alike : forall e nt np k p g, abd_process e k = Ok p -> grid_process e nt np k = Ok g ->
  (forall a, k_super k = Some a -> is_real (pad4 a) (ell_max_of (pad4 a))) ->
  gp_rotation g = p_rotation p /\ gp_boost g = p_boost p /\ gp_super g = p_super p /\ gp_ell_super g = ell_max_of (p_super p).
Proof.
  intros e nt np k p g HP HG HR. assert (ES : read_super impose_reality (k_super k) = read_super check_reality (k_super k)).
  { unfold read_super. destruct (k_super k) as [a|]; [|reflexivity]. specialize (HR a eq_refl). destruct (complete (pad4 a)) eqn:Cp; [|reflexivity].
    apply complete_spec in Cp. destruct Cp as (L & HL & Hm & El). rewrite El in HR. unfold check_reality. rewrite El.
    rewrite (check_fold_pass L) by (try assumption; intros l m I; apply nonneg_modes_In in I; lia).
    destruct (impose_reality_spec _ L HL Hm) as (a0 & E & Hm' & S). rewrite E. f_equal. apply (modes_ext a0 (pad4 a) L); try assumption. intros. rewrite S by assumption. eapply real_part_id; eassumption. }
  destruct (grid_process_facts _ _ _ _ _ HG) as (L & HL & Hm & El & _).
  assert (EL : gp_ell_super g = ell_max_of (gp_super g)).
  { rewrite El. unfold ell_max_of. unfold Kwargs_Proofs.has_modes in Hm. rewrite Hm, Z.sqrt_square by lia. lia. }
  unfold abd_process in HP. unfold grid_process in HG. rewrite ES in HP.
  destruct (read_super check_reality (k_super k)) as [a|]; [|discriminate]. cbn [rbind] in *. destruct (override k a) as [[a' st]|]; [|discriminate]. cbn [rbind] in *. cbv zeta in *.
  destruct (Z.ltb _ _) in HP; [discriminate|]. destruct (Z.ltb _ _) in HG; [discriminate|]. destruct (Z.ltb _ _) in HG; [discriminate|].
  destruct (read_rotation (k_rotation k)) as [q|]; [|discriminate]. cbn [rbind] in *. destruct (read_boost (k_boost k)) as [v|]; [|discriminate]. cbn [rbind] in *.
  injection HP as HP. injection HG as HG. subst p g. cbn [gp_rotation p_rotation gp_boost p_boost gp_super p_super gp_ell_super] in *. auto.
Qed.

Section Agreement.
Variable spline : list R -> list R -> res (R -> R).
Variable cspline : list R -> list C -> res (R -> C).
Variable map2salm : Z -> Z -> list C -> Z -> Z -> list C.
Hypothesis spline_hits : interpolates spline.
Hypothesis cspline_hits : passes cspline.
Hypothesis parts : by_parts spline cspline.
Hypothesis spline_scales : scales spline.

Definition wtrack (w : pwave) (aux : nat -> option pwave) (g : gridprocessed) (q : quat) (u : R) : C :=
  let d := direction_of (gp_super g) (gp_ell_super g) (gp_boost g) q in
  let vals := map (fun n => match transformed w aux g n q with Ok x => x | Err _ => C0 end) (seq 0 (length (pw_t w))) in
  match spline (knots (gp_boost g) d (pw_t w)) (map re vals), spline (knots (gp_boost g) d (pw_t w)) (map im vals) with
  | Ok fr, Ok fi => mkC (fr u) (fi u) | _, _ => C0 end.
Lemma wave_grid : forall w nt np k aux g, wave_ok w -> increasing (pw_t w) -> (4 <= length (pw_t w))%nat -> (1 <= pw_dataType w <= 9)%Z ->
  pw_frameType w = InertialFrame -> grid_process (pw_hi w) nt np k = Ok g -> is_real (gp_super g) (gp_ell_super g) ->
  (nontrivial (gp_boost g) (gp_super g) -> (pw_dataType w <= 4)%Z -> aux_ok w aux) ->
  let rotors := map (grid_rotor (gp_rotation g) (gp_boost g)) (grid_points (gp_theta g) (gp_phi g)) in
  forall newt, new_slices (gp_boost g) (nth 0 (gp_super g) C0) (map (direction_of (gp_super g) (gp_ell_super g) (gp_boost g)) rotors) (pw_t w) = Ok newt ->
  from_modes spline w nt np k aux = Ok (mkpg newt (map (fun i => map (fun q => wtrack w aux g q (nth i newt 0)) rotors) (seq 0 (length newt)))
     (gp_theta g) (gp_phi g) InertialFrame (pw_dataType w) (pw_r w)).
Proof.
  intros w nt np k aux g H Hi H4 Hd Hf Hg HR HA rotors newt Eo.
  destruct (grid_process_facts _ _ _ _ _ Hg) as (L & HL & Hm & El & Em & T1 & T2 & Hv & Hq).
  assert (HH := proj1 H). destruct (known_type _ Hd) as (Es & _ & _).
  assert (UR : forall q, In q rotors -> qnorm2 q = 1).
  { intros q I. apply in_map_iff in I. destruct I as (r & <- & I). apply grid_rotor_unit; [exact Hq|]. apply (grid_points_unit _ _ _ I). }
  unfold from_modes. rewrite Hf, Hg. cbn [rbind]. rewrite Es. cbn [rbind]. cbv zeta. fold rotors. fold (flag (gp_boost g) (gp_super g)).
  rewrite (each_ok _ _ _ (direction_of (gp_super g) (gp_ell_super g) (gp_boost g))).
  2: { intros q _. rewrite El, Em. apply direction_data_ok; [lia|assumption|rewrite <- El; assumption]. }
  cbn [rbind]. set (dirs := map _ rotors) in *.
  assert (EC : combine rotors dirs = map (fun q => (q, direction_of (gp_super g) (gp_ell_super g) (gp_boost g) q)) rotors).
  { unfold dirs. rewrite <- (map_id rotors) at 1. apply combine_maps. }
  rewrite EC.
  assert (EM : forall A B D (f : B -> res D) (m : A -> B) l, each f (map m l) = each (fun x => f (m x)) l).
  { intros A B D f m. induction l as [|a l IH]; [reflexivity|]. cbn [map each]. rewrite IH. reflexivity. }
  rewrite EM. cbn [fst snd].
  set (colf := fun q => map (fun n => match transformed w aux g n q with Ok x => x | Err _ => C0 end) (seq 0 (length (pw_t w)))).
  rewrite (each_ok _ _ _ colf); [|intros q _; apply (column_ok w aux g q L); assumption]. cbn [rbind].
  rewrite Eo. cbn [rbind]. unfold dirs at 1. rewrite combine_maps, EM. cbn [fst snd].
  rewrite (each_ok _ _ _ (fun q => map (wtrack w aux g q) newt)).
  2: { intros q Iq. unfold resample. set (d := direction_of (gp_super g) (gp_ell_super g) (gp_boost g) q). assert (Ud : unitv (d_r d)) by (apply direction_unit, UR, Iq).
       assert (IK : increasing (knots (gp_boost g) d (pw_t w))).
       { unfold knots. apply increasing_map; [|exact Hi]. intros x y Lt. pose proof (kfactor_pos (gp_boost g) (d_r d) Hv Ud). apply Rmult_lt_compat_l; lra. }
       assert (LK : length (knots (gp_boost g) d (pw_t w)) = length (pw_t w)) by (unfold knots; apply map_length).
       assert (LC : length (colf q) = length (pw_t w)) by (unfold colf; rewrite map_length, seq_length; reflexivity).
       destruct (spline_hits _ (map re (colf q)) IK ltac:(lia) ltac:(rewrite map_length; lia)) as (fr & Er & _).
       destruct (spline_hits _ (map im (colf q)) IK ltac:(lia) ltac:(rewrite map_length; lia)) as (fi & Ei & _).
       rewrite Er. cbn [rbind]. rewrite Ei. cbn [rbind]. f_equal. apply map_ext. intros u. unfold wtrack. fold d. fold (colf q). rewrite Er, Ei. reflexivity. }
  cbn [rbind]. do 2 f_equal. apply map_ext_in. intros i Ii. apply in_seq in Ii. rewrite map_map. apply map_ext. intros q.
  rewrite (nth_indep _ C0 (wtrack w aux g q 0)) by (rewrite map_length; lia). apply map_nth.
Qed.

Lemma tracks_agree : forall w aux b f g p q u, (f < 6)%nat -> (4 <= length (bd_u b))%nat -> increasing (bd_u b) -> carries w b f -> norm3 (gp_boost g) < 1 -> qnorm2 q = 1 ->
  (nontrivial (gp_boost g) (gp_super g) -> forall f', (f < f' < 5)%nat -> exists x, aux (S f') = Some x /\ carries x b f') ->
  gp_boost g = p_boost p -> gp_super g = p_super p -> gp_ell_super g = ell_max_of (p_super p) ->
  wtrack w aux g q u = Cscale (conv f) (track cspline b p q f u).
Proof.
  intros w aux b f g p q u Hf H4 Hi HC Hv Hq HA E1 E2 E3. unfold wtrack, track. rewrite <- E3, <- E2, <- E1. assert (HC' := HC). destruct HC' as (_ & Ht & _). rewrite Ht.
  set (d := direction_of (gp_super g) (gp_ell_super g) (gp_boost g) q).
  set (vs := map (fun m => part f (abd_point (gp_boost g) d (nth m (bd_u b) 0) (points b m q))) (seq 0 (length (bd_u b)))).
  assert (EV : map (fun n => match transformed w aux g n q with Ok x => x | Err _ => C0 end) (seq 0 (length (bd_u b))) = map (Cscale (conv f)) vs).
  { unfold vs. rewrite map_map. apply map_ext_in. intros n Hn. apply in_seq in Hn. rewrite (point_agree w aux b f g n q) by (assumption || lia). reflexivity. }
  rewrite EV, !map_map. cbn [Cscale re im].
  assert (Ud : unitv (d_r d)) by (apply direction_unit; exact Hq).
  assert (LK : length (knots (gp_boost g) d (bd_u b)) = length (bd_u b)) by (unfold knots; apply map_length).
  assert (IK : increasing (knots (gp_boost g) d (bd_u b))).
  { unfold knots. apply increasing_map; [|exact Hi]. intros x y Lt. pose proof (kfactor_pos (gp_boost g) (d_r d) Hv Ud). apply Rmult_lt_compat_l; lra. }
  assert (LV : length vs = length (bd_u b)) by (unfold vs; rewrite map_length, seq_length; reflexivity).
  rewrite parts by lia.
  destruct (spline_hits _ (map re vs) IK ltac:(lia) ltac:(rewrite map_length; lia)) as (fr & Er & _).
  destruct (spline_hits _ (map im vs) IK ltac:(lia) ltac:(rewrite map_length; lia)) as (fi & Ei & _).
  destruct (spline_scales (conv f) _ _ _ Er) as (gr & Egr & Hgr). destruct (spline_scales (conv f) _ _ _ Ei) as (gi & Egi & Hgi).
  rewrite map_map in Egr, Egi. rewrite Er. cbn [rbind]. rewrite Ei. cbn [rbind].
  change (fun x => re (Cscale (conv f) x)) with (fun x => conv f * re x). change (fun x => im (Cscale (conv f) x)) with (fun x => conv f * im x).
  rewrite Egr, Egi, Hgr, Hgi. reflexivity.
Qed.
(** For every BMS transformation: transforming one field as a waveform, with the other scalars of higher index beside it, gives the modes that the transformation of
    the whole data gives to this field - on the same grid, and up to the factor between the conventions. *)
Theorem C69_implementations_agree : forall b f w aux k p g, let n := (2 * p_working p + 1)%Z in let out := p_output p in let s := spin_of f in
  (f < 6)%nat -> data_ok b -> increasing (bd_u b) -> (4 <= length (bd_u b))%nat -> carries w b f -> pw_frameType w = InertialFrame ->
  abd_process (bd_hi b) k = Ok p -> grid_process (bd_hi b) (Some n) (Some n) k = Ok g ->
  (forall a, k_super k = Some a -> is_real (pad4 a) (ell_max_of (pad4 a))) ->
  (nontrivial (p_boost p) (p_super p) -> forall f', (f < f' < 5)%nat -> exists x, aux (S f') = Some x /\ carries x b f') ->
  linear map2salm -> (forall vals s', Z.of_nat (length (map2salm n n vals s' out)) = ((out + 1) ^ 2)%Z) -> (Z.abs s <= out)%Z ->
  exists b' w', abd_transform cspline map2salm b k = Ok b' /\ transform spline map2salm w (Some out) (Some n) (Some n) k aux = Ok w' /\
    pw_t w' = bd_u b' /\ pw_hi w' = bd_hi b' /\ pw_dataType w' = pw_dataType w /\
    forall i l m, (i < length (bd_u b'))%nat -> valid (Z.abs s) out l m -> mode_of w' i l m = Cscale (conv f) (bmode b' f i l m).
Proof.
  intros b f w aux k p g n out s Hf Hb Hi H4 HC HF HP HG HR HA HL HS Hs.
  destruct (read_alike _ _ _ _ _ _ HP HG HR) as (Rq & Rv & Ra & RL).
  destruct (abd_grid cspline cspline_hits map2salm b k p Hb Hi ltac:(lia) HP) as (newt & Eo & EA). fold n out in Eo, EA.
  set (rotors := map (grid_rotor (p_rotation p) (p_boost p)) (grid_points n n)) in *.
  destruct (C28_real _ _ _ HP) as (L' & HL' & Hm & HRe). destruct (real_modes_id _ L' ltac:(lia) Hm HRe) as [_ EL]. destruct (C28_parameters _ _ _ HP) as (Hq & Hv & _).
  assert (HC' := HC). destruct HC' as (HW & Ht & Hh & HD & Hr & HM).
  assert (GG : gp_theta g = n /\ gp_phi g = n).
  { unfold grid_process in HG. destruct (read_super _ _); [|discriminate]. cbn [rbind] in HG. destruct (override _ _) as [[? ?]|]; [|discriminate]. cbn [rbind dflt] in HG. cbv zeta in HG.
    destruct (Z.ltb _ _); [discriminate|]. destruct (read_rotation _); [|discriminate]. cbn [rbind] in HG. destruct (read_boost _); [|discriminate]. cbn [rbind] in HG.
    injection HG as HG. subst g. split; reflexivity. }
  destruct GG as [G1 G2].
  assert (AX : nontrivial (gp_boost g) (gp_super g) -> (pw_dataType w <= 4)%Z -> aux_ok w aux).
  { rewrite Rv, Ra. intros NT H4' DT HDT. rewrite HD in *. destruct (HA NT (DT - 1)%nat ltac:(lia)) as (x & Ex & Hx). exists x. replace (S (DT - 1)) with DT in Ex by lia. split; [exact Ex|].
    destruct Hx as (X1 & X2 & X3 & X4 & _). split; [exact X1|]. split; [destruct X1 as (_ & X1 & _); destruct HW as (_ & HW & _); congruence|lia]. }
  pose proof (wave_grid w (Some n) (Some n) k aux g HW) as WG. rewrite Ht, Hh, G1, G2, Rq, Rv, Ra, RL, EL in WG. fold rotors in WG.
  specialize (WG Hi H4 ltac:(lia) HF HG HRe). rewrite Rv, Ra in AX. specialize (WG AX newt). rewrite EL in Eo. specialize (WG Eo).
  assert (UR : forall q, In q rotors -> qnorm2 q = 1).
  { intros q I. apply in_map_iff in I. destruct I as (r & <- & I). apply grid_rotor_unit; [exact Hq|]. apply (grid_points_unit _ _ _ I). }
  set (row := fun g i => map2salm n n (map (fun q => track cspline b p q g (nth i newt 0)) rotors) (spin_of g) out) in *.
  rewrite (each_ok _ _ _ (fun g => map (row g) (seq 0 (length newt)))) in EA.
  2: { intros g' _. apply each_ok. intros i _. cbv zeta. rewrite HS, Z.eqb_refl. reflexivity. }
  cbn [rbind] in EA. eexists. eexists. split; [exact EA|]. unfold transform. rewrite WG. cbn [rbind]. unfold to_modes. cbn [pg_dataType pg_theta pg_phi pg_data pg_t pg_frameType pg_r].
  destruct (known_type (pw_dataType w) ltac:(lia)) as (Es & _ & _). rewrite Es. rewrite HD, spin_spin by exact Hf. fold s. cbn [rbind dflt]. cbv zeta.
  destruct (Z.ltb_spec out 0); [lia|]. destruct (Z.ltb_spec (Z.abs s) 0); [lia|]. destruct (Z.ltb_spec out (Z.abs s)); [lia|]. cbn [orb].
  assert (EM : forall A B D (f : B -> res D) (m : A -> B) l, each f (map m l) = each (fun x => f (m x)) l).
  { intros A B D f' m. induction l as [|x l IH]; [reflexivity|]. cbn [map each]. rewrite IH. reflexivity. }
  rewrite EM.
  set (K := Z.to_nat (LM_index (Z.abs s) (- Z.abs s) 0)).
  rewrite (each_ok _ _ _ (fun i => skipn K (map (Cscale (conv f)) (row f i)))).
  2: { intros i _. cbv zeta.
       assert (ER : map (fun q => wtrack w aux g q (nth i newt 0)) rotors = map (Cscale (conv f)) (map (fun q => track cspline b p q f (nth i newt 0)) rotors)).
       { rewrite map_map. apply map_ext_in. intros q Iq. apply tracks_agree; try assumption; try (rewrite Rv; assumption); try (apply UR; exact Iq). rewrite Rv, Ra. exact HA. }
       rewrite ER, HL. change (map2salm n n (map (fun q => track cspline b p q f (nth i newt 0)) rotors) s out) with (row f i).
       match goal with |- (if (?x =? ?y)%Z then _ else _) = _ => destruct (Z.eqb_spec x y) as [_|NE] end; [reflexivity|]. exfalso. apply NE.
       rewrite skipn_length, map_length. unfold row. assert (LR := HS (map (fun q => track cspline b p q f (nth i newt 0)) rotors) (spin_of f)). unfold K, LM_index in *. nia. }
  cbn [rbind]. split; [reflexivity|]. cbn [pw_t pw_hi pw_dataType bd_u bd_hi]. split; [reflexivity|]. split; [reflexivity|]. split; [reflexivity|].
  intros i l m Hi' Hv'. unfold mode_of. cbn [pw_lo pw_data]. assert (Hv2 := Hv'). destruct Hv2 as [Hl Hm']. destruct (Z.ltb_spec l (Z.abs s)); [lia|].
  set (F := fun i => skipn K (map (Cscale (conv f)) (row f i))). rewrite (nth_indep _ [] (F 0%nat)) by (rewrite map_length, seq_length; exact Hi'). rewrite (map_nth F), seq_nth by exact Hi'. cbn [Nat.add]. unfold F.
  unfold bmode. cbn [bd_fields].
  set (Fs := fun g => map (row g) (seq 0 (length newt))). rewrite (nth_indep _ [] (Fs 0%nat)) by (rewrite map_length, seq_length; lia). rewrite (map_nth Fs), seq_nth by lia. cbn [Nat.add]. unfold Fs.
  rewrite (nth_indep _ [] (row f 0%nat)) by (rewrite map_length, seq_length; exact Hi'). rewrite (map_nth (row f)), seq_nth by exact Hi'. cbn [Nat.add].
  assert (LR := HS (map (fun q => track cspline b p q f (nth i newt 0)) rotors) (spin_of f)). fold (row f i) in LR.
  unfold mode. rewrite nth_skipn. assert (ZC : Cscale (conv f) C0 = C0) by (apply C_eq; cbn; ring). rewrite <- ZC at 1. rewrite map_nth. f_equal. f_equal. unfold K, LM_index. nia.
Qed.
End Agreement.

(** Cases: interpolation that looks the value up; an exact inverse of the harmonics of all five spin weights; data up to degree two at four times; a half turn and a time
    translation; then a boost, with the waveforms of psi3 and psi4 made from the data. *)
Definition clookup (xs : list R) (ys : list C) : res (R -> C) := Ok (fun u => mkC (lookup xs (map re ys) u) (lookup xs (map im ys) u)).
Lemma lookup_at : forall xs ys i, increasing xs -> length ys = length xs -> (i < length xs)%nat -> lookup xs ys (nth i xs 0) = nth i ys 0.
Proof.
  induction xs as [|a xs IH]; intros ys i HI HL Hi; [cbn in Hi; lia|].
  destruct ys as [|b ys]; [discriminate|]. cbn [lookup]. destruct i as [|i]; cbn [nth].
  - destruct (Req_EM_T a a); congruence.
  - assert (LT : a < nth i xs 0) by (apply (increasing_lt xs a HI); apply nth_In; cbn in Hi; lia).
    destruct (Req_EM_T (nth i xs 0) a); [lra|]. apply IH; [inversion HI; subst; [constructor|assumption]|cbn in HL; lia|cbn in Hi; lia].
Qed.
Lemma clookup_passes : passes clookup.
Proof.
  intros xs ys HI _ HL. eexists. split; [reflexivity|]. intros i Hi. cbv beta. rewrite !lookup_at by (try assumption; rewrite map_length; assumption).
  change 0 with (re C0) at 1. change 0 with (im C0). rewrite !map_nth. destruct (nth i ys C0). reflexivity.
Qed.
Lemma lookup_scales : scales (fun xs ys => Ok (lookup xs ys)).
Proof.
  intros c xs ys f E. injection E as <-. eexists. split; [reflexivity|]. intros u. revert ys. induction xs as [|a xs IH]; intros ys; [cbn; ring|].
  destruct ys as [|b ys]; [cbn; ring|]. cbn [map lookup]. destruct (Req_EM_T u a); [reflexivity|apply IH].
Qed.
Definition ex_b : bdata := mkbd [0; 1; 2; 3] 2 (map (fun f => repeat (map (fun lm => if (Z.abs (spin_of f) <=? fst lm)%Z then mkC (IZR (fst lm)) (IZR (snd lm)) else C0) (LM_range 0 2)) 4) (seq 0 6)) InertialFrame [].
Definition ex_kb : kwargs := mkkw None None None None None (Some 3%Z) None (Some [0; 0; / 2]).
Definition wave_of (b : bdata) (f : nat) : pwave :=
  mkpw (bd_u b) (map (map (Cscale (conv f))) (nth f (bd_fields b) [])) 0 (bd_hi b) [] InertialFrame (Z.of_nat f + 1) true.
Lemma wave_of_carries : forall b f, (f < 6)%nat -> data_ok b -> carries (wave_of b f) b f.
Proof.
  intros b f Hf (H0 & H6 & H). destruct (H f Hf) as [HL HR]. split.
  - split; [cbn; lia|]. split; [cbn [wave_of pw_data pw_t]; rewrite map_length; exact HL|]. intros row I. cbn [wave_of pw_data pw_lo pw_hi] in *. apply in_map_iff in I. destruct I as (r & <- & I). rewrite map_length. apply HR, I.
  - split; [reflexivity|]. split; [reflexivity|]. split; [reflexivity|]. split; [reflexivity|]. intros i l m Hi Hv. unfold mode_of, bmode. cbn [wave_of pw_lo pw_data]. destruct Hv as [Hl Hm]. destruct (Z.ltb_spec l 0); [lia|].
    change (@nil C) with (map (Cscale (conv f)) []) at 1. rewrite map_nth. unfold mode. assert (ZC : Cscale (conv f) C0 = C0) by (apply C_eq; cbn; ring). rewrite <- ZC at 1. apply map_nth.
Qed.
Lemma ex_b_ok : data_ok ex_b /\ increasing (bd_u ex_b) /\
  forall f i l m, (f < 6)%nat -> (i < length (bd_u ex_b))%nat -> valid 0 (bd_hi ex_b) l m -> (l < Z.abs (spin_of f))%Z -> bmode ex_b f i l m = C0.
Proof.
  assert (NF : forall f, (f < 6)%nat -> nth f (bd_fields ex_b) [] = repeat (map (fun lm => if (Z.abs (spin_of f) <=? fst lm)%Z then mkC (IZR (fst lm)) (IZR (snd lm)) else C0) (LM_range 0 2)) 4).
  { intros f Hf. destruct f as [|[|[|[|[|[|f]]]]]]; try lia; reflexivity. }
  split; [|split].
  - split; [cbn; lia|]. split; [reflexivity|]. intros f Hf. rewrite NF by exact Hf. split; [apply repeat_length|]. intros row I. apply repeat_spec in I. subst row. apply map_length.
  - cbn. repeat constructor; lra.
  - intros f i l m Hf Hi Hv Hl. unfold bmode. rewrite NF by exact Hf. cbn [ex_b bd_u length] in Hi.
    match goal with |- mode 0 (nth i (repeat ?x 4) []) l m = _ => assert (EN : nth i (repeat x 4) [] = x) by (destruct i as [|[|[|[|i]]]]; try reflexivity; lia) end.
    rewrite EN. rewrite mode_map by (assumption || lia). cbn [fst snd]. destruct (Z.leb_spec (Z.abs (spin_of f)) l); [lia|reflexivity].
Qed.
Example C69_case_rotation : passes clookup /\ data_ok ex_b /\ rotation_only ex_k (mkq 0 0 0 1) 3 /\
  exists map2salm, (forall f, (f < 6)%nat -> exact map2salm (spin_of f) 11 11) /\
  (exists b', abd_transform clookup map2salm ex_b ex_k = Ok b' /\ bd_u b' = [0 - 3; 1 - 3; 2 - 3; 3 - 3]) /\
  abd_transform clookup map2salm ex_b (mkkw None None None None None None None None) = Ok ex_b.
Proof.
  destruct C68_case as (_ & _ & K & _). destruct ex_b_ok as (O1 & O2 & O3). split; [exact clookup_passes|]. split; [exact O1|]. split; [exact K|].
  destruct (C68_inverse_exists 2 11 11) as [m1 X1]. destruct (C68_inverse_exists 1 11 11) as [m2 X2]. destruct (C68_inverse_exists 0 11 11) as [m3 X3].
  destruct (C68_inverse_exists (-1) 11 11) as [m4 X4]. destruct (C68_inverse_exists (-2) 11 11) as [m5 X5].
  set (mm := fun nt np vals s L => if (s =? 2)%Z then m1 nt np vals s L else if (s =? 1)%Z then m2 nt np vals s L else if (s =? 0)%Z then m3 nt np vals s L
             else if (s =? -1)%Z then m4 nt np vals s L else m5 nt np vals s L).
  assert (HX : forall f, (f < 6)%nat -> exact mm (spin_of f) 11 11).
  { intros f Hf. destruct f as [|[|[|[|[|[|f]]]]]]; try lia; intros L a lmax; [apply X1|apply X2|apply X3|apply X4|apply X5|apply X1]. }
  exists mm. split; [exact HX|]. split.
  - destruct (C69_rotation clookup clookup_passes mm ex_b ex_k _ _ O1 O2 ltac:(cbn; lia) K) as (b' & E & U & _); try (cbn; lia); [exact HX|]. exists b'. split; [exact E|exact U].
  - apply (C69_identity clookup clookup_passes mm ex_b); try assumption; try reflexivity; [cbn; lia|].
    repeat (split; [reflexivity|]). split; [|right; split; reflexivity]. unfold read_rotation. cbn [k_rotation quat_of].
    assert (A : qabs (mkq 1 0 0 0) = 1). { unfold qabs, qnorm2. cbn [qw qx qy qz]. replace (1 * 1 + 0 * 0 + 0 * 0 + 0 * 0) with 1 by ring. apply sqrt_1. }
    rewrite A. destruct (Rltb_spec 1 (3 / 10 ^ 16)); [exfalso; lra|]. unfold qnormalized. rewrite A. cbn [qw qx qy qz]. f_equal. apply quat_eq; cbn; field.
Qed.
Example C69_case_boost : exists b' w', let mm := fun (_ _ : Z) vals (_ : Z) L => map (fun _ => nth 0 vals C0) (LM_range 0 L) in
  abd_transform clookup mm ex_b ex_kb = Ok b' /\
  transform (fun xs ys => Ok (lookup xs ys)) mm (wave_of ex_b 3) (Some 2%Z) (Some 7%Z) (Some 7%Z) ex_kb (fun DT => if (DT =? 5)%nat then Some (wave_of ex_b 4) else None) = Ok w' /\
  pw_t w' = bd_u b' /\ forall i l m, (i < length (bd_u b'))%nat -> valid 1 2 l m -> mode_of w' i l m = Cscale (- sqrt 2) (bmode b' 3 i l m).
Proof.
  destruct ex_b_ok as (O1 & O2 & _). set (mm := fun (_ _ : Z) vals (_ : Z) L => map (fun _ => nth 0 vals C0) (LM_range 0 L)).
  assert (A : qabs (mkq 1 0 0 0) = 1). { unfold qabs, qnorm2. cbn [qw qx qy qz]. replace (1 * 1 + 0 * 0 + 0 * 0 + 0 * 0) with 1 by ring. apply sqrt_1. }
  assert (RR : read_rotation None = Ok q1).
  { unfold read_rotation. cbn [quat_of]. rewrite A. destruct (Rltb_spec 1 (3 / 10 ^ 16)); [exfalso; lra|]. unfold qnormalized. rewrite A. cbn [qw qx qy qz]. f_equal. apply quat_eq; cbn; field. }
  assert (NB : norm3 (0, 0, / 2) = / 2). { unfold norm3. replace (0 * 0 + 0 * 0 + / 2 * / 2) with (/ 2 * / 2) by ring. apply sqrt_square. lra. }
  assert (RB : read_boost (Some [0; 0; / 2]) = Ok (0, 0, / 2)).
  { unfold read_boost. cbn [vec3_of]. rewrite NB. destruct (Rleb_spec 1 (/ 2)); [exfalso; lra|reflexivity]. }
  assert (RO : exists st, override ex_kb [C0; C0; C0; C0] = Ok ([C0; C0; C0; C0], st)).
  { unfold override. cbn [get nth_error rbind]. destruct (vector_from_ell_1_modes [C0; C0; C0]) as [[vx vy] vz]. cbn. eexists. reflexivity. }
  destruct RO as [st RO].
  set (p := mkproc q1 (0, 0, / 2) [C0; C0; C0; C0] 3 2).
  assert (HP : abd_process (bd_hi ex_b) ex_kb = Ok p).
  { unfold abd_process, read_super. cbn [k_super ex_kb rbind]. change (repeat C0 4) with [C0; C0; C0; C0]. fold ex_kb. rewrite RO. cbn [rbind]. cbv zeta. cbn [ex_kb k_working_ell_max k_output_ell_max dflt ex_b bd_hi k_rotation k_boost].
    change (3 <? 2)%Z with false. cbv iota. rewrite RR. cbn [rbind]. rewrite RB. reflexivity. }
  set (g := mkgproc [C0; C0; C0; C0] 1 3 7 7 q1 (0, 0, / 2)).
  assert (HG : grid_process (bd_hi ex_b) (Some 7%Z) (Some 7%Z) ex_kb = Ok g).
  { unfold grid_process, read_super. cbn [k_super ex_kb rbind]. change (repeat C0 4) with [C0; C0; C0; C0]. fold ex_kb. rewrite RO. cbn [rbind]. cbv zeta. cbn [ex_kb k_super dflt ex_b bd_hi k_rotation k_boost].
    change (7 <? 2 * 2 + 1)%Z with false. cbv iota. rewrite RR. cbn [rbind]. rewrite RB. reflexivity. }
  destruct (C69_implementations_agree (fun xs ys => Ok (lookup xs ys)) clookup mm lookup_interpolates clookup_passes ltac:(intros xs ys _; reflexivity) lookup_scales
     ex_b 3 (wave_of ex_b 3) (fun DT => if (DT =? 5)%nat then Some (wave_of ex_b 4) else None) ex_kb p g) as (b' & w' & E1 & E2 & E3 & _ & _ & E4); try assumption; try (cbn; lia); try reflexivity.
  - apply wave_of_carries; [lia|exact O1].
  - intros a E. discriminate E.
  - intros _ f' Hf'. assert (f' = 4)%nat by lia. subst f'. exists (wave_of ex_b 4). split; [reflexivity|]. apply wave_of_carries; [lia|exact O1].
  - intros nt np c vals s L. unfold mm. rewrite map_map. apply map_ext. intros _. assert (ZC : Cscale c C0 = C0) by (apply C_eq; cbn; ring). rewrite <- ZC at 1. apply map_nth.
  - exists b', w'. split; [exact E1|]. split; [exact E2|]. split; [exact E3|]. exact E4.
Qed.
