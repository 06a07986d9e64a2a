(** * BMS transformation of a waveform, from end to end: what comes out on the grid and in the modes *)
From Coq Require Import Reals ZArith List Bool Lia Lra.
From Verif Require Import Common Cplx Quat Modes_Model Times_Model Tables_Model Modal_Model Kwargs_Model Transform_Model Rotate_Model
  Modes_Proofs Modal_Proofs Rotate_Proofs Times_Proofs Kwargs_Proofs Transform_Proofs Wigner_Model Wigner_Proofs Sphere_Model Sphere_Proofs Harmonics_Proofs Pipeline_Model.
Import ListNotations.
Open Scope R_scope.

(** ** Specification *)
(** Mode (l, m) at time number i; there is nothing below the lowest degree. *)
Definition mode_of (w : pwave) (i : nat) (l m : Z) : C := if (l <? pw_lo w)%Z then C0 else mode (pw_lo w) (nth i (pw_data w) []) l m.
Definition wave_ok (w : pwave) : Prop :=
  (0 <= pw_lo w <= pw_hi w)%Z /\ length (pw_data w) = length (pw_t w) /\
  forall row, In row (pw_data w) -> length row = length (LM_range (pw_lo w) (pw_hi w)).
Definition spin (d : Z) : Z := match spin_weight d with Ok s => s | Err _ => 0%Z end.
(** The value of the field of a waveform at time number i, at a rotor *)
Definition at_point (w : pwave) (i : nat) (q : quat) : C := field (spin (pw_dataType w)) (pw_hi w) (mode_of w i) q.
(** What interpolation has to do: through at least four points in increasing order, hit the points. *)
Definition interpolates (spline : list R -> list R -> res (R -> R)) : Prop :=
  forall xs ys, increasing xs -> (4 <= length xs)%nat -> length ys = length xs ->
  exists f, spline xs ys = Ok f /\ forall i, (i < length xs)%nat -> f (nth i xs 0) = nth i ys 0.
(** A direction: the supertranslation and its derivatives there, from its modes [a] up to degree L; v is the boost *)
Definition direction_of (a : list C) (L : Z) (v : vec3) (q : quat) : dir :=
  mkdir (direction q) (re (field 0 L (mode_at a) q))
    (field 1 L (fun l m => Cscale (sqrt (IZR (l * (l + 1)))) (mode_at a l m)) q)
    (field 2 L (fun l m => Cscale (sqrt (IZR ((l - 1) * (l + 2))) * sqrt (IZR (l * (l + 1)))) (mode_at a l m)) q)
    (field 1 1 (fun l m => if (l =? 1)%Z then nth (Z.to_nat (m + 1)) (vector_as_ell_1_modes v) C0 else C0) q).
Definition nontrivial (v : vec3) (a : list C) : Prop := v <> (0, 0, 0) \/ exists i, nth (S i) a C0 <> C0.
(** The Weyl scalars at one point and time: the waveform's own and those of higher index *)
Definition scalars (w : pwave) (aux : nat -> option pwave) (i : nat) (q : quat) : fields :=
  let f DT := if (Z.of_nat DT <? pw_dataType w)%Z then C0 else if (Z.of_nat DT =? pw_dataType w)%Z then at_point w i q else
              match aux DT with Some x => at_point x i q | None => C0 end in
  mkfields (f 1%nat) (f 2%nat) (f 3%nat) (f 4%nat) (f 5%nat) C0.
Definition aux_ok (w : pwave) (aux : nat -> option pwave) : Prop :=
  forall DT, (pw_dataType w < Z.of_nat DT <= 5)%Z ->
  exists x, aux DT = Some x /\ wave_ok x /\ length (pw_data x) = length (pw_data w) /\ (1 <= pw_dataType x <= 9)%Z.

(** ** Lists *)
Lemma each_ok : forall A B (f : A -> res B) g l, (forall x, In x l -> f x = Ok (g x)) -> each f l = Ok (map g l).
Proof.
  intros A B f g. induction l as [|a l IH]; intros H; [reflexivity|]. cbn [each map]. rewrite (H a (or_introl eq_refl)). cbn [rbind].
  rewrite IH by (intros; apply H; right; assumption). reflexivity.
Qed.
Lemma list_index : forall A (l : list A) d, l = map (fun n => nth n l d) (seq 0 (length l)).
Proof.
  intros A l d. induction l as [|a l IH]; [reflexivity|]. cbn [length seq map nth]. f_equal. rewrite <- seq_shift, map_map. exact IH.
Qed.
Lemma combine_maps : forall A B D (f : A -> B) (g : A -> D) l, combine (map f l) (map g l) = map (fun x => (f x, g x)) l.
Proof. intros A B D f g. induction l as [|a l IH]; [reflexivity|]. cbn [map combine]. rewrite IH. reflexivity. Qed.
Lemma indexed : forall A B (t : list A) (d : list B) dt dd, length d = length t ->
  combine (seq 0 (length t)) (combine t d) = map (fun n => (n, (nth n t dt, nth n d dd))) (seq 0 (length t)).
Proof.
  intros A B t d dt dd H. rewrite (list_index A t dt) at 2. rewrite (list_index B d dd) at 1. rewrite H, combine_maps.
  rewrite <- (map_id (seq 0 (length t))) at 1. rewrite combine_maps. reflexivity.
Qed.

(** ** Evaluation of modes *)
Lemma dotl_map : forall A (f g : A -> C) l, dotl (map f l) (map g l) = csum (fun x => (f x * g x)%C) l.
Proof. intros A f g. induction l as [|a l IH]; [reflexivity|]. cbn [map dotl csum]. rewrite IH. reflexivity. Qed.
Lemma row_map : forall lo hi row, (0 <= lo)%Z -> length row = length (LM_range lo hi) -> row = map (fun lm => mode lo row (fst lm) (snd lm)) (LM_range lo hi).
Proof.
  intros lo hi row Hlo H. apply (row_is_map lo hi Hlo row (mode lo row)). split; [exact H|]. intros l m [Hl Hm].
  unfold mode. apply nth_error_nth'. rewrite H. pose proof (LM_range_length lo hi Hlo ltac:(lia)) as L. unfold LM_index. nia.
Qed.
Lemma cut_range : forall (f : Z * Z -> C) lo hi top, (0 <= lo <= hi)%Z -> (hi <= top)%Z ->
  cut (LM_index lo (- lo) 0) (LM_index hi hi 0 + 1) (map f (LM_range 0 top)) = map f (LM_range lo hi).
Proof.
  intros f lo hi top H HT. rewrite (LM_range_split 0 lo top) by lia. rewrite (LM_range_split lo (hi + 1) top) by lia.
  replace (hi + 1 - 1)%Z with hi by lia. rewrite !map_app. unfold cut.
  pose proof (LM_range_length 0 (lo - 1) ltac:(lia) ltac:(lia)) as L1. pose proof (LM_range_length lo hi ltac:(lia) ltac:(lia)) as L2.
  replace (Z.to_nat (LM_index lo (- lo) 0)) with (length (map f (LM_range 0 (lo - 1)))) by (rewrite map_length; unfold LM_index; nia).
  rewrite skipn_app, skipn_all, Nat.sub_diag. cbn [skipn app].
  replace (Z.to_nat (LM_index hi hi 0 + 1 - LM_index lo (- lo) 0)) with (length (map f (LM_range lo hi))) by (rewrite map_length; unfold LM_index; nia).
  rewrite firstn_app, Nat.sub_diag, firstn_all. cbn [firstn]. apply app_nil_r.
Qed.
Lemma field_from : forall s lo hi (x : Z -> Z -> C) q, (0 <= lo <= hi)%Z ->
  field s hi (fun l m => if (l <? lo)%Z then C0 else x l m) q = csum (fun lm => (x (fst lm) (snd lm) * swsh s (fst lm) (snd lm) q)%C) (LM_range lo hi).
Proof.
  intros s lo hi x q H. unfold field. rewrite (LM_range_split 0 lo hi) by lia. rewrite csum_app, csum_const0.
  - rewrite (csum_ext _ (fun lm => (x (fst lm) (snd lm) * swsh s (fst lm) (snd lm) q)%C)); [ring|]. intros [l m] I. apply LM_range_In in I. cbn [fst snd].
    destruct (Z.ltb_spec l lo); [lia|reflexivity].
  - intros [l m] I. apply LM_range_In in I. cbn [fst snd]. destruct (Z.ltb_spec l lo); [ring|lia].
Qed.
Lemma value_ok : forall s top lo hi q row, (0 <= lo <= hi)%Z -> (hi <= top)%Z -> length row = length (LM_range lo hi) ->
  value s top lo hi q row = Ok (field s hi (fun l m => if (l <? lo)%Z then C0 else mode lo row l m) q).
Proof.
  intros s top lo hi q row H HT L. unfold value, SWSH, tensordot. rewrite cut_range by assumption. rewrite map_length, L, Nat.eqb_refl. f_equal.
  rewrite (row_map lo hi row) at 1 by (try assumption; lia). rewrite dotl_map, field_from by exact H. reflexivity.
Qed.
Lemma mode_of_value : forall w s top i q, wave_ok w -> (pw_hi w <= top)%Z -> (i < length (pw_t w))%nat ->
  value s top (pw_lo w) (pw_hi w) q (nth i (pw_data w) []) = Ok (field s (pw_hi w) (mode_of w i) q).
Proof.
  intros w s top i q (H & HL & HR) HT Hi. rewrite value_ok; [reflexivity|exact H|exact HT|]. apply HR. apply nth_In. lia.
Qed.

(** ** Modes of the supertranslation *)
Lemma mode_at_0 : forall a l m, mode_at a l m = mode 0 a l m.
Proof. intros. unfold mode_at, mode, LM_index. f_equal. f_equal. ring. Qed.
Lemma full_length : forall a L, (0 <= L)%Z -> Kwargs_Proofs.has_modes a L -> length a = length (LM_range 0 L).
Proof. intros a L HL H. pose proof (LM_range_length 0 L ltac:(lia) ltac:(lia)) as E. unfold Kwargs_Proofs.has_modes in H. nia. Qed.
Lemma full_dot : forall s a L q, (0 <= L)%Z -> Kwargs_Proofs.has_modes a L -> tensordot a (SWSH s L q) = Ok (field s L (mode_at a) q).
Proof.
  intros s a L q HL H. pose proof (full_length a L HL H) as E. unfold tensordot, SWSH. rewrite map_length, E, Nat.eqb_refl. f_equal.
  rewrite (row_map 0 L a) at 1 by (assumption || lia). rewrite dotl_map. unfold field. apply csum_ext. intros lm _. rewrite mode_at_0. reflexivity.
Qed.
Lemma scale_modes_map : forall f L a, (0 <= L)%Z -> Kwargs_Proofs.has_modes a L ->
  scale_modes f L a = map (fun lm => Cscale (f (fst lm)) (mode_at a (fst lm) (snd lm))) (LM_range 0 L).
Proof.
  intros f L a HL H. unfold scale_modes. rewrite (row_map 0 L a) at 1 by (try apply full_length; assumption || lia).
  rewrite <- (map_id (LM_range 0 L)) at 1. rewrite combine_maps, map_map. apply map_ext. intros lm. cbn [fst snd]. rewrite mode_at_0. reflexivity.
Qed.
Lemma scaled_dot : forall f s L top a q, (0 <= L <= top)%Z -> Kwargs_Proofs.has_modes a L ->
  tensordot (scale_modes f L a) (cut 0 (LM_index L L 0 + 1) (SWSH s top q)) = Ok (field s L (fun l m => Cscale (f l) (mode_at a l m)) q).
Proof.
  intros f s L top a q HL H. rewrite scale_modes_map by (assumption || lia). unfold SWSH. change 0%Z with (LM_index 0 (- 0) 0) at 2.
  rewrite cut_range by lia. unfold tensordot. rewrite !map_length, Nat.eqb_refl, dotl_map. reflexivity.
Qed.
Lemma scaled_dot_full : forall f s L a q, (0 <= L)%Z -> Kwargs_Proofs.has_modes a L ->
  tensordot (scale_modes f L a) (SWSH s L q) = Ok (field s L (fun l m => Cscale (f l) (mode_at a l m)) q).
Proof.
  intros f s L a q HL H. rewrite scale_modes_map by assumption. unfold SWSH, tensordot. rewrite !map_length, Nat.eqb_refl, dotl_map. reflexivity.
Qed.
Lemma field_ext : forall s L a b q, (forall l m, (Z.abs s <= l <= L)%Z -> (- l <= m <= l)%Z -> a l m = b l m) -> field s L a q = field s L b q.
Proof.
  intros s L a b q H. unfold field. apply csum_ext. intros [l m] I. apply LM_range_In in I. cbn [fst snd].
  destruct (Z.lt_ge_cases l (Z.abs s)); [rewrite swsh_low by assumption; ring|]. rewrite H by lia. reflexivity.
Qed.
Lemma direction_data_ok : forall dt a L top v q, (1 <= L <= top)%Z -> Kwargs_Proofs.has_modes a L -> is_real a L ->
  direction_data dt a L top v q = Ok (direction_of a L v q).
Proof.
  intros dt a L top v q HL H HR. unfold direction_data, direction_of. rewrite full_dot by (assumption || lia). cbn [rbind].
  rewrite scaled_dot_full by (assumption || lia). cbn [rbind].
  set (A2 := fun l m => Cscale (sqrt (IZR ((l - 1) * (l + 2))) * sqrt (IZR (l * (l + 1)))) (mode_at a l m)).
  assert (E2 : (if (dt =? h)%Z then
      let? x := tensordot (scale_modes (fun l => down_factor (-1) l * down_factor 0 l) L a) (cut 0 (LM_index L L 0 + 1) (SWSH (-2) top q)) in Ok (Conj x)
    else tensordot (scale_modes (fun l => up_factor 1 l * up_factor 0 l) L a) (cut 0 (LM_index L L 0 + 1) (SWSH 2 top q))) = Ok (field 2 L A2 q)).
  { destruct (dt =? h)%Z; rewrite scaled_dot by (assumption || lia); cbn [rbind]; f_equal.
    - change (-2)%Z with (- (2))%Z. rewrite (C68_conjugate_fields 2 L A2); [apply Conj_involutive|lia|].
      intros l m Hl Hm. unfold A2. rewrite (HR l m) by lia. rewrite Conj_scale. unfold down_factor.
      change (Z.max (Z.abs (-1)) (Z.abs (-1 - 1))) with 2%Z. change (Z.max (Z.abs 0) (Z.abs (0 - 1))) with 1%Z.
      rewrite sgn_add. change (sgn 2) with 1.
      destruct (Z.ltb_spec l 2) as [B|B].
      + assert (B' : (l = 0 \/ l = 1)%Z) by lia. destruct B' as [-> | ->].
        * change (IZR (0 * (0 + 1))) with 0. rewrite sqrt_0. apply C_eq; cbn; ring.
        * change (IZR ((1 - 1) * (1 + 2))) with 0. rewrite sqrt_0. apply C_eq; cbn; ring.
      + destruct (Z.ltb_spec l 1); [lia|]. replace ((l + -1) * (l - -1 + 1))%Z with ((l - 1) * (l + 2))%Z by ring.
        replace ((l + 0) * (l - 0 + 1))%Z with (l * (l + 1))%Z by ring. set (u := sqrt _). set (u' := sqrt (IZR (l * (l + 1)))).
        apply C_eq; cbn; ring.
    - apply field_ext. intros l m Hl Hm. unfold A2, up_factor. change (Z.max (Z.abs 1) (Z.abs (1 + 1))) with 2%Z. change (Z.max (Z.abs 0) (Z.abs (0 + 1))) with 1%Z.
      destruct (Z.ltb_spec l 2); [lia|]. destruct (Z.ltb_spec l 1); [lia|]. replace ((l - 1) * (l + 1 + 1))%Z with ((l - 1) * (l + 2))%Z by ring.
      replace ((l - 0) * (l + 0 + 1))%Z with (l * (l + 1))%Z by ring. reflexivity. }
  rewrite E2. cbn [rbind].
  assert (EV : tensordot (C0 :: vector_as_ell_1_modes v) (SWSH 1 1 q) = Ok (field 1 1 (fun l m => if (l =? 1)%Z then nth (Z.to_nat (m + 1)) (vector_as_ell_1_modes v) C0 else C0) q)).
  { rewrite full_dot; [reflexivity|lia|destruct v as [[x y] z]; reflexivity]. }
  rewrite EV. cbn [rbind]. f_equal. f_equal. apply field_ext. intros l m Hl Hm. unfold up_factor. change (Z.max (Z.abs 0) (Z.abs (0 + 1))) with 1%Z.
  destruct (Z.ltb_spec l 1); [lia|]. replace ((l - 0) * (l + 0 + 1))%Z with (l * (l + 1))%Z by ring. reflexivity.
Qed.

(** ** Rotors of the grid *)
Lemma qexp_unit : forall v, qnorm2 (qexp_vec v) = 1.
Proof.
  intros [[x y] z]. unfold qexp_vec. destruct (Req_EM_T (norm3 (x, y, z)) 0) as [E|N]; [unfold qnorm2, q1; cbn [qw qx qy qz]; ring|].
  pose proof (norm3_sq (x, y, z)) as S. unfold dotv in S. set (n := norm3 (x, y, z)) in *. clearbody n.
  unfold qnorm2. cbn [qw qx qy qz]. pose proof (sin2_cos2 n) as T. unfold Rsqr in T.
  replace (cos n * cos n + sin n / n * x * (sin n / n * x) + sin n / n * y * (sin n / n * y) + sin n / n * z * (sin n / n * z))
    with (cos n * cos n + sin n * sin n * ((x * x + y * y + z * z) / (n * n))) by (field; exact N).
  rewrite <- S. replace (n * n / (n * n)) with 1 by (field; exact N). lra.
Qed.
Lemma Bprm_unit : forall v r, qnorm2 (Bprm v r) = 1.
Proof.
  intros v r. unfold Bprm. destruct (Rltb _ _); [|unfold qnorm2, q1; cbn [qw qx qy qz]; ring]. cbv zeta. destruct (Rltb _ _); [apply qexp_unit|unfold qnorm2, q1; cbn [qw qx qy qz]; ring].
Qed.
Lemma qnorm2_mul : forall p q, qnorm2 (qmul p q) = qnorm2 p * qnorm2 q.
Proof. intros [] []. unfold qnorm2, qmul. cbn. ring. Qed.
Lemma from_spherical_unit : forall t p, qnorm2 (from_spherical t p) = 1.
Proof.
  intros t p. unfold from_spherical, qnorm2. cbn [qw qx qy qz]. pose proof (sin2_cos2 (t / 2)) as A. pose proof (sin2_cos2 (p / 2)) as B. unfold Rsqr in *.
  set (a := cos (p / 2)) in *. set (b := sin (p / 2)) in *. set (c := cos (t / 2)) in *. set (d := sin (t / 2)) in *.
  replace (a * c * (a * c) + - b * d * (- b * d) + a * d * (a * d) + b * c * (b * c)) with ((b * b + a * a) * (d * d + c * c)) by ring. rewrite A, B. ring.
Qed.
Lemma grid_points_unit : forall nt np q, In q (grid_points nt np) -> qnorm2 q = 1.
Proof.
  intros nt np q H. unfold grid_points in H. apply in_flat_map in H. destruct H as (j & _ & H). apply in_map_iff in H. destruct H as (k & <- & _). apply from_spherical_unit.
Qed.
Lemma grid_points_nonempty : forall nt np, (1 <= nt)%Z -> (1 <= np)%Z -> grid_points nt np <> [].
Proof.
  intros nt np H H' E. assert (I : In (from_spherical (theta_at nt 0) (phi_at np 0)) (grid_points nt np)); [|rewrite E in I; destruct I].
  unfold grid_points. apply in_flat_map. exists 0%Z. split; [apply zrange_In; lia|]. apply in_map_iff. exists 0%Z. split; [reflexivity|apply zrange_In; lia].
Qed.
Lemma grid_rotor_unit : forall f v r, qnorm2 f = 1 -> qnorm2 r = 1 -> qnorm2 (grid_rotor f v r) = 1.
Proof. intros f v r Hf Hr. unfold grid_rotor. rewrite !qnorm2_mul, Bprm_unit, Hf, Hr. ring. Qed.
Lemma grid_process_facts : forall e nt np k g, grid_process e nt np k = Ok g ->
  exists L, (1 <= L)%Z /\ Kwargs_Proofs.has_modes (gp_super g) L /\ gp_ell_super g = L /\ gp_ell_max g = (e + L)%Z /\
    (2 * e + 1 <= gp_theta g)%Z /\ (2 * e + 1 <= gp_phi g)%Z /\ norm3 (gp_boost g) < 1 /\ qnorm2 (gp_rotation g) = 1.
Proof.
  intros e nt np k g H. destruct (C28_grid_checked _ _ _ _ _ H) as (L & HL & Hm & El & _).
  destruct (C28_grid_sizes _ _ _ _ _ H) as (L' & HL' & Hm' & Em & _ & _ & T1 & T2 & _).
  assert (L' = L) by (unfold Kwargs_Proofs.has_modes in *; nia). subst L'. exists L.
  assert (RB : read_rotation (k_rotation k) = Ok (gp_rotation g) /\ read_boost (k_boost k) = Ok (gp_boost g)).
  { unfold grid_process in H. destruct (read_super _ _) as [a|]; [|discriminate]. cbn [rbind] in H. destruct (override k a) as [[a' s]|]; [|discriminate]. cbn [rbind] in H.
    destruct (Z.ltb _ _); [discriminate|]. destruct (Z.ltb _ _); [discriminate|].
    destruct (read_rotation _) as [q|]; [|discriminate]. cbn [rbind] in H. destruct (read_boost _) as [v|]; [|discriminate]. cbn [rbind] in H. injection H as <-. split; reflexivity. }
  destruct RB as [Er Eb]. repeat split; try assumption; [apply (read_boost_lt _ _ Eb)|apply (read_rotation_unit _ _ Er)].
Qed.

(** ** Values on the grid *)
Lemma known_type : forall d, (1 <= d <= 9)%Z -> spin_weight d = Ok (spin d) /\ (Z.abs (spin d) <= 2)%Z /\ forall r, exists cw, conformal_weight d r = Ok cw.
Proof.
  intros d H. assert (C : (d = 1 \/ d = 2 \/ d = 3 \/ d = 4 \/ d = 5 \/ d = 6 \/ d = 7 \/ d = 8 \/ d = 9)%Z) by lia.
  destruct C as [C|[C|[C|[C|[C|[C|[C|[C|C]]]]]]]]; subst d; (split; [reflexivity|split; [unfold Z.le; vm_compute; discriminate|intros []; eexists; reflexivity]]).
Qed.
Lemma Cnonzero_spec : forall z, reflect (z <> C0) (Cnonzero z).
Proof.
  intros [x y]. unfold Cnonzero. cbn [re im]. destruct (Req_EM_T x 0) as [->|N]; [destruct (Req_EM_T y 0) as [->|N']|]; constructor; try (intros E; injection E; congruence).
  intros E. apply E. reflexivity.
Qed.
Lemma nontrivial_spec : forall v a, reflect (nontrivial v a) ((if Req_EM_T (norm3 v) 0 then false else true) || existsb Cnonzero (tl a)).
Proof.
  intros v a. unfold nontrivial. destruct (Req_EM_T (norm3 v) 0) as [E|N]; cbn [orb].
  - assert (V : v = (0, 0, 0)).
    { pose proof (norm3_sq v) as S. rewrite E in S. destruct v as [[x y] z]. unfold dotv in S. assert (x = 0) by nra. assert (y = 0) by nra. assert (z = 0) by nra. subst. reflexivity. }
    destruct (existsb Cnonzero (tl a)) eqn:X; constructor.
    + right. apply existsb_exists in X. destruct X as (z & I & Hz). destruct (Cnonzero_spec z) as [NZ|]; [|discriminate].
      apply (In_nth _ _ C0) in I. destruct I as (i & _ & Ei). exists i. destruct a; [destruct i; cbn in Ei; congruence|]. cbn [nth tl] in *. congruence.
    + intros [N|[i Hi]]; [contradiction|]. assert (T : existsb Cnonzero (tl a) = true); [|congruence]. apply existsb_exists. exists (nth (S i) a C0).
      destruct a as [|x a]; [exfalso; apply Hi; destruct i; reflexivity|]. cbn [nth tl] in *. split; [|destruct (Cnonzero_spec (nth i a C0)); [reflexivity|contradiction]].
      apply nth_In. destruct (Nat.lt_ge_cases i (length a)) as [L|G]; [exact L|]. rewrite nth_overflow in Hi by exact G. congruence.
  - constructor. left. intros ->. apply N. unfold norm3. replace (0 * 0 + 0 * 0 + 0 * 0) with 0 by ring. apply sqrt_0.
Qed.
Definition flag (v : vec3) (a : list C) : bool := (if Req_EM_T (norm3 v) 0 then false else true) || existsb Cnonzero (tl a).

Lemma aux_value_ok : forall w i q, wave_ok w -> (1 <= pw_dataType w <= 9)%Z -> (i < length (pw_data w))%nat -> length (pw_data w) <> 1%nat ->
  aux_value w q i = Ok (at_point w i q).
Proof.
  intros w i q H Hd Hi H1. unfold aux_value. destruct (known_type _ Hd) as (Es & _). rewrite Es. cbn [rbind].
  destruct (Nat.eqb_spec (length (pw_data w)) 1); [contradiction|]. rewrite (nth_error_nth' _ [] Hi). apply mode_of_value; [exact H|lia|]. destruct H as (_ & HL & _). lia.
Qed.
Lemma aux_fields_ok : forall w aux i q, (1 <= pw_dataType w <= 4)%Z -> aux_ok w aux -> (i < length (pw_data w))%nat -> length (pw_data w) <> 1%nat ->
  aux_fields (Z.to_nat (pw_dataType w)) aux q i (at_point w i q) = Ok (scalars w aux i q).
Proof.
  intros w aux i q Hd HA Hi H1. unfold aux_fields.
  rewrite (each_ok _ _ _ (fun DT => if (Z.of_nat DT <? pw_dataType w)%Z then C0 else if (Z.of_nat DT =? pw_dataType w)%Z then at_point w i q else
              match aux DT with Some x => at_point x i q | None => C0 end)).
  - reflexivity.
  - intros DT HDT. assert (B : (DT <= 5)%nat) by (cbn in HDT; lia).
    destruct (Nat.ltb_spec DT (Z.to_nat (pw_dataType w))); destruct (Z.ltb_spec (Z.of_nat DT) (pw_dataType w)); try lia; [reflexivity|].
    destruct (Nat.eqb_spec DT (Z.to_nat (pw_dataType w))); destruct (Z.eqb_spec (Z.of_nat DT) (pw_dataType w)); try lia; [reflexivity|].
    destruct (HA DT ltac:(lia)) as (x & Ex & Hx & Lx & Dx). rewrite Ex. apply aux_value_ok; try assumption; lia.
Qed.

Section Grid.
Variable spline : list R -> list R -> res (R -> R).
Hypothesis spline_hits : interpolates spline.

(** What the field becomes at one rotor, for time number n of the input *)
Definition transformed (w : pwave) (aux : nat -> option pwave) (g : gridprocessed) (n : nat) (q : quat) : res C :=
  grid_point (flag (gp_boost g) (gp_super g)) (gp_boost g) (direction_of (gp_super g) (gp_ell_super g) (gp_boost g) q)
    (pw_dataType w) (pw_r w) (nth n (pw_t w) 0) (scalars w aux n q) (at_point w n q).

Lemma grid_point_ok : forall nt v d dt r t p x, (1 <= dt <= 9)%Z -> exists y, grid_point nt v d dt r t p x = Ok y.
Proof. intros nt v d dt r t p x H. destruct (known_type dt H) as (_ & _ & K). destruct (K r) as [cw E]. unfold grid_point. rewrite E. eexists. reflexivity. Qed.
Lemma grid_point_fields : forall nt v d dt r t p p' x, (nt && (1 <=? dt)%Z && (dt <=? 4)%Z = false) -> grid_point nt v d dt r t p x = grid_point nt v d dt r t p' x.
Proof.
  intros nt v d dt r t p p' x H. unfold grid_point, grid_value. destruct (conformal_weight dt r); [|reflexivity]. cbn [rbind].
  destruct nt; [|reflexivity]. cbn [negb andb] in *. rewrite H. reflexivity.
Qed.
Lemma column_ok : forall w aux g q L, wave_ok w -> (1 <= pw_dataType w <= 9)%Z -> (4 <= length (pw_t w))%nat ->
  (nontrivial (gp_boost g) (gp_super g) -> (pw_dataType w <= 4)%Z -> aux_ok w aux) -> gp_ell_max g = (pw_hi w + L)%Z -> (1 <= L)%Z ->
  column w (spin (pw_dataType w)) (gp_ell_max g) (flag (gp_boost g) (gp_super g)) (gp_boost g) aux q (direction_of (gp_super g) (gp_ell_super g) (gp_boost g) q)
  = Ok (map (fun n => match transformed w aux g n q with Ok x => x | Err _ => C0 end) (seq 0 (length (pw_t w)))).
Proof.
  intros w aux g q L H Hd H4 HA HE HL. unfold column. assert (HL' := proj1 (proj2 H)). rewrite (indexed R (list C) (pw_t w) (pw_data w) 0 []) by exact HL'.
  assert (EM : forall A B D (f : B -> res D) (m : A -> B) l, each f (map m l) = each (fun x => f (m x)) l).
  { intros A B D f m. induction l as [|a l IH]; [reflexivity|]. cbn [map each]. rewrite IH. reflexivity. }
  rewrite EM. apply each_ok. intros n Hn. apply in_seq in Hn. rewrite mode_of_value by (try exact H; lia). cbn [rbind]. fold (at_point w n q).
  unfold transformed. destruct (grid_point_ok (flag (gp_boost g) (gp_super g)) (gp_boost g) (direction_of (gp_super g) (gp_ell_super g) (gp_boost g) q)
    (pw_dataType w) (pw_r w) (nth n (pw_t w) 0) (scalars w aux n q) (at_point w n q) Hd) as [y Ey]. rewrite Ey.
  destruct (flag (gp_boost g) (gp_super g) && (1 <=? pw_dataType w)%Z && (pw_dataType w <=? 4)%Z) eqn:EF.
  - apply andb_true_iff in EF. destruct EF as [EF E4]. apply andb_true_iff in EF. destruct EF as [EF _]. apply Z.leb_le in E4.
    assert (NT : nontrivial (gp_boost g) (gp_super g)) by (unfold flag in EF; destruct (nontrivial_spec (gp_boost g) (gp_super g)) as [N|N]; [exact N|discriminate]).
    rewrite aux_fields_ok; [cbn [rbind]; exact Ey|lia|apply HA; assumption|lia|lia].
  - cbn [rbind]. rewrite (grid_point_fields _ _ _ _ _ _ _ (scalars w aux n q)) by exact EF. exact Ey.
Qed.
Lemma resample_ok : forall v d t vals newt, norm3 v < 1 -> unitv (d_r d) -> increasing t -> (4 <= length t)%nat -> length vals = length t ->
  exists f, resample spline v d t vals newt = Ok (map f newt) /\
    forall n, (n < length t)%nat -> f (kfactor v (d_r d) * (nth n t 0 - d_alpha d)) = nth n vals C0.
Proof.
  intros v d t vals newt Hv Hd Hi H4 HL. unfold resample.
  assert (IK : increasing (knots v d t)).
  { unfold knots. apply increasing_map; [|exact Hi]. intros x y L. pose proof (kfactor_pos v (d_r d) Hv Hd). apply Rmult_lt_compat_l; lra. }
  assert (LK : length (knots v d t) = length t) by (unfold knots; apply map_length).
  destruct (spline_hits (knots v d t) (map re vals) IK ltac:(lia) ltac:(rewrite map_length; lia)) as (fr & Er & Hr).
  destruct (spline_hits (knots v d t) (map im vals) IK ltac:(lia) ltac:(rewrite map_length; lia)) as (fi & Ei & Him).
  rewrite Er. cbn [rbind]. rewrite Ei. cbn [rbind]. exists (fun u => mkC (fr u) (fi u)). split; [reflexivity|]. intros n Hn.
  assert (EK : nth n (knots v d t) 0 = kfactor v (d_r d) * (nth n t 0 - d_alpha d)).
  { unfold knots. rewrite (nth_indep _ 0 ((fun t => kfactor v (d_r d) * (t - d_alpha d)) 0)) by (rewrite map_length; exact Hn). rewrite (map_nth (fun t => kfactor v (d_r d) * (t - d_alpha d))). reflexivity. }
  rewrite <- EK, Hr, Him by lia. change 0 with (re C0) at 1. change 0 with (im C0). rewrite !map_nth. destruct (nth n vals C0). reflexivity.
Qed.
Lemma each_exists : forall A B (f : A -> res B) (P : A -> B -> Prop) l, (forall x, In x l -> exists y, f x = Ok y /\ P x y) -> exists ys, each f l = Ok ys /\ Forall2 P l ys.
Proof.
  intros A B f P. induction l as [|a l IH]; intros H; [exists []; split; [reflexivity|constructor]|].
  destruct (H a (or_introl eq_refl)) as (y & Ey & Py). destruct (IH (fun x Hx => H x (or_intror Hx))) as (ys & Es & Ps).
  exists (y :: ys). cbn [each]. rewrite Ey. cbn [rbind]. rewrite Es. split; [reflexivity|]. constructor; assumption.
Qed.
Lemma Forall2_len : forall A B (P : A -> B -> Prop) l l', Forall2 P l l' -> length l = length l'.
Proof. intros A B P l l' H. induction H; cbn [length]; congruence. Qed.
Lemma Forall2_nth : forall A B (P : A -> B -> Prop) l l' i x d, Forall2 P l l' -> nth_error l i = Some x -> P x (nth i l' d).
Proof. intros A B P l l' i x d H. revert i. induction H; intros [|i] E; cbn in E; try discriminate; [injection E as <-; assumption|apply IHForall2; exact E]. Qed.

(** Whatever the transformation, the grid holds the transformed field at the events where slices meet the data: on slice
    u' in direction q, if the event is sample n of the input, u' = k (t_n - alpha), then the value is that of the
    transformed field. *)
Theorem C68_grid : forall w nt np k aux g, wave_ok w -> increasing (pw_t w) -> (4 <= length (pw_t w))%nat -> (1 <= pw_dataType w <= 9)%Z ->
  pw_frameType w = InertialFrame -> grid_process (pw_hi w) nt np k = Ok g -> is_real (gp_super g) (gp_ell_super g) ->
  (nontrivial (gp_boost g) (gp_super g) -> (pw_dataType w <= 4)%Z -> aux_ok w aux) ->
  let rotors := map (grid_rotor (gp_rotation g) (gp_boost g)) (grid_points (gp_theta g) (gp_phi g)) in
  let dirs := map (direction_of (gp_super g) (gp_ell_super g) (gp_boost g)) rotors in
  exists G, from_modes spline w nt np k aux = Ok G /\ new_slices (gp_boost g) (nth 0 (gp_super g) C0) dirs (pw_t w) = Ok (pg_t G) /\
    pg_theta G = gp_theta g /\ pg_phi G = gp_phi g /\ pg_frameType G = InertialFrame /\ pg_dataType G = pw_dataType w /\ pg_r G = pw_r w /\
    length (pg_data G) = length (pg_t G) /\ (forall row, In row (pg_data G) -> length row = length rotors) /\
    forall i j n q, (i < length (pg_t G))%nat -> nth_error rotors j = Some q -> (n < length (pw_t w))%nat ->
      nth i (pg_t G) 0 = kfactor (gp_boost g) (direction q) * (nth n (pw_t w) 0 - re (field 0 (gp_ell_super g) (mode_at (gp_super g)) q)) ->
      transformed w aux g n q = Ok (nth j (nth i (pg_data G) []) C0).
Proof.
  intros w nt np k aux g H Hi H4 Hd Hf Hg HR HA rotors dirs.
  destruct (grid_process_facts _ _ _ _ _ Hg) as (L & HL & Hm & El & Em & T1 & T2 & Hv & Hq).
  assert (HH := proj1 H). destruct (known_type _ Hd) as (Es & _ & _).
  assert (UR : forall q, In q rotors -> qnorm2 q = 1).
  { intros q I. apply in_map_iff in I. destruct I as (r & <- & I). apply grid_rotor_unit; [exact Hq|]. apply (grid_points_unit _ _ _ I). }
  assert (NE : rotors <> []).
  { intros E. apply (grid_points_nonempty (gp_theta g) (gp_phi g)); [lia|lia|]. apply map_eq_nil in E. exact E. }
  unfold from_modes. rewrite Hf, Hg. cbn [rbind]. rewrite Es. cbn [rbind]. cbv zeta. fold rotors. fold (flag (gp_boost g) (gp_super g)).
  rewrite (each_ok _ _ _ (direction_of (gp_super g) (gp_ell_super g) (gp_boost g))).
  2: { intros q _. rewrite El, Em. apply direction_data_ok; [lia|assumption|rewrite <- El; assumption]. }
  cbn [rbind]. fold dirs.
  assert (EC : combine rotors dirs = map (fun q => (q, direction_of (gp_super g) (gp_ell_super g) (gp_boost g) q)) rotors).
  { unfold dirs. rewrite <- (map_id rotors) at 1. apply combine_maps. }
  rewrite EC.
  assert (EM : forall A B D (f : B -> res D) (m : A -> B) l, each f (map m l) = each (fun x => f (m x)) l).
  { intros A B D f m. induction l as [|a l IH]; [reflexivity|]. cbn [map each]. rewrite IH. reflexivity. }
  rewrite EM. cbn [fst snd].
  set (colf := fun q => map (fun n => match transformed w aux g n q with Ok x => x | Err _ => C0 end) (seq 0 (length (pw_t w)))).
  rewrite (each_ok _ _ _ colf); [|intros q _; apply (column_ok w aux g q L); assumption]. cbn [rbind].
  assert (NS : exists out, new_slices (gp_boost g) (nth 0 (gp_super g) C0) dirs (pw_t w) = Ok out).
  { unfold new_slices. destruct (pw_t w) as [|t0 t]; [cbn in H4; lia|]. assert (DN : exists d ds, dirs = d :: ds) by (unfold dirs; destruct rotors; [congruence|cbn [map]; eauto]).
    destruct DN as (d & ds & ->). cbn [map np_max np_min rbind]. eexists. reflexivity. }
  destruct NS as [out Eo]. rewrite Eo. cbn [rbind]. unfold dirs at 1. rewrite combine_maps, EM. cbn [fst snd].
  destruct (each_exists _ _ (fun x => resample spline (gp_boost g) (direction_of (gp_super g) (gp_ell_super g) (gp_boost g) x) (pw_t w) (colf x) out)
    (fun q ys => exists f, ys = map f out /\ forall n, (n < length (pw_t w))%nat ->
       f (kfactor (gp_boost g) (direction q) * (nth n (pw_t w) 0 - re (field 0 (gp_ell_super g) (mode_at (gp_super g)) q))) = nth n (colf q) C0) rotors) as (ys & Ey & Py).
  { intros q Iq. destruct (resample_ok (gp_boost g) (direction_of (gp_super g) (gp_ell_super g) (gp_boost g) q) (pw_t w) (colf q) out) as (f & Ef & Hff); try assumption.
    - cbn [direction_of d_r]. apply direction_unit, UR, Iq.
    - unfold colf. rewrite map_length, seq_length. reflexivity.
    - eexists. split; [exact Ef|]. exists f. split; [reflexivity|exact Hff]. }
  rewrite Ey. cbn [rbind]. eexists. split; [reflexivity|]. cbn [pg_t pg_data pg_theta pg_phi pg_frameType pg_dataType pg_r].
  split; [reflexivity|]. split; [reflexivity|]. split; [reflexivity|]. split; [reflexivity|]. split; [reflexivity|]. split; [reflexivity|].
  split; [rewrite map_length, seq_length; reflexivity|]. split.
  { intros row I. apply in_map_iff in I. destruct I as (i & <- & _). rewrite map_length. symmetry. apply (Forall2_len _ _ _ _ _ Py). }
  intros i j n q Hi' Hj Hn E.
  pose proof (Forall2_nth _ _ _ _ _ j q [] Py Hj) as (f & Ef & Hff).
  set (F := fun i => map (fun c => nth i c C0) ys). rewrite (nth_indep _ [] (F 0%nat)) by (rewrite map_length, seq_length; exact Hi').
  rewrite (map_nth F), seq_nth by exact Hi'. cbn [Nat.add]. unfold F.
  assert (Lj : (j < length ys)%nat) by (rewrite <- (Forall2_len _ _ _ _ _ Py); apply nth_error_Some; congruence).
  rewrite (nth_indep _ C0 ((fun c => nth i c C0) [])) by (rewrite map_length; exact Lj). rewrite (map_nth (fun c => nth i c C0)). rewrite Ef.
  rewrite (nth_indep _ C0 (f 0)) by (rewrite map_length; exact Hi'). rewrite map_nth, E, Hff by exact Hn.
  unfold colf. set (TT := fun n => match transformed w aux g n q with Ok x => x | Err _ => C0 end).
  rewrite (nth_indep _ C0 (TT 0%nat)) by (rewrite map_length, seq_length; exact Hn). rewrite (map_nth TT), seq_nth by exact Hn. cbn [Nat.add]. unfold TT.
  unfold transformed. destruct (grid_point_ok (flag (gp_boost g) (gp_super g)) (gp_boost g) (direction_of (gp_super g) (gp_ell_super g) (gp_boost g) q)
    (pw_dataType w) (pw_r w) (nth n (pw_t w) 0) (scalars w aux n q) (at_point w n q) Hd) as [y Ey']. rewrite Ey'. reflexivity.
Qed.
End Grid.

(** ** Back to modes *)
Section Modes.
Variable map2salm : Z -> Z -> list C -> Z -> Z -> list C.
Lemma skip_range : forall (f : Z * Z -> C) lo hi, (0 <= lo <= hi)%Z -> skipn (Z.to_nat (LM_index lo (- lo) 0)) (map f (LM_range 0 hi)) = map f (LM_range lo hi).
Proof.
  intros f lo hi H. rewrite (LM_range_split 0 lo hi) by lia. rewrite map_app. pose proof (LM_range_length 0 (lo - 1) ltac:(lia) ltac:(lia)) as L1.
  replace (Z.to_nat (LM_index lo (- lo) 0)) with (length (map f (LM_range 0 (lo - 1)))) by (rewrite map_length; unfold LM_index; nia).
  rewrite skipn_app, skipn_all, Nat.sub_diag. reflexivity.
Qed.
Lemma mode_map : forall (f : Z * Z -> C) lo hi l m, (0 <= lo)%Z -> valid lo hi l m -> mode lo (map f (LM_range lo hi)) l m = f (l, m).
Proof.
  intros f lo hi l m Hlo [Hl Hm]. unfold mode. destruct (C01_index_is_position lo hi l m Hlo Hl Hm) as [_ E].
  apply (map_nth_error f) in E. apply nth_error_nth with (d := C0) in E. exact E.
Qed.
Theorem C68_to_modes : forall g em L (a : nat -> Z -> Z -> C), (1 <= pg_dataType g <= 9)%Z ->
  let s := spin (pg_dataType g) in
  exact map2salm s (pg_theta g) (pg_phi g) -> (0 <= L)%Z -> (2 * L + 1 <= pg_theta g)%Z -> (2 * L + 1 <= pg_phi g)%Z ->
  (Z.abs s <= em)%Z -> (2 * em + 1 <= pg_theta g)%Z -> (2 * em + 1 <= pg_phi g)%Z ->
  (forall i, (i < length (pg_data g))%nat -> nth i (pg_data g) [] = map (field s L (a i)) (grid_points (pg_theta g) (pg_phi g))) ->
  exists w, to_modes map2salm g (Some em) None = Ok w /\ pw_t w = pg_t g /\ pw_lo w = Z.abs s /\ pw_hi w = em /\ pw_frame w = [] /\
    pw_frameType w = pg_frameType g /\ pw_dataType w = pg_dataType g /\ pw_r w = pg_r g /\ length (pw_data w) = length (pg_data g) /\
    (forall row, In row (pw_data w) -> length row = length (LM_range (pw_lo w) (pw_hi w))) /\
    forall i l m, (i < length (pg_data g))%nat -> valid (Z.abs s) em l m ->
      mode_of w i l m = if (l <=? L)%Z then a i l m else C0.
Proof.
  intros g em L a Hd s HX HL H1 H2 Hs H3 H4 HR. unfold to_modes. destruct (known_type _ Hd) as (Es & _ & _). rewrite Es. fold s. cbn [rbind dflt]. cbv zeta.
  destruct (Z.ltb_spec em 0); [lia|]. destruct (Z.ltb_spec (Z.abs s) 0); [lia|]. destruct (Z.ltb_spec em (Z.abs s)); [lia|]. cbn [orb].
  set (full := fun i => map (fun lm => if ((Z.abs s <=? fst lm) && (fst lm <=? L))%Z then a i (fst lm) (snd lm) else C0) (LM_range (Z.abs s) em)).
  match goal with |- context [each ?f (pg_data g)] => set (F := f) end.
  assert (EF : forall i, (i < length (pg_data g))%nat -> F (nth i (pg_data g) []) = Ok (full i)).
  { intros i Hi. unfold F. rewrite (HR i Hi), HX by (assumption || lia). rewrite skip_range by lia. fold (full i).
    pose proof (LM_range_length (Z.abs s) em ltac:(lia) ltac:(lia)) as LL.
    destruct (Z.eqb_spec (Z.of_nat (length (full i))) (LM_index em em (Z.abs s) + 1)) as [_|N]; [reflexivity|]. exfalso. apply N. unfold full. rewrite map_length. unfold LM_index. nia. }
  assert (EE : each F (pg_data g) = Ok (map full (seq 0 (length (pg_data g))))).
  { assert (EM : forall A B D (f : B -> res D) (m : A -> B) l, each f (map m l) = each (fun x => f (m x)) l).
    { intros A B D f m. induction l as [|x l IH]; [reflexivity|]. cbn [map each]. rewrite IH. reflexivity. }
    rewrite (list_index _ (pg_data g) []) at 1. rewrite EM. apply each_ok. intros i Hi. apply in_seq in Hi. apply EF. lia. }
  rewrite EE. cbn [rbind]. eexists. split; [reflexivity|]. cbn [pw_t pw_data pw_lo pw_hi pw_frame pw_frameType pw_dataType pw_r].
  repeat (split; [reflexivity|]). split; [rewrite map_length, seq_length; reflexivity|]. split.
  { intros row I. apply in_map_iff in I. destruct I as (i & <- & _). unfold full. rewrite map_length. reflexivity. }
  intros i l m Hi Hv. unfold mode_of. cbn [pw_lo pw_data]. assert (Hv' := Hv). destruct Hv' as [Hv1 Hv2]. destruct (Z.ltb_spec l (Z.abs s)); [lia|].
  rewrite (nth_indep _ [] (full 0%nat)) by (rewrite map_length, seq_length; exact Hi). rewrite map_nth, seq_nth by exact Hi. cbn [Nat.add].
  unfold full. rewrite mode_map by (assumption || lia). cbn [fst snd]. destruct (Z.leb_spec (Z.abs s) l); [|lia]. reflexivity.
Qed.
(** An unknown type of data, whose spin weight is sys.maxsize, and any spin weight above ell_max, cannot be decomposed. *)
Theorem C68_no_modes : forall g em s, spin_weight (pg_dataType g) = Ok s -> (em < Z.abs s)%Z -> to_modes map2salm g (Some em) None = Err ValueError.
Proof.
  intros g em s Es H. unfold to_modes. rewrite Es. cbn [rbind dflt]. destruct (Z.ltb_spec em 0); [reflexivity|]. destruct (Z.ltb_spec em (Z.abs s)); [|lia].
  rewrite orb_true_r. reflexivity.
Qed.
(** Without arguments the largest ell is that of the larger number of grid points, 2 ell + 1 or 2 ell + 2. *)
Theorem C68_default_ell_max : forall g M lo, Z.max (pg_theta g) (pg_phi g) = (2 * M + 1)%Z \/ Z.max (pg_theta g) (pg_phi g) = (2 * M + 2)%Z ->
  to_modes map2salm g None lo = to_modes map2salm g (Some M) lo.
Proof.
  intros g M lo H. unfold to_modes. cbn [dflt]. replace ((Z.max (pg_theta g) (pg_phi g) - 1) / 2)%Z with M; [reflexivity|].
  apply Z.div_unique with (r := (Z.max (pg_theta g) (pg_phi g) - 1 - 2 * M)%Z); lia.
Qed.
End Modes.

(** ** Rotations and time translations *)
(** Arguments giving a rotation and a time translation only; q is the normalized rotor *)
Definition rotation_only (k : kwargs) (q : quat) (a : R) : Prop :=
  k_super k = None /\ k_spacetime k = None /\ k_space k = None /\ k_boost k = None /\ read_rotation (k_rotation k) = Ok q /\
  (k_time k = Some (Some a) \/ k_time k = None /\ a = 0).
Definition size (e : Z) (n : option Z) : Z := match n with Some n => n | None => (2 * (e + 1) + 1)%Z end.
Lemma constant_0 : constant_as_ell_0_mode 0 = C0.
Proof. unfold constant_as_ell_0_mode. rewrite Rmult_0_l. reflexivity. Qed.
Lemma rotation_process : forall e nt np k q a, rotation_only k q a -> (2 * e + 1 <= size e nt)%Z -> (2 * e + 1 <= size e np)%Z ->
  grid_process e nt np k = Ok (mkgproc [constant_as_ell_0_mode a; C0; C0; C0] 1 (e + 1) (size e nt) (size e np) q (0, 0, 0)).
Proof.
  intros e nt np k q a (K1 & K2 & K3 & K4 & K5 & K6) H1 H2. unfold grid_process, read_super. rewrite K1. cbn [rbind].
  assert (EO : exists s, override k [C0; C0; C0; C0] = Ok ([constant_as_ell_0_mode a; C0; C0; C0], s)).
  { unfold override. cbn [get nth_error rbind]. rewrite K2, K3. destruct (vector_from_ell_1_modes [C0; C0; C0]) as [[vx vy] vz]. cbn [rbind].
    destruct K6 as [-> | [-> ->]]; [|rewrite constant_0]; eexists; reflexivity. }
  destruct EO as [sa EO].
  match goal with |- rbind (override k ?l) _ = _ => change l with [C0; C0; C0; C0] end. rewrite EO. cbn [rbind].
  change (dflt (2 * (e + 1) + 1)%Z nt) with (size e nt). change (dflt (2 * (e + 1) + 1)%Z np) with (size e np).
  destruct (Z.ltb_spec (size e nt) (2 * e + 1)); [lia|]. destruct (Z.ltb_spec (size e np) (2 * e + 1)); [lia|].
  rewrite K5, K4. cbn [rbind]. unfold read_boost. cbn [vec3_of]. assert (N0 : norm3 (0, 0, 0) = 0) by (unfold norm3; replace (0 * 0 + 0 * 0 + 0 * 0) with 0 by ring; apply sqrt_0).
  rewrite N0. destruct (Rleb_spec 1 0); [lra|]. reflexivity.
Qed.
Lemma time_field : forall a q, field 0 1 (mode_at [constant_as_ell_0_mode a; C0; C0; C0]) q = RtoC a.
Proof.
  intros a q. unfold field. change (LM_range 0 1) with [(0, 0); (1, -1); (1, 0); (1, 1)]%Z. cbn [csum fst snd]. rewrite swsh_00.
  change (mode_at [constant_as_ell_0_mode a; C0; C0; C0] 0 0) with (constant_as_ell_0_mode a).
  change (mode_at [constant_as_ell_0_mode a; C0; C0; C0] 1 (-1)) with C0. change (mode_at [constant_as_ell_0_mode a; C0; C0; C0] 1 0) with C0.
  change (mode_at [constant_as_ell_0_mode a; C0; C0; C0] 1 1) with C0. unfold constant_as_ell_0_mode, Y0.
  pose proof (sqrt_lt_R0 (4 * PI) ltac:(pose proof PI_RGT_0; lra)).
  transitivity (RtoC (a * sqrt (4 * PI)) * RtoC (/ sqrt (4 * PI)))%C; [ring|]. rewrite <- RtoC_mul. f_equal. field. lra.
Qed.
Lemma time_real : forall a, is_real [constant_as_ell_0_mode a; C0; C0; C0] 1.
Proof.
  intros a l m Hl Hm. assert (B : (l = 0 /\ m = 0 \/ l = 1 /\ (m = -1 \/ m = 0 \/ m = 1))%Z) by lia.
  set (x := [constant_as_ell_0_mode a; C0; C0; C0]).
  assert (M0 : mode_at x 0 0 = RtoC (a * sqrt (4 * PI))) by reflexivity.
  assert (M1 : mode_at x 1 (-1) = C0) by reflexivity. assert (M2 : mode_at x 1 0 = C0) by reflexivity. assert (M3 : mode_at x 1 1 = C0) by reflexivity.
  destruct B as [[-> ->] | [-> [-> | [-> | ->]]]]; cbn [Z.opp]; rewrite ?M0, ?M1, ?M2, ?M3; apply C_eq; cbn [re im Conj Cscale RtoC C0]; unfold sgn; cbn; ring.
Qed.
Lemma time_trivial : forall a, flag (0, 0, 0) [constant_as_ell_0_mode a; C0; C0; C0] = false.
Proof.
  intros a. unfold flag. destruct (nontrivial_spec (0, 0, 0) [constant_as_ell_0_mode a; C0; C0; C0]) as [[N|[i Hi]]|_]; [congruence| |reflexivity].
  exfalso. apply Hi. destruct i as [|[|[|[|i]]]]; reflexivity.
Qed.

Section Transform.
Variable spline : list R -> list R -> res (R -> R).
Hypothesis spline_hits : interpolates spline.
Variable map2salm : Z -> Z -> list C -> Z -> Z -> list C.

Definition usable (w : pwave) : Prop :=
  wave_ok w /\ increasing (pw_t w) /\ (4 <= length (pw_t w))%nat /\ (1 <= pw_dataType w <= 9)%Z /\ pw_frameType w = InertialFrame.

Lemma rotated_grid : forall w nt np k q a aux, usable w -> rotation_only k q a ->
  (2 * pw_hi w + 1 <= size (pw_hi w) nt)%Z -> (2 * pw_hi w + 1 <= size (pw_hi w) np)%Z ->
  exists G, from_modes spline w nt np k aux = Ok G /\ pg_t G = map (fun t => t - a) (pw_t w) /\
    pg_theta G = size (pw_hi w) nt /\ pg_phi G = size (pw_hi w) np /\ pg_frameType G = InertialFrame /\ pg_dataType G = pw_dataType w /\ pg_r G = pw_r w /\
    length (pg_data G) = length (pw_t w) /\
    forall i, (i < length (pg_data G))%nat ->
      nth i (pg_data G) [] = map (field (spin (pw_dataType w)) (pw_hi w) (turn wigner_D q (mode_of w i))) (grid_points (size (pw_hi w) nt) (size (pw_hi w) np)).
Proof.
  intros w nt np k q a aux (HW & HI & H4 & HD & HF) HK H1 H2. pose proof (rotation_process (pw_hi w) nt np k q a HK H1 H2) as EG.
  assert (Hq : qnorm2 q = 1) by (destruct HK as (_ & _ & _ & _ & K5 & _); exact (read_rotation_unit _ _ K5)).
  set (g := mkgproc _ _ _ _ _ _ _) in EG.
  destruct (C68_grid spline spline_hits w nt np k aux g HW HI H4 HD HF EG) as (G & E & ET & E1 & E2 & E3 & E4 & E5 & EL & ER & EV).
  { apply time_real. }
  { intros N _. exfalso. pose proof (time_trivial a) as T. unfold flag in T. destruct (nontrivial_spec (0, 0, 0) [constant_as_ell_0_mode a; C0; C0; C0]) as [|N']; [discriminate|]. apply N'. exact N. }
  set (pts := grid_points (gp_theta g) (gp_phi g)) in *.
  assert (RE : forall p, In p pts -> grid_rotor (gp_rotation g) (gp_boost g) p = qmul q p).
  { intros p I. apply (C55_parallel q p (0, 0, 0) Hq (grid_points_unit _ _ _ I)). }
  assert (RM : map (grid_rotor (gp_rotation g) (gp_boost g)) pts = map (qmul q) pts) by (apply map_ext_in; exact RE).
  rewrite RM in *.
  assert (UD : forall p, In p pts -> qnorm2 (qmul q p) = 1) by (intros p I; rewrite qnorm2_mul, Hq, (grid_points_unit _ _ _ I); ring).
  assert (K1 : forall r, kfactor (0, 0, 0) r = 1).
  { intros [[x y] z]. unfold kfactor, one_over_k, gamma. assert (Nz : norm3 (0, 0, 0) = 0) by (unfold norm3; replace (0 * 0 + 0 * 0 + 0 * 0) with 0 by ring; apply sqrt_0).
    rewrite Nz. replace (1 - 0 ^ 2) with 1 by ring. rewrite sqrt_1. unfold dotv. field. }
  assert (HH := proj1 HW).
  rewrite (C29_time_translation a) in ET.
  2: { intros Z. rewrite Z in H4. cbn in H4. lia. }
  2: { exact HI. }
  2: { intros Z. apply map_eq_nil, map_eq_nil in Z. revert Z. apply grid_points_nonempty; unfold g; cbn [gp_theta gp_phi]; lia. }
  2: { intros d I. apply in_map_iff in I. destruct I as (p' & <- & I). apply in_map_iff in I. destruct I as (p & <- & I).
       unfold direction_of. cbn [d_alpha d_r]. split; [|apply direction_unit, UD, I].
       change (gp_ell_super g) with 1%Z. change (gp_super g) with [constant_as_ell_0_mode a; C0; C0; C0]. rewrite time_field. reflexivity. }
  injection ET as ET. exists G. split; [exact E|]. split; [symmetry; exact ET|]. split; [exact E1|]. split; [exact E2|]. split; [exact E3|]. split; [exact E4|]. split; [exact E5|].
  assert (LT : length (pg_t G) = length (pw_t w)) by (rewrite <- ET; apply map_length).
  split; [lia|]. intros i Hi.
  assert (I : In (nth i (pg_data G) []) (pg_data G)) by (apply nth_In; exact Hi). specialize (ER _ I). rewrite map_length in ER.
  change (grid_points (size (pw_hi w) nt) (size (pw_hi w) np)) with pts.
  apply nth_ext with (d := C0) (d' := field (spin (pw_dataType w)) (pw_hi w) (turn wigner_D q (mode_of w i)) q1); [rewrite map_length; exact ER|].
  intros j Hj. rewrite map_nth. rewrite ER in Hj.
  assert (Ip : In (nth j pts q1) pts) by (apply nth_In; exact Hj).
  assert (Eq : nth_error (map (qmul q) pts) j = Some (qmul q (nth j pts q1))) by (apply map_nth_error, nth_error_nth'; exact Hj).
  specialize (EV i j i (qmul q (nth j pts q1)) ltac:(lia) Eq ltac:(lia)).
  change (gp_ell_super g) with 1%Z in EV. change (gp_super g) with [constant_as_ell_0_mode a; C0; C0; C0] in EV. change (gp_boost g) with (0, 0, 0) in EV.
  rewrite time_field, K1 in EV.
  assert (ETi : nth i (pg_t G) 0 = 1 * (nth i (pw_t w) 0 - re (RtoC a))).
  { rewrite <- ET. rewrite (nth_indep _ 0 ((fun t => t - a) 0)) by (rewrite map_length; lia). rewrite (map_nth (fun t => t - a)). cbn. ring. }
  specialize (EV ETi). unfold transformed in EV. change (gp_super g) with [constant_as_ell_0_mode a; C0; C0; C0] in EV. change (gp_boost g) with (0, 0, 0) in EV.
  rewrite time_trivial in EV. unfold grid_point in EV. destruct (known_type _ HD) as (_ & _ & KC). destruct (KC (pw_r w)) as [cw Ecw]. rewrite Ecw in EV.
  cbn [rbind grid_value negb] in EV. unfold grid_value in EV. cbn [negb] in EV.
  rewrite K1 in EV. injection EV as EV. rewrite <- EV. rewrite C68_field_rotation by lia. fold (at_point w i (qmul q (nth j pts q1))).
  assert (P1 : powerRZ 1 cw = 1) by (destruct cw; cbn [powerRZ]; rewrite ?pow1, ?Rinv_1; reflexivity).
  rewrite P1. apply C_eq; cbn; ring.
Qed.
(** A rotation together with a time translation turns the modes at every time by the Wigner matrices and shifts the times: nothing is
    approximated, degrees above those of the waveform are zero, and the result does not depend on the grid. *)
Theorem C68_rotation : forall w ell_max nt np k q a aux, usable w -> rotation_only k q a ->
  let s := spin (pw_dataType w) in let em := dflt (pw_hi w) ell_max in
  (2 * pw_hi w + 1 <= size (pw_hi w) nt)%Z -> (2 * pw_hi w + 1 <= size (pw_hi w) np)%Z -> (Z.abs s <= em)%Z ->
  (2 * em + 1 <= size (pw_hi w) nt)%Z -> (2 * em + 1 <= size (pw_hi w) np)%Z -> exact map2salm s (size (pw_hi w) nt) (size (pw_hi w) np) ->
  exists w', transform spline map2salm w ell_max nt np k aux = Ok w' /\ pw_t w' = map (fun t => t - a) (pw_t w) /\
    pw_lo w' = Z.abs s /\ pw_hi w' = em /\ pw_frame w' = [] /\ pw_frameType w' = InertialFrame /\ pw_dataType w' = pw_dataType w /\ pw_r w' = pw_r w /\
    wave_ok w' /\
    forall i l m, (i < length (pw_t w))%nat -> valid (Z.abs s) em l m ->
      mode_of w' i l m = if (l <=? pw_hi w)%Z then turn wigner_D q (mode_of w i) l m else C0.
Proof.
  intros w ell_max nt np k q a aux HU HK s em H1 H2 Hs H3 H4 HX.
  destruct (rotated_grid w nt np k q a aux HU HK H1 H2) as (G & E & ET & E1 & E2 & E3 & E4 & E5 & EL & ER).
  destruct HU as (HW & _ & _ & HD & _). assert (HH := proj1 HW).
  unfold transform. rewrite E. cbn [rbind]. fold em.
  destruct (C68_to_modes map2salm G em (pw_hi w) (fun i => turn wigner_D q (mode_of w i))) as (w' & Ew & T & A1 & A2 & A3 & A4 & A5 & A6 & A7 & A8 & A9); rewrite ?E4, ?E1, ?E2; fold s; try assumption; try lia.
  exists w'. rewrite E4 in *. fold s in A1, A9. split; [exact Ew|]. split; [congruence|]. split; [exact A1|]. split; [exact A2|]. split; [exact A3|]. split; [congruence|]. split; [exact A5|]. split; [congruence|].
  split.
  - split; [rewrite A1, A2; lia|]. split; [|exact A8]. rewrite T, ET, map_length. lia.
  - intros i l m Hi Hv. apply A9; [lia|exact Hv].
Qed.
Lemma waves_equal : forall w w', wave_ok w -> wave_ok w' -> pw_t w = pw_t w' -> pw_lo w = pw_lo w' -> pw_hi w = pw_hi w' -> pw_frame w = pw_frame w' ->
  pw_frameType w = pw_frameType w' -> pw_dataType w = pw_dataType w' -> pw_r w = pw_r w' ->
  (forall i l m, (i < length (pw_t w))%nat -> valid (pw_lo w) (pw_hi w) l m -> mode_of w i l m = mode_of w' i l m) -> w = w'.
Proof.
  intros [t d lo hi f ft dt r] [t' d' lo' hi' f' ft' dt' r'] (H1 & H2 & H3) (H1' & H2' & H3') E1 E2 E3 E4 E5 E6 E7 H.
  cbn [pw_t pw_data pw_lo pw_hi pw_frame pw_frameType pw_dataType pw_r] in *. subst. f_equal.
  apply nth_ext with (d := []) (d' := []); [lia|]. intros i Hi.
  rewrite (row_map lo' hi' (nth i d [])), (row_map lo' hi' (nth i d' [])); try lia; try (apply H3; apply nth_In; lia); try (apply H3'; apply nth_In; lia).
  apply map_ext_in. intros [l m] I. apply LM_range_In in I. assert (V : valid lo' hi' l m) by (split; lia).
  specialize (H i l m ltac:(lia) V). unfold mode_of in H. cbn [pw_lo pw_data] in H. destruct (Z.ltb_spec l lo'); [lia|]. exact H.
Qed.
Lemma shifted_increasing : forall a t, increasing t -> increasing (map (fun x => x - a) t).
Proof. intros a t H. induction H; cbn [map]; constructor; try assumption. lra. Qed.
Lemma rotation_unit : forall k q a, rotation_only k q a -> unitq q.
Proof. intros k q a (_ & _ & _ & _ & K & _). exact (read_rotation_unit _ _ K). Qed.
(** Transforming twice, with the default grids, is transforming once with the product of the rotors and the sum of the translations: exactly, in every part. *)
Theorem C68_rotation_compose : forall w k1 k2 k3 q1' q2' a1 a2 aux1 aux2 aux3, usable w -> (Z.abs (spin (pw_dataType w)) <= pw_hi w)%Z ->
  exact map2salm (spin (pw_dataType w)) (2 * (pw_hi w + 1) + 1) (2 * (pw_hi w + 1) + 1) ->
  rotation_only k1 q1' a1 -> rotation_only k2 q2' a2 -> rotation_only k3 (qmul q1' q2') (a1 + a2) ->
  rbind (transform spline map2salm w None None None k1 aux1) (fun w1 => transform spline map2salm w1 None None None k2 aux2) =
  transform spline map2salm w None None None k3 aux3.
Proof.
  intros w k1 k2 k3 p q a1 a2 aux1 aux2 aux3 HU Hs HX K1 K2 K3. set (s := spin (pw_dataType w)) in *.
  destruct (C68_rotation w None None None k1 p a1 aux1 HU K1) as (w1 & E1 & T1 & L1 & M1 & F1 & G1 & D1 & R1 & W1 & V1); cbn [size dflt] in *; fold s; try lia; try assumption.
  destruct (C68_rotation w None None None k3 (qmul p q) (a1 + a2) aux3 HU K3) as (w3 & E3 & T3 & L3 & M3 & F3 & G3 & D3 & R3 & W3 & V3); cbn [size dflt] in *; fold s; try lia; try assumption.
  fold s in V1, V3, L1, L3. assert (HU1 : usable w1).
  { destruct HU as (HW & HI & HL & HD & HF). split; [exact W1|]. rewrite T1, D1. split; [apply shifted_increasing, HI|]. split; [rewrite map_length; exact HL|]. split; [exact HD|exact G1]. }
  destruct (C68_rotation w1 None None None k2 q a2 aux2 HU1 K2) as (w2 & E2 & T2 & L2 & M2 & F2 & G2 & D2 & R2 & W2 & V2); cbn [size dflt] in *; rewrite ?D1, ?M1; fold s; try lia; try assumption.
  rewrite D1, M1 in *. fold s in V2, L2. rewrite E1. cbn [rbind]. rewrite E2, E3. f_equal.
  apply waves_equal; try congruence; try assumption.
  - rewrite T2, T1, T3, map_map. apply map_ext. intros; ring.
  - intros i l m Hi Hv. rewrite T2, T1, !map_length in Hi. rewrite L2, M2 in Hv. assert (Hv' := Hv). destruct Hv' as [Hl Hm].
    rewrite V2, V3 by (try assumption; rewrite T1, map_length; assumption). destruct (Z.leb_spec l (pw_hi w)); [|lia].
    rewrite (turn_ext wigner_D q _ (turn wigner_D p (mode_of w i))).
    + apply (turn_turn wigner_D doc_mul); [exact (rotation_unit _ _ _ K1)|exact (rotation_unit _ _ _ K2)|lia|lia].
    + intros k Hk. rewrite V1 by (assumption || (split; lia)). destruct (Z.leb_spec l (pw_hi w)); [reflexivity|lia].
Qed.
(** The transformation agrees with the rotation of the decomposition basis wherever both have modes. *)
Theorem C68_rotation_is_rotate_basis : forall garbage w k q aux, (forall n, (0 <= n)%Z -> zlen (garbage n) = n) -> usable w -> rotation_only k q 0 ->
  let s := spin (pw_dataType w) in (Z.abs s <= pw_hi w)%Z -> exact map2salm s (2 * (pw_hi w + 1) + 1) (2 * (pw_hi w + 1) + 1) ->
  exists w' W', transform spline map2salm w None None None k aux = Ok w' /\
    rotate_basis wigner_doc garbage (mkrw (pw_lo w) (pw_hi w) (pw_data w) (F1 (pw_frame w)) (pw_frameType w)) (RQuat q) = Ok W' /\
    pw_t w' = pw_t w /\ forall i l m, (i < length (pw_t w))%nat -> valid (Z.max (pw_lo w) (Z.abs s)) (pw_hi w) l m -> mode_of w' i l m = md W' i l m.
Proof.
  intros garbage w k q aux HG HU HK s Hs HX.
  destruct (C68_rotation w None None None k q 0 aux HU HK) as (w' & E & T & L & M & F & G & D & R & W & V); cbn [size dflt] in *; fold s; try lia; try assumption.
  fold s in V. destruct HU as (HW & _ & _ & HD & _). assert (HW' := HW). destruct HW' as (H1 & H2 & H3).
  set (W0 := mkrw _ _ _ _ _).
  assert (WF : wf W0).
  { split; [exact H1|]. apply Forall_forall. intros row I. cbn [rw_hi rw_lo W0]. rewrite (H3 row I). pose proof (LM_range_length (pw_lo w) (pw_hi w) ltac:(lia) ltac:(lia)). nia. }
  destruct (C25_constant wigner_D wigner_doc garbage doc_fills HG W0 q _ WF (or_introl eq_refl)) as (W' & E' & _ & (_ & _ & _ & _ & TB) & _).
  exists w', W'. split; [exact E|]. split; [exact E'|]. split; [rewrite T; rewrite <- (map_id (pw_t w)) at 2; apply map_ext; intros; ring|].
  intros i l m Hi Hv. destruct Hv as [Hl Hm]. rewrite V by (assumption || (split; lia)). destruct (Z.leb_spec l (pw_hi w)); [|lia].
  rewrite TB by ((cbn [W0 rw_data]; lia) || (split; cbn [W0 rw_lo rw_hi]; lia)). apply turn_ext. intros j Hj. unfold mode_of, md. cbn [W0 rw_lo rw_data].
  destruct (Z.ltb_spec l (pw_lo w)); [lia|reflexivity].
Qed.
(** Only a waveform that says it is in the inertial frame is accepted. *)
Theorem C68_inertial_only : forall w ell_max nt np k aux, pw_frameType w <> InertialFrame -> transform spline map2salm w ell_max nt np k aux = Err ValueError.
Proof. intros w ell_max nt np k aux H. unfold transform, from_modes. destruct (pw_frameType w); try reflexivity. congruence. Qed.
(** The frame of a waveform is not looked at: the same waveform decomposed in a rotated basis (which is a representation of the same field, labelled
    inertial) comes out as a different field in the same, empty, frame. *)
Theorem C68_frame_refuted : forall garbage w q k aux, (forall n, (0 <= n)%Z -> zlen (garbage n) = n) -> usable w -> pw_frame w = [] -> unitq q ->
  rotation_only k q1 0 ->
  let s := spin (pw_dataType w) in (Z.abs s <= pw_lo w)%Z -> exact map2salm s (2 * (pw_hi w + 1) + 1) (2 * (pw_hi w + 1) + 1) ->
  exists W' v v', rotate_basis wigner_doc garbage (mkrw (pw_lo w) (pw_hi w) (pw_data w) (F1 (pw_frame w)) (pw_frameType w)) (RQuat q) = Ok W' /\ rw_frame W' = F1 [q] /\
    transform spline map2salm w None None None k aux = Ok v /\
    transform spline map2salm (mkpw (pw_t w) (rw_data W') (rw_lo W') (rw_hi W') [q] (rw_type W') (pw_dataType w) (pw_r w)) None None None k aux = Ok v' /\
    pw_frame v = [] /\ pw_frame v' = [] /\
    forall i l m, (i < length (pw_t w))%nat -> valid (pw_lo w) (pw_hi w) l m ->
      mode_of v i l m = mode_of w i l m /\ mode_of v' i l m = turn wigner_D q (mode_of w i) l m.
Proof.
  intros garbage w q k aux HG HU HF Hq HK s Hs HX. assert (HU' := HU). destruct HU' as (HW & HI & H4 & HD & HFT). assert (HW' := HW). destruct HW' as (H1 & H2 & H3).
  set (W0 := mkrw _ _ _ _ _).
  assert (WF : wf W0).
  { split; [exact H1|]. apply Forall_forall. intros row I. cbn [rw_hi rw_lo W0]. rewrite (H3 row I). pose proof (LM_range_length (pw_lo w) (pw_hi w) ltac:(lia) ltac:(lia)). nia. }
  destruct (C25_constant wigner_D wigner_doc garbage doc_fills HG W0 q _ WF (or_introl eq_refl)) as (W' & E' & WF' & (TL & TH & TN & TT & TB) & TF).
  cbn [W0 rw_lo rw_hi rw_data rw_type rw_frame] in *. rewrite HF in TF.
  destruct (C68_rotation w None None None k q1 0 aux HU HK) as (v & E & T & L & M & F & G & D & R & W & V); cbn [size dflt] in *; fold s; try lia; try assumption.
  set (u := mkpw (pw_t w) (rw_data W') (rw_lo W') (rw_hi W') [q] (rw_type W') (pw_dataType w) (pw_r w)).
  assert (Hu : usable u).
  { split; [|split; [exact HI|split; [exact H4|split; [exact HD|cbn [u pw_frameType]; congruence]]]]. split; [cbn [u pw_lo pw_hi]; lia|]. split; [cbn [u pw_data pw_t]; lia|].
    intros row I. cbn [u pw_data pw_lo pw_hi] in *. destruct WF' as [_ WF']. rewrite Forall_forall in WF'. specialize (WF' row I).
    pose proof (LM_range_length (rw_lo W') (rw_hi W') ltac:(lia) ltac:(lia)). nia. }
  destruct (C68_rotation u None None None k q1 0 aux Hu HK) as (v' & Ev & Tv & Lv & Mv & Fv & _ & _ & _ & _ & Vv); cbn [u size dflt pw_dataType pw_hi pw_t] in *; rewrite ?TH; fold s; try lia; try assumption.
  exists W', v, v'. split; [exact E'|]. split; [exact TF|]. split; [exact E|]. split; [exact Ev|]. split; [exact F|]. split; [exact Fv|].
  intros i l m Hi Hv. assert (Hv' := Hv). destruct Hv' as [Hl Hm]. split.
  - rewrite V by (assumption || (split; fold s; lia)). destruct (Z.leb_spec l (pw_hi w)); [|lia]. apply (turn_one wigner_D C25_wigner_one); lia.
  - rewrite Vv by (try assumption; split; rewrite ?TH; fold s; lia). rewrite TH. destruct (Z.leb_spec l (pw_hi w)); [|lia]. rewrite (turn_one wigner_D C25_wigner_one) by lia.
    unfold mode_of at 1, u. cbn [pw_lo pw_data]. rewrite TL. destruct (Z.ltb_spec l (pw_lo w)); [lia|]. pose proof (TB i l m ltac:(lia) Hv) as B. unfold md in B. rewrite TL in B. rewrite B.
    apply turn_ext. intros j Hj. unfold mode_of. cbn [W0 rw_lo rw_data]. destruct (Z.ltb_spec l (pw_lo w)); [lia|reflexivity].
Qed.

(** Evaluating on a grid and decomposing again gives back the modes, with zeros in the degrees the waveform did not have. *)
Theorem C68_round_trip : forall w ell_max k aux, usable w -> rotation_only k q1 0 ->
  let s := spin (pw_dataType w) in let n := (2 * (pw_hi w + 1) + 1)%Z in let em := dflt (pw_hi w) ell_max in
  (Z.abs s <= em <= pw_hi w + 1)%Z -> exact map2salm s n n ->
  exists w', transform spline map2salm w ell_max None None k aux = Ok w' /\ pw_t w' = pw_t w /\ pw_lo w' = Z.abs s /\ pw_hi w' = em /\
    forall i l m, (i < length (pw_t w))%nat -> valid (Z.abs s) em l m -> mode_of w' i l m = if (l <=? pw_hi w)%Z then mode_of w i l m else C0.
Proof.
  intros w ell_max k aux HU HK s n em He HX.
  destruct (C68_rotation w ell_max None None k q1 0 aux HU HK) as (w' & E & T & L & M & F & G & D & R & W & V); cbn [size] in *; fold s em n; try lia; try assumption.
  fold s em in V, L, M. exists w'. split; [exact E|]. split; [rewrite T; rewrite <- (map_id (pw_t w)) at 2; apply map_ext; intros; ring|]. split; [exact L|]. split; [exact M|].
  intros i l m Hi Hv. rewrite V by assumption. destruct Hv as [Hl Hm]. destruct (l <=? pw_hi w)%Z; [|reflexivity]. apply (turn_one wigner_D C25_wigner_one); lia.
Qed.
Lemma each_err : forall A B (f : A -> res B) e l, (forall x, In x l -> (exists y, f x = Ok y) \/ f x = Err e) -> (exists x, In x l /\ f x = Err e) -> each f l = Err e.
Proof.
  intros A B f e. induction l as [|a l IH]; intros H (x & Hx & Ex); [destruct Hx|]. cbn [each].
  destruct (H a (or_introl eq_refl)) as [[y Ey]|Ee]; [|rewrite Ee; reflexivity]. rewrite Ey. cbn [rbind].
  rewrite IH; [reflexivity|intros; apply H; right; assumption|]. destruct Hx as [<-|Hx]; [congruence|]. exists x. split; assumption.
Qed.
Lemma each_all_err : forall A B (f : A -> res B) e l, l <> [] -> (forall x, In x l -> f x = Err e) -> each f l = Err e.
Proof. intros A B f e [|a l] N H; [congruence|]. cbn [each]. rewrite (H a (or_introl eq_refl)). reflexivity. Qed.
(** A Weyl scalar can be boosted or supertranslated only in company: when one of those of higher index is missing, the transformation is refused.
    (The others are either missing too, or what they should be.) *)
Theorem C68_missing_scalar : forall w ell_max nt np k aux g DT, wave_ok w -> (2 <= length (pw_t w))%nat -> (1 <= pw_dataType w <= 4)%Z -> pw_frameType w = InertialFrame ->
  grid_process (pw_hi w) nt np k = Ok g -> is_real (gp_super g) (gp_ell_super g) -> nontrivial (gp_boost g) (gp_super g) ->
  (pw_dataType w < Z.of_nat DT <= 5)%Z -> aux DT = None ->
  (forall D x, (pw_dataType w < Z.of_nat D <= 5)%Z -> aux D = Some x -> wave_ok x /\ length (pw_data x) = length (pw_data w) /\ (1 <= pw_dataType x <= 9)%Z) ->
  transform spline map2salm w ell_max nt np k aux = Err ValueError.
Proof.
  intros w ell_max nt np k aux g DT HW H2 HD HF HG HR HN HT HM HA. unfold transform, from_modes. rewrite HF, HG. cbn [rbind].
  destruct (grid_process_facts _ _ _ _ _ HG) as (L & HL & Hm & El & Em & T1 & T2 & Hv & Hq). assert (HH := proj1 HW).
  destruct (known_type (pw_dataType w) ltac:(lia)) as (Es & _ & _). rewrite Es. cbn [rbind]. cbv zeta. fold (flag (gp_boost g) (gp_super g)).
  set (rotors := map _ (grid_points _ _)).
  rewrite (each_ok _ _ _ (direction_of (gp_super g) (gp_ell_super g) (gp_boost g))).
  2: { intros q _. rewrite El, Em. apply direction_data_ok; [lia|assumption|rewrite <- El; assumption]. }
  cbn [rbind].
  assert (FT : flag (gp_boost g) (gp_super g) = true) by (unfold flag; destruct (nontrivial_spec (gp_boost g) (gp_super g)) as [_|N]; [reflexivity|contradiction]).
  rewrite FT.
  match goal with |- context [each ?f (combine rotors ?d)] => assert (EE : each f (combine rotors d) = Err ValueError) end; [|rewrite EE; reflexivity].
  assert (CE : forall q d, column w (spin (pw_dataType w)) (gp_ell_max g) true (gp_boost g) aux q d = Err ValueError).
  { intros q d. unfold column. assert (HL' := proj1 (proj2 HW)). rewrite (indexed R (list C) (pw_t w) (pw_data w) 0 []) by exact HL'.
    apply each_all_err.
    - intros Z. apply map_eq_nil in Z. destruct (pw_t w); [cbn in H2; lia|discriminate].
    - intros x Hx. apply in_map_iff in Hx. destruct Hx as (n & <- & Hn). apply in_seq in Hn. rewrite mode_of_value by (try exact HW; lia). cbn [rbind]. fold (at_point w n q).
      destruct (Z.leb_spec 1 (pw_dataType w)); [|lia]. destruct (Z.leb_spec (pw_dataType w) 4); [|lia]. cbn [andb].
      unfold aux_fields.
      match goal with |- rbind (rbind (each ?f ?l) _) _ = _ => assert (EX : each f l = Err ValueError) end; [|rewrite EX; reflexivity].
      apply each_err.
      + intros D HDi. assert (B : (D <= 5)%nat) by (cbn in HDi; lia). destruct (Nat.ltb_spec D (Z.to_nat (pw_dataType w))); [left; eexists; reflexivity|].
        destruct (Nat.eqb_spec D (Z.to_nat (pw_dataType w))); [left; eexists; reflexivity|]. destruct (aux D) as [x|] eqn:Ex; [|right; reflexivity]. left.
        destruct (HA D x ltac:(lia) Ex) as (X1 & X2 & X3). eexists. apply aux_value_ok; try assumption; lia.
      + exists DT. split; [cbn; lia|]. destruct (Nat.ltb_spec DT (Z.to_nat (pw_dataType w))); [lia|]. destruct (Nat.eqb_spec DT (Z.to_nat (pw_dataType w))); [lia|]. rewrite HM. reflexivity. }
  assert (NE : rotors <> []).
  { intros E. apply (grid_points_nonempty (gp_theta g) (gp_phi g)); [lia|lia|]. apply map_eq_nil in E. exact E. }
  apply each_all_err; [|intros; apply CE]. intros Z. destruct rotors; [congruence|discriminate].
Qed.
End Transform.

(** A case: interpolation that looks the value up, an exact inverse of the harmonics, a waveform of five modes at four times, a half turn about the
    z axis (given by a rotor that is not normalized) and a time translation *)
Fixpoint lookup (xs ys : list R) (x : R) : R :=
  match xs, ys with a :: xs', b :: ys' => if Req_EM_T x a then b else lookup xs' ys' x | _, _ => 0 end.
Lemma lookup_interpolates : interpolates (fun xs ys => Ok (lookup xs ys)).
Proof.
  intros xs ys HI _ HL. eexists. split; [reflexivity|]. revert ys HL. induction xs as [|a xs IH]; intros ys HL i Hi; [cbn in Hi; lia|].
  destruct ys as [|b ys]; [discriminate|]. cbn [lookup]. destruct i as [|i]; cbn [nth].
  - destruct (Req_EM_T a a); congruence.
  - assert (LT : a < nth i xs 0) by (apply (increasing_lt xs a HI); apply nth_In; cbn in Hi; lia).
    destruct (Req_EM_T (nth i xs 0) a); [lra|]. apply IH; [inversion HI; subst; [constructor|assumption]|cbn in HL; lia|cbn in Hi; lia].
Qed.
Definition ex_w : pwave := mkpw [0; 1; 2; 3] (repeat [C1; C0; Ci; C0; C1] 4) 2 2 [] InertialFrame 5 false.
Definition ex_k : kwargs := mkkw None None None (Some (Some 3)) None None (Some [0; 0; 0; 2]) None.
Example C68_case : interpolates (fun xs ys => Ok (lookup xs ys)) /\ usable ex_w /\ rotation_only ex_k (mkq 0 0 0 1) 3 /\ (Z.abs (spin (pw_dataType ex_w)) <= pw_lo ex_w)%Z /\
  exists map2salm, exact map2salm (spin (pw_dataType ex_w)) 7 7 /\
  exists w', transform (fun xs ys => Ok (lookup xs ys)) map2salm ex_w None None None ex_k (fun _ => None) = Ok w' /\ pw_t w' = [0 - 3; 1 - 3; 2 - 3; 3 - 3].
Proof.
  assert (U : usable ex_w).
  { split; [split; [cbn; lia|]; split; [reflexivity|]; intros row I; apply repeat_spec in I; subst row; reflexivity|].
    split; [cbn; repeat constructor; lra|]. split; [cbn; lia|]. split; [cbn; lia|reflexivity]. }
  assert (K : rotation_only ex_k (mkq 0 0 0 1) 3).
  { repeat (split; [reflexivity|]). split; [|left; reflexivity]. cbn [ex_k k_rotation]. unfold read_rotation. cbn [quat_of].
    assert (A : qabs (mkq 0 0 0 2) = 2). { unfold qabs, qnorm2. cbn [qw qx qy qz]. replace (0 * 0 + 0 * 0 + 0 * 0 + 2 * 2) with (2 * 2) by ring. apply sqrt_square. lra. }
    rewrite A. destruct (Rltb_spec 2 (3 / 10 ^ 16)); [exfalso; lra|]. unfold qnormalized. rewrite A. cbn [qw qx qy qz]. f_equal. apply quat_eq; cbn; field. }
  assert (S : (Z.abs (spin (pw_dataType ex_w)) <= pw_lo ex_w)%Z) by (unfold Z.le; vm_compute; discriminate).
  split; [exact lookup_interpolates|]. split; [exact U|]. split; [exact K|]. split; [exact S|].
  destruct (C68_inverse_exists (spin (pw_dataType ex_w)) 7 7) as [mm HX]. exists mm. split; [exact HX|].
  destruct (C68_rotation _ lookup_interpolates mm ex_w None None None ex_k _ _ (fun _ => None) U K) as (w' & E & T & _); try (cbn; lia); try exact S; try exact HX.
  exists w'. split; [exact E|exact T].
Qed.
