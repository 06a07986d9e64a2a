(** * C87: how far data are from the superrest frame *)
From Coq Require Import String Reals ZArith List Bool Lia Lra.
From Verif Require Import Common Cplx Quat Modes_Model Create_Model Ops_Model Ops_Proofs Times_Model Tables_Model Modal_Model Kwargs_Model Transform_Model Rotate_Model
  Modes_Proofs Modal_Proofs Rotate_Proofs Times_Proofs Kwargs_Proofs Validity_Proofs Transform_Proofs Wigner_Model Wigner_Proofs Sphere_Model Sphere_Proofs Harmonics_Proofs
  Pipeline_Model Pipeline_Proofs ABD_Model ABD_Proofs ABDBalance_Proofs ABDPointwise_Proofs Zturn_Model Zturn_Proofs Motion_Model Motion_Proofs Superrest_Model Superrest_Proofs Spin_Model Spin_Proofs Lorentz_Proofs BMS_Proofs
  Abdpipe_Model Abdpipe_Proofs Constraints_Model Constraints_Proofs Charges_Model Charges_Proofs Product_Proofs Gridmul_Model Gridmul_Proofs Eth_Proofs Bianchi_Proofs Bianchimodes_Proofs Averages_Proofs Nonradiative_Proofs Rest_Model Rest_Proofs Passes_Model Passes_Proofs Velocity_Model Velocity_Proofs Resterr_Model.
Import ListNotations.
Open Scope R_scope.

(** ** The supermomentum *)
Lemma tail_modes : forall hi f, tail_of hi f = map (fun lm => f (fst lm) (snd lm)) (LM_range 2 hi).
Proof.
  intros hi f. unfold tail_of. f_equal. destruct (Z.lt_ge_cases hi 1) as [H|H].
  - rewrite (LM_range_empty 2 hi) by lia. destruct (Z.eq_dec hi 0) as [->|N]; [reflexivity|]. rewrite (LM_range_empty 0 hi) by lia. reflexivity.
  - rewrite (LM_range_split 0 2 hi) by lia. reflexivity.
Qed.
(** The sum of the squares of the modes of degrees 2 to [hi] *)
Definition power (hi : Z) (f : modes) : R := rsum (fun l => rsum (fun m => norm2 (f l m)) (zrange (- l) (l + 1))) (zrange 2 (hi + 1)).
Lemma norm2_pos : forall c : C, 0 <= norm2 c.
Proof. intros [x y]. unfold norm2. cbn. nra. Qed.
Lemma norm_power : forall hi f, norm_of (map (fun lm => f (fst lm) (snd lm)) (LM_range 2 hi)) = sqrt (power hi f).
Proof.
  intros hi f. unfold norm_of, power, LM_range. f_equal. induction (zrange 2 (hi + 1)) as [|l ls IH]; [reflexivity|]. cbn [flat_map rsum]. rewrite <- IH. rewrite !map_app, fold_right_app. rewrite !map_map. cbn [fst snd].
  generalize (fold_right Rplus 0 (map norm2 (map (fun lm => f (fst lm) (snd lm)) (flat_map (fun l0 => map (fun m => (l0, m)) (zrange (- l0) (l0 + 1))) ls)))). intros r.
  induction (zrange (- l) (l + 1)) as [|m ms IHm]; cbn; [ring|]. rewrite IHm. ring.
Qed.
Lemma power_pos : forall hi f, 0 <= power hi f.
Proof.
  intros hi f. unfold power. assert (N : forall (F : Z -> R) ls, (forall l, 0 <= F l) -> 0 <= rsum F ls) by (intros F ls H; induction ls as [|k ks IH]; cbn; [lra|]; specialize (H k); lra).
  apply N. intros l. apply N. intros m. apply norm2_pos.
Qed.
Lemma rsum_none : forall (F : Z -> R) ls, (forall l, 0 <= F l) -> (rsum F ls = 0 <-> forall l, In l ls -> F l = 0).
Proof.
  intros F ls P. assert (N : forall ks, 0 <= rsum F ks) by (induction ks as [|k ks IH]; cbn; [lra|]; specialize (P k); lra).
  induction ls as [|l ls IH]; cbn; [split; [intros _ ? []|reflexivity]|]. specialize (N ls). specialize (P l). split.
  - intros H. assert (F l = 0) by lra. assert (rsum F ls = 0) by lra. intros k [<-|Hk]; [assumption|apply IH; assumption].
  - intros H. rewrite (H l) by (left; reflexivity). rewrite (proj2 IH) by (intros; apply H; right; assumption). ring.
Qed.
Lemma power_none : forall hi f, power hi f = 0 <-> forall l m, (2 <= l <= hi)%Z -> (- l <= m <= l)%Z -> f l m = C0.
Proof.
  intros hi f. unfold power. rewrite rsum_none.
  - split.
    + intros H l m Hl Hm. assert (I : In l (zrange 2 (hi + 1))) by (apply zrange_In; lia). apply H in I. rewrite rsum_none in I by (intros; apply norm2_pos).
      assert (J : In m (zrange (- l) (l + 1))) by (apply zrange_In; lia). apply I in J. destruct (f l m) as [x y]. unfold norm2 in J. cbn in J. apply C_eq; cbn; nra.
    + intros H l I. apply zrange_In in I. apply rsum_none; [intros; apply norm2_pos|]. intros m J. apply zrange_In in J. rewrite H by lia. unfold norm2. cbn. ring.
  - intros l. assert (N : forall (F : Z -> R) ls, (forall l, 0 <= F l) -> 0 <= rsum F ls) by (intros F ls H; induction ls as [|k ks IH]; cbn; [lra|]; specialize (H k); lra). apply N. intros; apply norm2_pos.
Qed.
Lemma power_ext : forall hi f g, (forall l m, (2 <= l <= hi)%Z -> (- l <= m <= l)%Z -> f l m = g l m) -> power hi f = power hi g.
Proof. intros hi f g H. unfold power. apply rsum_ext. intros l I. apply zrange_In in I. apply rsum_ext. intros m J. apply zrange_In in J. rewrite H by lia. reflexivity. Qed.
Lemma power_turn : forall q hi f, qnorm2 q = 1 -> power hi (turn wigner_D q f) = power hi f.
Proof. intros q hi f Hq. unfold power. apply rsum_ext. intros l I. apply zrange_In in I. apply (wigner_norm q f l Hq). lia. Qed.
Lemma subtract_modes : forall hi f g, subtract (map (fun lm => f (fst lm) (snd lm)) (LM_range 2 hi)) (map (fun lm => g (fst lm) (snd lm)) (LM_range 2 hi))
  = Ok (map (fun lm => (fun l m => f l m - g l m)%C (fst lm) (snd lm)) (LM_range 2 hi)).
Proof. intros hi f g. unfold subtract. rewrite !map_length, Nat.eqb_refl. rewrite combine_map, map_map. reflexivity. Qed.

Section Errors.
Variable K : Z -> Z -> Z -> Z -> Z -> Z -> Z -> R.
Variable dspl : nat -> list R -> list C -> R -> C.
Notation supermomenta a := (ad_supermomentum K dspl a "Moreschi" false).
Notation error_psi := (error_psi K dspl).
Lemma supermomenta_len : forall a P, supermomenta a = Ok P -> length P = length (bd_u (ad_data a)).
Proof. intros a P H. unfold ad_supermomentum in H. destruct (sigma_bar_dot dspl a) as [d|]; [|discriminate]. cbn [rbind] in H. apply each_len in H. rewrite seq_length in H. exact H. Qed.
(** The error of the supermomentum is the length of the vector of its modes of degrees 2 and more, at the time nearest to zero, less those of the target if one is given. *)
Theorem C87_psi : forall a P i, supermomenta a = Ok P -> nearest_zero (bd_u (ad_data a)) i -> let mine := nth i P (fun _ _ => C0) in let hi := bd_hi (ad_data a) in
  error_psi a None = Ok (sqrt (power hi mine)) /\
  forall T j, nearest_zero (ms_u T) j -> ms_hi T = hi -> error_psi a (Some T) = Ok (sqrt (power hi (fun l m => mine l m - ms_at T j l m)%C)).
Proof.
  intros a P i HP Hi mine hi. unfold error_psi, Resterr_Model.error_psi. rewrite HP. cbn [rbind]. rewrite (argmin_nearest _ _ Hi). cbn [rbind]. fold mine hi. rewrite tail_modes, norm_power. split; [reflexivity|].
  intros T j Hj HT. rewrite (argmin_nearest _ _ Hj). cbn [rbind]. rewrite tail_modes, HT, subtract_modes. cbn [rbind]. rewrite (norm_power hi (fun l m => mine l m - ms_at T j l m)%C). reflexivity.
Qed.
(** It vanishes exactly if these modes do, or are those of the target. *)
Theorem C87_psi_zero : forall a P i, supermomenta a = Ok P -> nearest_zero (bd_u (ad_data a)) i -> let mine := nth i P (fun _ _ => C0) in let hi := bd_hi (ad_data a) in
  (error_psi a None = Ok 0 <-> forall l m, (2 <= l <= hi)%Z -> (- l <= m <= l)%Z -> mine l m = C0) /\
  forall T j, nearest_zero (ms_u T) j -> ms_hi T = hi -> (error_psi a (Some T) = Ok 0 <-> forall l m, (2 <= l <= hi)%Z -> (- l <= m <= l)%Z -> mine l m = ms_at T j l m).
Proof.
  intros a P i HP Hi mine hi. destruct (C87_psi a P i HP Hi) as [E1 E2]. fold mine hi in E1, E2.
  assert (Z0 : forall f, @Ok R (sqrt (power hi f)) = Ok 0 <-> power hi f = 0).
  { intros f. assert (N := power_pos hi f). split; [intros H; injection H as H; apply sqrt_eq_0 in H; assumption|intros ->; rewrite sqrt_0; reflexivity]. }
  split; [rewrite E1, Z0; apply power_none|]. intros T j Hj HT. rewrite (E2 T j Hj HT), Z0, power_none. split; intros H l m Hl Hm; specialize (H l m Hl Hm).
  - transitivity ((mine l m - ms_at T j l m) + ms_at T j l m)%C; [ring|rewrite H; ring].
  - rewrite H. ring.
Qed.
(** A target with another highest degree cannot be compared with. *)
Theorem C87_psi_degrees : forall a P i T j, supermomenta a = Ok P -> nearest_zero (bd_u (ad_data a)) i -> nearest_zero (ms_u T) j -> ms_hi T <> bd_hi (ad_data a) -> (2 <= Z.max (ms_hi T) (bd_hi (ad_data a)))%Z ->
  error_psi a (Some T) = Err ValueError.
Proof.
  intros a P i T j HP Hi Hj HT H2. unfold error_psi, Resterr_Model.error_psi. rewrite HP. cbn [rbind]. rewrite (argmin_nearest _ _ Hi), (argmin_nearest _ _ Hj). cbn [rbind]. rewrite !tail_modes.
  set (hi := bd_hi (ad_data a)) in *. set (x := map _ (LM_range 2 hi)). set (y := map _ (LM_range 2 (ms_hi T))).
  assert (Lx : Z.of_nat (length x) = if (2 <=? hi)%Z then ((hi + 1) ^ 2 - 2 ^ 2)%Z else 0%Z) by (unfold x; rewrite map_length; destruct (Z.leb_spec 2 hi); [apply LM_range_length; lia|rewrite LM_range_empty by lia; reflexivity]).
  assert (Ly : Z.of_nat (length y) = if (2 <=? ms_hi T)%Z then ((ms_hi T + 1) ^ 2 - 2 ^ 2)%Z else 0%Z) by (unfold y; rewrite map_length; destruct (Z.leb_spec 2 (ms_hi T)); [apply LM_range_length; lia|rewrite LM_range_empty by lia; reflexivity]).
  assert (Hne : length x <> length y) by (destruct (Z.leb_spec 2 hi), (Z.leb_spec 2 (ms_hi T)); nia). assert (N1 : length x <> 1%nat) by (destruct (Z.leb_spec 2 hi); nia). assert (N2 : length y <> 1%nat) by (destruct (Z.leb_spec 2 (ms_hi T)); nia).
  unfold subtract. destruct (Nat.eqb_spec (length x) (length y)) as [E|_]; [contradiction|].
  clearbody x y. destruct x as [|x1 [|x2 x]], y as [|y1 [|y2 y]]; try reflexivity; cbn in *; lia.
Qed.

End Errors.

(** ** The same data in another constant frame *)
(** Two series at the same times, the second seen from the frame [q] *)
Definition turned_series (q : quat) (f f' : mts) : Prop := ms_u f' = ms_u f /\ ms_hi f' = ms_hi f /\
  forall i l m, (i < length (ms_u f))%nat -> (2 <= l <= ms_hi f)%Z -> (- l <= m <= l)%Z -> ms_at f' i l m = turn wigner_D q (ms_at f i) l m.
Lemma turned_dot : forall dspl q f f', linear_spline dspl -> turned_series q f f' ->
  match mts_dot dspl f, mts_dot dspl f' with Ok g, Ok g' => turned_series q g g' /\ ms_u g = ms_u f /\ ms_hi g = ms_hi f /\ timesb (ms_u f) = true | Err e, Err e' => e' = e | _, _ => False end.
Proof.
  intros dspl q f f' HD (Eu & Eh & E). unfold mts_dot. destruct (timesb (ms_u f)) eqn:B.
  - rewrite (der_ok dspl 1 f) by (try lia; exact B). rewrite (der_ok dspl 1 f') by (try lia; rewrite Eu; exact B). split; [|split; [reflexivity|split; reflexivity]].
    apply andb_true_iff in B. destruct B as [B1 B2]. apply Nat.leb_le in B1. apply increasingb_iff in B2. split; [exact Eu|]. split; [exact Eh|].
    intros i l m Hi Hl Hm. unfold der in *. cbn [ms_at ms_u ms_hi] in *. rewrite Eu. rewrite (sp_ext dspl 1 (ms_u f) (nth i (ms_u f) 0) (fun j => ms_at f' j l m) (fun j => turn wigner_D q (ms_at f j) l m)) by (intros j Hj; apply E; assumption).
    apply (sp_turn dspl HD 1 (ms_u f) (nth i (ms_u f) 0) B2 B1 q (fun j => ms_at f j) l m).
  - rewrite (der_err dspl 1 f) by (try lia; exact B). rewrite (der_err dspl 1 f') by (try lia; rewrite Eu; exact B). reflexivity.
Qed.
Lemma row_modes : forall f i, Modal_Proofs.has_modes 2 (ms_hi f) (row_of f i) (ms_at f i).
Proof.
  intros f i. unfold row_of. split; [apply map_length|]. intros l m [H1 H2]. destruct (C01_index_is_position 2 (ms_hi f) l m ltac:(lia) H1 H2) as [_ E].
  rewrite nth_error_map, E. reflexivity.
Qed.
Lemma turned_rows : forall q f f' i, turned_series q f f' -> (i < length (ms_u f))%nat -> same_seen q 2 (ms_hi f) (row_of f i) (row_of f' i) (ms_at f i).
Proof.
  intros q f f' i (Eu & Eh & E) Hi. split; [apply row_modes|]. assert (H := row_modes f' i). rewrite Eh in H. apply (has_modes_ext _ _ _ _ _ H). intros l m Hl Hm. apply E; assumption.
Qed.
Lemma each_turned : forall (A B D : Type) (f : A -> res B) (f' : A -> res D) (g : B -> D) l, (forall x, In x l -> f' x = match f x with Ok y => Ok (g y) | Err e => Err e end) ->
  each f' l = match each f l with Ok ys => Ok (map g ys) | Err e => Err e end.
Proof.
  intros A B D f f' g l H. induction l as [|x l IH]; [reflexivity|]. cbn [each]. rewrite H by (left; reflexivity). destruct (f x) as [y|e]; cbn [rbind]; [|reflexivity].
  rewrite IH by (intros; apply H; right; assumption). destruct (each f l); reflexivity.
Qed.
Theorem C87_angular_velocity : forall dspl q f f', linear_spline dspl -> qnorm2 q = 1 -> turned_series q f f' ->
  angular_velocity dspl f' = match angular_velocity dspl f with Ok ws => Ok (map (rotv (qconj q)) ws) | Err e => Err e end.
Proof.
  intros dspl q f f' HD Hq T. assert (D := turned_dot dspl q f f' HD T). unfold angular_velocity. destruct (mts_dot dspl f) as [g|e], (mts_dot dspl f') as [g'|e']; try contradiction; [|cbn [rbind]; rewrite D; reflexivity].
  destruct D as (D & Du & Dh & _). cbn [rbind]. rewrite (proj1 T). apply each_turned. intros i I. apply in_seq in I. unfold angular_velocity_at. rewrite (proj1 (proj2 T)).
  apply (C86_turned 2 (ms_hi f) ltac:(lia) q _ _ _ _ (ms_at f i) (ms_at g i) Hq); [apply turned_rows; [exact T|lia]|]. rewrite <- Dh. apply turned_rows; [exact D|rewrite Du; lia].
Qed.
Lemma direction_turned : forall q v, qnorm2 q = 1 -> direction (rotv q v) = option_map (rotv q) (direction v).
Proof. intros q v H. unfold direction. rewrite rotv_norm by exact H. destruct (Req_EM_T (norm3 v) 0); [reflexivity|]. cbn [option_map]. rewrite hat_rotv by exact H. reflexivity. Qed.
Lemma all_of_map : forall (A B : Type) (g : A -> B) l, all_of (map (option_map g) l) = option_map (map g) (all_of l).
Proof. intros A B g l. induction l as [|[x|] l IH]; cbn; [reflexivity| |reflexivity]. rewrite IH. destruct (all_of l); reflexivity. Qed.
Lemma all_of_len : forall (A : Type) (l : list (option A)) r, all_of l = Some r -> length r = length l.
Proof. intros A l. induction l as [|[x|] l IH]; cbn; intros r H; [injection H as <-; reflexivity| |discriminate]. destruct (all_of l); [|discriminate]. injection H as <-. cbn. f_equal. apply IH. reflexivity. Qed.
(** Components of splines of vectors *)
Lemma map_vals : forall (A : Type) (ws : list A) (d : A) (c : A -> C) n, length ws = n -> map c ws = map (fun j => c (nth j ws d)) (seq 0 n).
Proof.
  intros A ws d c n <-. induction ws as [|w ws IH]; [reflexivity|]. cbn [length seq map nth]. f_equal. rewrite <- seq_shift, map_map. exact IH.
Qed.
Lemma spline_turned : forall dspl t q ws x, linear_spline dspl -> timesb t = true -> length ws = length t ->
  let s ws := (component_spline dspl t ws (fun w => fst (fst w)) x, component_spline dspl t ws (fun w => snd (fst w)) x, component_spline dspl t ws snd x) in
  s (map (rotv q) ws) = rotv q (s ws).
Proof.
  intros dspl t q ws x HD HT HL s. apply andb_true_iff in HT. destruct HT as [B1 B2]. apply Nat.leb_le in B1. apply increasingb_iff in B2.
  assert (L : forall (c : vec3 -> R) k1 k2 k3, (forall w, c (rotv q w) = k1 * fst (fst w) + k2 * snd (fst w) + k3 * snd w) ->
    component_spline dspl t (map (rotv q) ws) c x = k1 * component_spline dspl t ws (fun w => fst (fst w)) x + k2 * component_spline dspl t ws (fun w => snd (fst w)) x + k3 * component_spline dspl t ws snd x).
  { intros c k1 k2 k3 Hc. unfold component_spline. rewrite map_map.
    set (d0 := (0, 0, 0) : vec3). rewrite (map_vals _ ws d0 (fun w => RtoC (c (rotv q w))) _ HL), (map_vals _ ws d0 (fun w => RtoC (fst (fst w))) _ HL), (map_vals _ ws d0 (fun w => RtoC (snd (fst w))) _ HL), (map_vals _ ws d0 (fun w => RtoC (snd w)) _ HL).
    rewrite (sp_ext dspl 0 t x _ (fun j => RtoC k1 * RtoC (fst (fst (nth j ws d0))) + (RtoC k2 * RtoC (snd (fst (nth j ws d0))) + (RtoC k3 * RtoC (snd (nth j ws d0)) + C0)))%C) by (intros j _; rewrite Hc; apply C_eq; cbn; ring).
    rewrite (proj1 HD 0%nat t (fun j => RtoC (fst (fst (nth j ws d0)))) _ (RtoC k1) x B2 B1). rewrite (proj1 HD 0%nat t (fun j => RtoC (snd (fst (nth j ws d0)))) _ (RtoC k2) x B2 B1).
    rewrite (proj1 HD 0%nat t (fun j => RtoC (snd (nth j ws d0))) (fun _ => C0) (RtoC k3) x B2 B1). rewrite (sp_zero dspl HD 0 t x B2 B1). cbn. ring. }
  assert (V : forall u : vec3, u = (fst (fst u), snd (fst u), snd u)) by (intros [[? ?] ?]; reflexivity).
  set (e1 := rotv q (1, 0, 0)). set (e2 := rotv q (0, 1, 0)). set (e3 := rotv q (0, 0, 1)).
  assert (RV : forall w, rotv q w = v3add (v3scale (fst (fst w)) e1) (v3add (v3scale (snd (fst w)) e2) (v3scale (snd w) e3))).
  { intros [[a b] c]. unfold e1, e2, e3. rewrite <- !rotv_scale, <- !rotv_add. f_equal. unfold v3add, v3scale. cbn. f_equal; [f_equal|]; ring. }
  rewrite (RV (s ws)). unfold s. cbn [fst snd]. rewrite (V e1), (V e2), (V e3). unfold v3add, v3scale.
  apply (f_equal2 pair); [apply (f_equal2 pair)|].
  - rewrite (L (fun w => fst (fst w)) (fst (fst e1)) (fst (fst e2)) (fst (fst e3))); [ring|]. intros w. rewrite RV, (V e1), (V e2), (V e3). cbn. ring.
  - rewrite (L (fun w => snd (fst w)) (snd (fst e1)) (snd (fst e2)) (snd (fst e3))); [ring|]. intros w. rewrite RV, (V e1), (V e2), (V e3). cbn. ring.
  - rewrite (L snd (snd e1) (snd e2) (snd e3)); [ring|]. intros w. rewrite RV, (V e1), (V e2), (V e3). cbn. ring.
Qed.
Lemma target_turned : forall dspl q h h', linear_spline dspl -> qnorm2 q = 1 -> turned_series q h h' ->
  match target_direction dspl h, target_direction dspl h' with Ok s, Ok s' => forall x, s' x = rotv (qconj q) (s x) | Err e, Err e' => e' = e | _, _ => False end.
Proof.
  intros dspl q h h' HD Hq T. assert (Hc : qnorm2 (qconj q) = 1) by (rewrite qnorm2_conj; exact Hq). unfold target_direction, target_news. assert (D1 := turned_dot dspl q h h' HD T).
  destruct (mts_dot dspl h) as [g|e], (mts_dot dspl h') as [g'|e']; try contradiction; [|cbn [rbind]; exact D1]. destruct D1 as (T1 & U1 & _ & B). cbn [rbind].
  assert (D2 := turned_dot dspl q g g' HD T1). destruct (mts_dot dspl g) as [n|e], (mts_dot dspl g') as [n'|e']; try contradiction; [|cbn [rbind]; exact D2]. destruct D2 as (T2 & U2 & _ & _). cbn [rbind].
  rewrite (C87_angular_velocity dspl q n n' HD Hq T2). destruct (angular_velocity dspl n) as [w|e] eqn:W; cbn [rbind]; [|reflexivity].
  assert (Lw : length w = length (ms_u h)). { unfold angular_velocity in W. destruct (mts_dot dspl n); [|discriminate]. cbn [rbind] in W. apply each_len in W. rewrite seq_length in W. congruence. }
  assert (M : map direction (map (rotv (qconj q)) w) = map (option_map (rotv (qconj q))) (map direction w)) by (rewrite !map_map; apply map_ext; intros v; apply direction_turned; exact Hc). rewrite M, all_of_map.
  destruct (all_of (map direction w)) as [ws|] eqn:A; cbn [option_map]; [|reflexivity]. intros x. rewrite (proj1 T). apply (spline_turned dspl (ms_u h) (qconj q) ws x HD B). apply all_of_len in A. rewrite map_length in A. congruence.
Qed.

(** The two data sets after the same rotation of the frame: stored modes, derivatives of the shear *)
Definition turned_data (q : quat) (a a' : adata) : Prop := let b := ad_data a in let b' := ad_data a' in bd_u b' = bd_u b /\ bd_hi b' = bd_hi b /\
  forall f i, (f < 6)%nat -> (i < length (bd_u b))%nat -> turned q (spin_of f) (bd_hi b) (ms_at (mts_of a f) i) (bd_hi b) (ms_at (mts_of a' f) i).
Lemma transform_turned : forall spline map2salm a k q, let b := ad_data a in
  let w := dflt (2 * bd_hi b + 1)%Z (k_working_ell_max k) in
  passes spline -> data_ok b -> increasing (bd_u b) -> (2 <= length (bd_u b))%nat -> rotation_only k q 0 -> dflt (bd_hi b) (k_output_ell_max k) = bd_hi b ->
  (bd_hi b <= w)%Z -> (forall f, (f < 6)%nat -> exact map2salm (spin_of f) (2 * w + 1) (2 * w + 1)) ->
  exists a', ad_transform spline map2salm a k = Ok a' /\ turned_data q a a'.
Proof.
  intros spline map2salm [b tr] k q b0. cbn [ad_data] in b0. subst b0. intros w Hs Hb Hi H2 Hk Eo Ho HX. assert (H0 := proj1 Hb).
  destruct (C69_rotation spline Hs map2salm b k q 0 Hb Hi H2 Hk Ho ltac:(rewrite Eo; fold w; lia) HX) as (b' & Et & Eu & Eh & Hb' & _ & _ & Em). rewrite Eo in Eh, Em.
  assert (Eu' : bd_u b' = bd_u b). { rewrite Eu. transitivity (map (fun t : R => t) (bd_u b)); [apply map_ext; intros; lra|apply map_id]. }
  exists (mkad b' Sum). split; [unfold ad_transform; cbn [ad_data]; rewrite Et; reflexivity|]. split; [exact Eu'|]. split; [exact Eh|]. cbn [ad_data]. set (a := mkad b tr). set (a' := mkad b' Sum).
  intros f i Hf Hi'. split; [apply (of_upto a)|]. split; [rewrite <- Eh; apply (of_upto a')|]. intros l m Hl Hm. rewrite of_bmode. cbn [ad_data a']. rewrite Eh.
  assert (TZ : (bd_hi b < l)%Z -> turn wigner_D q (ms_at (mts_of a f) i) l m = C0) by (intros B; apply Charges_Proofs.turn_zero; intros c _; apply (of_upto a); cbn [ad_data a]; lia).
  destruct (Z.leb_spec 0 l); [|lia]. destruct (Z.leb_spec (- l) m), (Z.leb_spec m l); try lia. destruct (Z.leb_spec l (bd_hi b)) as [B|B]; cbn [andb]; [|symmetry; apply TZ; lia].
  rewrite Em by (try assumption; split; lia). destruct (Z.leb_spec (Z.abs (spin_of f)) l); [|lia]. cbn [andb]. destruct (Z.leb_spec l (bd_hi b)) as [B'|B']; [|lia]. cbn [andb].
  apply turn_ext. intros c Hc. rewrite of_bmode. cbn [ad_data a]. destruct (Z.leb_spec 0 l), (Z.leb_spec l (bd_hi b)), (Z.leb_spec (- l) c), (Z.leb_spec c l); try lia. reflexivity.
Qed.
Section Turned.
Variable dspl : nat -> list R -> list C -> R -> C.
Hypothesis HD : linear_spline dspl.
Variables (q : quat) (a a' : adata).
Notation b := (ad_data a).
Notation b' := (ad_data a').
Hypothesis Hq : qnorm2 q = 1.
Hypothesis T : turned_data q a a'.
Hypothesis Hi : increasing (bd_u b).
Hypothesis H2 : (2 <= length (bd_u b))%nat.
Hypothesis H1 : (1 <= bd_hi b)%Z.
Notation d := (der dspl 1 (mts_bar (sigma a))).
Notation d' := (der dspl 1 (mts_bar (sigma a'))).
Lemma dot_mine : sigma_bar_dot dspl a = Ok d.
Proof. apply der_ok; [lia|]. unfold mts_bar, sigma, mts_of. cbn [ms_u]. unfold timesb. apply andb_true_iff. split; [apply Nat.leb_le; exact H2|apply increasingb_iff; exact Hi]. Qed.
Lemma dot_turned : sigma_bar_dot dspl a' = Ok d'.
Proof. apply der_ok; [lia|]. unfold mts_bar, sigma, mts_of. cbn [ms_u]. rewrite (proj1 T). unfold timesb. apply andb_true_iff. split; [apply Nat.leb_le; exact H2|apply increasingb_iff; exact Hi]. Qed.
Lemma rates_turned : forall i, (i < length (bd_u b))%nat -> turned q (-2) (bd_hi b) (ms_at d i) (bd_hi b) (ms_at d' i).
Proof.
  intros i Hi'. destruct T as (Eu & Eh & TF). assert (TB : forall j, (j < length (bd_u b))%nat -> turned q (-2) (bd_hi b) (fbar 2 (ms_at (sigma a) j)) (bd_hi b) (fbar 2 (ms_at (sigma a') j))).
  { intros j Hj. apply (turned_bar q 2); [lia|lia|]. apply (TF 5%nat j); [lia|exact Hj]. }
  unfold der. cbn [ms_at mts_bar ms_u ms_s]. change (ms_u (sigma a)) with (bd_u b). change (ms_u (sigma a')) with (bd_u b'). change (ms_s (sigma a)) with 2%Z. change (ms_s (sigma a')) with 2%Z. rewrite Eu. split; [|split].
  - intros l m O. transitivity (dspl 1%nat (bd_u b) (map (fun _ => C0) (seq 0 (length (bd_u b)))) (nth i (bd_u b) 0)); [apply sp_ext; intros j Hj; apply (TB j Hj); exact O|apply sp_zero; assumption].
  - intros l m O. transitivity (dspl 1%nat (bd_u b) (map (fun _ => C0) (seq 0 (length (bd_u b)))) (nth i (bd_u b) 0)); [apply sp_ext; intros j Hj; apply (TB j Hj); exact O|apply sp_zero; assumption].
  - intros l m Hl Hm. transitivity (dspl 1%nat (bd_u b) (map (fun j => turn wigner_D q (fbar 2 (ms_at (sigma a) j)) l m) (seq 0 (length (bd_u b)))) (nth i (bd_u b) 0)); [apply sp_ext; intros j Hj; apply (TB j Hj); [exact Hl|exact Hm]|].
    apply (sp_turn dspl HD 1 (bd_u b) (nth i (bd_u b) 0) Hi H2 q (fun j => fbar 2 (ms_at (sigma a) j)) l m).
Qed.
(** The supermomentum is a function on the sphere. *)
Lemma supermomentum_turned : forall i, (i < length (bd_u b))%nat ->
  turned q 0 (bd_hi b) (supermomentum_aspect product_table (bd_hi b) (bondi_of a i) (ms_at d i) Moreschi) (bd_hi b) (supermomentum_aspect product_table (bd_hi b') (bondi_of a' i) (ms_at d' i) Moreschi).
Proof.
  intros i Hi'. destruct T as (Eu & Eh & TF). rewrite Eh. assert (T2 := TF 2%nat i ltac:(lia) Hi'). assert (Ts := TF 5%nat i ltac:(lia) Hi'). assert (Td := rates_turned i Hi').
  change (spin_of 2) with 0%Z in T2. change (spin_of 5) with 2%Z in Ts. unfold supermomentum_aspect. apply turned_add.
  - set (L := bd_hi b) in *. assert (U : forall f, upto L f -> forall l m, truncate_ell L f l m = f l m) by (intros f Hf l m; unfold truncate_ell; destruct (Z.leb_spec l L); [reflexivity|symmetry; apply Hf; lia]).
    assert (X := turned_cut q 0 _ _ _ _ L (turned_mass q L L (bondi_of a i) (bondi_of a' i) _ _ Hq H1 H1 T2 Ts Td)).
    assert (E : forall x e l m, upto L (b_psi2 x) -> truncate_ell L (full_mass L x e) l m = fadd (b_psi2 x) (multiply product_table L L 2 (-2) (b_sigma x) e) l m).
    { intros x e l m Hx. unfold fadd. rewrite <- (U _ Hx). unfold truncate_ell, full_mass, fadd. destruct (Z.leb_spec l L); [rewrite multiply_times by assumption; reflexivity|]. unfold multiply. destruct (Z.leb_spec l L); [lia|]. ring. }
    apply (turned_ext q 0 L _ _ L _ _ (fun l m => E (bondi_of a i) (ms_at d i) l m (proj1 T2)) (fun l m => E (bondi_of a' i) (ms_at d' i) l m (proj1 (proj2 T2)))).
    destruct X as (A & B & D). split; [|split; [|exact D]]; intros l m O.
    + rewrite E by apply T2. unfold fadd. change (b_psi2 (bondi_of a i)) with (ms_at (mts_of a 2) i). rewrite (proj1 T2) by exact O. unfold multiply. destruct (Z.leb_spec l L) as [?|?]; [|cx]. change (C0 + times 2 L (-2) L (b_sigma (bondi_of a i)) (ms_at d i) l m = C0)%C. rewrite (times_upto 2 L (-2) L) by lia. cx.
    + rewrite E by apply T2. unfold fadd. change (b_psi2 (bondi_of a' i)) with (ms_at (mts_of a' 2) i). rewrite (proj1 (proj2 T2)) by exact O. unfold multiply. destruct (Z.leb_spec l L) as [?|?]; [|cx]. change (C0 + times 2 L (-2) L (b_sigma (bondi_of a' i)) (ms_at d' i) l m = C0)%C. rewrite (times_upto 2 L (-2) L) by lia. cx.
  - apply (turned_eth q (-1)), (turned_eth q (-2)), (turned_bar q 2); [lia|lia|exact Ts].
Qed.
End Turned.

Lemma nearest_exists : forall t, t <> [] -> exists i, nearest_zero t i.
Proof.
  intros t N. assert (E : exists j, Motion_Model.argmin (map Rabs t) = Ok j) by (destruct t; [contradiction|eexists; reflexivity]). destruct E as [j E]. exists j.
  apply Motion_Proofs.argmin_spec in E as (A & B & D). rewrite map_length in A, B.
  assert (M : forall k, nth k (map Rabs t) 0 = Rabs (nth k t 0)) by (intros k; rewrite <- Rabs_R0 at 1; apply map_nth).
  split; [exact A|]. split; intros k Hk; [specialize (B k Hk)|specialize (D k Hk)]; rewrite !M in *; assumption.
Qed.
Theorem C87_rotation : forall spline map2salm dspl integral undefined a k q, let b := ad_data a in let K := product_table in
  let w := dflt (2 * bd_hi b + 1)%Z (k_working_ell_max k) in
  passes spline -> linear_spline dspl -> data_ok b -> increasing (bd_u b) -> (2 <= length (bd_u b))%nat -> (1 <= bd_hi b)%Z -> rotation_only k q 0 -> dflt (bd_hi b) (k_output_ell_max k) = bd_hi b ->
  (bd_hi b <= w)%Z -> (forall f, (f < 6)%nat -> exact map2salm (spin_of f) (2 * w + 1) (2 * w + 1)) ->
  exists a', ad_transform spline map2salm a k = Ok a' /\
    error_com K dspl integral a' = error_com K dspl integral a /\ error_psi K dspl a' None = error_psi K dspl a None /\
    (forall P P', turned_series q P P' -> ms_hi P = bd_hi b -> error_psi K dspl a' (Some P') = error_psi K dspl a (Some P)) /\
    (forall h h', turned_series q h h' -> error_velocity dspl integral undefined a' h' = error_velocity dspl integral undefined a h) /\
    exists S, ad_dimensionless_spin K dspl a = Ok S /\
      error_spin K dspl integral undefined a' = average_of integral undefined (map (fun c => option_map (fun n => norm3 (v3add n (v3scale (-1) (rotv q (0, 0, 1))))) (direction c)) S) (bd_u b).
Proof.
  intros spline map2salm dspl integral undefined a k q b K w Hs HD Hb Hi H2 H1 Hk Eo Ho HX. assert (Hq : qnorm2 q = 1) by exact (rotation_unit _ _ _ Hk). assert (Hc : qnorm2 (qconj q) = 1) by (rewrite qnorm2_conj; exact Hq).
  destruct (transform_turned spline map2salm a k q Hs Hb Hi H2 Hk Eo Ho HX) as (a' & Et & T). exists a'. split; [exact Et|].
  destruct (C78_rotation spline map2salm dspl a k q 0 Hs HD Hb Hi H2 H1 Hk ltac:(fold b w; rewrite Eo; lia) HX) as (a0 & P & M & J & G & N & S & Et' & _ & _ & LP & EP & EP' & _ & _ & _ & _ & EG & EG' & _ & _ & ES & ES' & _).
  rewrite Et in Et'. injection Et' as <-. change product_table with K in EP, EP', EG, EG', ES, ES'. assert (Eu := proj1 T). assert (Eh := proj1 (proj2 T)). fold b in Eu, Eh.
  assert (Dm := dot_mine dspl a Hi H2). assert (Dt := dot_turned dspl q a a' T Hi H2).
  assert (SM : forall i, (i < length (bd_u b))%nat -> exists Q Q', ad_supermomentum K dspl a "Moreschi" false = Ok Q /\ ad_supermomentum K dspl a' "Moreschi" false = Ok Q' /\
    turned q 0 (bd_hi b) (nth i Q (fun _ _ => C0)) (bd_hi b) (nth i Q' (fun _ _ => C0))).
  { intros i Hi'. unfold ad_supermomentum. rewrite Dm, Dt. cbn [rbind].
    assert (EA : forall x e n, each (fun j => supermomentum K (bd_hi (ad_data x)) (bondi_of x j) (ms_at e j) "Moreschi" false) (seq 0 n) = Ok (map (fun j => supermomentum_aspect K (bd_hi (ad_data x)) (bondi_of x j) (ms_at e j) Moreschi) (seq 0 n))) by (intros x e n; apply each_ok; intros j _; reflexivity).
    rewrite !EA. eexists _, _. split; [reflexivity|]. split; [reflexivity|]. fold b. rewrite Eu.
    assert (NT : forall F : nat -> modes, nth i (map F (seq 0 (length (bd_u b)))) (fun _ _ => C0) = F i).
    { intros F. rewrite (nth_indep _ _ (F 0%nat)) by (rewrite map_length, seq_length; exact Hi'). rewrite map_nth, seq_nth by exact Hi'. reflexivity. }
    rewrite !NT. exact (supermomentum_turned dspl HD q a a' Hq T Hi H2 H1 i Hi'). }
  destruct (nearest_exists (bd_u b)) as [i Ni]; [intros Q; rewrite Q in H2; cbn in H2; lia|]. destruct (SM i (proj1 Ni)) as (Q & Q' & EQ & EQ' & TQ).
  assert (Ni' : nearest_zero (bd_u (ad_data a')) i) by (rewrite Eu; exact Ni).
  destruct (C87_psi K dspl a Q i EQ Ni) as [PA PB]. destruct (C87_psi K dspl a' Q' i EQ' Ni') as [PA' PB'].
  split; [|split; [|split; [|split]]].
  - unfold error_com, com_position. rewrite EG, EG', EP, EP'. cbn [rbind]. rewrite Eu. fold b. f_equal. f_equal. rewrite map_map.
    assert (LG : length G = length P). { unfold ad_CoM_charge in EG. injection EG as <-. unfold at_times. rewrite map_length, seq_length. symmetry. exact LP. }
    clear - LG Hc. revert P LG. induction G as [|g G IH]; intros [|p P] LG; cbn in *; try lia; [reflexivity|]. f_equal; [|apply (IH P); lia]. rewrite !scalev_v3, <- rotv_scale, rotv_norm by exact Hc. reflexivity.
  - rewrite PA, PA', Eh. fold b. f_equal. f_equal. rewrite <- (power_turn q (bd_hi b) (nth i Q _) Hq). apply power_ext. intros l m Hl Hm. apply TQ; cbn; lia.
  - intros X X' (Xu & Xh & XE) HX'. destruct (ms_u X) as [|u0 us] eqn:Ex.
    + unfold error_psi. rewrite EQ, EQ'. cbn [rbind]. rewrite (argmin_nearest _ _ Ni'). fold b. rewrite (argmin_nearest _ _ Ni). cbn [rbind]. rewrite Ex, Xu. reflexivity.
    + destruct (nearest_exists (ms_u X)) as [j Nj]; [rewrite Ex; discriminate|]. rewrite (PB X j Nj) by exact HX'. rewrite (PB' X' j) by (try (rewrite Xu, <- Ex; exact Nj); rewrite Xh, HX'; symmetry; exact Eh).
      rewrite Eh. fold b. f_equal. f_equal. symmetry. rewrite <- (power_turn q (bd_hi b) _ Hq). symmetry. apply power_ext. intros l m Hl Hm. rewrite (proj2 (proj2 TQ)) by (cbn; lia). rewrite XE by (try (rewrite <- Ex; apply Nj); lia).
      unfold turn. transitivity (csum (fun k0 => nth i Q (fun _ _ => C0) l k0 * wigner_D q l k0 m + - C1 * (ms_at X j l k0 * wigner_D q l k0 m))%C (Modal_Model.ms_of l)); [rewrite csum_add, csum_scale; ring|apply csum_ext; intros; ring].
  - intros h h' Th. unfold error_velocity. assert (TT := target_turned dspl q h h' HD Hq Th). destruct (target_direction dspl h) as [s|e], (target_direction dspl h') as [s'|e']; try contradiction; [|cbn [rbind]; rewrite TT; reflexivity]. cbn [rbind].
    unfold news. rewrite Dm, Dt. cbn [rbind]. set (n := mts_scale 2 (der dspl 1 (mts_bar (sigma a)))). set (n' := mts_scale 2 (der dspl 1 (mts_bar (sigma a')))).
    assert (Tn : turned_series q n n').
    { split; [exact Eu|]. split; [exact Eh|]. intros j l m Hj Hl Hm. assert (X := turned_scale q (-2) 2 _ _ _ _ (rates_turned dspl HD q a a' T Hi H2 H1 j Hj)). apply X; cbn; lia. }
    rewrite (C87_angular_velocity dspl q n n' HD Hq Tn). destruct (angular_velocity dspl n) as [ws|e]; cbn [rbind]; [|reflexivity]. rewrite Eu. fold b. f_equal.
    clear - TT Hc. revert ws. induction (bd_u b) as [|u us IH]; intros [|v vs]; cbn [map combine]; try reflexivity. rewrite IH. f_equal. cbn [fst snd]. rewrite direction_turned by exact Hc. destruct (direction v) as [v'|]; cbn [option_map]; [|reflexivity].
    f_equal. rewrite TT, <- rotv_scale, <- rotv_add, rotv_norm by exact Hc. reflexivity.
  - exists S. split; [exact ES|]. unfold error_spin. rewrite ES'. cbn [rbind]. rewrite Eu, map_map. fold b. f_equal. apply map_ext. intros c. rewrite direction_turned by exact Hc. destruct (direction c) as [c'|]; cbn [option_map]; [|reflexivity]. f_equal. unfold from_z.
    rewrite <- (rotv_norm (qconj q) (v3add c' (v3scale (-1) (rotv q (0, 0, 1))))) by exact Hc. rewrite rotv_add, rotv_scale, forth_again by exact Hq. f_equal. unfold v3scale. f_equal. apply (f_equal2 pair); [apply (f_equal2 pair)|]; ring.
Qed.

(** ** Comparing with a target strain *)
(** If the directions of the angular velocities agree at all times, the error is the average of zeros. *)
Theorem C87_velocity_same : forall dspl integral undefined a h n m v w, let u := bd_u (ad_data a) in (forall ys i, length ys = length u -> (i < length u)%nat -> dspl 0%nat u ys (nth i u 0) = nth i ys C0) ->
  ms_u h = bd_u (ad_data a) ->
  target_news dspl h = Ok n -> angular_velocity dspl n = Ok v -> news dspl a = Ok m -> angular_velocity dspl m = Ok w ->
  (forall i, (i < length (bd_u (ad_data a)))%nat -> exists d, direction (nth i v (0, 0, 0)) = Some d /\ direction (nth i w (0, 0, 0)) = Some d) ->
  error_velocity dspl integral undefined a h = Ok (average integral (map (fun _ => 0) (bd_u (ad_data a))) (bd_u (ad_data a))).
Proof.
  intros dspl integral undefined a h n m v w u HN Hu En Ev Em Ew HD. fold u in HD, Hu |- *.
  assert (AL : forall f x l, angular_velocity dspl f = Ok l -> ms_u f = x -> length l = length x).
  { intros f x l E <-. unfold angular_velocity in E. destruct (mts_dot dspl f); [|discriminate]. cbn [rbind] in E. apply each_len in E. rewrite seq_length in E. exact E. }
  assert (MU : forall f g, mts_dot dspl f = Ok g -> ms_u g = ms_u f).
  { intros f g E. unfold mts_dot in E. destruct (timesb (ms_u f)) eqn:B; [rewrite der_ok in E by (try lia; exact B); injection E as <-; reflexivity|rewrite der_err in E by (try lia; exact B); discriminate]. }
  assert (Lv : length v = length u).
  { apply (AL n); [exact Ev|]. unfold target_news in En. destruct (mts_dot dspl h) as [g|] eqn:Eg; [|discriminate]. cbn [rbind] in En. apply MU in En, Eg. rewrite En, Eg. exact Hu. }
  assert (Lw : length w = length u).
  { apply (AL m); [exact Ew|]. unfold news in Em. destruct (sigma_bar_dot dspl a) as [g|] eqn:Eg; [|discriminate]. cbn [rbind] in Em. injection Em as <-. apply MU in Eg. exact Eg. }
  assert (AO : forall l : list vec3, (forall i, (i < length l)%nat -> direction (nth i l (0, 0, 0)) <> None) -> exists r, all_of (map direction l) = Some r /\ forall i, (i < length l)%nat -> direction (nth i l (0, 0, 0)) = Some (nth i r (0, 0, 0))).
  { induction l as [|x l IH]; intros H; [exists []; split; [reflexivity|intros i Hi; cbn in Hi; lia]|]. destruct (IH (fun i Hi => H (Datatypes.S i) ltac:(cbn; lia))) as (r & E & Er). assert (Hx := H 0%nat ltac:(cbn; lia)). cbn [nth] in Hx.
    destruct (direction x) as [d|] eqn:Ex; [|contradiction]. exists (d :: r). cbn [map all_of]. rewrite Ex, E. split; [reflexivity|]. intros [|i] Hi; cbn [nth]; [exact Ex|apply Er; cbn in Hi; lia]. }
  destruct (AO v) as (r & Er & Ar). { intros i Hi Q. destruct (HD i) as (d & Hd & _); [lia|]. rewrite Q in Hd. discriminate. }
  unfold error_velocity, target_direction. rewrite En. cbn [rbind]. rewrite Ev. cbn [rbind]. rewrite Er. cbn [rbind]. rewrite Em. cbn [rbind]. rewrite Ew. cbn [rbind]. fold u. rewrite Hu.
  assert (Lr : length r = length u) by (apply all_of_len in Er; rewrite map_length in Er; transitivity (length v); assumption).
  assert (CS : forall c i, (i < length u)%nat -> component_spline dspl u r c (nth i u 0) = c (nth i r (0, 0, 0))).
  { intros c i Hi. unfold component_spline. rewrite HN; [|rewrite map_length; exact Lr|exact Hi]. rewrite (nth_indep _ C0 (RtoC (c (0, 0, 0)))) by (rewrite map_length; lia). rewrite (map_nth (fun w => RtoC (c w))). reflexivity. }
  match goal with |- average_of _ _ (map ?F (combine w u)) u = _ => assert (E : map F (combine w u) = map (fun _ => Some 0) u) end.
  { apply nth_ext with (d := Some 0) (d' := Some 0); [rewrite !map_length, combine_length; lia|]. intros i Hi. rewrite map_length, combine_length in Hi.
    match goal with |- nth i (map ?F _) _ = _ => rewrite (nth_indep (map F (combine w u)) (Some 0) (F ((0, 0, 0), 0))) by (rewrite map_length, combine_length; lia); rewrite (map_nth F) end.
    match goal with |- context [nth i (combine w u) ?d] => assert (EC : nth i (combine w u) d = (nth i w (0, 0, 0), nth i u 0)) by (apply List.combine_nth; exact Lw); rewrite EC end. cbn [fst snd]. destruct (HD i ltac:(lia)) as (d & Hd & Hd'). rewrite (Ar i) in Hd by lia. assert (Ed : nth i r (0, 0, 0) = d) by congruence. rewrite Hd'. cbn [option_map].
    transitivity (Some 0); [|symmetry; exact (map_nth (fun _ : R => Some 0) u 0 i)]. f_equal. rewrite !CS by lia. rewrite Ed.
    destruct d as [[x y] z]. cbn [fst snd]. unfold v3scale, v3add. transitivity (norm3 (0, 0, 0)); [f_equal; apply (f_equal2 pair); [apply (f_equal2 pair)|]; ring|]. unfold norm3. transitivity (sqrt 0); [f_equal; ring|apply sqrt_0]. }
  rewrite E. unfold average_of. assert (AZ : all_of (map (fun _ : R => Some 0) u) = Some (map (fun _ => 0) u)) by (clear; induction u as [|x u IH]; [reflexivity|]; cbn [map all_of]; rewrite IH; reflexivity). rewrite AZ. reflexivity.
Qed.
(** The target's angular velocity is that of the second derivative of its strain, not that of its news.  For a strain quadratic in time the second derivative is constant, *)
Lemma cubic_rate : forall dspl xs c0 c1 c2 c3 x, derives dspl -> increasing xs -> (4 <= length xs)%nat -> dspl 1%nat xs (map (cubic c0 c1 c2 c3) xs) x = cubic c1 (Cscale 2 c2) (Cscale 3 c3) C0 x.
Proof.
  intros dspl xs c0 c1 c2 c3 x HD HI H4. destruct (HD xs c0 c1 c2 c3 HI H4 x) as (_ & H & _). apply (hd_unique _ _ _ _ H). unfold cubic. eapply hd_eq; [hd_solve|]. cx.
Qed.
Definition cubic_series (f : mts) (c : nat -> modes) : Prop := forall i l m, (i < length (ms_u f))%nat -> ms_at f i l m = cubic (c 0%nat l m) (c 1%nat l m) (c 2%nat l m) (c 3%nat l m) (nth i (ms_u f) 0).
Lemma der_cubic : forall dspl f c, derives dspl -> increasing (ms_u f) -> (4 <= length (ms_u f))%nat -> cubic_series f c ->
  mts_dot dspl f = Ok (der dspl 1 f) /\ cubic_series (der dspl 1 f) (fun k l m => Cscale (INR k + 1) (if (k <? 3)%nat then c (Datatypes.S k) l m else C0)).
Proof.
  intros dspl f c HD HI H4 H. split.
  - apply der_ok; [lia|]. unfold timesb. apply andb_true_iff. split; [apply Nat.leb_le; lia|apply increasingb_iff; exact HI].
  - intros i l m Hi. unfold der in *. cbn [ms_at ms_u] in *.
    assert (E : map (fun j => ms_at f j l m) (seq 0 (length (ms_u f))) = map (cubic (c 0%nat l m) (c 1%nat l m) (c 2%nat l m) (c 3%nat l m)) (ms_u f)).
    { transitivity (map (fun j => cubic (c 0%nat l m) (c 1%nat l m) (c 2%nat l m) (c 3%nat l m) (nth j (ms_u f) 0)) (seq 0 (length (ms_u f)))); [apply map_ext_in; intros j I; apply in_seq in I; apply H; lia|].
      symmetry. apply map_vals. reflexivity. }
    rewrite E, cubic_rate by assumption. cbn [Nat.ltb Nat.leb INR]. unfold cubic. cx.
Qed.
(** so that it has no angular velocity, or one of zero, and no direction. *)
Theorem C87_target_quadratic : forall dspl h c, derives dspl -> increasing (ms_u h) -> (4 <= length (ms_u h))%nat -> (forall l m, c 3%nat l m = C0) -> cubic_series h c ->
  target_direction dspl h = Err ValueError.
Proof.
  intros dspl h c HD HI H4 H3 H. destruct (der_cubic dspl h c HD HI H4 H) as [E1 S1]. set (h1 := der dspl 1 h) in *.
  destruct (der_cubic dspl h1 _ HD HI H4 S1) as [E2 S2]. set (h2 := der dspl 1 h1) in *. destruct (der_cubic dspl h2 _ HD HI H4 S2) as [E3 S3]. set (h3 := der dspl 1 h2) in *.
  unfold target_direction, target_news. rewrite E1. cbn [rbind]. rewrite E2. cbn [rbind]. unfold angular_velocity. rewrite E3. cbn [rbind]. change (length (ms_u h2)) with (length (ms_u h)).
  destruct (length (ms_u h)) as [|k] eqn:EL; [lia|]. cbn [seq each].
  assert (Z3 : forall l m, ms_at h3 0 l m = C0). { intros l m. rewrite S3 by (change (length (ms_u h3)) with (length (ms_u h)); lia). cbn [Nat.ltb Nat.leb]. rewrite H3. unfold cubic. cx. }
  assert (M3 : Modal_Proofs.has_modes 2 (ms_hi h2) (row_of h3 0) (fun _ _ => C0)) by (apply (has_modes_ext _ _ _ _ _ (row_modes h3 0)); intros; apply Z3).
  unfold angular_velocity_at at 1. destruct (velocity 2 (ms_hi h2) (row_of h2 0) (row_of h3 0)) as [w|e] eqn:V; cbn [rbind].
  - assert (W : w = (0, 0, 0)).
    { assert (NA := velocity_axis 2 (ms_hi h2) ltac:(lia) _ _ _ _ w (row_modes h2 0) M3 V). destruct (C86_velocity 2 (ms_hi h2) ltac:(lia) _ _ _ _ (row_modes h2 0) M3 NA) as (w' & V' & L). rewrite V in V'. injection V' as <-.
      destruct (vec3_dec (0, 0, 0) w) as [Q|Q]; [symmetry; exact Q|exfalso]. specialize (L _ Q).
      assert (Q0 : change 2 (ms_hi h2) (ms_at h2 0) (fun _ _ => C0) (0, 0, 0) = 0) by (apply change_axis; intros l m _ _; unfold vcomb; cbn [along]; cx).
      assert (Q1 : 0 <= change 2 (ms_hi h2) (ms_at h2 0) (fun _ _ => C0) w).
      { unfold Ops_Proofs.residual, rtotal. assert (NN : forall (F : Z -> R) ls, (forall l, 0 <= F l) -> 0 <= rsum F ls) by (intros F ls P; induction ls as [|x ks IH]; cbn; [lra|]; specialize (P x); lra).
        apply NN. intros l. apply NN. intros m. apply norm2_pos. }
      lra. }
    assert (EE : forall l, (exists r, each (angular_velocity_at h2 h3) l = Ok r) \/ each (angular_velocity_at h2 h3) l = Err ValueError).
    { induction l as [|x l IH]; [left; eexists; reflexivity|]. cbn [each]. destruct (angular_velocity_at h2 h3 x) as [y|e] eqn:Y; cbn [rbind].
      - destruct IH as [[r Er]|Er]; rewrite Er; cbn [rbind]; [left; eexists; reflexivity|right; reflexivity].
      - right. rewrite (velocity_error 2 (ms_hi h2) ltac:(lia) _ _ _ _ _ (row_modes h2 x) (row_modes h3 x) Y). reflexivity. }
    destruct (EE (seq 1 k)) as [[r Er]|Er]; rewrite Er; cbn [rbind]; [|reflexivity]. cbn [map all_of]. rewrite W. unfold direction at 1.
    destruct (Req_EM_T (norm3 (0, 0, 0)) 0) as [_|N]; [reflexivity|]. exfalso. apply N. unfold norm3. transitivity (sqrt 0); [f_equal; ring|apply sqrt_0].
  - rewrite (velocity_error 2 (ms_hi h2) ltac:(lia) _ _ _ _ _ (row_modes h2 0) M3 V). reflexivity.
Qed.

(** Data whose news has an angular velocity along the z axis at all times: a strain with the mode 2 (t + i t^2 / 2) of degree 2 and order 2 *)
Definition ex_wave (x y : R) : modes := fun l m => if ((l =? 2) && (m =? 2))%Z then (mkC x y) else C0.
Definition ex_growing_at (t : R) : bondi := mkbondi zmodes zmodes (fopp (one_mode 0 0)) zmodes zmodes (fun l m => if ((l =? 2) && (m =? -2))%Z then mkC t (- (t * t / 2)) else C0).
Definition ex_growing : adata := mkad (sampled_data 2 [0; 1; 2; 3] ex_growing_at InertialFrame) Sum.
Lemma ex_wave_axis : forall x y, x <> 0 -> no_axis 2 2 (ex_wave x y).
Proof.
  intros x y Hx [[u v] w] H. assert (A := H 2%Z 2%Z ltac:(lia) ltac:(lia)). assert (B := H 2%Z 1%Z ltac:(lia) ltac:(lia)).
  unfold vcomb in A, B. cbn [along gen] in A, B. unfold raising, lowering in A, B. cbn [Z.add Z.sub Z.opp Z.pos_sub Pos.add Pos.succ Pos.pred_double] in A, B.
  unfold ex_wave in A, B. cbn [Z.eqb andb Pos.eqb] in A, B.
  assert (C21 : 0 < cof 2 1). { unfold cof. apply sqrt_lt_R0. apply IZR_lt. reflexivity. }
  apply (f_equal (fun c => (re c, im c))) in A, B. cbn in A, B. injection A as A1 A2. injection B as B1 B2.
  generalize dependent (cof 2 1). intros k. intros.
  assert (W : w * x = 0) by lra. apply Rmult_integral in W. destruct W as [W|W]; [|contradiction].
  set (p := k * (u * x - v * y)). set (q := k * (u * y + v * x)).
  assert (P : p = 0) by (unfold p; lra). assert (Q : q = 0) by (unfold q; lra).
  apply Rmult_integral in P, Q. destruct P as [?|P]; [lra|]. destruct Q as [?|Q]; [lra|].
  assert (S1 : u * (x * x + y * y) = 0) by (transitivity (x * (u * x - v * y) + y * (u * y + v * x)); [ring|rewrite P, Q; ring]). assert (S2 : v * (x * x + y * y) = 0) by (transitivity (x * (u * y + v * x) - y * (u * x - v * y)); [ring|rewrite P, Q; ring]). assert (N : 0 < x * x + y * y) by nra.
  apply Rmult_integral in S1, S2. destruct S1 as [?|?]; [|lra]. destruct S2 as [?|?]; [|lra]. subst. reflexivity.
Qed.
Lemma ex_wave_velocity : forall x y x' y' d d', x <> 0 -> Modal_Proofs.has_modes 2 2 d (ex_wave x y) -> Modal_Proofs.has_modes 2 2 d' (ex_wave x' y') ->
  velocity 2 2 d d' = Ok (0, 0, - (x * y' - y * x') / (2 * (x * x + y * y))).
Proof.
  intros x y x' y' d d' Hx H H'. apply (velocity_least 2 2 ltac:(lia) d d' _ _ _ H H' (ex_wave_axis x y Hx)).
  assert (V : forall u v z, change 2 2 (ex_wave x y) (ex_wave x' y') (u, v, z) = x' * x' + y' * y' + 4 * (z * (x * y' - y * x')) + 4 * (z * (z * (x * x + y * y))) + (u * u + v * v) * ((cof 2 1) * (cof 2 1) / 4 * (x * x + y * y))).
  { intros u v z. unfold Ops_Proofs.residual, rtotal. change (zrange 2 (2 + 1)) with [2%Z]. cbn [rsum]. change (ms_of 2) with [(-2)%Z; (-1)%Z; 0%Z; 1%Z; 2%Z]. cbn [rsum]. unfold vcomb. cbn [along gen]. unfold raising, lowering.
    cbn [Z.add Z.sub Z.opp Z.pos_sub Pos.add Pos.succ Pos.pred_double]. unfold ex_wave. cbn [Z.eqb andb Pos.eqb]. unfold norm2. cbn. field. }
  assert (P : 0 < x * x + y * y) by nra. set (s := x * x + y * y) in *. set (c := x * y' - y * x') in *. intros [[u v] z]. rewrite !V. set (z0 := - c / (2 * s)). assert (E : z0 * s = - c / 2) by (unfold z0; field; lra).
  assert (Q : 0 <= (u * u + v * v) * (cof 2 1 * cof 2 1 / 4 * s)) by (apply Rmult_le_pos; [nra|apply Rmult_le_pos; [apply Rmult_le_pos; [apply (Rle_0_sqr (cof 2 1))|lra]|lra]]).
  assert (D : 4 * (z * c) + 4 * (z * (z * s)) - (4 * (z0 * c) + 4 * (z0 * (z0 * s))) = 4 * s * ((z - z0) * (z - z0))) by (assert (Ec : c = - 2 * (z0 * s)) by lra; rewrite Ec; ring).
  assert (0 <= 4 * s * ((z - z0) * (z - z0))) by (apply Rmult_le_pos; [lra|apply (Rle_0_sqr (z - z0))]). lra.
Qed.
Lemma down : forall z, z < 0 -> direction (0, 0, z) = Some (0, 0, -1).
Proof.
  intros z Hz. assert (N : norm3 (0, 0, z) = - z). { unfold norm3. transitivity (sqrt (- z * - z)); [f_equal; ring|apply sqrt_square; lra]. }
  unfold direction. rewrite N. destruct (Req_EM_T (- z) 0); [lra|]. f_equal. unfold hat. rewrite N. unfold scalev. apply (f_equal2 pair); [apply (f_equal2 pair)|]; field; lra.
Qed.
Lemma ex_growing_sigma : forall i l m, (i < 4)%nat -> ms_at (sigma ex_growing) i l m = if ((l =? 2) && (m =? -2))%Z then mkC (nth i [0; 1; 2; 3] 0) (- (nth i [0; 1; 2; 3] 0 * nth i [0; 1; 2; 3] 0 / 2)) else C0.
Proof.
  intros i l m Hi. destruct (sampled_data_ok 2 [0; 1; 2; 3] ex_growing_at InertialFrame ltac:(lia)) as [_ S]. unfold sigma. rewrite of_bmode. change (bd_hi (ad_data ex_growing)) with 2%Z.
  destruct (_ && _)%bool eqn:B.
  - rewrite !andb_true_iff, !Z.leb_le in B. exact (S 5%nat i l m ltac:(lia) ltac:(cbn; lia) ltac:(split; cbn [sampled_data bd_hi]; lia)).
  - destruct (Z.eqb_spec l 2) as [->|]; [|reflexivity]. destruct (Z.eqb_spec m (-2)) as [->|]; [|reflexivity]. discriminate B.
Qed.
Lemma ex_growing_bar : cubic_series (mts_bar (sigma ex_growing)) (fun k => match k with 1%nat => ex_wave 1 0 | 2%nat => ex_wave 0 (/ 2) | _ => fun _ _ => C0 end).
Proof.
  intros i l m Hi. change (length (ms_u (mts_bar (sigma ex_growing)))) with 4%nat in Hi. change (ms_u (mts_bar (sigma ex_growing))) with [0; 1; 2; 3]. cbn [mts_bar ms_at]. change (ms_s (sigma ex_growing)) with 2%Z.
  unfold fbar. rewrite ex_growing_sigma by exact Hi. unfold ex_wave, cubic. generalize (nth i [0; 1; 2; 3] 0). intros t. destruct (Z.eqb_spec l 2) as [->|]; cbn [andb]; [|cx].
  destruct (Z.eqb_spec m 2) as [->|N]; [cbn [Z.opp Z.eqb Pos.eqb]; change (sgn (2 + 2)) with 1; apply C_eq; cbn; field|]. destruct (Z.eqb_spec (- m) (-2)); [lia|]. cx.
Qed.

Lemma scale_series : forall k f c, cubic_series f c -> cubic_series (mts_scale k f) (fun n l m => Cscale k (c n l m)).
Proof. intros k f c H i l m Hi. cbn [mts_scale ms_at ms_u] in *. unfold fscale. rewrite H by exact Hi. unfold cubic. cx. Qed.
(** Not every data set has the error zero when it is compared with its own strain: here the comparison fails, although the angular velocity of its news has a direction at all times. *)
Theorem C87_target_refuted : forall dspl integral undefined, derives dspl -> exists a n ws, data_ok (ad_data a) /\ increasing (bd_u (ad_data a)) /\ (4 <= length (bd_u (ad_data a)))%nat /\
  news dspl a = Ok n /\ angular_velocity dspl n = Ok ws /\ (forall w, In w ws -> exists d, direction w = Some d) /\
  rest_error product_table dspl integral undefined a None (Some (strain a)) = Err ValueError.
Proof.
  intros dspl integral undefined HD. exists ex_growing. destruct (sampled_data_ok 2 [0; 1; 2; 3] ex_growing_at InertialFrame ltac:(lia)) as [O1 _].
  assert (I : increasing (ms_u (mts_bar (sigma ex_growing)))) by exact ex_times. assert (L4 : (4 <= length (ms_u (mts_bar (sigma ex_growing))))%nat) by (cbn; lia).
  destruct (der_cubic dspl _ _ HD I L4 ex_growing_bar) as [E1 S1]. set (g := der dspl 1 (mts_bar (sigma ex_growing))) in *. set (n := mts_scale 2 g).
  assert (Sn := scale_series 2 g _ S1). fold n in Sn. destruct (der_cubic dspl n _ HD I L4 Sn) as [E2 S2]. set (n' := der dspl 1 n) in *.
  assert (V : forall i, In i (seq 0 4) -> exists w, angular_velocity_at n n' i = Ok w /\ exists d, direction w = Some d).
  { intros i Hi. apply in_seq in Hi. unfold angular_velocity_at. change (ms_hi n) with 2%Z. set (t := nth i [0; 1; 2; 3] 0).
    rewrite (ex_wave_velocity 2 (2 * t) 0 2 (row_of n i) (row_of n' i)); [|lra| |].
    - eexists. split; [reflexivity|]. eexists. apply down. assert (P : 0 < 2 * (2 * 2 + 2 * t * (2 * t))) by nra. unfold Rdiv. apply Ropp_lt_cancel. rewrite Ropp_0, Ropp_mult_distr_l, Ropp_involutive. apply Rmult_lt_0_compat; [nra|apply Rinv_0_lt_compat; exact P].
    - apply (has_modes_ext _ _ _ _ _ (row_modes n i)). intros l m _ _. rewrite Sn by (change (length (ms_u n)) with 4%nat; lia). change (nth i (ms_u n) 0) with t. cbn [Nat.ltb Nat.leb INR]. unfold ex_wave, cubic. destruct (_ && _)%bool; cx.
    - apply (has_modes_ext _ _ _ _ _ (row_modes n' i)). intros l m _ _. rewrite S2 by (change (length (ms_u n')) with 4%nat; lia). change (nth i (ms_u n') 0) with t. cbn [Nat.ltb Nat.leb INR]. unfold ex_wave, cubic. destruct (_ && _)%bool; apply C_eq; cbn; field. }
  destruct (each_exists _ _ _ _ _ V) as (ws & Ews & F). exists n, ws. split; [exact O1|]. split; [exact ex_times|]. split; [cbn; lia|].
  assert (En : news dspl ex_growing = Ok n) by (unfold news, sigma_bar_dot; rewrite E1; reflexivity). split; [exact En|].
  split; [unfold angular_velocity; rewrite E2; cbn [rbind]; change (length (ms_u n)) with 4%nat; exact Ews|]. split.
  - intros w Iw. clear - F Iw. induction F as [|x y xs ys H F IH]; [destruct Iw|]. destruct Iw as [<-|Iw]; [exact H|apply IH; exact Iw].
  - assert (Et : target_direction dspl (strain ex_growing) = Err ValueError).
    { apply (C87_target_quadratic dspl (strain ex_growing) _ HD I L4) with (2 := scale_series 2 _ _ ex_growing_bar). intros l m. cbn. apply C_eq; cbn; ring. }
    unfold rest_error, error_com, com_position, ad_CoM_charge, ad_four_momentum, sigma_bar_dot. rewrite E1. cbn [rbind]. unfold error_velocity. rewrite Et. reflexivity.
Qed.

(** ** Examples *)
(** Data with a mode of degree 2 in the supermomentum *)
Definition ex_bent : adata := mkad (sampled_data 2 [-1; 0; 1; 2] (fun _ => mkbondi zmodes zmodes (fun l m => if ((l =? 2) && (m =? 1))%Z then mkC 0 3 else (fopp (one_mode 0 0)) l m) zmodes zmodes zmodes) InertialFrame) Sum.
Example C87_case_psi : nearest_zero (bd_u (ad_data ex_bent)) 1 /\ error_psi product_table ex_dspl ex_bent None = Ok 3.
Proof.
  assert (N : nearest_zero (bd_u (ad_data ex_bent)) 1).
  { split; [cbn; lia|]. split; intros j Hj; (destruct j as [|[|[|[|j]]]]; cbn in Hj |- *; try lia; unfold Rabs; repeat destruct Rcase_abs; lra). }
  split; [exact N|]. assert (I : increasing (bd_u (ad_data ex_bent))) by (cbn; repeat (constructor; try lra)).
  set (B := fun _ : R => mkbondi zmodes zmodes (fun l m => if ((l =? 2) && (m =? 1))%Z then mkC 0 3 else (fopp (one_mode 0 0)) l m) zmodes zmodes zmodes).
  destruct (sampled_data_ok 2 [-1; 0; 1; 2] B InertialFrame ltac:(lia)) as [_ S].
  assert (Z5 : forall i l m, (i < 4)%nat -> ms_at (sigma ex_bent) i l m = C0).
  { intros i l m Hi. unfold sigma. rewrite of_bmode. destruct (_ && _)%bool eqn:Q; [|reflexivity]. rewrite !andb_true_iff, !Z.leb_le in Q. change (bd_hi (ad_data ex_bent)) with 2%Z in Q. exact (S 5%nat i l m ltac:(lia) ltac:(cbn; lia) ltac:(split; cbn [sampled_data bd_hi]; lia)). }
  assert (V2 : forall l m, (2 <= l <= 2)%Z -> (- l <= m <= l)%Z -> ms_at (psi2 ex_bent) 1 l m = if (m =? 1)%Z then mkC 0 3 else C0).
  { intros l m Hl Hm. assert (l = 2%Z) by lia. subst l. unfold psi2. rewrite of_bmode. change (bd_hi (ad_data ex_bent)) with 2%Z. rewrite (proj2 (Z.leb_le (- (2)) m)), (proj2 (Z.leb_le m 2)) by lia. cbn [Z.leb Z.compare Pos.compare Pos.compare_cont andb].
    transitivity (bfield (B 0) 2 2%Z m); [exact (S 2%nat 1%nat 2%Z m ltac:(lia) ltac:(cbn; lia) ltac:(split; cbn [sampled_data bd_hi]; lia))|]. cbn. destruct (m =? 1)%Z; [reflexivity|]. unfold fopp, one_mode. cbn. apply C_eq; cbn; ring. }
  set (d := der ex_dspl 1 (mts_bar (sigma ex_bent))).
  assert (EA : ad_supermomentum product_table ex_dspl ex_bent "Moreschi" false = Ok (map (fun j => supermomentum_aspect product_table 2 (bondi_of ex_bent j) (ms_at d j) Moreschi) (seq 0 4))).
  { unfold ad_supermomentum. rewrite (dot_mine ex_dspl ex_bent I ltac:(cbn; lia)). cbn [rbind]. apply each_ok. intros j _. reflexivity. }
  rewrite (proj1 (C87_psi product_table ex_dspl ex_bent _ 1 EA N)). f_equal. change (bd_hi (ad_data ex_bent)) with 2%Z. change (nth 1 (map (fun j => supermomentum_aspect product_table 2 (bondi_of ex_bent j) (ms_at d j) Moreschi) (seq 0 4)) (fun _ _ => C0)) with (supermomentum_aspect product_table 2 (bondi_of ex_bent 1) (ms_at d 1) Moreschi).
  rewrite (power_ext 2 _ (fun l m => if (m =? 1)%Z then mkC 0 3 else C0)).
  - transitivity (sqrt (3 * 3)); [f_equal; unfold power; change (zrange 2 (2 + 1)) with [2%Z]; cbn [rsum]; change (zrange (- (2)) (2 + 1)) with [(-2)%Z; (-1)%Z; 0%Z; 1%Z; 2%Z]; cbn [rsum Z.eqb Pos.eqb]; unfold norm2; cbn; ring|apply sqrt_square; lra].
  - intros l m Hl Hm. unfold supermomentum_aspect, fadd. change (b_psi2 (bondi_of ex_bent 1)) with (ms_at (psi2 ex_bent) 1). rewrite V2 by assumption. change (b_sigma (bondi_of ex_bent 1)) with (ms_at (sigma ex_bent) 1).
    assert (G : grid_multiply product_table 2 (ms_at (sigma ex_bent) 1) (ms_at d 1) 2 (-2) l m = C0).
    { unfold grid_multiply, multiply. destruct (l <=? 2)%Z; [|reflexivity]. apply csum_const0. intros p _. apply csum_const0. intros q _. rewrite Z5 by lia. destruct (_ =? _)%Z; [cx|reflexivity]. }
    assert (HE : eth_GHP (-1) (eth_GHP (-2) (fbar 2 (ms_at (sigma ex_bent) 1))) l m = C0).
    { unfold eth_GHP, fscale, eth, ladder, fbar. repeat match goal with |- context [if ?b then _ else _] => destruct b end; rewrite ?Z5 by lia; apply C_eq; cbn; ring. }
    rewrite G, HE. ring.
Qed.
(** Data compared with their own strain, with the mode t^2 / 2 + i t^3 / 6 of degree 2 and order 2: the first and the second derivative rotate in the same sense. *)
Definition ex_rising_at (t : R) : bondi := mkbondi zmodes zmodes (fopp (one_mode 0 0)) zmodes zmodes (fun l m => if ((l =? 2) && (m =? -2))%Z then mkC (t * t / 4) (- (t * t * t / 12)) else C0).
Definition ex_rising : adata := mkad (sampled_data 2 [1; 2; 3; 4] ex_rising_at InertialFrame) Sum.
Lemma ex_rising_bar : cubic_series (mts_bar (sigma ex_rising)) (fun k => match k with 2%nat => ex_wave (/ 4) 0 | 3%nat => ex_wave 0 (/ 12) | _ => fun _ _ => C0 end).
Proof.
  intros i l m Hi. change (length (ms_u (mts_bar (sigma ex_rising)))) with 4%nat in Hi. change (ms_u (mts_bar (sigma ex_rising))) with [1; 2; 3; 4]. cbn [mts_bar ms_at]. change (ms_s (sigma ex_rising)) with 2%Z.
  destruct (sampled_data_ok 2 [1; 2; 3; 4] ex_rising_at InertialFrame ltac:(lia)) as [_ S]. set (t := nth i [1; 2; 3; 4] 0).
  assert (E : forall l m, ms_at (sigma ex_rising) i l m = if ((l =? 2) && (m =? -2))%Z then mkC (t * t / 4) (- (t * t * t / 12)) else C0).
  { clear l m. intros l m. unfold sigma. rewrite of_bmode. change (bd_hi (ad_data ex_rising)) with 2%Z. destruct (_ && _)%bool eqn:B.
    - rewrite !andb_true_iff, !Z.leb_le in B. exact (S 5%nat i l m ltac:(lia) ltac:(cbn; lia) ltac:(split; cbn [sampled_data bd_hi]; lia)).
    - destruct (Z.eqb_spec l 2) as [->|]; [|reflexivity]. destruct (Z.eqb_spec m (-2)) as [->|]; [|reflexivity]. discriminate B. }
  unfold fbar. rewrite E. unfold ex_wave, cubic. clearbody t. destruct (Z.eqb_spec l 2) as [->|]; cbn [andb]; [|cx].
  destruct (Z.eqb_spec m 2) as [->|N]; [cbn [Z.opp Z.eqb Pos.eqb]; change (sgn (2 + 2)) with 1; apply C_eq; cbn; field|]. destruct (Z.eqb_spec (- m) (-2)); [lia|]. cx.
Qed.
Example C87_case_velocity : forall integral undefined, error_velocity ex_dspl integral undefined ex_rising (strain ex_rising) = Ok (average integral [0; 0; 0; 0] [1; 2; 3; 4]).
Proof.
  intros integral undefined. assert (HD := ex_dspl_derives).
  assert (I : increasing (ms_u (mts_bar (sigma ex_rising)))) by (cbn; repeat (constructor; try lra)). assert (L4 : (4 <= length (ms_u (mts_bar (sigma ex_rising))))%nat) by (cbn; lia).
  destruct (der_cubic ex_dspl _ _ HD I L4 ex_rising_bar) as [E1 S1]. set (g := der ex_dspl 1 (mts_bar (sigma ex_rising))) in *. set (m := mts_scale 2 g).
  assert (Sm := scale_series 2 g _ S1). fold m in Sm. destruct (der_cubic ex_dspl m _ HD I L4 Sm) as [E2 S2]. set (m' := der ex_dspl 1 m) in *.
  assert (Sh := scale_series 2 _ _ ex_rising_bar). fold (strain ex_rising) in Sh. destruct (der_cubic ex_dspl (strain ex_rising) _ HD I L4 Sh) as [F1 R1]. set (h1 := der ex_dspl 1 (strain ex_rising)) in *.
  destruct (der_cubic ex_dspl h1 _ HD I L4 R1) as [F2 R2]. set (n := der ex_dspl 1 h1) in *. destruct (der_cubic ex_dspl n _ HD I L4 R2) as [F3 R3]. set (n' := der ex_dspl 1 n) in *.
  assert (V : forall f f' (x y x' y' : R -> R), ms_hi f = 2%Z -> ms_hi f' = 2%Z -> ms_u f = [1; 2; 3; 4] -> (forall t, 1 <= t -> x t <> 0 /\ 0 < x t * y' t - y t * x' t) ->
    (forall i l k, (i < 4)%nat -> ms_at f i l k = ex_wave (x (nth i [1; 2; 3; 4] 0)) (y (nth i [1; 2; 3; 4] 0)) l k) -> (forall i l k, (i < 4)%nat -> ms_at f' i l k = ex_wave (x' (nth i [1; 2; 3; 4] 0)) (y' (nth i [1; 2; 3; 4] 0)) l k) ->
    mts_dot ex_dspl f = Ok f' -> exists w, angular_velocity ex_dspl f = Ok w /\ forall i, (i < 4)%nat -> direction (nth i w (0, 0, 0)) = Some (0, 0, -1)).
  { intros f f' x y x' y' Hh Hh' Hu P Ef Ef' D. set (F := fun i => let t := nth i [1; 2; 3; 4] 0 in (0, 0, - (x t * y' t - y t * x' t) / (2 * (x t * x t + y t * y t))) : vec3). exists (map F (seq 0 4)). split.
    - unfold angular_velocity. rewrite D. cbn [rbind]. rewrite Hu. apply each_ok. intros i Ii. apply in_seq in Ii. unfold angular_velocity_at. rewrite Hh. apply ex_wave_velocity.
      + apply P. destruct i as [|[|[|[|i]]]]; cbn; try lra. cbn in Ii. lia.
      + assert (M := row_modes f i). rewrite Hh in M. apply (has_modes_ext _ _ _ _ _ M). intros; apply Ef. cbn in Ii. lia.
      + assert (M := row_modes f' i). rewrite Hh' in M. apply (has_modes_ext _ _ _ _ _ M). intros; apply Ef'. cbn in Ii. lia.
    - intros i Ii. rewrite (nth_indep _ (0, 0, 0) (F 0%nat)) by (rewrite map_length, seq_length; exact Ii). rewrite map_nth, seq_nth by exact Ii. unfold F. cbv zeta. cbn [Nat.add]. set (t := nth i [1; 2; 3; 4] 0). assert (Ht : 1 <= t) by (unfold t; destruct i as [|[|[|[|i]]]]; cbn; try lra; lia).
      destruct (P t Ht) as [P1 P2]. apply down. assert (Q : 0 < 2 * (x t * x t + y t * y t)) by nra. unfold Rdiv. apply Ropp_lt_cancel. rewrite Ropp_0, Ropp_mult_distr_l, Ropp_involutive. apply Rmult_lt_0_compat; [exact P2|apply Rinv_0_lt_compat; exact Q]. }
  destruct (V m m' (fun t => t) (fun t => t * t / 2) (fun _ => 1) (fun t => t)) as (w & Ew & Dw); [reflexivity..| | | |exact E2|].
  { intros t Ht. split; [lra|]. nra. }
  { intros i l k Hi. rewrite Sm by (change (length (ms_u m)) with 4%nat; exact Hi). change (ms_u m) with [1; 2; 3; 4]. cbn [Nat.ltb Nat.leb INR]. unfold ex_wave, cubic. destruct (_ && _)%bool; apply C_eq; cbn [re im Cadd Cscale C0]; field. }
  { intros i l k Hi. rewrite S2 by (change (length (ms_u m')) with 4%nat; exact Hi). change (ms_u m') with [1; 2; 3; 4]. cbn [Nat.ltb Nat.leb INR]. unfold ex_wave, cubic. destruct (_ && _)%bool; apply C_eq; cbn [re im Cadd Cscale C0]; field. }
  destruct (V n n' (fun _ => 1) (fun t => t) (fun _ => 0) (fun _ => 1)) as (v & Ev & Dv); [reflexivity..| | | |exact F3|].
  { intros t Ht. split; [lra|]. nra. }
  { intros i l k Hi. rewrite R2 by (change (length (ms_u n)) with 4%nat; exact Hi). change (ms_u n) with [1; 2; 3; 4]. cbn [Nat.ltb Nat.leb INR]. unfold ex_wave, cubic. destruct (_ && _)%bool; apply C_eq; cbn [re im Cadd Cscale C0]; field. }
  { intros i l k Hi. rewrite R3 by (change (length (ms_u n')) with 4%nat; exact Hi). change (ms_u n') with [1; 2; 3; 4]. cbn [Nat.ltb Nat.leb INR]. unfold ex_wave, cubic. destruct (_ && _)%bool; apply C_eq; cbn [re im Cadd Cscale C0]; field. }
  rewrite (C87_velocity_same ex_dspl integral undefined ex_rising (strain ex_rising) n m v w); [reflexivity| |reflexivity| |exact Ev| |exact Ew|].
  - intros ys i Hy Hi. change (bd_u (ad_data ex_rising)) with [1; 2; 3; 4] in *. destruct ys as [|y0 [|y1 [|y2 [|y3 [|y4 ys]]]]]; try discriminate Hy. destruct y0, y1, y2, y3.
    destruct i as [|[|[|[|i]]]]; cbn in Hi; try lia; cbn [nth ex_dspl]; unfold dd; apply C_eq; cbn; field.
  - unfold target_news. rewrite F1. cbn [rbind]. exact F2.
  - unfold news, sigma_bar_dot. rewrite E1. reflexivity.
  - intros i Hi. change (length (bd_u (ad_data ex_rising))) with 4%nat in Hi. exists (0, 0, -1). split; [apply Dv|apply Dw]; exact Hi.
Qed.
(** The spin of [ex_spinning] is along the x axis; a frame is rotated by half a turn about the z axis. *)
Example C87_case_rotation : exists map2salm, passes cubic_or_lookup /\ linear_spline ex_dspl /\ data_ok (ad_data ex_spinning) /\ increasing (bd_u (ad_data ex_spinning)) /\ (1 <= bd_hi (ad_data ex_spinning))%Z /\
  rotation_only (rotation_kwargs (mkq 0 0 0 1)) (mkq 0 0 0 1) 0 /\ (forall f, (f < 6)%nat -> exact map2salm (spin_of f) 11 11) /\
  exists a', ad_transform cubic_or_lookup map2salm ex_spinning (rotation_kwargs (mkq 0 0 0 1)) = Ok a' /\
    error_psi product_table ex_dspl a' None = error_psi product_table ex_dspl ex_spinning None.
Proof.
  destruct (exact_exists 11) as [mm HX]. exists mm. split; [exact cubic_or_lookup_passes|]. split; [exact ex_dspl_linear|].
  destruct (sampled_data_ok 2 [0; 1; 2; 3] (fun _ => mkbondi zmodes (fmuli (one_mode 1 1)) (fopp (one_mode 0 0)) zmodes zmodes zmodes) InertialFrame ltac:(lia)) as [O1 _]. split; [exact O1|]. split; [exact ex_times|]. split; [cbn; lia|].
  assert (Kq : rotation_only (rotation_kwargs (mkq 0 0 0 1)) (mkq 0 0 0 1) 0) by (apply rotation_kwargs_only; unfold qnorm2; cbn; ring). split; [exact Kq|]. split; [exact HX|].
  destruct (C87_rotation cubic_or_lookup mm ex_dspl (riemann 0) (Err ValueError) ex_spinning (rotation_kwargs (mkq 0 0 0 1)) (mkq 0 0 0 1) cubic_or_lookup_passes ex_dspl_linear O1 ex_times ltac:(cbn; lia) ltac:(cbn; lia) Kq eq_refl ltac:(cbn; lia) HX) as (a' & E & _ & P & _).
  exists a'. split; [exact E|exact P].
Qed.
