(** * C74: the fake file of finite-radius data *)
From Coq Require Import Reals ZArith List Bool Lia Lra.
From Verif Require Import Common Cplx Quat Times_Model Tables_Model Modal_Model Kwargs_Model Transform_Model Rotate_Model Times_Proofs
  Kwargs_Proofs Transform_Proofs Sphere_Model Pipeline_Model Pipeline_Proofs Finite_Model Finite_Proofs Sample_Model Fake_Model.
Import ListNotations.
Open Scope R_scope.

(** ** Specification *)
(** The documented waveform at radius rad: h + sum over n of h_n / rad^n, with sinusoids of the modulus of h for the h_n *)
Definition documented (amp : R) (N : Z) (n_times : nat) (rad u : R) (c : C) : C :=
  (c + csum (fun n => Cscale (amp * Cmod c / rad ^ Z.to_nat n) (mkC (cos (IZR n * 50 * PI / INR n_times * u)) (sin (IZR n * 50 * PI / INR n_times * u)))) (zrange 1 (N + 1)))%C.
(** What the loop does to one sample *)
Definition perturbed (a : fkargs) (n_times : nat) (rad u : R) (c : C) : C :=
  fold_left (fun c n => (c + Cscale (fk_amp a * / rad ^ Z.to_nat n * Cmod c) (phase (IZR n * 50 * PI / INR n_times * u)))%C) (zrange 1 (fk_subleading a + 1)) c.
Definition accumulated (a : fkargs) (n_times : nat) (rs : list Z) (u : R) (c : C) : C :=
  fold_left (fun c r => perturbed a n_times (IZR r + fk_diff a) u c) rs c.
(** Interpolation does not depend on the origin and the unit of time. *)
Definition covariant (spline : list R -> list R -> res (R -> R)) : Prop :=
  forall xs ys s b f, 0 < s -> spline xs ys = Ok f -> exists g, spline (map (fun x => s * x + b) xs) ys = Ok g /\ forall x, g (s * x + b) = f x.
(** Retarded time of an observer at radius R, with constant lapse N, at coordinate time T *)
Definition retarded (E N rad T : R) : R := T * N / redshift E rad - rstar E rad.
Definition noise (T : R) : C := Cscale (1 / 10 ^ 14 * T) (mkC 1 1).

(** ** The loop over the terms *)
Lemma combine_again : forall A (F G : R * A -> A) (t : list R) (col : list A),
  map F (combine t (map G (combine t col))) = map (fun p => F (fst p, G p)) (combine t col).
Proof. intros A F G. induction t as [|x t IH]; intros [|c col]; try reflexivity. cbn [combine map fst]. rewrite IH. reflexivity. Qed.
Lemma map_snd_combine : forall A (t : list R) (col : list A), length t = length col -> map snd (combine t col) = col.
Proof. intros A. induction t as [|x t IH]; intros [|c col] H; try discriminate; [reflexivity|]. cbn [combine map snd]. rewrite IH by (cbn in H; lia). reflexivity. Qed.
Lemma add_terms_samples : forall a rad n t col, length t = length col ->
  add_terms a rad n t col = map (fun p => perturbed a n rad (fst p) (snd p)) (combine t col).
Proof.
  intros a rad n t col H. unfold add_terms, perturbed. revert col H. induction (zrange 1 (fk_subleading a + 1)) as [|k ks IH]; intros col H; cbn [fold_left].
  - symmetry. apply map_snd_combine. exact H.
  - rewrite IH; [|unfold add_term; rewrite map_length, combine_length; lia]. unfold add_term. rewrite combine_again. reflexivity.
Qed.

(** ** Simulation time is the inverse of retarded time. *)
Lemma sim_ok : forall E N rad t, 0 < 2 * E < rad -> simulation_time E N rad t = Ok (map (fun u => (u + rstar E rad) * redshift E rad / N) t).
Proof.
  intros E N rad t H. unfold simulation_time. rewrite tortoise_outside by exact H. cbn [obind]. unfold odiv. destruct (Req_EM_T rad 0); [lra|]. cbn [obind].
  unfold osqrt. assert (P : 2 * E / rad < 1). { apply Rmult_lt_reg_r with rad; [lra|]. unfold Rdiv. rewrite Rmult_assoc, Rinv_l by lra. lra. }
  destruct (Rltb_spec (1 - 2 * E / rad) 0); [lra|]. cbn [obind]. reflexivity.
Qed.
Theorem C74_inverse : forall E N rad u T, 0 < 2 * E < rad -> 0 < N -> (u + rstar E rad) * redshift E rad / N = T <-> u = retarded E N rad T.
Proof.
  intros E N rad u T H HN. pose proof (redshift_pos E rad H). unfold retarded. split; intros EQ.
  - rewrite <- EQ. field. lra.
  - rewrite EQ. field. lra.
Qed.

Section Spline.
Variable spline : list R -> list R -> res (R -> R).
Hypothesis through : interpolates spline.
Hypothesis affine : covariant spline.

Definition inside (t : list R) (u : R) : bool := Rleb (nth 0 t 0) u && Rleb u (last t 0).
Definition has_samples (E N rad : R) (t all : list R) (col : list C) (out : list C) : Prop :=
  exists fr fi, spline t (map re col) = Ok fr /\ spline t (map im col) = Ok fi /\ length out = length all /\
  forall k, (k < length all)%nat -> let u := retarded E N rad (nth k all 0) in
    nth k out C0 = ((if inside t u then mkC (fr u) (fi u) else C0) + noise (nth k all 0))%C.
Lemma last_map' : forall (f : R -> R) l d, l <> [] -> last (map f l) d = f (last l d).
Proof. intros f. induction l as [|x l IH]; intros d H; [contradiction|]. destruct l as [|y l]; [reflexivity|]. cbn [map last] in *. apply IH. discriminate. Qed.
Lemma sampled_ok : forall E N rad t all col, 0 < 2 * E < rad -> 0 < N -> increasing t -> (4 <= length t)%nat -> length col = length t ->
  exists out, sampled spline (map (fun u => (u + rstar E rad) * redshift E rad / N) t) all col = Ok out /\ has_samples E N rad t all col out.
Proof.
  intros E N rad t all col HE HN HI H4 HL. pose proof (redshift_pos E rad HE) as HR. set (s := redshift E rad / N). set (b := s * rstar E rad).
  assert (Hs : 0 < s) by (apply Rdiv_lt_0_compat; assumption).
  assert (EM : map (fun u => (u + rstar E rad) * redshift E rad / N) t = map (fun x => s * x + b) t) by (apply map_ext; intros u; unfold b, s; field; lra).
  destruct (through t (map re col) HI H4 ltac:(rewrite map_length; exact HL)) as (fr & Er & _). destruct (through t (map im col) HI H4 ltac:(rewrite map_length; exact HL)) as (fi & Ei & _).
  destruct (affine t _ s b fr Hs Er) as (gr & Gr & Vr). destruct (affine t _ s b fi Hs Ei) as (gi & Gi & Vi).
  unfold sampled. rewrite EM, Gr, Gi. cbn [rbind]. eexists. split; [reflexivity|]. exists fr, fi. split; [exact Er|]. split; [exact Ei|]. split; [apply map_length|].
  intros k Hk u. set (T := nth k all 0) in *.
  match goal with |- nth k (map ?F all) C0 = _ => rewrite (nth_indep (map F all) C0 (F 0)) by (rewrite map_length; exact Hk); rewrite (map_nth F) end. fold T.
  assert (ET : T = s * u + b). { unfold u, retarded, b, s. field. lra. }
  assert (NE : t <> []) by (intros ->; cbn in H4; lia).
  assert (E0 : nth 0 (map (fun x => s * x + b) t) 0 = s * nth 0 t 0 + b) by (destruct t; [contradiction|reflexivity]).
  rewrite E0, (last_map' (fun x => s * x + b)) by exact NE. unfold noise. f_equal. unfold inside.
  rewrite ET, Vr, Vi. destruct (Rleb_spec (nth 0 t 0) u), (Rleb_spec u (last t 0)), (Rltb_spec (s * u + b) (s * nth 0 t 0 + b)), (Rltb_spec (s * last t 0 + b) (s * u + b)); try reflexivity; exfalso; nra.
Qed.

(** ** The loop over the radii *)
Definition usable_args (a : fkargs) (t all : list R) (cols : list (list C)) (rs : list Z) : Prop :=
  increasing t /\ (4 <= length t)%nat /\ (20 <= length all)%nat /\ (forall col, In col cols -> length col = length t) /\
  0 < fk_lapse a /\ (forall r, In r rs -> 0 < 2 * fk_energy a < IZR r + fk_diff a).
Definition group_ok (a : fkargs) (t all : list R) (cols : list (list C)) (before : list Z) (r : Z) (g : fkgroup) : Prop :=
  let rad := IZR r + fk_diff a in
  fg_times g = all /\ fg_coord g = IZR r /\ fg_areal g = rad /\ fg_lapse g = fk_lapse a /\ fg_energy g = fk_energy a /\ length (fg_modes g) = length cols /\
  forall j, (j < length cols)%nat ->
    has_samples (fk_energy a) (fk_lapse a) rad t all (map (fun p => accumulated a (length t) (before ++ [r]) (fst p) (snd p)) (combine t (nth j cols []))) (nth j (fg_modes g) []).
Lemma truncated_nonneg : forall x n, 0 <= x -> INR n <= x -> (Z.of_nat n <= truncated x)%Z.
Proof.
  intros x n H0 H. unfold truncated. destruct (Rltb_spec x 0); [lra|]. destruct (base_Int_part x) as [A B].
  assert (IZR (Z.of_nat n) < IZR (Int_part x + 1)) by (rewrite plus_IZR, <- INR_IZR_INZ; lra). apply lt_IZR in H1. lia.
Qed.
Lemma radii_loop : forall a t all rs cols before cols0, usable_args a t all cols0 rs -> cols = map (fun col => map (fun p => accumulated a (length t) before (fst p) (snd p)) (combine t col)) cols0 ->
  exists f, all_radii spline a t all cols rs = (f, Ok Datatypes.tt) /\ map fst f = rs /\
  forall i r, nth_error rs i = Some r -> exists g, nth_error f i = Some (r, Some g) /\ group_ok a t all cols0 (before ++ firstn i rs) r g.
Proof.
  intros a t all. induction rs as [|r rs IH]; intros cols before cols0 U EC.
  - exists []. split; [reflexivity|]. split; [reflexivity|]. intros [|i] r H; discriminate.
  - destruct U as (HI & H4 & H20 & HC & HN & HR). pose proof (HR r (or_introl eq_refl)) as HRr. cbn [all_radii]. unfold one_radius.
    assert (ST : (1 <= truncated (INR (length all) / 20))%Z).
    { apply (truncated_nonneg _ 1); [apply Rmult_le_pos; [apply pos_INR|lra]|]. assert (INR 20 <= INR (length all)) by (apply le_INR; exact H20). replace (INR 20) with 20 in H by (cbn; ring). change (INR 1) with 1. lra. }
    unfold every. destruct (Z.eqb_spec (truncated (INR (length all) / 20)) 0); [lia|]. cbn [rbind]. rewrite sim_ok by exact HRr. cbn [rbind].
    set (rad := IZR r + fk_diff a) in *. set (before' := before ++ [r]).
    assert (EC' : map (add_terms a rad (length t) t) cols = map (fun col => map (fun p => accumulated a (length t) before' (fst p) (snd p)) (combine t col)) cols0).
    { rewrite EC, map_map. apply map_ext_in. intros col I. rewrite add_terms_samples by (rewrite map_length, combine_length; specialize (HC col I); lia). rewrite combine_again. apply map_ext. intros [u c]. cbn [fst snd].
      unfold accumulated, before'. rewrite fold_left_app. reflexivity. }
    set (cols' := map (fun col => map (fun p => accumulated a (length t) before' (fst p) (snd p)) (combine t col)) cols0) in *.
    rewrite EC'.
    destruct (each_exists _ _ (sampled spline (map (fun u => (u + rstar (fk_energy a) rad) * redshift (fk_energy a) rad / fk_lapse a) t) all) (has_samples (fk_energy a) (fk_lapse a) rad t all) cols') as (modes & EM & PM).
    { intros col I. apply sampled_ok; try assumption. apply in_map_iff in I. destruct I as (c0 & <- & I). rewrite map_length, combine_length. specialize (HC c0 I). lia. }
    rewrite EM. cbn [rbind].
    destruct (IH cols' before' cols0) as (f & Ef & Hf & HG). { split; [exact HI|]. split; [exact H4|]. split; [exact H20|]. split; [exact HC|]. split; [exact HN|]. intros x I. apply HR. right. exact I. } { reflexivity. }
    rewrite Ef. eexists. split; [reflexivity|]. split; [cbn [map fst]; rewrite Hf; reflexivity|]. intros [|i] r' H.
    + cbn [nth_error] in H. injection H as <-. eexists. split; [reflexivity|]. unfold group_ok. fold rad. cbn [fg_times fg_coord fg_areal fg_lapse fg_energy fg_modes firstn]. rewrite app_nil_r.
      repeat (split; [reflexivity|]). assert (LM : length modes = length cols0) by (rewrite <- (Forall2_len _ _ _ _ _ PM); unfold cols'; apply map_length). split; [exact LM|].
      intros j Hj. set (F := fun col : list C => map (fun p => accumulated a (length t) before' (fst p) (snd p)) (combine t col)) in *.
      apply (Forall2_nth _ _ _ _ _ j (F (nth j cols0 [])) [] PM). unfold cols'. apply map_nth_error. apply nth_error_nth'. exact Hj.
    + cbn [nth_error] in H. destruct (HG i r' H) as (g & Eg & Gg). exists g. split; [exact Eg|]. cbn [firstn]. replace (before ++ r :: firstn i rs) with (before' ++ firstn i rs) by (unfold before'; rewrite <- app_assoc; reflexivity). exact Gg.
Qed.
End Spline.

(** ** Radii and group names *)
Lemma groups_made : forall rs done, NoDup (done ++ rs) -> create_groups done rs = (done ++ rs, true).
Proof.
  induction rs as [|r rs IH]; intros done H; cbn [create_groups]; [rewrite app_nil_r; reflexivity|].
  destruct (existsb (Z.eqb r) done) eqn:E.
  - exfalso. apply existsb_exists in E. destruct E as (x & I & Ex). apply Z.eqb_eq in Ex. subst x. apply NoDup_remove_2 in H. apply H. apply in_or_app. left. exact I.
  - rewrite IH by (rewrite <- app_assoc; exact H). rewrite <- app_assoc. reflexivity.
Qed.
Lemma groups_refused : forall rs done, NoDup done -> ~ NoDup (done ++ rs) -> exists made, create_groups done rs = (made, false).
Proof.
  induction rs as [|r rs IH]; intros done HD H; [rewrite app_nil_r in H; contradiction|]. cbn [create_groups].
  destruct (existsb (Z.eqb r) done) eqn:E; [exists done; reflexivity|]. apply IH; [|rewrite <- app_assoc; exact H].
  apply NoDup_rev in HD. rewrite <- (rev_involutive (done ++ [r])). apply NoDup_rev. rewrite rev_app_distr. cbn. constructor; [|exact HD].
  intros I. rewrite <- in_rev in I. assert (T : existsb (Z.eqb r) done = true) by (apply existsb_exists; exists r; split; [exact I|apply Z.eqb_refl]). congruence.
Qed.
Lemma linspace_ok : forall x y n, (0 <= n)%Z -> linspace x y n = Ok (map (fun i => x + INR i * ((y - x) / IZR (n - 1))) (seq 0 (Z.to_nat n))).
Proof. intros x y n H. unfold linspace. destruct (Z.ltb_spec n 0); [lia|reflexivity]. Qed.
Lemma truncated_floor : forall x, 0 <= x -> IZR (truncated x) <= x < IZR (truncated x) + 1.
Proof. intros x H. unfold truncated. destruct (Rltb_spec x 0); [lra|]. destruct (base_Int_part x). lra. Qed.
(** Inverse radii are equally spaced between 1/r_min and 1/r_max; the radii are rounded down to integers. *)
Definition inverse_radius (a : fkargs) (i : nat) : R := / fk_rmin a + INR i * ((/ fk_rmax a - / fk_rmin a) / IZR (fk_n a - 1)).
Theorem C74_radii : forall a, 0 < fk_rmin a <= fk_rmax a -> (2 <= fk_n a)%Z -> exists rs, coord_radii a = Ok rs /\ length rs = Z.to_nat (fk_n a) /\
  (forall i, (i < length rs)%nat -> IZR (nth i rs 0%Z) <= / inverse_radius a i < IZR (nth i rs 0%Z) + 1 /\ fk_rmin a <= / inverse_radius a i <= fk_rmax a) /\
  (forall i j, (i <= j < length rs)%nat -> (nth i rs 0 <= nth j rs 0)%Z) /\
  / inverse_radius a 0 = fk_rmin a /\ / inverse_radius a (length rs - 1) = fk_rmax a.
Proof.
  intros a [H1 H2] Hn. unfold coord_radii. rewrite linspace_ok by lia. cbn [rbind]. rewrite map_map. eexists. split; [reflexivity|]. rewrite map_length, seq_length. split; [reflexivity|].
  assert (HN : 0 < IZR (fk_n a - 1)) by (apply IZR_lt; lia).
  assert (IV : / fk_rmax a <= / fk_rmin a) by (apply Rinv_le_contravar; lra). assert (IP : 0 < / fk_rmax a) by (apply Rinv_0_lt_compat; lra).
  assert (BD : forall i, (i < Z.to_nat (fk_n a))%nat -> / fk_rmax a <= inverse_radius a i <= / fk_rmin a).
  { intros i Hi. unfold inverse_radius. assert (L : 0 <= INR i <= IZR (fk_n a - 1)). { split; [apply pos_INR|]. rewrite INR_IZR_INZ. apply IZR_le. lia. }
    assert (F : 0 <= INR i / IZR (fk_n a - 1) <= 1). { split; [apply Rmult_le_pos; [lra|apply Rlt_le, Rinv_0_lt_compat; exact HN]|]. apply Rmult_le_reg_r with (IZR (fk_n a - 1)); [exact HN|]. unfold Rdiv. rewrite Rmult_assoc, Rinv_l by lra. lra. }
    replace (INR i * ((/ fk_rmax a - / fk_rmin a) / IZR (fk_n a - 1))) with (INR i / IZR (fk_n a - 1) * (/ fk_rmax a - / fk_rmin a)) by (unfold Rdiv; ring). nra. }
  assert (BI : forall i, (i < Z.to_nat (fk_n a))%nat -> fk_rmin a <= / inverse_radius a i <= fk_rmax a).
  { intros i Hi. specialize (BD i Hi). rewrite <- (Rinv_inv (fk_rmin a)) at 1. rewrite <- (Rinv_inv (fk_rmax a)). split; apply Rinv_le_contravar; lra. }
  set (F := fun x : nat => truncated (1 / (1 / fk_rmin a + INR x * ((1 / fk_rmax a - 1 / fk_rmin a) / IZR (fk_n a - 1))))).
  assert (EF : forall i, F i = truncated (/ inverse_radius a i)). { intros i. unfold F, inverse_radius. f_equal. unfold Rdiv. rewrite !Rmult_1_l. reflexivity. }
  assert (EN : forall i, (i < Z.to_nat (fk_n a))%nat -> nth i (map F (seq 0 (Z.to_nat (fk_n a)))) 0%Z = truncated (/ inverse_radius a i)).
  { intros i Hi. rewrite (nth_indep _ 0%Z (F 0%nat)) by (rewrite map_length, seq_length; exact Hi). rewrite map_nth, seq_nth by exact Hi. apply EF. }
  split. { intros i Hi. rewrite EN by exact Hi. specialize (BI i Hi). split; [apply truncated_floor; lra|exact BI]. }
  split. { intros i j [Hij Hj]. rewrite !EN by lia. assert (LE : / inverse_radius a i <= / inverse_radius a j).
    { apply Rinv_le_contravar; [specialize (BD j ltac:(lia)); lra|]. unfold inverse_radius. assert (INR i <= INR j) by (apply le_INR; exact Hij).
      assert (D : (/ fk_rmax a - / fk_rmin a) / IZR (fk_n a - 1) <= 0). { unfold Rdiv. assert (0 < / IZR (fk_n a - 1)) by (apply Rinv_0_lt_compat; exact HN). nra. } nra. }
    pose proof (truncated_floor (/ inverse_radius a i) ltac:(specialize (BI i ltac:(lia)); lra)). pose proof (truncated_floor (/ inverse_radius a j) ltac:(specialize (BI j ltac:(lia)); lra)).
    apply Zlt_succ_le, lt_IZR. unfold Z.succ. rewrite plus_IZR. lra. }
  unfold inverse_radius. split; [cbn [INR]; rewrite Rmult_0_l, Rplus_0_r; apply Rinv_inv|].
  rewrite INR_IZR_INZ, Nat2Z.inj_sub, Z2Nat.id by lia. change (Z.of_nat 1) with 1%Z.
  replace (/ fk_rmin a + IZR (fk_n a - 1) * ((/ fk_rmax a - / fk_rmin a) / IZR (fk_n a - 1))) with (/ fk_rmax a) by (field; lra). apply Rinv_inv.
Qed.

(** ** The file *)
Section File.
Variable spline : list R -> list R -> res (R -> R).
Variable fake : R -> R -> R -> Z -> option R -> res (list R * list (list C)).
(** A file that exists is neither read nor changed. *)
Theorem C74_existing : forall a f, create_fake spline fake a (Some f) = (Some f, Err OSError).
Proof. reflexivity. Qed.
(** The contents *)
Theorem C74_file : forall a rs t cols n, interpolates spline -> covariant spline -> coord_radii a = Ok rs -> NoDup rs ->
  fake (fk_t0 a) (fk_t1 a) (fk_dt a) (fk_ell_max a) None = Ok (t, cols) -> increasing t -> (4 <= length t)%nat -> (forall col, In col cols -> length col = length t) ->
  n = truncated (INR (length t) + fk_rmax a / fk_dt a) -> (20 <= n)%Z -> 0 < fk_lapse a -> (forall r, In r rs -> 0 < 2 * fk_energy a < IZR r + fk_diff a) ->
  exists f all, create_fake spline fake a None = (Some f, Ok Datatypes.tt) /\ map fst f = rs /\
    length all = Z.to_nat n /\ (forall k, (k < length all)%nat -> nth k all 0 = INR k * ((fk_t1 a + fk_rmax a) / IZR (n - 1))) /\
    forall i r, nth_error rs i = Some r -> exists g, nth_error f i = Some (r, Some g) /\ group_ok spline a t all cols (firstn i rs) r g.
Proof.
  intros a rs t cols n HT HA Er ND Ef HI H4 HC En H20 HN HR. unfold create_fake. rewrite Er, (groups_made rs []) by exact ND. cbn [app]. rewrite Ef, <- En, linspace_ok by lia.
  set (all := map _ (seq 0 (Z.to_nat n))). assert (LA : length all = Z.to_nat n) by (unfold all; rewrite map_length, seq_length; reflexivity).
  destruct (radii_loop spline HT HA a t all rs cols [] cols) as (f & E & Hf & HG).
  - split; [exact HI|]. split; [exact H4|]. split; [lia|]. split; [exact HC|]. split; assumption.
  - rewrite <- (map_id cols) at 1. apply map_ext_in. intros col I. symmetry. unfold accumulated. cbn [fold_left]. apply map_snd_combine. symmetry. apply HC. exact I.
  - rewrite E. exists f, all. split; [reflexivity|]. split; [exact Hf|]. split; [exact LA|]. split; [|exact HG].
    intros k Hk. unfold all. match goal with |- nth k (map ?F _) 0 = _ => rewrite (nth_indep _ 0 (F 0%nat)) by (rewrite map_length, seq_length; lia); rewrite (map_nth F), seq_nth by lia end. cbn [Nat.add]. rewrite Rplus_0_l, Rminus_0_r. reflexivity.
Qed.
(** The mass ratio is documented and has no effect. *)
Theorem C74_mass_ratio_refuted : forall a q old, create_fake spline fake (mkfk (fk_subleading a) (fk_amp a) (fk_t0 a) (fk_t1 a) (fk_dt a) (fk_rmin a) (fk_rmax a) (fk_n a) (fk_ell_max a) (fk_energy a) (fk_lapse a) (fk_diff a) q) old
  = create_fake spline fake a old.
Proof.
  intros a q old. unfold create_fake. cbn [fk_t0 fk_t1 fk_dt fk_rmin fk_rmax fk_ell_max]. destruct old; [reflexivity|].
  change (coord_radii _) with (coord_radii a) at 1. destruct (coord_radii a) as [rs|e]; [|reflexivity]. destruct (create_groups [] rs) as [made ok]. destruct ok; [|reflexivity].
  destruct (fake _ _ _ _ None) as [[t cols]|e]; [|reflexivity]. destruct (linspace _ _ _) as [all|e]; [|reflexivity].
  assert (E : forall rs cols, all_radii spline (mkfk (fk_subleading a) (fk_amp a) (fk_t0 a) (fk_t1 a) (fk_dt a) (fk_rmin a) (fk_rmax a) (fk_n a) (fk_ell_max a) (fk_energy a) (fk_lapse a) (fk_diff a) q) t all cols rs = all_radii spline a t all cols rs).
  { induction rs0 as [|r rs0 IH]; intros cols0; [reflexivity|]. cbn [all_radii]. change (one_radius spline (mkfk _ _ _ _ _ _ _ _ _ _ _ _ q) t all cols0 r) with (one_radius spline a t all cols0 r).
    destruct (one_radius spline a t all cols0 r) as [[g c]|e]; [|reflexivity]. rewrite IH. reflexivity. }
  rewrite E. reflexivity.
Qed.
(** More radii than integers between r_min and r_max: the call fails, and leaves a file behind that makes every later call fail. *)
Lemma crowded : forall (l : list Z) lo hi, (forall x, In x l -> (lo <= x <= hi)%Z) -> NoDup l -> (Z.of_nat (length l) <= Z.max 0 (hi - lo + 1))%Z.
Proof.
  intros l lo hi H ND. assert (I : incl l (zrange lo (hi + 1))) by (intros x Hx; apply zrange_In; specialize (H x Hx); lia).
  pose proof (NoDup_incl_length ND I) as L. unfold zrange in L. rewrite map_length, seq_length in L. lia.
Qed.
Theorem C74_crowded_refuted : forall a, 0 < fk_rmin a <= fk_rmax a -> (2 <= fk_n a)%Z -> (truncated (fk_rmax a) - truncated (fk_rmin a) + 1 < fk_n a)%Z ->
  exists f, create_fake spline fake a None = (Some f, Err ValueError) /\ forall a', create_fake spline fake a' (Some f) = (Some f, Err OSError).
Proof.
  intros a H Hn Hc. destruct (C74_radii a H Hn) as (rs & Er & L & B & _). unfold create_fake. rewrite Er.
  destruct (groups_refused rs []) as (made & Em).
  - constructor.
  - cbn [app]. intros ND. pose proof (crowded rs (truncated (fk_rmin a)) (truncated (fk_rmax a))) as P. assert (X : (Z.of_nat (length rs) <= Z.max 0 (truncated (fk_rmax a) - truncated (fk_rmin a) + 1))%Z).
    { apply P; [|exact ND]. intros x I. apply In_nth with (d := 0%Z) in I. destruct I as (i & Hi & <-). destruct (B i Hi) as [[B1 B2] [B3 B4]].
      pose proof (truncated_floor (fk_rmin a) ltac:(lra)). pose proof (truncated_floor (fk_rmax a) ltac:(lra)). split; apply Zlt_succ_le, lt_IZR; unfold Z.succ; rewrite plus_IZR; lra. }
    rewrite L in X. lia.
  - rewrite Em. exists (map (fun r => (r, None)) made). split; [reflexivity|]. reflexivity.
Qed.
End File.

(** ** The terms that are added *)
Theorem C74_no_terms : forall a n rs u c, (fk_subleading a <= 0)%Z -> accumulated a n rs u c = c.
Proof.
  intros a n rs u c H. assert (E : zrange 1 (fk_subleading a + 1) = []) by (unfold zrange; replace (Z.to_nat (fk_subleading a + 1 - 1)) with 0%nat by lia; reflexivity).
  revert c. induction rs as [|r rs IH]; intros c; [reflexivity|]. unfold accumulated in *. cbn [fold_left]. unfold perturbed at 2. rewrite E. cbn [fold_left]. apply IH.
Qed.
(** One term at the smallest radius is as documented. *)
Theorem C74_first : forall a n r u c, fk_subleading a = 1%Z -> accumulated a n [r] u c = documented (fk_amp a) 1 n (IZR r + fk_diff a) u c.
Proof.
  intros a n r u c H. unfold accumulated, documented, perturbed. rewrite H. change (zrange 1 (1 + 1)) with [1%Z]. cbn [fold_left csum]. unfold phase.
  replace (fk_amp a * / (IZR r + fk_diff a) ^ Z.to_nat 1 * Cmod c) with (fk_amp a * Cmod c / (IZR r + fk_diff a) ^ Z.to_nat 1) by (unfold Rdiv; ring). apply C_eq; cbn [re im Cadd C0]; ring.
Qed.
(** Otherwise every term multiplies what the previous terms and the smaller radii have left. *)
Definition factors (a : fkargs) (r : Z) : R := fold_left (fun p n => p * (1 + fk_amp a / (IZR r + fk_diff a) ^ Z.to_nat n)) (zrange 1 (fk_subleading a + 1)) 1.
Lemma Cmod_real : forall x, 0 <= x -> Cmod (RtoC x) = x.
Proof. intros x H. unfold Cmod, norm2. cbn [re im RtoC]. replace (x * x + 0 * 0) with (x * x) by ring. apply sqrt_square. exact H. Qed.
Theorem C74_accumulates : forall a n rs x, 0 <= x -> 0 <= fk_amp a -> (forall r, In r rs -> 0 < IZR r + fk_diff a) ->
  accumulated a n rs 0 (RtoC x) = RtoC (x * fold_left (fun p r => p * factors a r) rs 1).
Proof.
  assert (P : forall a n rad ns x, 0 <= x -> 0 <= fk_amp a -> 0 < rad ->
    fold_left (fun c k => (c + Cscale (fk_amp a * / rad ^ Z.to_nat k * Cmod c) (phase (IZR k * 50 * PI / INR n * 0)))%C) ns (RtoC x) = RtoC (x * fold_left (fun p k => p * (1 + fk_amp a / rad ^ Z.to_nat k)) ns 1) /\
    0 <= fold_left (fun p k => p * (1 + fk_amp a / rad ^ Z.to_nat k)) ns 1).
  { intros a n rad ns x Hx Ha Hr. assert (G : forall ns p, fold_left (fun p k => p * (1 + fk_amp a / rad ^ Z.to_nat k)) ns p = p * fold_left (fun p k => p * (1 + fk_amp a / rad ^ Z.to_nat k)) ns 1).
    { induction ns0 as [|k ks IH]; intros p; cbn [fold_left]; [ring|]. rewrite (IH (p * _)), (IH (1 * _)). ring. }
    revert x Hx. induction ns as [|k ns IH]; intros x Hx; cbn [fold_left]; [split; [f_equal; ring|lra]|].
    assert (Hk : 0 < / rad ^ Z.to_nat k) by (apply Rinv_0_lt_compat, pow_lt; exact Hr).
    assert (E : (RtoC x + Cscale (fk_amp a * / rad ^ Z.to_nat k * Cmod (RtoC x)) (phase (IZR k * 50 * PI / INR n * 0)))%C = RtoC (x * (1 + fk_amp a / rad ^ Z.to_nat k))).
    { rewrite Cmod_real by exact Hx. rewrite Rmult_0_r. unfold phase. rewrite cos_0, sin_0. apply C_eq; cbn [re im Cadd Cscale RtoC]; unfold Rdiv; ring. }
    assert (N : 0 <= 1 + fk_amp a / rad ^ Z.to_nat k) by (unfold Rdiv; nra).
    destruct (IH (x * (1 + fk_amp a / rad ^ Z.to_nat k)) ltac:(nra)) as [I1 I2]. rewrite E, I1, (G ns (1 * _)). split; [f_equal; ring|nra]. }
  intros a n rs. assert (G : forall rs p, fold_left (fun p r => p * factors a r) rs p = p * fold_left (fun p r => p * factors a r) rs 1).
  { induction rs0 as [|k ks IH]; intros p; cbn [fold_left]; [ring|]. rewrite (IH (p * _)), (IH (1 * _)). ring. }
  induction rs as [|r rs IH]; intros x Hx Ha Hr; unfold accumulated in *; cbn [fold_left]; [f_equal; ring|].
  destruct (P a n (IZR r + fk_diff a) (zrange 1 (fk_subleading a + 1)) x Hx Ha (Hr r (or_introl eq_refl))) as [E N]. unfold perturbed at 2. rewrite E. fold (factors a r). fold (factors a r) in N.
  rewrite IH; [|nra|exact Ha|intros y I; apply Hr; right; exact I]. rewrite (G rs (1 * _)). f_equal. ring.
Qed.
(** So there are no coefficients as documented: already with one term and two radii the data are not h + h_1 / r with the same h_1. *)
Theorem C74_expansion_refuted : forall a n r1 r2 x, fk_subleading a = 1%Z -> 0 < x -> 0 < fk_amp a -> 0 < IZR r1 + fk_diff a -> 0 < IZR r2 + fk_diff a ->
  ~ exists h1, accumulated a n [r1] 0 (RtoC x) = (RtoC x + Cscale (/ (IZR r1 + fk_diff a)) h1)%C /\ accumulated a n [r1; r2] 0 (RtoC x) = (RtoC x + Cscale (/ (IZR r2 + fk_diff a)) h1)%C.
Proof.
  intros a n r1 r2 x HS Hx Ha H1 H2 (h1 & E1 & E2). rewrite C74_accumulates in E1, E2 by (try lra; intros r I; cbn in I; intuition (subst; assumption)).
  unfold factors in *. rewrite HS in *. change (zrange 1 (1 + 1)) with [1%Z] in *. cbn [fold_left] in *. change (Z.to_nat 1) with 1%nat in *. rewrite !pow_1 in *.
  apply (f_equal re) in E1, E2. cbn [re RtoC Cadd Cscale] in E1, E2. set (R1 := IZR r1 + fk_diff a) in *. set (R2 := IZR r2 + fk_diff a) in *. unfold Rdiv in *.
  assert (P1 : 0 < / R1) by (apply Rinv_0_lt_compat; exact H1). assert (P2 : 0 < / R2) by (apply Rinv_0_lt_compat; exact H2).
  assert (EH : re h1 = x * fk_amp a). { apply Rmult_eq_reg_l with (/ R1); [|lra]. nra. }
  rewrite EH in E2. assert (X : x * (fk_amp a * / R1) * (1 + fk_amp a * / R2) = 0) by nra. assert (0 < fk_amp a * / R1) by nra. assert (0 < 1 + fk_amp a * / R2) by nra. assert (0 < x * (fk_amp a * / R1)) by nra. nra.
Qed.
(** Nor are two terms at one radius those documented. *)
Theorem C74_second_term_refuted : forall a n r x, fk_subleading a = 2%Z -> 0 < x -> 0 < fk_amp a -> 0 < IZR r + fk_diff a ->
  accumulated a n [r] 0 (RtoC x) = (documented (fk_amp a) 2 n (IZR r + fk_diff a) 0 (RtoC x) + RtoC (x * fk_amp a ^ 2 / (IZR r + fk_diff a) ^ 3))%C.
Proof.
  intros a n r x HS Hx Ha H1. rewrite C74_accumulates by (try lra; intros y I; cbn in I; destruct I as [<-|[]]; assumption). unfold factors, documented. rewrite HS.
  change (zrange 1 (2 + 1)) with [1; 2]%Z. cbn [fold_left csum]. rewrite Cmod_real by lra. rewrite !Rmult_0_r, cos_0, sin_0. change (Z.to_nat 1) with 1%nat. change (Z.to_nat 2) with 2%nat.
  apply C_eq; cbn [re im Cadd Cscale RtoC C0]; field; lra.
Qed.

(** The energies are given at every step-th time of the waveform, where the step is a twentieth of the number of all times. *)
Lemma rbind_inv : forall A B (x : res A) (f : A -> res B) y, (let? v := x in f v) = Ok y -> exists v, x = Ok v /\ f v = Ok y.
Proof. intros A B [v|e] f y H; [exists v; split; [reflexivity|exact H]|discriminate H]. Qed.
Lemma every_from_nth : forall A n (l : list A) k i, (0 < n)%nat -> nth_error (every_from n k l) i = nth_error l (k + i * n).
Proof.
  intros A n. induction l as [|x l IH]; intros k i Hn; [cbn [every_from]; destruct i; cbn; destruct (k + _)%nat; reflexivity|].
  destruct k as [|k]; cbn [every_from].
  - destruct i as [|i]; [reflexivity|]. cbn [nth_error]. rewrite IH by exact Hn. replace (0 + S i * n)%nat with (S (n - 1 + i * n)) by lia. reflexivity.
  - rewrite IH by exact Hn. reflexivity.
Qed.
Lemma radii_times : forall spline a t all rs cols f o r g, all_radii spline a t all cols rs = (f, o) -> In (r, Some g) f -> every (truncated (INR (length all) / 20)) t = Ok (fg_energy_times g).
Proof.
  intros spline a t all. induction rs as [|r0 rs IH]; intros cols f o r g E I; [injection E as <- <-; contradiction|]. cbn [all_radii] in E.
  destruct (one_radius spline a t all cols r0) as [[g0 c0]|e] eqn:E1.
  - destruct (all_radii spline a t all c0 rs) as [f' o'] eqn:E2. injection E as <- <-. destruct I as [I|I]; [|exact (IH _ _ _ _ _ E2 I)].
    injection I as <- <-. unfold one_radius in E1. apply rbind_inv in E1. destruct E1 as (seg & ES & E1). cbv zeta in E1. apply rbind_inv in E1. destruct E1 as (T & _ & E1). apply rbind_inv in E1. destruct E1 as (md & _ & E1).
    injection E1 as <- _. exact ES.
  - injection E as <- _. destruct I as [I|I]; [discriminate I|]. apply in_map_iff in I. destruct I as (x & I & _). discriminate I.
Qed.
Lemma radii_all : forall spline a t all rs cols f o r g, all_radii spline a t all cols rs = (f, o) -> In (r, Some g) f -> fg_times g = all.
Proof.
  intros spline a t all. induction rs as [|r0 rs IH]; intros cols f o r g E I; [injection E as <- <-; contradiction|]. cbn [all_radii] in E.
  destruct (one_radius spline a t all cols r0) as [[g0 c0]|e] eqn:E1.
  - destruct (all_radii spline a t all c0 rs) as [f' o'] eqn:E2. injection E as <- <-. destruct I as [I|I]; [|exact (IH _ _ _ _ _ E2 I)].
    injection I as <- <-. unfold one_radius in E1. apply rbind_inv in E1. destruct E1 as (seg & ES & E1). cbv zeta in E1. apply rbind_inv in E1. destruct E1 as (T & _ & E1). apply rbind_inv in E1. destruct E1 as (md & _ & E1).
    injection E1 as <- _. reflexivity.
  - injection E as <- _. destruct I as [I|I]; [discriminate I|]. apply in_map_iff in I. destruct I as (x & I & _). discriminate I.
Qed.
Theorem C74_energy_times : forall spline fake a f o r g t cols, create_fake spline fake a None = (Some f, o) -> In (r, Some g) f ->
  fake (fk_t0 a) (fk_t1 a) (fk_dt a) (fk_ell_max a) None = Ok (t, cols) -> (20 <= length (fg_times g))%nat ->
  forall k, nth_error (fg_energy_times g) k = nth_error t (k * Z.to_nat (truncated (INR (length (fg_times g)) / 20))).
Proof.
  intros spline fake a f o r g t cols E I Ef H20 k. unfold create_fake in E. destruct (coord_radii a) as [rs|e]; [|injection E as <- _; contradiction]. destruct (create_groups [] rs) as [made ok].
  assert (NB : forall made, ~ In (r, Some g) (map (fun r : Z => (r, None : option fkgroup)) made)) by (intros m J; apply in_map_iff in J; destruct J as (x & J & _); discriminate J).
  destruct ok; [|injection E as <- _; exfalso; exact (NB _ I)]. rewrite Ef in E. destruct (linspace _ _ _) as [all|e] eqn:EL; [|injection E as <- _; exfalso; exact (NB _ I)].
  destruct (all_radii spline a t all cols rs) as [f' o'] eqn:EA. injection E as <- <-. pose proof (radii_times _ _ _ _ _ _ _ _ _ _ EA I) as EV.
  assert (ET : fg_times g = all) by exact (radii_all _ _ _ _ _ _ _ _ _ _ EA I). rewrite ET in *. unfold every in EV. destruct (Z.eqb_spec (truncated (INR (length all) / 20)) 0) as [|N]; [discriminate|]. injection EV as <-.
  rewrite every_from_nth; [f_equal; lia|].
  assert (ST : (1 <= truncated (INR (length all) / 20))%Z).
  { apply (truncated_nonneg _ 1); [apply Rmult_le_pos; [apply pos_INR|lra]|]. assert (X : INR 20 <= INR (length all)) by (apply le_INR; exact H20). replace (INR 20) with 20 in X by (cbn; ring). change (INR 1) with 1. lra. }
  lia.
Qed.

(** ** Reading the file back *)
(** The group as the reader of finite-radius data sees it *)
Definition group_source (g : fkgroup) : source :=
  mksource (fg_times g) (map (fun _ => fg_lapse g) (fg_times g)) (map (fun _ => fg_areal g) (fg_times g)) (fg_coord g) (fg_energy g)
    (fg_times g) (map (fun k => map (fun col => nth k col C0) (fg_modes g)) (seq 0 (length (fg_times g)))) h [].
Lemma proper_constant : forall E T N r N0 r0 k, (forall j, (j <= k)%nat -> N j = N0 /\ r j = r0) -> proper E T N r k = T 0%nat + (T k - T 0%nat) * (N0 / redshift E r0).
Proof.
  intros E T N r N0 r0 k. induction k as [|k IH]; intros H; cbn [proper]; [ring|]. rewrite IH by (intros j Hj; apply H; lia).
  destruct (H k ltac:(lia)) as [-> ->]. destruct (H (S k) ltac:(lia)) as [-> ->]. set (x := N0 / redshift E r0). field.
Qed.
Theorem C74_read : forall g M step n, M <> 0 -> 0 < 2 * fg_energy g < fg_areal g -> fg_coord g <> 0 -> fg_times g = map (fun k => INR k * step) (seq 0 n) -> (1 <= n)%nat -> MinTimeStep < step ->
  exists fuel0 out, (forall fuel, (fuel0 <= fuel)%nat -> read_finite fuel false (group_source g) M = Ok out) /\ length (f_t out) = n /\
  forall k, (k < n)%nat ->
    nth k (f_t out) None = Some (retarded (fg_energy g) (fg_lapse g) (fg_areal g) (INR k * step) / M) /\
    nth k (f_rows out) [] = map (fun col => Some (Cscale (fg_areal g / fg_coord g / M) (nth k col C0))) (fg_modes g) /\
    nth k (f_radii out) 0 = fg_areal g / M.
Proof.
  intros g M step n HM HE HC ET Hn HS. set (s := group_source g).
  assert (SP : 0 < step) by (unfold MinTimeStep in HS; lra).
  assert (NT : forall k, (k < n)%nat -> nth k (fg_times g) 0 = INR k * step).
  { intros k Hk. rewrite ET. rewrite (nth_indep _ 0 ((fun k => INR k * step) 0%nat)) by (rewrite map_length, seq_length; exact Hk). rewrite (map_nth (fun k => INR k * step)), seq_nth by exact Hk. reflexivity. }
  assert (LT : length (fg_times g) = n) by (rewrite ET, map_length, seq_length; reflexivity).
  assert (LC : clock false s = fg_times g) by reflexivity.
  assert (GAP : forall i j, (i < j < n)%nat -> nth i (fg_times g) 0 + step <= nth j (fg_times g) 0).
  { intros i j Hij. rewrite !NT by lia. assert (INR i + 1 <= INR j) by (rewrite <- S_INR; apply le_INR; lia). nra. }
  destruct (C58_reads false s M HM) as (f0 & out & HF); try (rewrite ?LC).
  - left. reflexivity.
  - intros E. rewrite E in LT. cbn in LT. lia.
  - rewrite LT. intros k Hk. specialize (GAP 0%nat k ltac:(lia)). lra.
  - intros _. split; [change (s_modes_t s) with (fg_times g); intros E; rewrite E in LT; cbn in LT; lia|]. left. intros i j Hij. change (s_modes_t s) with (fg_times g) in *. rewrite LT in Hij. specialize (GAP i j Hij). lra.
  - cbn. rewrite map_length. lia.
  - cbn. rewrite map_length. lia.
  - cbn. rewrite map_length, seq_length. lia.
  - cbn. lia.
  - exists f0, out. split; [exact HF|]. pose proof (HF (f0 + n)%nat ltac:(lia)) as HR.
    destruct (C58_samples _ _ _ _ _ HM HR) as (Ind & HI & L1 & L2 & L3 & _ & _ & _ & HSm). rewrite LC in *.
    rewrite C58_nothing_dropped in HI; [|rewrite LT; lia|rewrite LT; intros k Hk; specialize (GAP k (S k) ltac:(lia)); lra]. injection HI as <-. rewrite LT, seq_length in *. split; [exact L1|].
    intros k Hk. cbv zeta in HSm. destruct (HSm k ltac:(exact Hk)) as (A & B & D & _). rewrite seq_nth in A, B, D by exact Hk. cbn [Nat.add] in A, B, D.
    assert (AR : forall j, (j < n)%nat -> nth j (s_areal s) 0 = fg_areal g).
    { intros j Hj. cbn. rewrite (nth_indep _ 0 ((fun _ => fg_areal g) 0)) by (rewrite map_length; lia). rewrite (map_nth (fun _ : R => fg_areal g) (fg_times g) 0 j). reflexivity. }
    assert (NR : forall j, (j < n)%nat -> nth j (s_lapse s) 0 = fg_lapse g).
    { intros j Hj. cbn. rewrite (nth_indep _ 0 ((fun _ => fg_lapse g) 0)) by (rewrite map_length; lia). rewrite (map_nth (fun _ : R => fg_lapse g) (fg_times g) 0 j). reflexivity. }
    rewrite AR in * by exact Hk. split; [|split].
    + rewrite D.
      * rewrite (proper_constant _ _ _ _ (fg_lapse g) (fg_areal g)); [|intros j Hj; rewrite !seq_nth by lia; cbn [Nat.add]; split; [apply NR; lia|apply AR; lia]].
        rewrite !seq_nth by lia. cbn [Nat.add]. rewrite !NT by lia. cbn [INR]. f_equal. f_equal. unfold retarded. change (s_adm s) with (fg_energy g). pose proof (redshift_pos _ _ HE). field. lra.
      * intros j Hj. rewrite seq_nth by lia. cbn [Nat.add]. rewrite AR by lia. exact HE.
    + rewrite B by exact HC. change (s_coord s) with (fg_coord g). change (s_type s) with h. change (r_power h) with 1%nat. change (m_power h) with (-1)%Z. rewrite pow_1.
      unfold s, group_source. cbn [s_rows]. rewrite LT.
      set (F := fun k : nat => map (fun col : list C => nth k col C0) (fg_modes g)). rewrite (nth_indep _ [] (F 0%nat)) by (rewrite map_length, seq_length; exact Hk). rewrite (map_nth F), seq_nth by exact Hk. unfold F. cbn [Nat.add]. rewrite map_map.
      apply map_ext. intros col. f_equal. f_equal. cbn [powerRZ Pos.to_nat]. change (Pos.to_nat 1) with 1%nat. rewrite pow_1. reflexivity.
    + exact A.
Qed.
(** Without added terms, reading a group gives the asymptotic waveform at its retarded times in units of the mass, with the factor
    areal over coordinate radius and the noise that the file has instead of zeros. *)
Theorem C74_round_trip : forall spline fake a rs t cols n M, interpolates spline -> covariant spline -> coord_radii a = Ok rs -> NoDup rs ->
  fake (fk_t0 a) (fk_t1 a) (fk_dt a) (fk_ell_max a) None = Ok (t, cols) -> increasing t -> (4 <= length t)%nat -> (forall col, In col cols -> length col = length t) ->
  n = truncated (INR (length t) + fk_rmax a / fk_dt a) -> (20 <= n)%Z -> 0 < fk_lapse a -> (forall r, In r rs -> r <> 0%Z /\ 0 < 2 * fk_energy a < IZR r + fk_diff a) ->
  (fk_subleading a <= 0)%Z -> MinTimeStep < (fk_t1 a + fk_rmax a) / IZR (n - 1) -> M <> 0 ->
  exists f, create_fake spline fake a None = (Some f, Ok Datatypes.tt) /\ map fst f = rs /\
  forall i r, nth_error rs i = Some r -> exists g, nth_error f i = Some (r, Some g) /\ exists fuel0 out, (forall fuel, (fuel0 <= fuel)%nat -> read_finite fuel false (group_source g) M = Ok out) /\
    length (f_t out) = Z.to_nat n /\
    forall k, (k < Z.to_nat n)%nat -> let T := INR k * ((fk_t1 a + fk_rmax a) / IZR (n - 1)) in let u := retarded (fk_energy a) (fk_lapse a) (IZR r + fk_diff a) T in
      nth k (f_t out) None = Some (u / M) /\ length (nth k (f_rows out) []) = length cols /\
      forall j, (j < length cols)%nat -> exists fr fi, spline t (map re (nth j cols [])) = Ok fr /\ spline t (map im (nth j cols [])) = Ok fi /\
        nth j (nth k (f_rows out) []) None = Some (Cscale ((IZR r + fk_diff a) / IZR r / M) ((if inside t u then mkC (fr u) (fi u) else C0) + noise T)%C).
Proof.
  intros spline fake a rs t cols n M HT HA Er ND Ef HI H4 HC En H20 HN HR HS HD HM.
  destruct (C74_file spline fake a rs t cols n HT HA Er ND Ef HI H4 HC En H20 HN (fun r I => proj2 (HR r I))) as (f & all & E & Ef' & LA & NA & HG).
  exists f. split; [exact E|]. split; [exact Ef'|]. intros i r Hr. destruct (HG i r Hr) as (g & Eg & G1 & G2 & G3 & G4 & G5 & G6 & G7). exists g. split; [exact Eg|].
  destruct (HR r (nth_error_In _ _ Hr)) as [Hr0 HEr].
  assert (EA : all = map (fun k => INR k * ((fk_t1 a + fk_rmax a) / IZR (n - 1))) (seq 0 (Z.to_nat n))).
  { apply (nth_ext _ _ 0 0); [rewrite map_length, seq_length; exact LA|]. intros k Hk. rewrite NA by exact Hk. set (F := fun k : nat => INR k * ((fk_t1 a + fk_rmax a) / IZR (n - 1))).
    rewrite (nth_indep _ 0 (F 0%nat)) by (rewrite map_length, seq_length; lia). rewrite (map_nth F), seq_nth by lia. reflexivity. }
  destruct (C74_read g M ((fk_t1 a + fk_rmax a) / IZR (n - 1)) (Z.to_nat n)) as (f0 & out & HF & LO & HO); try assumption; try lia.
  { rewrite G3, G5. exact HEr. }
  { rewrite G2. intros X. apply Hr0. apply eq_IZR. exact X. }
  { rewrite G1. exact EA. }
  exists f0, out. split; [exact HF|]. split; [exact LO|]. intros k Hk T u. destruct (HO k Hk) as (A & B & _). rewrite G3, G4, G5 in A. split; [exact A|].
  rewrite B. split; [rewrite map_length; exact G6|]. intros j Hj. destruct (G7 j Hj) as (fr & fi & Sr & Si & _ & V).
  assert (EC : map (fun p : R * C => accumulated a (length t) (firstn i rs ++ [r]) (fst p) (snd p)) (combine t (nth j cols [])) = nth j cols []).
  { rewrite <- (map_snd_combine _ t (nth j cols [])) at 2 by (symmetry; apply HC; apply nth_In; exact Hj). apply map_ext. intros p. apply C74_no_terms. exact HS. }
  rewrite EC in Sr, Si. exists fr, fi. split; [exact Sr|]. split; [exact Si|].
  set (F := fun col : list C => Some (Cscale (fg_areal g / fg_coord g / M) (nth k col C0))). rewrite (nth_indep _ None (F [])) by (rewrite map_length; lia). rewrite (map_nth F). unfold F. rewrite V by lia. rewrite NA by lia. rewrite G2, G3. reflexivity.
Qed.

(** ** The hypotheses can be met. *)
Lemma lookup_covariant : covariant (fun xs ys => Ok (lookup xs ys)).
Proof.
  intros xs ys s b f Hs E. injection E as <-. eexists. split; [reflexivity|]. intros x. revert ys. induction xs as [|y xs IH]; intros ys; [reflexivity|]. destruct ys as [|z ys]; [reflexivity|].
  cbn [map lookup]. destruct (Req_EM_T (s * x + b) (s * y + b)), (Req_EM_T x y); try reflexivity; try (exfalso; nra). apply IH.
Qed.
Definition ex_fk (N n : Z) : fkargs := mkfk N 1 0 3 (/ 10) 100 200 n 2 1 1 1 1.
Definition ex_fake (t0 t1 dt : R) (ell_max : Z) (q : option R) : res (list R * list (list C)) := Ok ([0; 1; 2; 3], repeat [C1; C1; Ci; C1] 5).
Example C74_case : coord_radii (ex_fk 0 2) = Ok [100; 200]%Z /\ (forall r, In r [100; 200]%Z -> r <> 0%Z /\ 0 < 2 * 1 < IZR r + 1) /\
  truncated (INR 4 + 200 / / 10) = 2004%Z /\ MinTimeStep < (3 + 200) / IZR (2004 - 1) /\
  (truncated (fk_rmax (ex_fk 1 102)) - truncated (fk_rmin (ex_fk 1 102)) + 1 < fk_n (ex_fk 1 102))%Z.
Proof.
  assert (TR : forall z : Z, (0 <= z)%Z -> truncated (IZR z) = z).
  { intros z Hz. pose proof (truncated_floor (IZR z) (IZR_le 0 z Hz)) as [A B]. rewrite <- plus_IZR in B. apply lt_IZR in B. apply le_IZR in A. lia. }
  split.
  - unfold coord_radii. rewrite linspace_ok by (cbn; lia). cbn [rbind fk_rmin fk_rmax fk_n ex_fk]. change (Z.to_nat 2) with 2%nat. change (2 - 1)%Z with 1%Z. cbn [seq map INR]. set (x := truncated _). set (y := truncated _).
    assert (EX : x = 100%Z); [|assert (EY : y = 200%Z); [|rewrite EX, EY; reflexivity]]; unfold x, y.
    + transitivity (truncated (IZR 100)); [f_equal; field|apply TR; lia].
    + transitivity (truncated (IZR 200)); [f_equal; field|apply TR; lia].
  - split. { intros r I. cbn in I. destruct I as [<-|[<-|[]]]; (split; [lia|lra]). }
    split. { transitivity (truncated (IZR 2004)); [f_equal; cbn; field|apply TR; lia]. }
    split. { unfold MinTimeStep. change (2004 - 1)%Z with 2003%Z. lra. }
    cbn [fk_rmax fk_rmin fk_n ex_fk]. rewrite !TR by lia. lia.
Qed.
