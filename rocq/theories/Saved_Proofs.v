(** C09: the object returned by saving; C93: the RPXMB format. *)
From Coq Require Import String ZArith Reals List Bool Lia Lra.
From Verif Require Import Common Cplx Quat Times_Model Times_Proofs Modes_Model Tables_Model Numeric_Model Codec_Model Codec_Proofs
  Validity_Model Validity_Proofs H5_Model Double_Model Double_Proofs Paired_Model Paired_Proofs Sxs_Model Sxs_Proofs Saved_Model.
Import ListNotations.
Open Scope list_scope.

(** ** Words of different numbers *)
Open Scope Z_scope.
Lemma Fin_inj : forall a b, Fin a = Fin b -> a = b.
Proof. intros a b H. injection H as H. exact H. Qed.
Lemma unbits_parts : forall z x, 0 <= z < 2 ^ 64 -> unbits z = Fin x -> x <> 0%R ->
  exists s E M, (s = 0 \/ s = 2 ^ 63) /\ -1022 <= E <= 1023 /\ 0 < M < 2 ^ 53 /\ (2 ^ 52 <= M \/ E = -1022) /\
    z = s + ((E + 1022) * 2 ^ 52 + M) /\ x = (IZR ((if s =? 0 then 1 else -1) * M) * powerRZ 2 (E - 52))%R.
Proof.
  intros z x Hz H N. unfold unbits in H.
  change (2 ^ 52) with 4503599627370496 in *. change (2 ^ 53) with 9007199254740992 in *.
  change (2 ^ 63) with 9223372036854775808 in *. change (2 ^ 64) with 18446744073709551616 in *. change (2 ^ 11) with 2048 in *.
  set (e := (z / 4503599627370496) mod 2048) in *. set (f := z mod 4503599627370496) in *.
  assert (He : 0 <= e < 2048) by (apply Z.mod_pos_bound; lia).
  assert (Hf : 0 <= f < 4503599627370496) by (apply Z.mod_pos_bound; lia).
  set (s := if 9223372036854775808 <=? z then 9223372036854775808 else 0).
  assert (Zs : z = s + (e * 4503599627370496 + f)).
  { pose proof (Z.div_mod z 4503599627370496 ltac:(lia)) as D1. fold f in D1.
    pose proof (Z.div_mod (z / 4503599627370496) 2048 ltac:(lia)) as D2. fold e in D2.
    set (q := z / 4503599627370496 / 2048) in *. unfold s.
    assert (q = if 9223372036854775808 <=? z then 1 else 0).
    { destruct (Z.leb_spec 9223372036854775808 z); lia. }
    destruct (9223372036854775808 <=? z); lia. }
  assert (Ss : (if s =? 0 then 1 else -1) = (if 9223372036854775808 <=? z then -1 else 1)).
  { unfold s. destruct (9223372036854775808 <=? z); reflexivity. }
  exists s. destruct (e =? 2047) eqn:E1; [destruct (f =? 0), (9223372036854775808 <=? z); discriminate|].
  apply Z.eqb_neq in E1. destruct (Z.eqb_spec e 0) as [E0|E0]; apply Fin_inj in H.
  - exists (-1022), f. rewrite Ss. split; [unfold s; destruct (9223372036854775808 <=? z); auto|].
    split; [lia|]. split; [|split; [auto|split; [lia|symmetry; exact H]]].
    destruct (Z.eq_dec f 0) as [F0|]; [|lia]. exfalso. apply N. rewrite <- H, F0, Z.mul_0_r. simpl IZR. ring.
  - exists (e - 1023), (4503599627370496 + f). rewrite Ss. split; [unfold s; destruct (9223372036854775808 <=? z); auto|].
    split; [lia|]. split; [lia|]. split; [lia|]. split; [lia|]. rewrite <- H. f_equal. f_equal. lia.
Qed.
Lemma normal_unique : forall E1 M1 E2 M2, -1022 <= E1 -> 0 < M1 < 2 ^ 53 -> (2 ^ 52 <= M1 \/ E1 = -1022) ->
  -1022 <= E2 -> 0 < M2 < 2 ^ 53 -> (2 ^ 52 <= M2 \/ E2 = -1022) ->
  (IZR M1 * powerRZ 2 (E1 - 52) = IZR M2 * powerRZ 2 (E2 - 52))%R -> ~ E1 < E2.
Proof.
  intros E1 M1 E2 M2 H1 H2 H3 H4 H5 H6 H L.
  replace (E2 - 52) with ((E2 - E1) + (E1 - 52)) in H by lia. rewrite pow2_add, <- Rmult_assoc in H.
  pose proof (pow2_pos (E1 - 52)) as P. apply Rmult_eq_reg_r in H; [|lra].
  rewrite pow2_Z, <- mult_IZR in H by lia. apply eq_IZR in H.
  assert (2 ^ 1 <= 2 ^ (E2 - E1)) by (apply Z.pow_le_mono_r; lia).
  change (2 ^ 1) with 2 in *. change (2 ^ 52) with 4503599627370496 in *. change (2 ^ 53) with 9007199254740992 in *.
  assert (E2 <> -1022) by lia. assert (4503599627370496 <= M2) by lia. assert (4503599627370496 * 2 <= M2 * 2 ^ (E2 - E1)) by (apply Z.mul_le_mono_nonneg; lia). lia.
Qed.
(** Apart from zero, a finite number has only one word. *)
Theorem C09_one_word : forall z z' x, 0 <= z < 2 ^ 64 -> 0 <= z' < 2 ^ 64 -> unbits z = Fin x -> unbits z' = Fin x -> x <> 0%R -> z = z'.
Proof.
  intros z z' x Hz Hz' H H' N.
  destruct (unbits_parts z x Hz H N) as (s & E & M & A1 & A2 & A3 & A4 & A5 & A6).
  destruct (unbits_parts z' x Hz' H' N) as (s' & E' & M' & B1 & B2 & B3 & B4 & B5 & B6).
  pose proof (pow2_pos (E - 52)) as P. pose proof (pow2_pos (E' - 52)) as P'.
  assert (Q : (0 < IZR M)%R) by (apply IZR_lt; lia). assert (Q' : (0 < IZR M')%R) by (apply IZR_lt; lia).
  assert (T : (0 < IZR M * powerRZ 2 (E - 52))%R) by (apply Rmult_lt_0_compat; auto).
  assert (T' : (0 < IZR M' * powerRZ 2 (E' - 52))%R) by (apply Rmult_lt_0_compat; auto).
  rewrite mult_IZR, Rmult_assoc in A6, B6.
  assert (SS : s = s' /\ (IZR M * powerRZ 2 (E - 52) = IZR M' * powerRZ 2 (E' - 52))%R).
  { assert (G : (2 ^ 63 =? 0) = false) by reflexivity.
    destruct A1 as [-> | ->], B1 as [-> | ->]; try rewrite G in A6; try rewrite G in B6; try rewrite Z.eqb_refl in A6; try rewrite Z.eqb_refl in B6; cbv iota in A6, B6; (split; [try reflexivity; exfalso|]); lra. }
  destruct SS as [<- W].
  assert (EE : E = E').
  { destruct (Z.lt_trichotomy E E') as [L|[|L]]; auto; exfalso.
    - apply (normal_unique E M E' M'); auto; lia.
    - apply (normal_unique E' M' E M); auto; lia. }
  subst E'. apply Rmult_eq_reg_r in W; [|lra]. apply eq_IZR in W. lia.
Qed.

(** ** The object returned by corotating_paired_xor.save *)
Close Scope Z_scope.
Section Returned.
  Variable qlog : quat -> vec3.
  Variable qexp : vec3 -> quat.
  Variable to_corotating : hwave -> res (hwave * list vec3).
  Variable size_of : pfile -> Z.
  Variable as_quat_array : arr -> option attr.
  Variable diff_nd : arr -> res bool.
  Notation save := (save qlog to_corotating size_of).
  Notation load := (load qexp size_of as_quat_array diff_nd).

  Lemma write_sets_time : forall w t m l f, write_sets w t m l = Ok f -> p_time f = t.
  Proof.
    intros w t m l f H. unfold write_sets in H. destruct (Nat.eqb (length (w_times w)) 0); [discriminate|].
    destruct l; [injection H as <-; reflexivity|]. destruct (Nat.ltb _ _); [discriminate|]. injection H as <-. reflexivity.
  Qed.
  Lemma save_time : forall w tol lf f j, tol <> 0%R -> w_frameType w = 4%Z -> save w tol lf = Ok (f, j) ->
    p_time f = spec_xor (map (fun x => bits (Fin x)) (w_times w)).
  Proof.
    intros w tol lf f j T F H. unfold Paired_Model.save in H. destruct (Req_EM_T tol 0) as [|_]; [contradiction|].
    rewrite F in H. cbn [Z.eqb Pos.eqb rbind negb] in H. rewrite F in H. cbn [Z.eqb Pos.eqb rbind negb] in H.
    do 2 (apply rbind_ok in H; destruct H as (? & _ & H)).
    rewrite xor_timeseries_eq in H. cbn [rbind] in H.
    do 2 (apply rbind_ok in H; destruct H as (? & _ & H)).
    apply rbind_ok in H. destruct H as (f' & W & H). apply rbind_ok in H. destruct H as (j' & _ & H).
    injection H as <- _. eapply write_sets_time; eauto.
  Qed.

  (** With zero tolerance [save] returns times and modes as they were given. *)
  Theorem C09_returned_zero_tolerance : forall w lf f j, Forall double (w_times w) -> save w 0 lf = Ok (f, j) ->
    returned_times f = map Fin (w_times w).
  Proof.
    intros w lf f j D H. unfold Paired_Model.save in H. destruct (Req_EM_T 0 0) as [_|]; [|contradiction]. cbv zeta in H.
    apply rbind_ok in H. destruct H as (f' & W & H). apply rbind_ok in H. destruct H as (j' & _ & H). injection H as <- _.
    unfold returned_times. rewrite (write_sets_time _ _ _ _ _ W), map_map. apply map_ext_in. intros x Hx.
    apply C09_words_of_doubles. rewrite Forall_forall in D. auto.
  Qed.
  (** Otherwise the object returned has the encoded times: three or more increasing times are never those
      of the waveform that was saved. *)
  Theorem C09_returned_refuted : forall w tol lf f j, tol <> 0%R -> w_frameType w = 4%Z ->
    strictly_up (w_times w) -> Forall double (w_times w) -> (3 <= length (w_times w))%nat -> save w tol lf = Ok (f, j) ->
    returned_times f <> map Fin (w_times w).
  Proof.
    intros w tol lf f j T F U D L H. unfold returned_times. rewrite (save_time w tol lf f j T F H).
    destruct (w_times w) as [|a [|b [|c r]]] eqn:E; cbn [length] in L; try lia.
    assert (AB : (a < b)%R) by (apply (U 0 1)%nat; cbn; lia). assert (BC : (b < c)%R) by (apply (U 1 2)%nat; cbn; lia).
    rewrite Forall_forall in D.
    destruct (C09_words_of_doubles a) as [Wa Va]; [apply D; cbn; auto|].
    destruct (C09_words_of_doubles b) as [Wb Vb]; [apply D; cbn; auto|].
    destruct (C09_words_of_doubles c) as [Wc Vc]; [apply D; cbn; auto|].
    cbn [map spec_xor spec_delta]. intros Q. assert (Q1 := f_equal (fun l => nth 1 l NaN) Q). assert (Q2 := f_equal (fun l => nth 2 l NaN) Q). clear Q. cbn [nth] in Q1, Q2.
    assert (W0 : bits (Fin 0) = 0%Z) by (cbn [bits]; destruct (Req_EM_T 0 0); [reflexivity|contradiction]).
    destruct (Req_EM_T b 0) as [B0|B0].
    { subst b. rewrite W0, Z.lxor_0_r, Va in Q1. apply Fin_inj in Q1. lra. }
    destruct (Req_EM_T c 0) as [C0|C0].
    { subst c. rewrite W0, Z.lxor_0_r, Vb in Q2. apply Fin_inj in Q2. lra. }
    assert (X : Z.lxor (bits (Fin b)) (bits (Fin c)) = bits (Fin c)).
    { apply (C09_one_word _ _ c); auto. apply (lxor_range 64); lia. }
    assert (Y : bits (Fin b) = 0%Z).
    { apply (f_equal (fun z => Z.lxor z (bits (Fin c)))) in X. rewrite Z.lxor_assoc, Z.lxor_nilpotent, Z.lxor_0_r in X. exact X. }
    rewrite Y in Vb. rewrite <- W0 in Vb. destruct (C09_words_of_doubles 0 double_0) as [_ V0]. rewrite V0 in Vb. apply Fin_inj in Vb. lra.
  Qed.
  (** Whatever the flags of the waveform saved, the waveform loaded has units scaled out. *)
  Theorem C09_scaling_refuted : forall ignore f j w', load ignore f j = Ok w' -> w_r w' = true /\ w_m w' = true /\ w_frameType w' = 4%Z.
  Proof.
    intros ignore f j w' H. unfold Paired_Model.load in H. apply rbind_ok in H. destruct H as (dt & _ & H).
    destruct (negb _); [discriminate|]. do 5 (apply rbind_ok in H; destruct H as (? & _ & H)). cbv zeta in H.
    do 3 (apply rbind_ok in H; destruct H as (? & _ & H)). injection H as <-. auto.
  Qed.
End Returned.

(** ** The RPXMB format *)
Section Rpxmb_thms.
  Variables disk out json log kw : Type.
  Variable default_widths : list Z.
  Variable sxs_save : meta -> soptions log -> disk -> res out * disk.
  Variable sxs_load : string -> loptions kw -> disk -> res (meta * json * log).
  Variable bare : bool.
  Variable added : list string.
  Variable fresh : nat.
  Notation save := (save_rpxmb disk out log sxs_save).
  Notation load := (load_rpxmb disk json log kw sxs_load bare added fresh).

  (** What a result of [load] contains. *)
  Definition wave_of (r : result json log) : rwave json log := match r with Alone _ _ w => w | Pair _ _ w _ => w end.

  (** [load] returns the converted waveform with the JSON data and the logarithm of the frame as attributes:
      by itself if the inertial frame was asked for, together with that logarithm otherwise. *)
  Theorem C93_load : forall file o d st r st', load file o d st = Ok (r, st') ->
    exists m w j l, sxs_load file o d = Ok (m, j, l) /\ from_sxs bare added fresh m st = Ok (w, st') /\
      r_wave _ _ (wave_of r) = w /\ r_json _ _ (wave_of r) = j /\ r_log _ _ (wave_of r) = l /\
      (l_inertial _ o = true -> r = Alone _ _ (wave_of r)) /\ (l_inertial _ o = false -> r = Pair _ _ (wave_of r) l).
  Proof.
    intros file o d st r st' H. unfold load_rpxmb in H.
    destruct (sxs_load file o d) as [[[m j] l]|e]; [|discriminate]. cbn [rbind] in H.
    destruct (from_sxs bare added fresh m st) as [[w st1]|e] eqn:F; [|discriminate]. cbn [rbind] in H. cbv zeta in H.
    injection H as <- <-. exists m, w, j, l. destruct (l_inertial kw o); cbn; repeat split; auto; discriminate.
  Qed.
  (** Without keywords: validation failures are errors, checksums are verified, and a pair is returned. *)
  Theorem C93_load_defaults : forall file d st,
    l_ignore _ (load_defaults kw) = false /\ l_md5 _ (load_defaults kw) = true /\
    (forall r st', load file (load_defaults kw) d st = Ok (r, st') -> r = Pair _ _ (wave_of r) (r_log _ _ (wave_of r))) /\
    (forall e, sxs_load file (mkloptions _ false true false []) d = Err e -> load file (load_defaults kw) d st = Err e).
  Proof.
    intros file d st. split; [reflexivity|]. split; [reflexivity|]. split.
    - intros r st' H. destruct (C93_load _ _ _ _ _ _ H) as (m & w & j & l & _ & _ & _ & _ & E & _ & P). rewrite E. apply P. reflexivity.
    - intros e H. unfold load_rpxmb, load_defaults. rewrite H. reflexivity.
  Qed.
  (** Errors of the decoder and of the conversion are passed on. *)
  Theorem C93_load_failures : forall file o d st,
    (forall e, sxs_load file o d = Err e -> load file o d st = Err e) /\
    (forall m j l e, sxs_load file o d = Ok (m, j, l) -> from_sxs bare added fresh m st = Err e -> load file o d st = Err e).
  Proof.
    intros file o d st. unfold load_rpxmb. split.
    - intros e ->. reflexivity.
    - intros m j l e -> E. cbn [rbind]. rewrite E. reflexivity.
  Qed.
  (** A waveform whose frame fits neither is refused before anything is written; so is an unknown frame type. *)
  Theorem C93_refused : forall w o d,
    (frame_size (s_frame w) <> 0 -> frame_size (s_frame w) <> 1 -> frame_size (s_frame w) <> length (s_t w) ->
       (0 <= s_dtype w <= 10)%Z -> (0 <= s_ftype w <= 4)%Z -> save w o d = (Err ValueError, d))%nat /\
    (forall e, to_sxs w = Err e -> save w o d = (Err e, d)).
  Proof.
    intros w o d. split.
    - intros H0 H1 H2 Hd Hf. unfold save_rpxmb, to_sxs.
      assert (S : exists sp, spin_weight (s_dtype w) = Ok sp).
      { assert (D : (s_dtype w = 0 \/ s_dtype w = 1 \/ s_dtype w = 2 \/ s_dtype w = 3 \/ s_dtype w = 4 \/ s_dtype w = 5 \/
          s_dtype w = 6 \/ s_dtype w = 7 \/ s_dtype w = 8 \/ s_dtype w = 9 \/ s_dtype w = 10)%Z) by lia.
        decompose [or] D; match goal with H : s_dtype w = _ |- _ => rewrite H end; eexists; reflexivity. }
      destruct S as [sp ->]. cbn [rbind].
      rewrite (name_at_ok DataNames) by (cbn [length DataNames]; lia). cbn [rbind].
      rewrite (name_at_ok FrameNames) by (cbn [length FrameNames]; lia). cbn [rbind]. unfold frame_out.
      destruct (Nat.eqb_spec (frame_size (s_frame w)) 1); [contradiction|].
      destruct (Nat.eqb_spec (frame_size (s_frame w)) (length (s_t w))); [contradiction|].
      destruct (Nat.ltb_spec 0 (frame_size (s_frame w))); [reflexivity|lia].
    - intros e H. unfold save_rpxmb. rewrite H. reflexivity.
  Qed.

  (** Without keywords: no file name, an existing file is overwritten, tolerance 1e-10, no logarithm of the frame. *)
  Theorem C93_save_defaults : forall w d m, to_sxs w = Ok m ->
    exists o, save w (save_defaults log default_widths) d = sxs_save m o d /\ o_name _ o = None /\ o_mode _ o = "w"%string /\     (o_tol _ o * 10000000000 = 1)%R /\ o_log _ o = None /\ o_widths _ o = default_widths.
  Proof.
    intros w d m H. exists (save_defaults log default_widths). unfold save_rpxmb. rewrite H. repeat split. cbn [save_defaults o_tol]. lra.
  Qed.

  (** Decoding gives the object back, with data and frames as close as the format makes them. *)
  Definition decoded_as (close : list C -> list C -> Prop) (frames : list quat) (m m' : meta) : Prop :=
    x_t m' = x_t m /\ x_dtype m' = x_dtype m /\ x_ftype m' = x_ftype m /\ x_min m' = x_min m /\ x_max m' = x_max m /\
    x_frame m' = Some (A2 frames) /\ length frames = length (x_t m) /\ Forall2 close (x_data m) (x_data m').
  (** Then so do [save] and [load] together. *)
  Theorem C93_round_trip : forall (close : list C -> list C -> Prop) w l0 frames o d x d' file lo st,
    (forall a b, close a b -> length a = length b) ->
    valid w = true -> s_frame w = F1 l0 -> (1 < length (s_t w))%nat -> (0 <= s_ftype w <= 4)%Z -> (0 <= s_dtype w <= 10)%Z ->
    (forall m, to_sxs w = Ok m -> sxs_save m o d = (Ok x, d') /\
       exists m' j l, sxs_load file lo d' = Ok (m', j, l) /\ decoded_as close frames m m') ->
    save w o d = (Ok x, d') /\
    exists r st', load file lo d' st = Ok (r, st') /\ let w' := r_wave _ _ (wave_of r) in
      s_t w' = s_t w /\ s_dtype w' = s_dtype w /\ s_ftype w' = s_ftype w /\ s_min w' = s_min w /\ s_max w' = s_max w /\
      s_frame w' = F1 frames /\ Forall2 close (s_data w) (s_data w').
  Proof.
    intros close w l0 frames o d x d' file lo st CL V F N Hf Hd H.
    destruct (C62_round_trip bare added fresh w st l0 V F Hf Hd) as (m & w1 & st1 & E1 & E2 & (S1 & S2 & S3 & S4 & S5 & S6 & S7 & S8 & S9 & S10) & _).
    destruct (H m E1) as (W & m' & j & l & L & (D1 & D2 & D3 & D4 & D5 & D6 & D7 & D8)).
    split; [unfold save_rpxmb; rewrite E1; exact W|].
    unfold from_sxs in E2. destruct (history_in fresh m st) as [hh st2] eqn:EH.
    destruct (frame_in bare (meta_frame m) (length (x_t m))) as [fr|] eqn:EF; [|discriminate]. cbn [rbind] in E2.
    match type of E2 with context [valid ?y] => destruct (valid y) eqn:V1; [|discriminate] end. injection E2 as <- <-.
    cbn [s_t s_frame s_data s_vh s_ftype s_dtype s_r s_m s_min s_max] in S1, S2, S3, S4, S5, S6, S7, S8, S9, S10.
    assert (NF : length frames <> 1%nat) by (rewrite D7, S1; lia).
    unfold load_rpxmb. rewrite L. cbn [rbind]. unfold from_sxs. destruct (history_in fresh m' st) as [h3 st3].
    unfold meta_frame. rewrite D6, frame_in_A2 by exact NF. rewrite D1, D7, Nat.eqb_refl. cbn [rbind].
    match goal with |- context [valid ?y] => assert (V2 : valid y = true) end.
    { unfold valid in V1 |- *. cbn [s_min s_max s_data s_t s_frame] in V1 |- *.
      rewrite !andb_true_iff in V1. destruct V1 as [[[[[[A1 A2] A3] A4] A5] A6] A7].
      rewrite D4, D5, A1, A2, A4. cbn [is_vector_of_rotors frame_size]. rewrite D7, Nat.eqb_refl, orb_true_r.
      rewrite <- (Forall2_length _ _ _ _ _ D8), A7. rewrite !andb_true_r. cbn [andb].
      rewrite forallb_forall in A3 |- *. clear -A3 D8 CL. induction D8 as [|a b la lb AB D8 IH]; [intros y []|].
      intros y [<-|Hy].
      - rewrite <- (CL _ _ AB). apply A3. left; reflexivity.
      - apply IH; [|exact Hy]. intros; apply A3; right; auto. }
    rewrite V2. cbn [rbind]. eexists. eexists. split; [reflexivity|].
    destruct (l_inertial kw lo); cbn [wave_of r_wave s_t s_dtype s_ftype s_min s_max s_frame s_data];
      rewrite D2, D3, D4, D5, S1, S5, S6, S9, S10, <- S3; repeat split; auto.
  Qed.
  (** Radii of extrapolation, translations and boosts of the waveform saved are not attributes of the one loaded. *)
  Theorem C93_attributes_lost_refuted : forall file o d st r st', load file o d st = Ok (r, st') ->
    let w := r_wave _ _ (wave_of r) in s_radii w = None /\ s_trans w = None /\ s_boost w = None.
  Proof.
    intros file o d st r st' H. destruct (C93_load _ _ _ _ _ _ H) as (m & w & j & l & _ & E & W & _). cbv zeta. rewrite W.
    eapply C62_attributes_lost_refuted; eauto.
  Qed.
End Rpxmb_thms.

(** A codec that keeps the object in memory meets the hypotheses of the round trip. *)
Definition memory_save (m : meta) (o : soptions unit) (d : option meta) : res unit * option meta := (Ok Datatypes.tt, Some m).
Definition memory_load (file : string) (o : loptions unit) (d : option meta) : res (meta * unit * unit) :=
  match d with Some m => Ok (m, Datatypes.tt, Datatypes.tt) | None => Err OSError end.
Definition two_times : swave := mkswave [0; 1]%R (F1 [q1; mkq 0 1 0 0]) [[C1; C0; Ci]; [C0; C1; C1]] 0 [] 4 7 true false 1 1 None None None.
Lemma two_times_valid : valid two_times = true.
Proof.
  apply C62_valid. cbn [two_times s_min s_max s_data s_t s_frame frame_size]. split; [lia|]. split; [lia|]. split; [|split; [|split; [|split]]].
  - intros r [<-|[<-|[]]]; reflexivity.
  - intros [|i] Hi; cbn in Hi |- *; [lra|lia].
  - discriminate.
  - right. right. reflexivity.
  - reflexivity.
Qed.
Example C93_case : valid two_times = true /\ (forall m, to_sxs two_times = Ok m ->
    memory_save m (save_defaults unit []) None = (Ok Datatypes.tt, Some m) /\
    exists m' j l, memory_load "w.h5" (load_defaults unit) (Some m) = Ok (m', j, l) /\ decoded_as eq [q1; mkq 0 1 0 0] m m') /\
  exists m, to_sxs two_times = Ok m.
Proof.
  split; [exact two_times_valid|]. split; [|eexists; reflexivity].
  intros m H. split; [reflexivity|]. exists m, Datatypes.tt, Datatypes.tt. split; [reflexivity|].
  injection H as <-. unfold decoded_as. cbn. repeat split; auto.
Qed.
(** Three times to which the refutation of the returned object applies. *)
Example C09_case_returned : strictly_up [1; 2; 3]%R /\ Forall double [1; 2; 3]%R /\ (3 <= length [1; 2; 3]%R)%nat.
Proof.
  split; [|split; [|cbn; lia]].
  - intros i j Hij. destruct i as [|[|[|i]]], j as [|[|[|j]]]; cbn in Hij |- *; try lia; lra.
  - repeat constructor; [apply (double_Z 1)|apply (double_Z 2)|apply (double_Z 3)]; reflexivity.
Qed.
