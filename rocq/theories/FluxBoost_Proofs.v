(** C41: boost flux, all fluxes together, rejected inputs, examples. *)
From Coq Require Import Reals ZArith List Bool Lia Lra Psatz.
From Verif Require Import Common Cplx Modes_Model Modes_Proofs Modal_Model Modal_Proofs Ladder_Proofs Flux_Model Flux_Proofs FluxOps_Proofs FluxBound_Proofs FluxMain_Proofs.
Import ListNotations.
Open Scope Z_scope.

Section Boost.
Variable intersection : list R -> list R -> res (list R).
Variable interpolate : list R -> list (list C) -> list R -> list (list C).
Variable ddot : list R -> list (list C) -> list (list C).
Variable times_eqb : list R -> list R -> bool.
Hypothesis times_eqb_ok : forall a b, times_eqb a b = true <-> a = b.
Hypothesis ddot_shape : forall t rows n, Forall (fun row => length row = n) rows ->
  length (ddot t rows) = length rows /\ Forall (fun row => length row = n) (ddot t rows).
Notation expect' := (expect intersection interpolate times_eqb).
Notation boost' := (boost_flux intersection interpolate ddot times_eqb).
Notation momentum' := (momentum_flux intersection interpolate ddot times_eqb).
Notation angular' := (angular_momentum_flux intersection interpolate ddot times_eqb).
Notation poincare' := (poincare_fluxes intersection interpolate ddot times_eqb).

(** ** eth and ethbar of a waveform *)
Lemma map_res_ok : forall A B (f : A -> res B) (P : A -> B -> Prop) l, (forall x, In x l -> exists y, f x = Ok y /\ P x y) ->
  exists ys, map_res f l = Ok ys /\ Forall2 P l ys.
Proof.
  induction l as [|x l IH]; intros H; cbn [map_res]; [eauto|]. destruct (H x (or_introl eq_refl)) as (y & E & Hy). rewrite E. cbn [rbind].
  destruct IH as (ys & E' & F); [intros; apply H; right; auto|]. rewrite E'. cbn [rbind]. eauto.
Qed.
Lemma with_eth_ok : forall o w, o <> OpBad -> fwf w ->
  exists e, with_eth o w = Ok e /\ fwf e /\ same_shape e w /\
    forall t l m, valid (f_lo w) (f_hi w) l m -> fm e t l m = (RtoC (single 1 l o (f_spin w)) * fm w t l m)%C.
Proof.
  intros o w Ho Hw. pose proof Hw as (HL & Ht & HF). unfold with_eth.
  destruct (map_res_ok _ _ (apply_eth_row [o] (f_spin w) (f_lo w) (f_hi w) conv_np)
     (fun row row' => has_modes (f_lo w) (f_hi w) row' (fun l m => Cscale (word 1 l [o] (f_spin w)) (mode (f_lo w) row l m))) (f_rows w)) as (rows & E & F2).
  { intros row Hin. rewrite Forall_forall in HF. apply (C20_apply_eth (f_lo w) (f_hi w) (proj1 HL) [o] (f_spin w) 1 row (mode (f_lo w) row)).
    - lra.
    - constructor; auto.
    - apply has_modes_mode; [lia|]. apply HF; auto. }
  rewrite E. cbn [rbind]. eexists. split; [reflexivity|]. unfold fwf, same_shape, fm. cbn [f_lo f_hi f_t f_rows f_spin].
  assert (LR : length rows = length (f_rows w)) by (clear - F2; induction F2; cbn; auto).
  repeat split; auto; try lia.
  - clear - F2. induction F2; constructor; auto. apply H.
  - intros t l m Hv. revert F2. clear - Hv HL. intros F2. revert t. induction F2 as [|row row' rs rs' HM F2 IH]; intros t.
    + destruct t; cbn [nth]; unfold mode; destruct (Z.to_nat (LM_index l m (f_lo w))); cbn; cx; ring.
    + destruct t; cbn [nth]; [|apply IH]. rewrite (has_modes_eq (f_lo w) (f_hi w) _ _ l m HM Hv). cbn [word weight_after fold_right].
      destruct (mode (f_lo w) row l m). cx; cbn; ring.
Qed.

(** ** One direction *)
Definition bk (a b : fwave) (dm : Z) (val : Z -> Z -> Z -> R) (t : nat) : C := bra_ket (fm a t) (fm b t) (coupled (f_lo a) (f_hi a) dm val).
Definition boost_at (h d eh bh ed bd : fwave) (dm : Z) (chi : Z -> Z -> Z -> Z -> R) (ech ce : Z -> Z -> Z -> R) (t : nat) : C :=
  boost_sum (nth t (f_t h) 0%R) (bk bd bh dm (chi (-3)) t) (bk ed eh dm (chi (-1)) t) (bk d h dm (chi (-2)) t)
    (bk bh bd dm (chi (-3)) t) (bk eh ed dm (chi (-1)) t) (bk h d dm (chi (-2)) t) (bk d d dm (chi (-2)) t)
    (bk ed h dm ech t) (bk h ed dm ce t).

Lemma nine_map : forall t n (f1 f2 f3 f4 f5 f6 f7 f8 f9 : nat -> C),
  nine t [map f1 (seq 0 n); map f2 (seq 0 n); map f3 (seq 0 n); map f4 (seq 0 n); map f5 (seq 0 n); map f6 (seq 0 n); map f7 (seq 0 n); map f8 (seq 0 n); map f9 (seq 0 n)]
  = map (fun i => boost_sum (nth i t 0%R) (f1 i) (f2 i) (f3 i) (f4 i) (f5 i) (f6 i) (f7 i) (f8 i) (f9 i)) (seq 0 n).
Proof.
  intros. unfold nine. rewrite map_length, seq_length. apply map_ext_in. intros i Hi. apply in_seq in Hi.
  assert (G : forall f : nat -> C, nth i (map f (seq 0 n)) C0 = f i).
  { intros f. rewrite (nth_indep _ C0 (f O)) by (rewrite map_length, seq_length; lia). rewrite map_nth. rewrite seq_nth by lia. reflexivity. }
  rewrite !G. reflexivity.
Qed.

Lemma same_sym : forall a b, same_shape a b -> same_shape b a.
Proof. intros a b (H1 & H2 & H3 & H4). repeat split; auto. Qed.
Lemma same_trans : forall a b c, same_shape a b -> same_shape b c -> same_shape a c.
Proof. intros a b c (H1 & H2 & H3 & H4) (G1 & G2 & G3 & G4). repeat split; congruence. Qed.

Lemma terms_ok : forall h d eh bh ed bd dm Chi Ech Ce chi ech ce,
  fwf h -> fwf d -> fwf eh -> fwf bh -> fwf ed -> fwf bd ->
  same_shape d h -> same_shape eh h -> same_shape bh h -> same_shape ed h -> same_shape bd h -> 1 <= f_hi h -> Z.abs dm <= 1 ->
  (forall s lo hi, Chi s lo hi = Ok (coupled lo hi dm (chi s))) -> (forall lo hi, Ech lo hi = Ok (coupled lo hi dm ech)) -> (forall lo hi, Ce lo hi = Ok (coupled lo hi dm ce)) ->
  exists l, boost_terms intersection interpolate times_eqb Chi Ech Ce h d eh bh ed bd = Ok l /\
    nine (f_t h) l = map (boost_at h d eh bh ed bd dm chi ech ce) (seq 0 (length (f_t h))).
Proof.
  intros h d eh bh ed bd dm Chi Ech Ce chi ech ce Wh Wd Weh Wbh Wed Wbd Sd Seh Sbh Sed Sbd H1 Hdm EC EE ECe.
  assert (X : forall a b M val, fwf a -> fwf b -> same_shape a h -> same_shape b h -> (forall lo hi, M lo hi = Ok (coupled lo hi dm val)) ->
    expect' a M b = Ok (map (bk a b dm val) (seq 0 (length (f_t h))))).
  { intros a b M val Wa Wb Sa Sb EM. pose proof Sa as (_ & La & Ha & Ta). pose proof Wa as (La' & _).
    rewrite (expect_ok intersection interpolate times_eqb times_eqb_ok a b M (coupled (f_lo a) (f_hi a) dm val)); auto.
    - rewrite Ta. reflexivity.
    - apply (same_trans a h b); auto. apply same_sym; auto.
    - lia.
    - apply coupled_nonempty; lia.
    - apply coupled_inside. }
  assert (Sh : same_shape h h) by (repeat split).
  unfold boost_terms.
  rewrite (X bd bh _ (chi (-3))) by auto. cbn [rbind]. rewrite (X ed eh _ (chi (-1))) by auto. cbn [rbind]. rewrite (X d h _ (chi (-2))) by auto. cbn [rbind].
  rewrite (X bh bd _ (chi (-3))) by auto. cbn [rbind]. rewrite (X eh ed _ (chi (-1))) by auto. cbn [rbind]. rewrite (X h d _ (chi (-2))) by auto. cbn [rbind].
  rewrite (X d d _ (chi (-2))) by auto. cbn [rbind]. rewrite (X ed h _ ech) by auto. cbn [rbind]. rewrite (X h ed _ ce) by auto. cbn [rbind].
  eexists. split; [reflexivity|]. rewrite nine_map. reflexivity.
Qed.

(** Exchanging the two waveforms and the sign of the direction gives complex conjugates. *)
Lemma bk_conj : forall a b dm val val' k t, fwf a -> same_shape b a -> Z.abs dm <= 1 ->
  (forall l j m, 0 <= l -> 0 <= j -> val' l j (m + dm) = (k * val j l m)%R) ->
  bk b a (- dm) val' t = (RtoC k * Conj (bk a b dm val t))%C.
Proof.
  intros a b dm val val' k t Wa (_ & L & H & _) Hd HV. unfold bk. rewrite L, H. pose proof Wa as (Ha & _).
  apply (adjoint (f_lo a) (f_hi a) (f_hi a + 2)); try lia. intros l j m Hv Hv' _. unfold valid in *. apply HV; lia.
Qed.
Lemma boost_conj : forall h d eh bh ed bd dm chi chi' ech ech' ce ce' t,
  fwf h -> fwf d -> fwf eh -> fwf bh -> fwf ed -> fwf bd ->
  same_shape d h -> same_shape eh h -> same_shape bh h -> same_shape ed h -> same_shape bd h -> Z.abs dm <= 1 ->
  (forall s l j m, 0 <= l -> 0 <= j -> chi' s l j (m + dm) = chi s j l m) ->
  (forall l j m, 0 <= l -> 0 <= j -> ce' l j (m + dm) = (-1 * ech j l m)%R) ->
  (forall l j m, 0 <= l -> 0 <= j -> ech' l j (m + dm) = (-1 * ce j l m)%R) ->
  boost_at h d eh bh ed bd (- dm) chi' ech' ce' t = Conj (boost_at h d eh bh ed bd dm chi ech ce t).
Proof.
  intros h d eh bh ed bd dm chi chi' ech ech' ce ce' t Wh Wd Weh Wbh Wed Wbd Sd Seh Sbh Sed Sbd Hdm EC ECe EEc.
  assert (T : forall a b, same_shape a h -> same_shape b h -> same_shape b a) by (intros a b Ha Hb; apply (same_trans b h a); auto; apply same_sym; auto).
  assert (Sh : same_shape h h) by (repeat split).
  assert (EC1 : forall s l j m, 0 <= l -> 0 <= j -> chi' s l j (m + dm) = (1 * chi s j l m)%R) by (intros; rewrite EC by auto; ring).
  unfold boost_at.
  rewrite (bk_conj bh bd dm (chi (-3)) (chi' (-3)) 1) by auto. rewrite (bk_conj eh ed dm (chi (-1)) (chi' (-1)) 1) by auto. rewrite (bk_conj h d dm (chi (-2)) (chi' (-2)) 1) by auto.
  rewrite (bk_conj bd bh dm (chi (-3)) (chi' (-3)) 1) by auto. rewrite (bk_conj ed eh dm (chi (-1)) (chi' (-1)) 1) by auto. rewrite (bk_conj d h dm (chi (-2)) (chi' (-2)) 1) by auto.
  rewrite (bk_conj d d dm (chi (-2)) (chi' (-2)) 1) by (auto; repeat split).
  rewrite (bk_conj h ed dm ce ech' (-1)) by auto. rewrite (bk_conj ed h dm ech ce' (-1)) by auto.
  unfold boost_sum.
  destruct (bk bh bd dm (chi (-3)) t), (bk eh ed dm (chi (-1)) t), (bk h d dm (chi (-2)) t), (bk bd bh dm (chi (-3)) t), (bk ed eh dm (chi (-1)) t),
    (bk d h dm (chi (-2)) t), (bk d d dm (chi (-2)) t), (bk h ed dm ce t), (bk ed h dm ech t).
  apply C_eq; cbn; ring.
Qed.
Lemma chi_z_sym' : forall s l j m, 0 <= l -> 0 <= j -> eth_chi_z_val s l j m = (-1 * ethbar_chi_z_val s j l m)%R.
Proof. intros. rewrite (chi_z_sym s j l m) by auto. ring. Qed.
Lemma chi_pm_sym' : forall s sign l j m, 0 <= l -> 0 <= j -> sign = 1 \/ sign = -1 ->
  eth_chi_pm_val s (- sign) l j (m + sign) = (-1 * ethbar_chi_pm_val s sign j l m)%R.
Proof.
  intros s sign l j m Hl Hj Hs. assert (H := chi_pm_sym s (- sign) j l (m + sign) Hj Hl ltac:(lia) ltac:(lia)).
  rewrite Z.opp_involutive in H. replace (m + sign + - sign) with m in H by ring. rewrite H. ring.
Qed.

Definition zdir h d eh bh ed bd t := boost_at h d eh bh ed bd 0 p_z_val (eth_chi_z_val (-2)) (ethbar_chi_z_val (-2)) t.
Definition pdir h d eh bh ed bd t := boost_at h d eh bh ed bd 1 (fun s => p_pm_val s 1) (eth_chi_pm_val (-2) 1) (ethbar_chi_pm_val (-2) 1) t.

Lemma boost_eval : forall h d eh bh ed bd, fwf h -> fwf d -> f_type h = Th -> f_type d = Thdot -> same_shape d h -> 1 <= f_hi h ->
  with_eth Eth h = Ok eh -> with_eth Ethbar h = Ok bh -> with_eth Eth d = Ok ed -> with_eth Ethbar d = Ok bd ->
  boost' h (Some d) = Ok (map (fun t => ((- re (pdir h d eh bh ed bd t) / (32 * PI))%R, (- im (pdir h d eh bh ed bd t) / (32 * PI))%R, (- re (zdir h d eh bh ed bd t) / (32 * PI))%R)) (seq 0 (length (f_t h))))
  /\ forall t, im (zdir h d eh bh ed bd t) = 0%R.
Proof.
  intros h d eh bh ed bd Wh Wd Th_ Td Sd H1 Eeh Ebh Eed Ebd.
  destruct (with_eth_ok Eth h ltac:(discriminate) Wh) as (x & Ex & Weh & Seh & _). rewrite Eeh in Ex. apply ok_inj in Ex. subst x.
  destruct (with_eth_ok Ethbar h ltac:(discriminate) Wh) as (x & Ex & Wbh & Sbh & _). rewrite Ebh in Ex. apply ok_inj in Ex. subst x.
  destruct (with_eth_ok Eth d ltac:(discriminate) Wd) as (x & Ex & Wed & Sed & _). rewrite Eed in Ex. apply ok_inj in Ex. subst x.
  destruct (with_eth_ok Ethbar d ltac:(discriminate) Wd) as (x & Ex & Wbd & Sbd & _). rewrite Ebd in Ex. apply ok_inj in Ex. subst x.
  apply (same_trans _ _ _ Sed) in Sd as Sed'. apply (same_trans _ _ _ Sbd) in Sd as Sbd'.
  split.
  - unfold boost_flux, choose_hdot. rewrite Th_, Td. cbn [rbind]. rewrite Eeh, Ebh, Eed, Ebd. cbn [rbind].
    destruct (terms_ok h d eh bh ed bd 1 (fun s => p_plusminus s 1) (eth_chi_plusminus (-2) 1) (ethbar_chi_plusminus (-2) 1)
       (fun s => p_pm_val s 1) (eth_chi_pm_val (-2) 1) (ethbar_chi_pm_val (-2) 1)) as (l1 & E1 & N1); auto; try lia.
    rewrite E1. cbn [rbind].
    destruct (terms_ok h d eh bh ed bd (-1) (fun s => p_plusminus s (-1)) (eth_chi_plusminus (-2) (-1)) (ethbar_chi_plusminus (-2) (-1))
       (fun s => p_pm_val s (-1)) (eth_chi_pm_val (-2) (-1)) (ethbar_chi_pm_val (-2) (-1))) as (l2 & E2 & N2); auto; try lia.
    rewrite E2. cbn [rbind].
    destruct (terms_ok h d eh bh ed bd 0 p_z (eth_chi_z (-2)) (ethbar_chi_z (-2)) p_z_val (eth_chi_z_val (-2)) (ethbar_chi_z_val (-2))) as (l3 & E3 & N3); auto; try lia.
    rewrite E3. cbn [rbind]. rewrite N1, N2, N3, combine3. f_equal. apply map_ext. intros t.
    assert (EM : boost_at h d eh bh ed bd (-1) (fun s => p_pm_val s (-1)) (eth_chi_pm_val (-2) (-1)) (ethbar_chi_pm_val (-2) (-1)) t = Conj (pdir h d eh bh ed bd t)).
    { unfold pdir. apply (boost_conj h d eh bh ed bd 1 (fun s => p_pm_val s 1) (fun s => p_pm_val s (-1))); auto; try lia.
      - intros s l j m Hl Hj. apply (p_pm_sym s 1); auto; lia.
      - intros l j m Hl Hj. apply (chi_pm_sym (-2) 1); auto; lia.
      - intros l j m Hl Hj. apply (chi_pm_sym' (-2) 1); auto; lia. }
    rewrite EM. fold (pdir h d eh bh ed bd t). fold (zdir h d eh bh ed bd t). pose proof PI_RGT_0. cbn [re im Conj].
    match goal with |- (?a, ?b, ?c) = (?a', ?b', ?c') => replace a with a' by (field; lra); replace b with b' by (field; lra); replace c with c' by (field; lra) end.
    reflexivity.
  - intros t. assert (EZ : zdir h d eh bh ed bd t = Conj (zdir h d eh bh ed bd t)).
    { unfold zdir at 2. rewrite <- (boost_conj h d eh bh ed bd 0 p_z_val p_z_val (eth_chi_z_val (-2)) (eth_chi_z_val (-2)) (ethbar_chi_z_val (-2)) (ethbar_chi_z_val (-2))); auto; try lia.
      - intros s l j m Hl Hj. rewrite Z.add_0_r. apply p_z_sym; auto.
      - intros l j m Hl Hj. rewrite Z.add_0_r. apply chi_z_sym; auto.
      - intros l j m Hl Hj. rewrite Z.add_0_r. apply chi_z_sym'; auto. }
    destruct (zdir h d eh bh ed bd t) as [x y]. cbn in *. injection EZ as EZ. lra.
Qed.

(** The boost flux is the documented combination of expectation values: the operators for the minus
    direction give the complex conjugates, so x and y are the real and imaginary parts, and the value for z
    is real.  Modes of eth h, ethbar h are those of h times the ladder factors of spin weight s. *)
Theorem C41_boost_flux : forall h d, fwf h -> fwf d -> f_type h = Th -> f_type d = Thdot -> same_shape d h -> 1 <= f_hi h ->
  exists eh bh ed bd,
    (forall t l m, valid (f_lo h) (f_hi h) l m ->
       fm eh t l m = (RtoC (single 1 l Eth (f_spin h)) * fm h t l m)%C /\ fm bh t l m = (RtoC (single 1 l Ethbar (f_spin h)) * fm h t l m)%C /\
       fm ed t l m = (RtoC (single 1 l Eth (f_spin h)) * fm d t l m)%C /\ fm bd t l m = (RtoC (single 1 l Ethbar (f_spin h)) * fm d t l m)%C) /\
    let ex := fun (a b : fwave) (t : nat) (dm : Z) (val : Z -> Z -> Z -> R) => bra_ket (fm a t) (fm b t) (coupled (f_lo h) (f_hi h) dm val) in
    let B := fun t dm (chi : Z -> Z -> Z -> Z -> R) ethchi ethbarchi =>
       (RtoC (/ 8) * (ex bd bh t dm (chi (-3)%Z) - ex ed eh t dm (chi (-1)%Z) + ex bh bd t dm (chi (-3)%Z) - ex eh ed t dm (chi (-1)%Z)
                      + RtoC 6 * ex d h t dm (chi (-2)%Z) + RtoC 6 * ex h d t dm (chi (-2)%Z))
        - RtoC (/ 4) * (ex ed h t dm ethchi - ex h ed t dm ethbarchi) - RtoC (nth t (f_t h) 0%R / 2) * ex d d t dm (chi (-2)%Z))%C in
    let plus := fun t => B t 1%Z (fun s => p_pm_val s 1) (eth_chi_pm_val (-2) 1) (ethbar_chi_pm_val (-2) 1) in
    let z := fun t => B t 0%Z p_z_val (eth_chi_z_val (-2)) (ethbar_chi_z_val (-2)) in
    boost' h (Some d) = Ok (map (fun t => ((- re (plus t) / (32 * PI))%R, (- im (plus t) / (32 * PI))%R, (- re (z t) / (32 * PI))%R)) (seq 0 (length (f_t h)))) /\
    (forall t, im (z t) = 0%R) /\
    (forall t, ex h ed t 0%Z (ethbar_chi_z_val (-2)) = (- Conj (ex ed h t 0%Z (eth_chi_z_val (-2))))%C).
Proof.
  intros h d Wh Wd Th_ Td Sd H1.
  destruct (with_eth_ok Eth h ltac:(discriminate) Wh) as (eh & Eeh & Weh & Seh & Meh).
  destruct (with_eth_ok Ethbar h ltac:(discriminate) Wh) as (bh & Ebh & Wbh & Sbh & Mbh).
  destruct (with_eth_ok Eth d ltac:(discriminate) Wd) as (ed & Eed & Wed & Sed & Med).
  destruct (with_eth_ok Ethbar d ltac:(discriminate) Wd) as (bd & Ebd & Wbd & Sbd & Mbd).
  exists eh, bh, ed, bd. pose proof Sd as (D1 & D2 & D3 & D4). rewrite D1, D2, D3 in *. split.
  { intros t l m Hv. repeat split; auto. }
  destruct (boost_eval h d eh bh ed bd Wh Wd Th_ Td Sd H1 Eeh Ebh Eed Ebd) as [E EZ]. cbv zeta.
  destruct Seh as (_ & A1 & A2 & _), Sbh as (_ & B1 & B2 & _), Sed as (_ & C1' & C2 & _), Sbd as (_ & F1 & F2 & _).
  assert (P : forall dm chi ec ce t, boost_at h d eh bh ed bd dm chi ec ce t =
     (RtoC (/ 8) * (bra_ket (fm bd t) (fm bh t) (coupled (f_lo h) (f_hi h) dm (chi (-3)%Z)) - bra_ket (fm ed t) (fm eh t) (coupled (f_lo h) (f_hi h) dm (chi (-1)%Z))
        + bra_ket (fm bh t) (fm bd t) (coupled (f_lo h) (f_hi h) dm (chi (-3)%Z)) - bra_ket (fm eh t) (fm ed t) (coupled (f_lo h) (f_hi h) dm (chi (-1)%Z))
        + RtoC 6 * bra_ket (fm d t) (fm h t) (coupled (f_lo h) (f_hi h) dm (chi (-2)%Z)) + RtoC 6 * bra_ket (fm h t) (fm d t) (coupled (f_lo h) (f_hi h) dm (chi (-2)%Z)))
      - RtoC (/ 4) * (bra_ket (fm ed t) (fm h t) (coupled (f_lo h) (f_hi h) dm ec) - bra_ket (fm h t) (fm ed t) (coupled (f_lo h) (f_hi h) dm ce))
      - RtoC (nth t (f_t h) 0%R / 2) * bra_ket (fm d t) (fm d t) (coupled (f_lo h) (f_hi h) dm (chi (-2)%Z)))%C).
  { intros. unfold boost_at, boost_sum, bk. rewrite D2, D3, A1, A2, B1, B2, C1', C2, F1, F2, D2, D3. unfold Rdiv. rewrite RtoC_mul. ring. }
  split; [|split].
  - rewrite E. f_equal. apply map_ext. intros t. unfold pdir, zdir. rewrite !P. reflexivity.
  - intros t. rewrite <- P. apply EZ.
  - intros t. transitivity (RtoC (-1) * Conj (bra_ket (fm ed t) (fm h t) (coupled (f_lo h) (f_hi h) 0 (eth_chi_z_val (-2)))))%C.
    + pose proof Wh as (HL & _). apply (adjoint (f_lo h) (f_hi h) (f_hi h + 2) 0); try lia. intros l j m Hv Hv' _. unfold valid in *. rewrite Z.add_0_r. apply chi_z_sym; lia.
    + destruct (bra_ket (fm ed t) (fm h t) (coupled (f_lo h) (f_hi h) 0 (eth_chi_z_val (-2)))). apply C_eq; cbn; ring.
Qed.

(** Moving the origin of time adds a quarter of the momentum flux per unit of time. *)
Definition shifted (t0 : R) (w : fwave) : fwave := mkfw (f_type w) (f_spin w) (f_lo w) (f_hi w) (map (fun t => t + t0)%R (f_t w)) (f_rows w).
Lemma with_eth_shifted : forall o t0 w e, with_eth o w = Ok e -> with_eth o (shifted t0 w) = Ok (shifted t0 e).
Proof.
  intros o t0 w e H. unfold with_eth in *. cbn [f_spin f_lo f_hi f_rows shifted]. destruct (map_res _ _) as [rows|]; [|discriminate]. cbn [rbind] in *.
  apply ok_inj in H. subst e. reflexivity.
Qed.
Theorem C41_boost_time_shift : forall h d t0 B P, fwf h -> fwf d -> f_type h = Th -> f_type d = Thdot -> same_shape d h -> 1 <= f_hi h ->
  boost' h (Some d) = Ok B -> momentum' d = Ok P ->
  exists B', boost' (shifted t0 h) (Some (shifted t0 d)) = Ok B' /\ length B' = length B /\
    forall i x y z px py pz, nth_error B i = Some (x, y, z) -> nth_error P i = Some (px, py, pz) ->
      nth_error B' i = Some ((x + t0 / 4 * px)%R, (y + t0 / 4 * py)%R, (z + t0 / 4 * pz)%R).
Proof.
  intros h d t0 B P Wh Wd Th_ Td Sd H1 HB HP.
  destruct (with_eth_ok Eth h ltac:(discriminate) Wh) as (eh & Eeh & Weh & Seh & Meh).
  destruct (with_eth_ok Ethbar h ltac:(discriminate) Wh) as (bh & Ebh & Wbh & Sbh & Mbh).
  destruct (with_eth_ok Eth d ltac:(discriminate) Wd) as (ed & Eed & Wed & Sed & Med).
  destruct (with_eth_ok Ethbar d ltac:(discriminate) Wd) as (bd & Ebd & Wbd & Sbd & Mbd).
  destruct (boost_eval h d eh bh ed bd Wh Wd Th_ Td Sd H1 Eeh Ebh Eed Ebd) as [E _]. rewrite E in HB. apply ok_inj in HB. subst B.
  assert (Wsh : forall w, fwf w -> fwf (shifted t0 w)) by (intros w (G1 & G2 & G3); unfold fwf, shifted; cbn; rewrite map_length; auto).
  assert (Ssh : same_shape (shifted t0 d) (shifted t0 h)).
  { destruct Sd as (G1 & G2 & G3 & G4). unfold same_shape, shifted. cbn. rewrite G4. auto. }
  destruct (boost_eval (shifted t0 h) (shifted t0 d) (shifted t0 eh) (shifted t0 bh) (shifted t0 ed) (shifted t0 bd)) as [E' _]; auto using with_eth_shifted.
  rewrite (momentum_eval intersection interpolate ddot times_eqb times_eqb_ok d Wd Td) in HP by (destruct Sd as (_ & _ & -> & _); auto). apply ok_inj in HP. subst P.
  eexists. split; [exact E'|]. split; [rewrite !map_length, !seq_length; cbn; apply map_length|].
  intros i x y z px py pz HB HP. rewrite nth_error_map in HB, HP |- *. replace (length (f_t (shifted t0 h))) with (length (f_t h)) by (symmetry; apply map_length). destruct Sd as (D1 & D2 & D3 & D4). rewrite D4 in HP.
  destruct (nth_error (seq 0 (length (f_t h))) i) as [t|] eqn:Et; [|discriminate]. cbn [option_map] in *.
  assert (Ht : (i < length (f_t h))%nat) by (rewrite <- (seq_length (length (f_t h)) 0); apply nth_error_Some; congruence).
  assert (t = i) as -> by (rewrite (nth_error_nth' _ O) in Et by (rewrite seq_length; lia); rewrite seq_nth in Et by lia; injection Et as <-; reflexivity).
  assert (Ix : x = (- re (pdir h d eh bh ed bd i) / (32 * PI))%R) by congruence. assert (Iy : y = (- im (pdir h d eh bh ed bd i) / (32 * PI))%R) by congruence.
  assert (Iz : z = (- re (zdir h d eh bh ed bd i) / (32 * PI))%R) by congruence.
  assert (Jx' : px = (re (oppm d d (-2) 1 i) / (16 * PI))%R) by congruence. assert (Jy' : py = (im (oppm d d (-2) 1 i) / (16 * PI))%R) by congruence.
  assert (Jz' : pz = (re (opz d d (-2) i) / (16 * PI))%R) by congruence. subst x y z px py pz. pose proof PI_RGT_0.
  assert (G : forall dm chi ec ce, boost_at (shifted t0 h) (shifted t0 d) (shifted t0 eh) (shifted t0 bh) (shifted t0 ed) (shifted t0 bd) dm chi ec ce i
     = (boost_at h d eh bh ed bd dm chi ec ce i - RtoC (t0 / 2) * bk d d dm (chi (-2)%Z) i)%C).
  { intros. unfold boost_at, boost_sum, bk.
    replace (nth i (f_t (shifted t0 h)) 0%R) with (nth i (f_t h) 0 + t0)%R.
    2:{ change (f_t (shifted t0 h)) with (map (fun t => t + t0)%R (f_t h)). rewrite (nth_indep (map (fun t => t + t0)%R (f_t h)) 0%R (0 + t0)%R) by (rewrite map_length; auto). rewrite (map_nth (fun t => t + t0)%R). reflexivity. }
    change (fm (shifted t0 h) i) with (fm h i). change (fm (shifted t0 d) i) with (fm d i). change (fm (shifted t0 eh) i) with (fm eh i).
    change (fm (shifted t0 bh) i) with (fm bh i). change (fm (shifted t0 ed) i) with (fm ed i). change (fm (shifted t0 bd) i) with (fm bd i).
    change (f_lo (shifted t0 h)) with (f_lo h). change (f_hi (shifted t0 h)) with (f_hi h). change (f_lo (shifted t0 d)) with (f_lo d). change (f_hi (shifted t0 d)) with (f_hi d). change (f_lo (shifted t0 eh)) with (f_lo eh). change (f_hi (shifted t0 eh)) with (f_hi eh). change (f_lo (shifted t0 bh)) with (f_lo bh). change (f_hi (shifted t0 bh)) with (f_hi bh). change (f_lo (shifted t0 ed)) with (f_lo ed). change (f_hi (shifted t0 ed)) with (f_hi ed). change (f_lo (shifted t0 bd)) with (f_lo bd). change (f_hi (shifted t0 bd)) with (f_hi bd).
    unfold Rdiv. rewrite RtoC_add, RtoC_mul. ring. }
  unfold pdir, zdir. rewrite !G. unfold oppm, opz. unfold bk.
  set (p := boost_at h d eh bh ed bd 1 _ _ _ i). set (q := boost_at h d eh bh ed bd 0 _ _ _ i).
  set (u := bra_ket (fm d i) (fm d i) (coupled (f_lo d) (f_hi d) 1 (p_pm_val (-2) 1))). set (v := bra_ket (fm d i) (fm d i) (coupled (f_lo d) (f_hi d) 0 (p_z_val (-2)))).
  clearbody p q u v. destruct p, q, u, v. cbn. apply f_equal.
  match goal with |- (?a, ?b, ?c) = (?a', ?b', ?c') => replace a with a' by (field; lra); replace b with b' by (field; lra); replace c with c' by (field; lra) end.
  reflexivity.
Qed.

(** ** All fluxes together *)
Theorem C41_poincare_fluxes : forall h hdot e p j b, poincare' h hdot = Ok (e, p, j, b) ->
  angular' h hdot = Ok j /\ boost' h hdot = Ok b /\
  match hdot with
  | None => energy_flux ddot h = Ok e /\ momentum' h = Ok p
  | Some d => energy_flux ddot d = Ok e /\ momentum' d = Ok p
  end.
Proof.
  intros h hdot e p j b H. unfold poincare_fluxes in H. unfold choose_hdot at 1 in H. destruct (f_type h) eqn:ET; try discriminate.
  assert (G : forall d, f_type d = Thdot -> angular' h (Some d) = angular' h (Some d) /\ choose_hdot ddot h (Some d) = Ok d).
  { intros d Hd. split; auto. unfold choose_hdot. rewrite ET, Hd. reflexivity. }
  destruct hdot as [d|].
  - destruct (f_type d) eqn:Ed; try discriminate. cbn [rbind] in H.
    destruct (energy_flux ddot d) as [e'|]; [|discriminate]. cbn [rbind] in H. destruct (momentum' d) as [p'|]; [|discriminate]. cbn [rbind] in H.
    destruct (angular' h (Some d)) as [j'|]; [|discriminate]. cbn [rbind] in H. destruct (boost' h (Some d)) as [b'|]; [|discriminate]. cbn [rbind] in H.
    injection H as -> -> -> ->. auto.
  - cbn [rbind] in H.
    assert (EA : angular' h None = angular' h (Some (derivative ddot h))) by (unfold angular_momentum_flux, choose_hdot; rewrite ET; reflexivity).
    assert (EB : boost' h None = boost' h (Some (derivative ddot h))) by (unfold boost_flux, choose_hdot; rewrite ET; reflexivity).
    assert (EE : energy_flux ddot h = energy_flux ddot (derivative ddot h)) by (unfold energy_flux; rewrite ET; reflexivity).
    assert (EM : momentum' h = momentum' (derivative ddot h)) by (unfold momentum_flux; rewrite ET; reflexivity).
    rewrite EA, EB, EE, EM.
    destruct (energy_flux ddot (derivative ddot h)) as [e'|]; [|discriminate]. cbn [rbind] in H. destruct (momentum' (derivative ddot h)) as [p'|]; [|discriminate]. cbn [rbind] in H.
    destruct (angular' h (Some (derivative ddot h))) as [j'|]; [|discriminate]. cbn [rbind] in H. destruct (boost' h (Some (derivative ddot h))) as [b'|]; [|discriminate]. cbn [rbind] in H.
    injection H as -> -> -> ->. auto.
Qed.

(** Waveforms that are not strain (or its time derivative) are refused. *)
Theorem C41_wrong_type : forall h d,
  (f_type h = Tother -> momentum' h = Err ValueError) /\
  (f_type h <> Th \/ f_type d <> Thdot ->
     angular' h (Some d) = Err ValueError /\ boost' h (Some d) = Err ValueError /\ poincare' h (Some d) = Err ValueError).
Proof.
  intros h d. split.
  - intros H. unfold momentum_flux. rewrite H. reflexivity.
  - intros H. unfold angular_momentum_flux, boost_flux, poincare_fluxes, choose_hdot.
    destruct (f_type h), (f_type d); cbn; auto; destruct H; congruence.
Qed.
(** A waveform holding only the (0,0) mode is refused by all but the energy flux. *)
Theorem C41_monopole_only_refuted : forall w, fwf w -> f_type w = Thdot -> f_hi w = 0 ->
  momentum' w = Err ValueError /\ exists e, energy_flux ddot w = Ok e.
Proof.
  intros w (HL & _) HT Hh. assert (Hl : f_lo w = 0) by lia. split.
  - unfold momentum_flux. rewrite HT. cbn [rbind]. unfold expect, matrix_expectation. rewrite !Z.eqb_refl. cbn [negb orb].
    rewrite (proj2 (times_eqb_ok _ _) eq_refl). cbn [rbind]. unfold clip_rows, mode_slice. rewrite Hl, Hh. reflexivity.
  - unfold energy_flux. rewrite HT. eauto.
Qed.
End Boost.

(** * Example: the (2,2) and (3,2) modes with amplitudes 1 and a: a kick along z *)
Section Case.
Definition teq (a b : list R) : bool := if list_eq_dec Req_EM_T a b then true else false.
Lemma teq_ok : forall a b, teq a b = true <-> a = b.
Proof. intros. unfold teq. destruct (list_eq_dec Req_EM_T a b); split; congruence. Qed.
Definition kick : fwave := mkfw Thdot (-2) 2 3 [0%R] [[C0; C0; C0; C0; C1; C0; C0; C0; C0; C0; C1; C0]].
Lemma kick_wf : fwf kick.
Proof. unfold fwf, kick. cbn. split; [lia|]. split; auto. Qed.
Definition dd0 (t : list R) (rows : list (list C)) : list (list C) := rows.
Lemma dd0_shape : forall t rows n, Forall (fun row : list C => length row = n) rows -> length (dd0 t rows) = length rows /\ Forall (fun row => length row = n) (dd0 t rows).
Proof. auto. Qed.
Example C41_case : exists P, momentum_flux (fun a _ => Ok a) (fun _ r _ => r) dd0 teq kick = Ok P /\ length P = 1%nat.
Proof.
  destruct (C41_momentum_at_most_energy (fun a _ => Ok a) (fun _ r _ => r) dd0 teq teq_ok dd0_shape kick kick_wf ltac:(discriminate) ltac:(cbn; lia)) as (P & E & HP & _ & L & _).
  exists P. split; auto.
Qed.
End Case.
