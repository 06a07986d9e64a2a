(** C08, C18, C19, C20: conjugate pairs, parity, norms and ladder factors. *)
From Coq Require Import Reals ZArith List Bool Lia Lra Permutation.
From Verif Require Import Common Cplx Modes_Model Modes_Proofs Modal_Model.
Import ListNotations.
Open Scope Z_scope.

(** * Rows as functions of (ell, m) *)
Definition valid (lo hi l m : Z) : Prop := lo <= l <= hi /\ - l <= m <= l.
(** [row] has exactly the modes of ell_min..ell_max and mode (l, m) has value [f l m]. *)
Definition has_modes (lo hi : Z) (row : list C) (f : Z -> Z -> C) : Prop :=
  length row = length (LM_range lo hi) /\
  forall l m, valid lo hi l m -> nth_error row (Z.to_nat (LM_index l m lo)) = Some (f l m).
(** The mode values of a row. *)
Definition mode (lo : Z) (row : list C) (l m : Z) : C := nth (Z.to_nat (LM_index l m lo)) row C0.

Section Row.
Variables lo hi : Z.
Hypothesis Hlo : 0 <= lo.

Lemma has_modes_mode : forall row, length row = length (LM_range lo hi) -> has_modes lo hi row (mode lo row).
Proof.
  intros row Hl. split; auto. intros l m [H1 H2]. unfold mode. apply nth_error_nth'.
  destruct (C01_index_is_position lo hi l m Hlo H1 H2) as [H _]. lia.
Qed.
Lemma has_modes_eq : forall row f l m, has_modes lo hi row f -> valid lo hi l m -> mode lo row l m = f l m.
Proof. intros row f l m [_ H] Hv. unfold mode. apply nth_error_nth. auto. Qed.

Lemma has_modes_unique : forall row row' f g, has_modes lo hi row f -> has_modes lo hi row' g ->
  (forall l m, valid lo hi l m -> f l m = g l m) -> row = row'.
Proof.
  intros row row' f g [L H] [L' H'] E. apply nth_error_ext. intros i.
  destruct (nth_error (LM_range lo hi) i) as [[l m]|] eqn:En.
  - destruct (C01_every_column_is_named lo hi i l m Hlo En) as (A & B & Hi).
    replace i with (Z.to_nat (LM_index l m lo)) by lia. rewrite H, H' by (split; auto). f_equal. apply E. split; auto.
  - apply nth_error_None in En. rewrite !(proj2 (nth_error_None _ _)) by lia. reflexivity.
Qed.

Lemma LM_index_inj : forall l m l' m', valid lo hi l m -> valid lo hi l' m' ->
  Z.to_nat (LM_index l m lo) = Z.to_nat (LM_index l' m' lo) -> l = l' /\ m = m'.
Proof.
  intros l m l' m' [A B] [A' B'] E. apply C01_index_injective with (ell_min := lo); auto; try lia.
  destruct (C01_index_is_position lo hi l m Hlo A B) as [P _]. destruct (C01_index_is_position lo hi l' m' Hlo A' B') as [P' _]. lia.
Qed.

Definition fset (f : Z -> Z -> C) (l m : Z) (v : C) : Z -> Z -> C :=
  fun l' m' => if (l' =? l) && (m' =? m) then v else f l' m'.

Lemma rd_modes : forall row f l m, has_modes lo hi row f -> valid lo hi l m -> rd row (LM_index l m lo) = Ok (f l m).
Proof.
  intros row f l m [L H] Hv. unfold rd. destruct Hv as [A B].
  destruct (C01_index_is_position lo hi l m Hlo A B) as [P _].
  destruct (Z.ltb_spec (LM_index l m lo) 0); [lia|]. rewrite H by (split; auto). reflexivity.
Qed.
Lemma wr_modes : forall row f l m v, has_modes lo hi row f -> valid lo hi l m ->
  exists row', wr row (LM_index l m lo) v = Ok row' /\ has_modes lo hi row' (fset f l m v).
Proof.
  intros row f l m v [L H] Hv. unfold wr. pose proof Hv as [A B].
  destruct (C01_index_is_position lo hi l m Hlo A B) as [P _].
  destruct (Z.ltb_spec (LM_index l m lo) 0); [lia|].
  destruct (upd_ok _ row (Z.to_nat (LM_index l m lo)) v ltac:(lia)) as [r' E]. rewrite E.
  exists r'. split; auto. pose proof (upd_length _ _ _ _ _ E) as L'. split; [congruence|].
  intros l' m' Hv'. pose proof Hv' as [A' B']. destruct (C01_index_is_position lo hi l' m' Hlo A' B') as [P' _].
  rewrite (nth_error_nth' _ C0) by lia. f_equal. rewrite (upd_nth _ _ _ _ _ C0 _ E). unfold fset.
  destruct (Nat.eqb_spec (Z.to_nat (LM_index l' m' lo)) (Z.to_nat (LM_index l m lo))) as [e|n].
  - apply LM_index_inj in e; auto. destruct e; subst. rewrite !Z.eqb_refl. reflexivity.
  - destruct (Z.eqb_spec l' l), (Z.eqb_spec m' m); cbn; subst; try congruence; apply nth_error_nth; apply H; auto.
Qed.

Lemma for_each_modes : forall A (ks : list A) (body : A -> list C -> res (list C)) (F : A -> (Z -> Z -> C) -> Z -> Z -> C),
  (forall k row f, In k ks -> has_modes lo hi row f -> exists row', body k row = Ok row' /\ has_modes lo hi row' (F k f)) ->
  forall row f, has_modes lo hi row f ->
  exists row', for_each ks body row = Ok row' /\ has_modes lo hi row' (fold_left (fun g k => F k g) ks f).
Proof.
  intros A ks body F. induction ks as [|k ks IH]; intros H row f Hf; cbn.
  - eauto.
  - destruct (H k row f (or_introl eq_refl) Hf) as (r1 & E1 & H1). rewrite E1. cbn.
    apply IH; auto. intros; apply H; auto. right; auto.
Qed.

(** * Conjugate pairs *)
Lemma pair_keys_In : forall l m, In (l, m) (pair_keys lo hi) <-> lo <= l <= hi /\ 1 <= m <= l.
Proof.
  intros. unfold pair_keys. rewrite in_flat_map. split.
  - intros (x & Hx & H). apply zrange_In in Hx. apply in_map_iff in H as (y & E & Hy). apply zrange_In in Hy.
    injection E as <- <-. lia.
  - intros H. exists l. split; [apply zrange_In; lia|]. apply in_map_iff. exists m. split; auto. apply zrange_In; lia.
Qed.
Lemma pair_keys_NoDup : NoDup (pair_keys lo hi).
Proof.
  unfold pair_keys. generalize (zrange_NoDup lo (hi + 1)).
  induction (zrange lo (hi + 1)) as [|x xs IH]; intros HN; simpl; [constructor|].
  inversion HN; subst. specialize (IH H2).
  assert (NM : NoDup (map (fun m : Z => (x, m)) (zrange 1 (x + 1)))).
  { apply FinFun.Injective_map_NoDup; [|apply zrange_NoDup]. intros p q E; injection E; auto. }
  revert NM. induction (zrange 1 (x + 1)); simpl; intros; auto.
  inversion NM; subst. constructor; auto.
  rewrite in_app_iff. intros [|HH]; [contradiction|].
  apply in_flat_map in HH as (y & Hy & HH). apply in_map_iff in HH as (z & E & _).
  injection E as -> _. contradiction.
Qed.

(** A loop over (l, m), m >= 1, that replaces modes (l, m) and (l, -m) by functions of the two. *)
Definition pair_F (g h : C -> C -> C) (k : Z * Z) (f : Z -> Z -> C) : Z -> Z -> C :=
  fset (fset f (fst k) (snd k) (g (f (fst k) (snd k)) (f (fst k) (- snd k)%Z)))
       (fst k) (- snd k)%Z (h (f (fst k) (snd k)) (f (fst k) (- snd k)%Z)).
Lemma pair_F_other : forall g h k f l m, ~ (l = fst k /\ (m = snd k \/ m = - snd k)) -> pair_F g h k f l m = f l m.
Proof.
  intros g h [a b] f l m H. unfold pair_F, fset. cbn in *.
  destruct (Z.eqb_spec l a); cbn; auto. destruct (Z.eqb_spec m (- b)); cbn; [exfalso; apply H; auto|].
  destruct (Z.eqb_spec m b); cbn; auto. exfalso; apply H; auto.
Qed.
Lemma pair_fold_other : forall g h ks f l m, (forall k, In k ks -> ~ (l = fst k /\ (m = snd k \/ m = - snd k))) ->
  fold_left (fun g' k => pair_F g h k g') ks f l m = f l m.
Proof.
  intros g h ks. induction ks as [|k ks IH]; intros f l m H; cbn; auto.
  rewrite IH by (intros; apply H; right; auto). apply pair_F_other. apply H. left; auto.
Qed.
Lemma pair_fold_in : forall g h ks f l m, NoDup ks -> (forall k, In k ks -> 1 <= snd k) -> In (l, m) ks ->
  fold_left (fun g' k => pair_F g h k g') ks f l m = g (f l m) (f l (- m)%Z) /\
  fold_left (fun g' k => pair_F g h k g') ks f l (- m)%Z = h (f l m) (f l (- m)%Z).
Proof.
  intros g h ks f l m ND Hp Hi. pose proof (Hp _ Hi) as Hm. cbn in Hm.
  apply in_split in Hi as (a & b & ->).
  assert (Ha : forall k, In k a \/ In k b -> k <> (l, m)).
  { intros k Hk ->. apply NoDup_remove_2 in ND. apply ND. apply in_or_app. tauto. }
  assert (Hn : forall k x, In k a \/ In k b -> x = m \/ x = - m -> ~ (l = fst k /\ (x = snd k \/ x = - snd k))).
  { intros [kl km] x Hk Hx [E1 E2]. cbn in *. subst kl.
    assert (1 <= km) by (apply (Hp (l, km)); apply in_or_app; cbn; tauto).
    apply (Ha (l, km) Hk). f_equal. lia. }
  rewrite fold_left_app. cbn [fold_left].
  rewrite !(pair_fold_other g h b) by (intros; apply Hn; auto).
  unfold pair_F at 1 3. unfold fset. cbn [fst snd]. rewrite !Z.eqb_refl. cbn [andb].
  destruct (Z.eqb_spec m (- m)%Z); [lia|].
  rewrite !(pair_fold_other g h a) by (intros; apply Hn; auto). auto.
Qed.

Lemma pair_loop : forall g h row f, has_modes lo hi row f ->
  exists row', for_each (pair_keys lo hi) (fun k r =>
    let ip := LM_index (fst k) (snd k) lo in
    let im := LM_index (fst k) (- snd k)%Z lo in
    let? p := rd r ip in
    let? q := rd r im in
    let? r1 := wr r ip (g p q) in
    wr r1 im (h p q)) row = Ok row' /\
  has_modes lo hi row' (fun l m => if 0 <? m then g (f l m) (f l (- m)%Z) else if m <? 0 then h (f l (- m)%Z) (f l m) else f l m).
Proof.
  intros g h row f Hf.
  destruct (for_each_modes _ (pair_keys lo hi) (fun k r =>
    let ip := LM_index (fst k) (snd k) lo in let im := LM_index (fst k) (- snd k)%Z lo in
    let? p := rd r ip in let? q := rd r im in let? r1 := wr r ip (g p q) in wr r1 im (h p q)) (pair_F g h)) with (row := row) (f := f)
    as (r' & E & H); auto.
  - intros [l m] r f' Hin Hr. apply pair_keys_In in Hin. cbn [fst snd].
    assert (V1 : valid lo hi l m) by (split; lia). assert (V2 : valid lo hi l (- m)%Z) by (split; lia).
    rewrite (rd_modes r f' l m Hr V1). cbn [rbind]. rewrite (rd_modes r f' l (- m)%Z Hr V2). cbn [rbind].
    destruct (wr_modes r f' l m (g (f' l m) (f' l (- m)%Z)) Hr V1) as (r1 & E1 & H1). rewrite E1. cbn [rbind].
    apply wr_modes; auto.
  - exists r'. split; auto. destruct H as [L H]. split; auto. intros l m Hv. rewrite H by auto. f_equal.
    assert (Hp : forall k, In k (pair_keys lo hi) -> 1 <= snd k) by (intros [a b] Hk; apply pair_keys_In in Hk; cbn; lia).
    destruct Hv as [V1 V2].
    destruct (Z.ltb_spec 0 m).
    + apply pair_fold_in; auto. apply pair_keys_NoDup. apply pair_keys_In; lia.
    + destruct (Z.ltb_spec m 0).
      * pose proof (pair_fold_in g h (pair_keys lo hi) f l (- m)%Z pair_keys_NoDup Hp ltac:(apply pair_keys_In; lia)) as [_ P].
        rewrite Z.opp_involutive in P. exact P.
      * apply pair_fold_other. intros [a b] Hk. apply pair_keys_In in Hk. cbn. lia.
Qed.

Lemma to_pairs_modes : forall row f, has_modes lo hi row f ->
  exists row', to_pairs lo hi row = Ok row' /\
  has_modes lo hi row' (fun l m => if 0 <? m then Cscale inv_sqrt2 (f l m + Conj (f l (- m)%Z))%C
     else if m <? 0 then Cscale inv_sqrt2 (f l (- m)%Z - Conj (f l m))%C else f l m).
Proof. intros. apply (pair_loop (fun p q => Cscale inv_sqrt2 (p + Conj q)%C) (fun p q => Cscale inv_sqrt2 (p - Conj q)%C)); auto. Qed.
Lemma from_pairs_modes : forall row f, has_modes lo hi row f ->
  exists row', from_pairs lo hi row = Ok row' /\
  has_modes lo hi row' (fun l m => if 0 <? m then Cscale inv_sqrt2 (f l m + f l (- m)%Z)%C
     else if m <? 0 then Cscale inv_sqrt2 (Conj (f l (- m)%Z - f l m)%C) else f l m).
Proof. intros. apply (pair_loop (fun p q => Cscale inv_sqrt2 (p + q)%C) (fun p q => Cscale inv_sqrt2 (Conj (p - q)%C))); auto. Qed.

Lemma inv_sqrt2_sq : (inv_sqrt2 * inv_sqrt2 = / 2)%R.
Proof.
  unfold inv_sqrt2. rewrite <- Rinv_mult.
  rewrite sqrt_sqrt by lra. reflexivity.
Qed.

(** ** Norms as sums over modes *)
Lemma row_norm_rsum : forall row, row_norm row = rsum norm2 row.
Proof. induction row; [reflexivity|]. unfold row_norm in *. cbn [fold_right rsum]. rewrite IHrow. reflexivity. Qed.

Lemma row_is_map : forall row f, has_modes lo hi row f -> row = map (fun lm => f (fst lm) (snd lm)) (LM_range lo hi).
Proof.
  intros row f [L H]. apply nth_error_ext. intros i. rewrite nth_error_map.
  destruct (nth_error (LM_range lo hi) i) as [[l m]|] eqn:En; cbn.
  - destruct (C01_every_column_is_named lo hi i l m Hlo En) as (A & B & Hi).
    replace i with (Z.to_nat (LM_index l m lo)) by lia. apply H. split; auto.
  - apply nth_error_None in En. apply nth_error_None. lia.
Qed.
Lemma row_norm_modes : forall row f, has_modes lo hi row f ->
  row_norm row = rsum (fun l => rsum (fun m => norm2 (f l m)) (ms_of l)) (zrange lo (hi + 1)).
Proof.
  intros row f H. rewrite row_norm_rsum, (row_is_map _ _ H), rsum_map. unfold LM_range, ms_of.
  induction (zrange lo (hi + 1)); cbn; auto. rewrite rsum_app, rsum_map, IHl. reflexivity.
Qed.
End Row.

(** The modes of one ell, reversed, are the negated ones. *)
Lemma ms_rev : forall l, rev (ms_of l) = map Z.opp (ms_of l).
Proof.
  intros l. unfold ms_of. destruct (Z_lt_le_dec l 0).
  { rewrite zrange_empty by lia. reflexivity. }
  apply (nth_ext _ _ 0 0).
  - rewrite rev_length, map_length. reflexivity.
  - intros i Hi. rewrite rev_length in Hi. pose proof Hi as Hi'. rewrite zrange_length in Hi'.
    rewrite rev_nth by auto. rewrite zrange_length.
    rewrite zrange_nth by lia. change (nth i (map Z.opp (zrange (- l) (l + 1))) 0) with (nth i (map Z.opp (zrange (- l) (l + 1))) (- 0)).
    rewrite map_nth, zrange_nth by lia. lia.
Qed.
Lemma ms_perm_opp : forall l, Permutation (ms_of l) (map Z.opp (ms_of l)).
Proof. intros. rewrite <- ms_rev. apply Permutation_rev. Qed.
Lemma ms_of_In : forall l m, In m (ms_of l) <-> - l <= m <= l.
Proof. intros. unfold ms_of. rewrite zrange_In. lia. Qed.

Lemma ms_sum_opp : forall f l, rsum f (ms_of l) = rsum (fun m => f (- m)%Z) (ms_of l).
Proof. intros. rewrite (rsum_perm _ _ _ _ (ms_perm_opp l)), rsum_map. reflexivity. Qed.
Lemma ms_csum_opp : forall f l, csum f (ms_of l) = csum (fun m => f (- m)%Z) (ms_of l).
Proof. intros. rewrite (csum_perm _ _ _ _ (ms_perm_opp l)), csum_map. reflexivity. Qed.

(** * C08 *)
Theorem C08_conjugate_pair_values : forall lo hi row, 0 <= lo -> length row = length (LM_range lo hi) ->
  exists out, to_pairs lo hi row = Ok out /\ length out = length row /\
  forall l m, lo <= l <= hi ->
    (0 < m <= l -> mode lo out l m = Cscale (/ sqrt 2) (mode lo row l m + Conj (mode lo row l (- m)%Z))%C /\
                   mode lo out l (- m)%Z = Cscale (/ sqrt 2) (mode lo row l m - Conj (mode lo row l (- m)%Z))%C) /\
    mode lo out l 0 = mode lo row l 0.
Proof.
  intros lo hi row Hlo HL.
  destruct (to_pairs_modes lo hi Hlo row (mode lo row) (has_modes_mode lo hi Hlo row HL)) as (out & E & H).
  exists out. split; auto. split; [destruct H; congruence|]. intros l m Hl. split.
  - intros Hm. rewrite (has_modes_eq lo hi _ _ l m H), (has_modes_eq lo hi _ _ l (- m)%Z H) by (split; lia).
    destruct (Z.ltb_spec 0 m); [|lia]. destruct (Z.ltb_spec 0 (- m)%Z); [lia|]. destruct (Z.ltb_spec (- m)%Z 0); [|lia].
    rewrite Z.opp_involutive. auto.
  - rewrite (has_modes_eq lo hi _ _ l 0 H) by (split; lia). reflexivity.
Qed.

Theorem C08_roundtrip : forall lo hi row, 0 <= lo -> length row = length (LM_range lo hi) ->
  exists mid, to_pairs lo hi row = Ok mid /\ from_pairs lo hi mid = Ok row.
Proof.
  intros lo hi row Hlo HL. pose proof (has_modes_mode lo hi Hlo row HL) as Hr.
  destruct (to_pairs_modes lo hi Hlo row _ Hr) as (mid & E & H).
  destruct (from_pairs_modes lo hi Hlo mid _ H) as (out & E' & H').
  exists mid. split; auto. rewrite E'. f_equal.
  eapply has_modes_unique; eauto. intros l m Hv. cbn beta. pose proof inv_sqrt2_sq as Q.
  set (f := mode lo row).
  destruct (Z.ltb_spec 0 m).
  - destruct (Z.ltb_spec 0 (- m)%Z); [lia|]. destruct (Z.ltb_spec (- m)%Z 0); [|lia]. rewrite Z.opp_involutive.
    apply C_eq; cbn; [set (a := re (f l m)); set (b := re (f l (- m)%Z))|set (a := im (f l m)); set (b := im (f l (- m)%Z))];
    [transitivity (inv_sqrt2 * inv_sqrt2 * 2 * a)%R|transitivity (inv_sqrt2 * inv_sqrt2 * 2 * a)%R]; try ring; rewrite Q; field.
  - destruct (Z.ltb_spec m 0); auto. destruct (Z.ltb_spec 0 (- m)%Z); [|lia]. rewrite Z.opp_involutive.
    apply C_eq; cbn; [set (a := re (f l m)); set (b := re (f l (- m)%Z))|set (a := im (f l m)); set (b := im (f l (- m)%Z))];
    [transitivity (inv_sqrt2 * inv_sqrt2 * 2 * a)%R|transitivity (inv_sqrt2 * inv_sqrt2 * 2 * a)%R]; try ring; rewrite Q; field.
Qed.

Theorem C08_roundtrip_back : forall lo hi row, 0 <= lo -> length row = length (LM_range lo hi) ->
  exists mid, from_pairs lo hi row = Ok mid /\ to_pairs lo hi mid = Ok row.
Proof.
  intros lo hi row Hlo HL. pose proof (has_modes_mode lo hi Hlo row HL) as Hr.
  destruct (from_pairs_modes lo hi Hlo row _ Hr) as (mid & E & H).
  destruct (to_pairs_modes lo hi Hlo mid _ H) as (out & E' & H').
  exists mid. split; auto. rewrite E'. f_equal.
  eapply has_modes_unique; eauto. intros l m Hv. cbn beta. pose proof inv_sqrt2_sq as Q.
  set (f := mode lo row).
  destruct (Z.ltb_spec 0 m).
  - destruct (Z.ltb_spec 0 (- m)%Z); [lia|]. destruct (Z.ltb_spec (- m)%Z 0); [|lia]. rewrite Z.opp_involutive.
    apply C_eq; cbn; [set (a := re (f l m)); set (b := re (f l (- m)%Z))|set (a := im (f l m)); set (b := im (f l (- m)%Z))];
    [transitivity (inv_sqrt2 * inv_sqrt2 * 2 * a)%R|transitivity (inv_sqrt2 * inv_sqrt2 * 2 * a)%R]; try ring; rewrite Q; field.
  - destruct (Z.ltb_spec m 0); auto. destruct (Z.ltb_spec 0 (- m)%Z); [|lia]. rewrite Z.opp_involutive.
    apply C_eq; cbn; [set (a := re (f l m)); set (b := re (f l (- m)%Z))|set (a := im (f l m)); set (b := im (f l (- m)%Z))];
    [transitivity (inv_sqrt2 * inv_sqrt2 * 2 * a)%R|transitivity (inv_sqrt2 * inv_sqrt2 * 2 * a)%R]; try ring; rewrite Q; field.
Qed.

(** The sum of squared magnitudes at each time is unchanged. *)
Theorem C08_norm_preserved : forall lo hi row out, 0 <= lo -> length row = length (LM_range lo hi) ->
  to_pairs lo hi row = Ok out -> row_norm out = row_norm row.
Proof.
  intros lo hi row out Hlo HL E. pose proof (has_modes_mode lo hi Hlo row HL) as Hr.
  destruct (to_pairs_modes lo hi Hlo row _ Hr) as (out' & E' & H). rewrite E in E'. injection E' as <-.
  rewrite (row_norm_modes lo hi Hlo _ _ H), (row_norm_modes lo hi Hlo _ _ Hr).
  apply rsum_ext. intros l _. set (f := mode lo row).
  (* average the sum with its m -> -m reflection *)
  assert (S2 : forall g : Z -> R, (rsum g (ms_of l) = rsum (fun m => / 2 * (g m + g (- m)%Z)) (ms_of l))%R).
  { intros g. rewrite rsum_scale, rsum_add, <- (ms_sum_opp g). lra. }
  rewrite S2, (S2 (fun m => norm2 (f l m))). apply rsum_ext. intros m _. f_equal. pose proof inv_sqrt2_sq as Q.
  destruct (Z.ltb_spec 0 m).
  - destruct (Z.ltb_spec 0 (- m)%Z); [lia|]. destruct (Z.ltb_spec (- m)%Z 0); [|lia]. rewrite Z.opp_involutive.
    rewrite !norm2_scale, Q. unfold norm2. cbn. field.
  - destruct (Z.ltb_spec m 0).
    + destruct (Z.ltb_spec 0 (- m)%Z); [|lia]. rewrite Z.opp_involutive. rewrite !norm2_scale, Q. unfold norm2. cbn. field.
    + replace m with 0 by lia. reflexivity.
Qed.
Theorem C08_norm_preserved_back : forall lo hi row out, 0 <= lo -> length row = length (LM_range lo hi) ->
  from_pairs lo hi row = Ok out -> row_norm out = row_norm row.
Proof.
  intros lo hi row out Hlo HL E.
  destruct (C08_roundtrip_back lo hi row Hlo HL) as (mid & E1 & E2). rewrite E in E1. injection E1 as <-.
  symmetry. eapply C08_norm_preserved; [exact Hlo| |exact E2].
  pose proof (has_modes_mode lo hi Hlo row HL) as Hr.
  destruct (from_pairs_modes lo hi Hlo row _ Hr) as (out' & E' & [L _]). congruence.
Qed.
Example C08_case : length [C1; Ci; RtoC 2] = length (LM_range 1 1) /\
  exists out, to_pairs 1 1 [C1; Ci; RtoC 2] = Ok out /\ mode 1 out 1 1 <> RtoC 2 /\ row_norm [C1; Ci; RtoC 2] = 6%R.
Proof.
  split; [reflexivity|].
  destruct (C08_conjugate_pair_values 1 1 [C1; Ci; RtoC 2] ltac:(lia) eq_refl) as (out & E & _ & H).
  exists out. split; auto. destruct (H 1 1 ltac:(lia)) as [H1 _]. destruct (H1 ltac:(lia)) as [H2 _]. rewrite H2.
  split.
  - intros He. apply (f_equal re) in He.
    assert (sqrt 2 <> 0)%R by (apply Rgt_not_eq; apply sqrt_lt_R0; lra).
    assert (He' : (/ sqrt 2 * (2 + 1) = 2)%R) by exact He.
    assert (K : (sqrt 2 * (/ sqrt 2 * (2 + 1)) = sqrt 2 * 2)%R) by (rewrite He'; auto).
    rewrite <- Rmult_assoc, Rinv_r in K by auto.
    assert (sqrt 2 * sqrt 2 = 2)%R by (apply sqrt_sqrt; lra). nra.
  - cbn. unfold norm2. cbn. ring.
Qed.
