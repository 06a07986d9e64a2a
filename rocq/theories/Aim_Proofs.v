(** C88: the supertranslation pass with a target supermomentum. *)
From Coq Require Import Reals ZArith List Bool Lia Lra.
From Verif Require Import Common Cplx Quat Modes_Model Times_Model Tables_Model Modal_Model Kwargs_Model ABD_Model Transform_Model Superrest_Model Rotate_Model
  Modes_Proofs Modal_Proofs Rotate_Proofs Times_Proofs Kwargs_Proofs ABD_Proofs Transform_Proofs Superrest_Proofs Wigner_Model Wigner_Proofs Sphere_Model Sphere_Proofs Harmonics_Proofs
  Pipeline_Model Pipeline_Proofs Rest_Model Rest_Proofs Aim_Model.
Import ListNotations.
Open Scope R_scope.

(** ** Specification *)
(** A supermomentum without part of degree 2 or more *)
Definition no_high (a : list C) (L : Z) : Prop := forall l m, (2 <= l <= L)%Z -> (- l <= m <= l)%Z -> mode_at a l m = C0.
(** Not a number that could be smaller than another *)
Definition unusable (e : xf) : Prop := e = NaN \/ e = PInf.

Lemma sum_zero : forall l : list C, fold_right Rplus 0 (map (fun c => norm2 c) l) = 0 <-> forall c, In c l -> c = C0.
Proof.
  assert (N : forall l : list C, 0 <= fold_right Rplus 0 (map (fun c => norm2 c) l)).
  { induction l as [|c l IH]; cbn [map fold_right]; [lra|]. assert (0 <= norm2 c) by apply norm2_nonneg. lra. }
  induction l as [|c l IH]; cbn [map fold_right].
  - split; [intros _ c []|reflexivity].
  - assert (A := norm2_nonneg c). assert (B := N l). split.
    + intros H x [<- |I]; [apply norm2_zero; lra|]. apply IH; [lra|exact I].
    + intros H. rewrite (proj2 IH) by (intros; apply H; right; assumption). rewrite (H c) by (left; reflexivity). unfold norm2. cbn. ring.
Qed.
Lemma norm_zero : forall l, norm_from_4 l = 0 <-> forall c, In c (skipn 4 l) -> c = C0.
Proof.
  intros l. rewrite <- sum_zero. unfold norm_from_4. split; [|intros ->; apply sqrt_0]. apply sqrt_eq_0.
  induction (skipn 4 l) as [|c r IH]; cbn [map fold_right]; [lra|]. assert (0 <= norm2 c) by apply norm2_nonneg. lra.
Qed.
Lemma high_part : forall L (f : Z * Z -> C), (1 <= L)%Z -> skipn 4 (map f (LM_range 0 L)) = map f (LM_range 2 L).
Proof.
  intros L f HL. rewrite (LM_range_split 0 2 L) by lia. change (LM_range 0 (2 - 1)) with [(0, 0); (1, -1); (1, 0); (1, 1)]%Z. reflexivity.
Qed.
Lemma norm_high : forall L f, (1 <= L)%Z -> (norm_from_4 (map f (LM_range 0 L)) = 0 <-> forall l m, (2 <= l <= L)%Z -> (- l <= m <= l)%Z -> f (l, m) = C0).
Proof.
  intros L f HL. rewrite norm_zero, high_part by exact HL. split.
  - intros H l m Hl Hm. apply H. apply in_map. apply LM_range_In. lia.
  - intros H c I. apply in_map_iff in I. destruct I as ([l m] & <- & I). apply LM_range_In in I. apply H; lia.
Qed.
Lemma minus_map : forall f g (l : list (Z * Z)), minus (map f l) (map g l) = map (fun x => (f x - g x)%C) l.
Proof. intros f g l. unfold minus. rewrite combine_maps, map_map. reflexivity. Qed.

Section Pass.
Variable spline : list R -> list R -> res (R -> R).
Variable map2salm : Z -> Z -> list C -> Z -> Z -> list C.

(** A target that does not change with time is the same wherever it is interpolated. *)
Lemma constant_target : forall tt tgt L alpha, (1 <= L)%Z -> keeps_constants spline tt -> Kwargs_Proofs.has_modes tgt L ->
  target_mass spline tt (map (fun _ => tgt) tt) L L alpha = Ok (map Ropp (on_grid L tgt)).
Proof.
  intros tt tgt L alpha HL HS Ht. unfold target_mass. rewrite (each_ok _ _ _ (fun ij => re (field 0 L (mode_at tgt) (node (2 * L + 1) ij)))); [reflexivity|].
  intros [i j] I. apply cells_In in I. unfold target_cell. cbn [fst snd]. destruct (Z.leb_spec (2 * L + 1) i); [lia|]. destruct (Z.leb_spec (2 * L + 1) j); [lia|]. cbn [orb].
  rewrite map_map. rewrite row_field by (assumption || lia). destruct (HS (re (field 0 L (mode_at tgt) (node (2 * L + 1) (i, j))))) as (f & -> & V). cbn [rbind]. rewrite V. reflexivity.
Qed.
Lemma target_modes : forall L tgt, (1 <= L)%Z -> exact_on map2salm L -> Kwargs_Proofs.has_modes tgt L -> is_real tgt L ->
  map2salm (2 * L + 1)%Z (2 * L + 1)%Z (map (fun m => RtoC (- m)) (map Ropp (on_grid L tgt))) 0%Z L = tgt.
Proof.
  intros L tgt HL HX Ht Hr. rewrite map_map. rewrite (map_ext (fun x => RtoC (- - x)) RtoC) by (intros x; f_equal; ring). apply on_grid_modes; assumption || lia.
Qed.
Lemma tgt_map : forall tgt L, (0 <= L)%Z -> Kwargs_Proofs.has_modes tgt L -> tgt = map (fun lm => mode_at tgt (fst lm) (snd lm)) (LM_range 0 L).
Proof. intros tgt L HL H. apply row_modes; assumption. Qed.

(** The correction towards the target *)
Theorem C88_correction : forall psi tgt L, (1 <= L)%Z -> exact_on map2salm L -> Kwargs_Proofs.has_modes psi L -> is_real psi L -> Kwargs_Proofs.has_modes tgt L -> is_real tgt L ->
  exists a, Kwargs_Proofs.has_modes a L /\ is_real a L
    /\ perturbation map2salm L psi (map Ropp (on_grid L tgt)) (map (fun _ => 1) (cells (2 * L + 1))) = Ok (on_grid L a)
    /\ (forall l m, (0 <= l <= L)%Z -> (- l <= m <= l)%Z -> mode_at a l m = if (l <? 2)%Z then C0 else Cscale (4 / IZR ((l + 2) * (l + 1) * l * (l - 1))) (mode_at psi l m - mode_at tgt l m)%C)
    /\ (forall l m, (0 <= l <= L)%Z -> (- l <= m <= l)%Z -> Cscale (D_value l) (mode_at a l m) = if (l <? 2)%Z then C0 else (mode_at psi l m - mode_at tgt l m)%C).
Proof.
  intros psi tgt L HL HX Hp Hr Ht Htr. set (n := (2 * L + 1)%Z).
  set (p1 := map (fun lm => (mode_at psi (fst lm) (snd lm) - mode_at tgt (fst lm) (snd lm))%C) (LM_range 0 L)).
  assert (M1 : Kwargs_Proofs.has_modes p1 L) by (apply mapped_modes; lia).
  assert (V1 : forall l m, (0 <= l <= L)%Z -> (- l <= m <= l)%Z -> mode_at p1 l m = (mode_at psi l m - mode_at tgt l m)%C) by (intros; unfold p1; rewrite mapped_at by assumption; reflexivity).
  set (a := Dinverse p1 L). assert (Ma : Kwargs_Proofs.has_modes a L) by (apply scaled_modes; exact M1).
  assert (Va : forall l m, (0 <= l <= L)%Z -> (- l <= m <= l)%Z -> mode_at a l m = if (l <? 2)%Z then C0 else Cscale (4 / IZR ((l + 2) * (l + 1) * l * (l - 1))) (mode_at psi l m - mode_at tgt l m)%C).
  { intros l m Hl Hm. unfold a, Dinverse. rewrite scaled_at by assumption. unfold Dinv_value. destruct (Z.ltb_spec l 2) as [B|B]; [apply C_eq; cbn; ring|]. rewrite V1 by assumption. reflexivity. }
  assert (Ra : is_real a L).
  { intros l m Hl Hm. rewrite !Va by lia. destruct (Z.ltb_spec l 2); [apply C_eq; cbn; ring|]. rewrite (Hr l m), (Htr l m) at 1 by assumption.
    set (x := mode_at psi l (- m)). set (y := mode_at tgt l (- m)). apply C_eq; cbn; ring. }
  exists a. split; [exact Ma|]. split; [exact Ra|]. split; [|split; [exact Va|]].
  - unfold perturbation, on_grid at 1. rewrite !map_length, Nat.eqb_refl. unfold alpha_perturbation. cbv zeta. rewrite (salm2map_field psi) by (assumption || lia). fold n.
    unfold on_grid at 1. rewrite map_map. fold n. rewrite combine_maps, combine_maps, map_map.
    assert (EQ : map2salm n n (map (fun x => (field 0 L (mode_at psi) (node n x) + RtoC (- re (field 0 L (mode_at tgt) (node n x)) * 1 ^ 3))%C) (cells n)) 0%Z L = p1).
    { unfold p1. rewrite <- (decomposed map2salm L (fun l m => (mode_at psi l m - mode_at tgt l m)%C)) by (assumption || lia). fold n. f_equal.
      apply map_ext. intros ij. rewrite field_minus. rewrite <- (real_value tgt) by (assumption || lia). set (x := field 0 L (mode_at psi) (node n ij)). apply C_eq; cbn; ring. }
    rewrite EQ. fold a. rewrite salm2map_field by (assumption || lia). rewrite map_map. reflexivity.
  - intros l m Hl Hm. rewrite Va by assumption. unfold D_value. destruct (Z.ltb_spec l 2) as [B|B]; [apply C_eq; cbn; ring|].
    fold (poly4 l). assert (P := poly4_pos l B). set (x := (mode_at psi l m - mode_at tgt l m)%C). apply C_eq; cbn; field; lra.
Qed.

(** A stationary system at rest reaches a target that is constant in time and not spherical in one pass: the supertranslation returned solves
    D alpha = difference of the supermomenta in degrees from 2 on, the supermomentum transformed with it is the target there, and the error reported is 0. *)
Theorem C88_reached : forall t psi tt tgt L E N tol, (1 <= L)%Z -> exact_on map2salm L -> keeps_constants spline t -> keeps_constants spline tt ->
  Kwargs_Proofs.has_modes psi L -> is_real psi L -> carries_momentum psi E (0, 0, 0) -> 0 < E -> Kwargs_Proofs.has_modes tgt L -> is_real tgt L -> ~ no_high tgt L -> (1 <= N)%Z -> xlt (Fin 0) tol = true ->
  exists a, Kwargs_Proofs.has_modes a L /\ is_real a L
    /\ supertranslation_to_target spline map2salm tt (map (fun _ => tgt) tt) L t (map (fun _ => psi) t) L L N tol = Ok (mkbms a q1 (0, 0, 0), [PInf; Fin 0])
    /\ (forall l m, (0 <= l <= L)%Z -> (- l <= m <= l)%Z -> mode_at a l m = if (l <? 2)%Z then C0 else Cscale (4 / IZR ((l + 2) * (l + 1) * l * (l - 1))) (mode_at psi l m - mode_at tgt l m)%C)
    /\ exists psi', moreschi spline map2salm t (map (fun _ => psi) t) L L (on_grid L a) = Ok psi'
       /\ forall l m, (0 <= l <= L)%Z -> (- l <= m <= l)%Z -> mode_at psi' l m = if (l <? 2)%Z then mode_at psi l m else mode_at tgt l m.
Proof.
  intros t psi tt tgt L E N tol HL HX HS HSt Hp Hr HM HE Ht Htr Hh HN Htol.
  destruct (C88_correction psi tgt L HL HX Hp Hr Ht Htr) as (a & Ma & Ra & Eq & Va & Da). exists a. split; [exact Ma|]. split; [exact Ra|].
  assert (Zm : Kwargs_Proofs.has_modes (map (fun _ => C0) (LM_range 0 L)) L) by (apply mapped_modes; lia).
  assert (Zr : is_real (map (fun _ : Z * Z => C0) (LM_range 0 L)) L).
  { intros l m Hl Hm. rewrite !mapped_at by lia. apply C_eq; cbn; ring. }
  assert (M0 : moreschi spline map2salm t (map (fun _ => psi) t) L L (map (fun _ => 0) (cells (2 * L + 1))) = Ok psi).
  { rewrite <- zero_grid by lia. rewrite (C70_supertranslated spline map2salm t psi L E) by assumption. f_equal. apply (rows_equal _ _ L); [lia|apply mapped_modes; lia|exact Hp|].
    intros l m Hl Hm. rewrite mapped_at by assumption. cbn [fst snd]. rewrite mapped_at by assumption. apply C_eq; cbn; ring. }
  assert (M1 := C70_supertranslated spline map2salm t psi L E a HL HX HS Hp Hr HM HE Ma Ra).
  set (F := fun lm : Z * Z => (mode_at psi (fst lm) (snd lm) - Cscale (D_value (fst lm)) (mode_at a (fst lm) (snd lm)))%C) in *.
  assert (VF : forall l m, (0 <= l <= L)%Z -> (- l <= m <= l)%Z -> F (l, m) = if (l <? 2)%Z then mode_at psi l m else mode_at tgt l m).
  { intros l m Hl Hm. unfold F. cbn [fst snd]. rewrite Da by assumption. destruct (l <? 2)%Z; apply C_eq; cbn; ring. }
  assert (MF : Kwargs_Proofs.has_modes (map F (LM_range 0 L)) L) by (apply mapped_modes; lia).
  assert (H4 : (4 <= length psi)%nat) by (unfold Kwargs_Proofs.has_modes in Hp; nia).
  assert (H4F : (4 <= length (map F (LM_range 0 L)))%nat) by (unfold Kwargs_Proofs.has_modes in MF; nia).
  assert (K0 : massK L psi = Ok (map (fun _ => E) (cells (2 * L + 1)), map (fun _ => 1) (cells (2 * L + 1)))).
  { unfold massK. rewrite (at_rest psi L E) by assumption. reflexivity. }
  assert (K1 : massK L (map F (LM_range 0 L)) = Ok (map (fun _ => E) (cells (2 * L + 1)), map (fun _ => 1) (cells (2 * L + 1)))).
  { unfold massK. rewrite (at_rest (map F (LM_range 0 L)) L E); [reflexivity|exact H4F|exact HL| |exact HE]. apply (momentum_low psi); [|exact HM].
    intros l m Hl Hm. rewrite mapped_at by lia. rewrite VF by lia. destruct (Z.ltb_spec l 2); [reflexivity|lia]. }
  assert (EF : target_error map2salm L L (map F (LM_range 0 L)) (map Ropp (on_grid L tgt)) = Fin 0).
  { unfold target_error. rewrite target_modes by assumption. cbv zeta. rewrite (tgt_map tgt L) by (assumption || lia). rewrite minus_map.
    unfold xquot. destruct (Req_EM_T _ 0) as [Z|Z].
    - exfalso. apply Hh. intros l m Hl Hm. rewrite norm_high in Z by exact HL. exact (Z l m Hl Hm).
    - replace (norm_from_4 (map (fun x => (F x - mode_at tgt (fst x) (snd x))%C) (LM_range 0 L))) with 0; [unfold Rdiv; rewrite Rmult_0_l; reflexivity|].
      symmetry. apply norm_high; [exact HL|]. intros l m Hl Hm. rewrite VF by lia. destruct (Z.ltb_spec l 2); [lia|]. cbn [fst snd]. apply C_eq; cbn; ring. }
  assert (DT : drop_translation a = a).
  { assert (Ha := Ma). unfold Kwargs_Proofs.has_modes in Ha. clear - Ha Va HL.
    assert (A0 := Va 0%Z 0%Z ltac:(lia) ltac:(lia)). assert (A1 := Va 1%Z (-1)%Z ltac:(lia) ltac:(lia)). assert (A2 := Va 1%Z 0%Z ltac:(lia) ltac:(lia)). assert (A3 := Va 1%Z 1%Z ltac:(lia) ltac:(lia)).
    unfold mode_at in *. cbn in A0, A1, A2, A3. clear Va.
    destruct a as [|c0 [|c1 [|c2 [|c3 r]]]]; [exfalso; cbn in Ha; nia|exfalso; cbn in Ha; nia|exfalso; cbn in Ha; nia|exfalso; cbn in Ha; nia|].
    change (Z.to_nat 0) with 0%nat in A0. change (Pos.to_nat 1) with 1%nat in A1. change (Pos.to_nat 2) with 2%nat in A2. change (Pos.to_nat 3) with 3%nat in A3.
    cbn in A0, A1, A2, A3. subst. reflexivity. }
  split; [|split; [exact Va|]].
  - unfold supertranslation_to_target, supertranslation_solver, run. destruct (Z.to_nat N) as [|k] eqn:EN; [lia|]. cbn [solve].
    assert (XP : xlt PInf tol = false) by (destruct tol; reflexivity). rewrite XP. unfold super_body at 1. cbn [ss_alpha ss_psi ss_mk].
    rewrite M0. cbn [rbind]. unfold mass_for at 1. rewrite K0. cbn [rbind fst snd]. rewrite constant_target by assumption. cbn [rbind fst snd]. rewrite Eq. cbn [rbind].
    replace (vadd (map (fun _ => 0) (cells (2 * L + 1))) (on_grid L a)) with (on_grid L a) by (symmetry; apply vadd_zero). rewrite M1. cbn [rbind]. unfold mass_for at 1. rewrite K1. cbn [rbind fst snd].
    rewrite constant_target by assumption. cbn [rbind fst snd pymin xmin1]. rewrite EF. cbn [xlt app ss_alpha].
    match goal with |- context[solve ?S ?X ?b ?c k 1 tol (Fin 0) [PInf; Fin 0] ?st ?best] => replace (solve S X b c k 1 tol (Fin 0) [PInf; Fin 0] st best) with (Ok (best, [PInf; Fin 0])) end.
    2: { destruct k; cbn [solve]; [reflexivity|]. rewrite Htol. reflexivity. }
    cbn [rbind]. rewrite on_grid_modes by (assumption || lia). rewrite DT. reflexivity.
  - exists (map F (LM_range 0 L)). split; [exact M1|]. intros l m Hl Hm. rewrite mapped_at by assumption. apply VF; assumption.
Qed.

(** For stationary data at rest and a constant target no iteration fails. *)
Lemma field_plus : forall L a b q, field 0 L (fun l m => a l m + b l m)%C q = (field 0 L a q + field 0 L b q)%C.
Proof. intros L a b q. unfold field. rewrite <- csum_add. apply csum_ext. intros lm _. ring. Qed.
Lemma grid_sum : forall L a b, (0 <= L)%Z -> vadd (on_grid L a) (on_grid L b) = on_grid L (map (fun lm => (mode_at a (fst lm) (snd lm) + mode_at b (fst lm) (snd lm))%C) (LM_range 0 L)).
Proof.
  intros L a b HL. unfold on_grid. set (c := map _ (LM_range 0 L)).
  assert (F : forall ij, re (field 0 L (mode_at c) (node (2 * L + 1) ij)) = re (field 0 L (mode_at a) (node (2 * L + 1) ij)) + re (field 0 L (mode_at b) (node (2 * L + 1) ij))).
  { intros ij. rewrite (field_ext 0 L (mode_at c) (fun l m => mode_at a l m + mode_at b l m)%C); [rewrite field_plus; reflexivity|]. intros l m Hl Hm. unfold c. rewrite mapped_at by (cbn in Hl; lia). reflexivity. }
  induction (cells (2 * L + 1)) as [|x l IH]; [reflexivity|]. cbn [map vadd]. rewrite F. f_equal. exact IH.
Qed.
Theorem C88_runs : forall t psi tt tgt L E N tol, (1 <= L)%Z -> exact_on map2salm L -> keeps_constants spline t -> keeps_constants spline tt ->
  Kwargs_Proofs.has_modes psi L -> is_real psi L -> carries_momentum psi E (0, 0, 0) -> 0 < E -> Kwargs_Proofs.has_modes tgt L -> is_real tgt L ->
  exists r, supertranslation_to_target spline map2salm tt (map (fun _ => tgt) tt) L t (map (fun _ => psi) t) L L N tol = Ok r.
Proof.
  intros t psi tt tgt L E N tol HL HX HS HSt Hp Hr HM HE Ht Htr. unfold supertranslation_to_target, supertranslation_solver, run.
  set (after := fun b : list C => map (fun lm => (mode_at psi (fst lm) (snd lm) - Cscale (D_value (fst lm)) (mode_at b (fst lm) (snd lm)))%C) (LM_range 0 L)).
  assert (AM : forall b, Kwargs_Proofs.has_modes (after b) L) by (intros b; apply mapped_modes; lia).
  assert (AR : forall b, is_real b L -> is_real (after b) L).
  { intros b Hb l m Hl Hm. unfold after. rewrite !mapped_at by lia. cbn [fst snd]. rewrite (Hr l m), (Hb l m) at 1 by assumption. set (x := mode_at psi l (- m)). set (y := mode_at b l (- m)). apply C_eq; cbn; ring. }
  assert (AK : forall b, massK L (after b) = Ok (map (fun _ => E) (cells (2 * L + 1)), map (fun _ => 1) (cells (2 * L + 1)))).
  { intros b. unfold massK. rewrite (at_rest (after b) L E); [reflexivity| |exact HL| |exact HE].
    - assert (H := AM b). unfold Kwargs_Proofs.has_modes in H. nia.
    - apply (momentum_low psi); [|exact HM]. intros l m Hl Hm. unfold after. rewrite mapped_at by lia. cbn [fst snd]. unfold D_value. assert (l = 0 \/ l = 1)%Z as [-> | ->] by lia; apply C_eq; cbn; field. }
  set (body := super_body (list R) (list C) vadd (moreschi spline map2salm t (map (fun _ => psi) t) L L) (massK L) (perturbation map2salm L) (Some (target_mass spline tt (map (fun _ => tgt) tt) L L)) (target_error map2salm L L)).
  set (good := fun (itr : nat) (st : sstate (list R) (list C)) => exists b, Kwargs_Proofs.has_modes b L /\ is_real b L /\ ss_alpha _ _ st = on_grid L b
    /\ (itr <> O -> ss_psi _ _ st = Some (after b) /\ ss_mk _ _ st = Some (map Ropp (on_grid L tgt), map (fun _ => 1) (cells (2 * L + 1))))).
  assert (Step : forall itr st, good itr st -> exists st' e, body itr st = Ok (st', e) /\ good (Datatypes.S itr) st').
  { intros itr st (b & Mb & Rb & Ea & Es). unfold body, super_body.
    assert (Now : (match itr with
        | O => let? p := moreschi spline map2salm t (map (fun _ => psi) t) L L (ss_alpha _ _ st) in let? mk := mass_for (list R) (list C) (massK L) (Some (target_mass spline tt (map (fun _ => tgt) tt) L L)) p (ss_alpha _ _ st) in Ok (p, mk)
        | Datatypes.S _ => match ss_psi _ _ st, ss_mk _ _ st with Some p, Some mk => Ok (p, mk) | _, _ => Err UnboundLocalError end end)
      = Ok (after b, (map Ropp (on_grid L tgt), map (fun _ => 1) (cells (2 * L + 1))))).
    { destruct itr as [|k].
      - rewrite Ea, (C70_supertranslated spline map2salm t psi L E b) by assumption. fold (after b). cbn [rbind]. unfold mass_for. rewrite AK. cbn [rbind fst snd]. rewrite constant_target by assumption. reflexivity.
      - destruct (Es ltac:(discriminate)) as [-> ->]. reflexivity. }
    rewrite Now. cbn [rbind fst snd]. destruct (C88_correction (after b) tgt L HL HX (AM b) (AR b Rb) Ht Htr) as (d & Md & Rd & Ed & _). rewrite Ed. cbn [rbind].
    rewrite Ea, grid_sum by lia. set (c := map _ (LM_range 0 L)).
    assert (Mc : Kwargs_Proofs.has_modes c L) by (apply mapped_modes; lia).
    assert (Rc : is_real c L). { intros l m Hl Hm. unfold c. rewrite !mapped_at by lia. cbn [fst snd]. rewrite (Rb l m), (Rd l m) at 1 by assumption. set (x := mode_at b l (- m)). set (y := mode_at d l (- m)). apply C_eq; cbn; ring. }
    rewrite (C70_supertranslated spline map2salm t psi L E c) by assumption. fold (after c). cbn [rbind]. unfold mass_for. rewrite AK. cbn [rbind fst snd]. rewrite constant_target by assumption. cbn [rbind].
    eexists. eexists. split; [reflexivity|]. exists c. split; [exact Mc|]. split; [exact Rc|]. split; [reflexivity|]. intros _. split; reflexivity. }
  assert (Run : forall k itr e es st best, es <> [] -> good itr st -> exists r, solve _ _ body (ss_alpha (list R) (list C)) k itr tol e es st best = Ok r).
  { induction k as [|k IH]; intros itr e es st best Hes G; cbn [solve]; [eexists; reflexivity|]. destruct (xlt e tol); [eexists; reflexivity|].
    destruct (Step itr st G) as (st' & e' & -> & G'). cbn [rbind]. destruct es as [|e0 es]; [contradiction|]. cbn [pymin rbind]. apply IH; [discriminate|exact G']. }
  destruct (Run (Z.to_nat N) O PInf [PInf] (mkss (list R) (list C) (map (fun _ => 0) (cells (2 * L + 1))) None None) (map (fun _ => 0) (cells (2 * L + 1)))) as [[alpha es] ->]; [discriminate| |eexists; reflexivity].
  exists (map (fun _ => C0) (LM_range 0 L)). split; [apply mapped_modes; lia|]. split; [intros l m Hl Hm; rewrite !mapped_at by lia; apply C_eq; cbn; ring|].
  split; [cbn [ss_alpha]; symmetry; apply zero_grid; lia|]. intros H. contradiction.
Qed.

(** With a target without degrees from 2 on, in particular the target 0 that leaving the argument out is documented to mean, every error is infinite or nan:
    all iterations are spent and no supertranslation is returned, whatever the data. *)
Theorem C88_zero_target_refuted : forall t rows hi tt tgt L N tol b errs, (1 <= L)%Z -> exact_on map2salm L -> keeps_constants spline tt ->
  Kwargs_Proofs.has_modes tgt L -> is_real tgt L -> no_high tgt L ->
  supertranslation_to_target spline map2salm tt (map (fun _ => tgt) tt) L t rows hi L N tol = Ok (b, errs) ->
  b = mkbms (map (fun _ => C0) (LM_range 0 L)) q1 (0, 0, 0) /\ length errs = Datatypes.S (Z.to_nat N) /\ Forall unusable errs.
Proof.
  intros t rows hi tt tgt L N tol b errs HL HX HS Ht Hr Hh H. unfold supertranslation_to_target, supertranslation_solver, run in H.
  assert (IH : forall k itr e es st best r, unusable e -> Forall unusable es ->
    solve _ _ (super_body (list R) (list C) vadd (moreschi spline map2salm t rows hi L) (massK L) (perturbation map2salm L) (Some (target_mass spline tt (map (fun _ => tgt) tt) L L)) (target_error map2salm L L))
      (ss_alpha (list R) (list C)) k itr tol e es st best = Ok r -> fst r = best /\ length (snd r) = (length es + k)%nat /\ Forall unusable (snd r)).
  { induction k as [|k IH]; intros itr e es st best r Ue Ues Hs; cbn [solve] in Hs.
    - injection Hs as <-. cbn [fst snd]. repeat split; [lia|exact Ues].
    - assert (X : xlt e tol = false) by (destruct Ue as [-> | ->]; destruct tol; reflexivity). rewrite X in Hs.
      destruct (super_body _ _ _ _ _ _ _ _ itr st) as [[st' e']|] eqn:B; [|discriminate]. cbn [rbind] in Hs.
      assert (Ue' : unusable e').
      { unfold super_body in B. destruct (match itr with O => _ | Datatypes.S _ => _ end) as [[psi mk]|]; [|discriminate]. cbn [rbind] in B.
        destruct (perturbation _ _ _ _ _) as [d|]; [|discriminate]. cbn [rbind] in B. destruct (moreschi _ _ _ _ _ _ _) as [psi'|]; [|discriminate]. cbn [rbind] in B.
        destruct (mass_for _ _ _ _ _ _) as [mk'|] eqn:EM; [|discriminate]. cbn [rbind] in B. injection B as _ <-.
        unfold mass_for in EM. destruct (massK L psi') as [[m k0]|]; [|discriminate]. cbn [rbind] in EM. rewrite constant_target in EM by assumption. cbn [rbind] in EM. injection EM as <-. cbn [fst].
        unfold target_error. rewrite target_modes by assumption. cbv zeta. unfold xquot. destruct (Req_EM_T (norm_from_4 tgt) 0) as [Z|Z].
        - destruct (Req_EM_T _ 0); [left|right]; reflexivity.
        - exfalso. apply Z. rewrite (tgt_map tgt L) by (assumption || lia). apply norm_high; [exact HL|]. intros l0 m0 Hl Hm. cbn [fst snd]. apply Hh; assumption. }
      destruct (pymin es) as [mn|] eqn:P; [|discriminate]. cbn [rbind] in Hs.
      assert (X' : xlt e' mn = false) by (destruct Ue' as [-> | ->]; destruct mn; reflexivity). rewrite X' in Hs.
      destruct (IH _ _ _ _ _ _ Ue' (proj2 (Forall_app _ _ _) (conj Ues (Forall_cons _ Ue' (Forall_nil _)))) Hs) as (A & B' & D). rewrite app_length in B'. cbn [length] in B'.
      split; [exact A|]. split; [lia|exact D]. }
  destruct (solve _ _ _ _ _ _ _ _ _ _ _) as [[alpha es]|] eqn:S; [|discriminate]. cbn [rbind] in H. injection H as <- <-.
  destruct (IH _ _ _ _ _ _ _ (or_intror eq_refl) (Forall_cons _ (or_intror eq_refl) (Forall_nil _)) S) as (A & B & D). cbn [fst snd length Nat.add] in A, B, D. subst alpha.
  split; [|split; [exact B|exact D]]. f_equal. rewrite <- zero_grid by lia.
  assert (Zr : is_real (map (fun _ : Z * Z => C0) (LM_range 0 L)) L) by (intros l0 m0 Hl Hm; rewrite !mapped_at by lia; apply C_eq; cbn; ring).
  assert (Zm : Kwargs_Proofs.has_modes (map (fun _ : Z * Z => C0) (LM_range 0 L)) L) by (apply mapped_modes; lia).
  change (match L with 0 => 0 | Z.pos p => Z.pos p~0 | Z.neg q => Z.neg q~0 end)%Z with (2 * L)%Z.
  rewrite on_grid_modes by (assumption || lia). unfold drop_translation, zeros.
  rewrite (LM_range_split 0 2 L) by lia. change (LM_range 0 (2 - 1)) with [(0, 0); (1, -1); (1, 0); (1, 1)]%Z. reflexivity.
Qed.
End Pass.

(** ** Degrees: the target must be given up to the degree of the calculation *)
Section Sizes.
Variable spline : list R -> list R -> res (R -> R).
Variable map2salm : Z -> Z -> list C -> Z -> Z -> list C.
Lemma cells_length : forall n, (0 <= n)%Z -> length (cells n) = Z.to_nat (n * n).
Proof.
  intros n Hn. unfold cells. assert (G : forall l : list Z, length (flat_map (fun i => map (pair i) (zrange 0 n)) l) = (length l * Z.to_nat n)%nat).
  { induction l as [|x l IH]; [reflexivity|]. cbn [flat_map]. rewrite app_length, map_length, zrange_length, IH. replace (n - 0)%Z with n by ring. cbn. lia. }
  rewrite G, zrange_length. replace (n - 0)%Z with n by ring. lia.
Qed.
Lemma cell_at : forall (a : Z * Z -> R) n i j, (0 <= i < n)%Z -> (0 <= j < n)%Z -> nth (Z.to_nat (i * n + j)) (map a (cells n)) 0 = a (i, j).
Proof.
  intros a n i j Hi Hj. unfold cells.
  assert (G : forall k l, (k < length l)%nat -> nth (k * Z.to_nat n + Z.to_nat j) (map a (flat_map (fun i => map (pair i) (zrange 0 n)) l)) 0 = a (nth k l 0%Z, j)).
  { induction k as [|k IH]; intros [|x l] Hl; cbn [length] in Hl; try lia; cbn [flat_map nth].
    - rewrite map_app, app_nth1 by (rewrite !map_length, zrange_length; lia). rewrite map_map. cbn [Nat.mul Nat.add].
      rewrite (nth_indep _ 0 (a (x, 0%Z))) by (rewrite map_length, zrange_length; lia). rewrite (map_nth (fun z => a (x, z))), zrange_nth by lia. f_equal. f_equal. lia.
    - rewrite map_app, app_nth2 by (rewrite !map_length, zrange_length; nia). rewrite !map_length, zrange_length. rewrite <- (IH l) by lia. f_equal. rewrite Z.sub_0_r. cbn [Nat.mul]. lia. }
  replace (Z.to_nat (i * n + j)) with (Z.to_nat i * Z.to_nat n + Z.to_nat j)%nat by (rewrite Z2Nat.inj_add, Z2Nat.inj_mul by nia; reflexivity).
  rewrite G by (rewrite zrange_length; lia). rewrite zrange_nth by lia. f_equal. f_equal. lia.
Qed.
(** At each point of the sphere the target is interpolated, as its values there, at the time that this point has reached. *)
Theorem C88_target_point : forall tt trows L (a : Z * Z -> R) (f : Z * Z -> R -> R), (1 <= L)%Z -> (forall row, In row trows -> Kwargs_Proofs.has_modes row L) ->
  (forall ij, In ij (cells (2 * L + 1)) -> spline tt (map (fun row => re (field 0 L (mode_at row) (node (2 * L + 1) ij))) trows) = Ok (f ij)) ->
  target_mass spline tt trows L L (map a (cells (2 * L + 1))) = Ok (map (fun ij => - f ij (a ij)) (cells (2 * L + 1))).
Proof.
  intros tt trows L a f HL HR HS. unfold target_mass. rewrite (each_ok _ _ _ (fun ij => f ij (a ij))); [cbn [rbind]; rewrite map_map; reflexivity|].
  intros [i j] I. assert (I' := I). apply cells_In in I. unfold target_cell. cbn [fst snd]. destruct (Z.leb_spec (2 * L + 1) i); [lia|]. destruct (Z.leb_spec (2 * L + 1) j); [lia|]. cbn [orb].
  rewrite (map_ext_in _ (fun row => re (field 0 L (mode_at row) (node (2 * L + 1) (i, j))))).
  - rewrite HS by exact I'. cbn [rbind]. rewrite cell_at by lia. reflexivity.
  - intros row Ir. rewrite row_field by (try lia; apply HR; exact Ir). reflexivity.
Qed.
Theorem C88_larger_target : forall t rows hi tt trows thi L N tol psi mk, (1 <= L < thi)%Z -> (1 <= N)%Z ->
  (forall y, length y = length trows -> exists f, spline tt y = Ok f) ->
  moreschi spline map2salm t rows hi L (map (fun _ => 0) (cells (2 * L + 1))) = Ok psi -> massK L psi = Ok mk ->
  supertranslation_to_target spline map2salm tt trows thi t rows hi L N tol = Err IndexError.
Proof.
  intros t rows hi tt trows thi L N tol psi [m k] HL HN HS HM HK. unfold supertranslation_to_target, supertranslation_solver, run.
  destruct (Z.to_nat N) as [|j] eqn:EN; [lia|]. cbn [solve]. assert (XP : xlt PInf tol = false) by (destruct tol; reflexivity). rewrite XP. unfold super_body at 1. cbn [ss_alpha ss_psi ss_mk].
  rewrite HM. cbn [rbind]. unfold mass_for at 1. rewrite HK. cbn [rbind].
  assert (E : each (target_cell spline tt trows thi L (map (fun _ => 0) (cells (2 * L + 1)))) (cells (2 * thi + 1)) = Err IndexError).
  { apply each_err.
    - intros [i' j'] _. unfold target_cell. cbn [fst snd]. destruct (_ || _)%bool; [right; reflexivity|left].
      destruct (HS (map (fun row => re (dotl row (SWSH 0 thi (node (2 * thi + 1) (i', j'))))) trows)) as [f ->]; [apply map_length|]. cbn [rbind]. eexists. reflexivity.
    - exists ((2 * L + 1)%Z, 0%Z). split; [apply cells_In; lia|]. unfold target_cell. cbn [fst snd]. rewrite Z.leb_refl. reflexivity. }
  unfold target_mass. rewrite E. reflexivity.
Qed.
Theorem C88_smaller_target : forall t rows hi tt trows thi L N tol psi mk, (1 <= thi < L)%Z -> (1 <= N)%Z ->
  (forall y, length y = length trows -> exists f, spline tt y = Ok f) ->
  moreschi spline map2salm t rows hi L (map (fun _ => 0) (cells (2 * L + 1))) = Ok psi -> massK L psi = Ok mk ->
  supertranslation_to_target spline map2salm tt trows thi t rows hi L N tol = Err ValueError.
Proof.
  intros t rows hi tt trows thi L N tol psi mk HL HN HS HM HK. unfold supertranslation_to_target, supertranslation_solver, run.
  destruct (Z.to_nat N) as [|j] eqn:EN; [lia|]. cbn [solve]. assert (XP : xlt PInf tol = false) by (destruct tol; reflexivity). rewrite XP. unfold super_body at 1. cbn [ss_alpha ss_psi ss_mk].
  rewrite HM. cbn [rbind]. unfold mass_for at 1. rewrite HK. assert (HK' := HK). unfold massK, rest_mass_K in HK'. destruct (momentum psi) as [P|]; [|discriminate]. cbn [rbind] in HK'.
  destruct (L <? 1)%Z; [discriminate|]. cbn [rbind] in HK'. apply Ok_inj in HK'. subst mk. cbn [rbind].
  destruct (each_exists _ _ (target_cell spline tt trows thi L (map (fun _ => 0) (cells (2 * L + 1)))) (fun _ _ => True) (cells (2 * thi + 1))) as (ys & E & F).
  { intros [i' j'] I. apply cells_In in I. unfold target_cell. cbn [fst snd]. destruct (Z.leb_spec (2 * L + 1) i'); [lia|]. destruct (Z.leb_spec (2 * L + 1) j'); [lia|]. cbn [orb].
    destruct (HS (map (fun row => re (dotl row (SWSH 0 thi (node (2 * thi + 1) (i', j'))))) trows)) as [f ->]; [apply map_length|]. cbn [rbind]. eexists. split; [reflexivity|constructor]. }
  unfold target_mass. rewrite E. cbn [rbind fst snd]. apply Forall2_len in F. rewrite cells_length in F by lia. unfold perturbation.
  rewrite !map_length, cells_length by lia. destruct (Nat.eqb_spec (length ys) (Z.to_nat ((2 * L + 1) * (2 * L + 1)))) as [Q|_]; [exfalso; nia|].
  destruct ys as [|y [|y' ys]]; [reflexivity|exfalso; cbn [length] in F; nia|reflexivity].
Qed.
End Sizes.

(** ** Cases *)
(** The quadrupole of C70 at rest, with twice and with none of it as the target *)
Definition double : list C := [C0; C0; C0; C0; C0; C0; RtoC 2; C0; C0].
Definition nothing : list C := map (fun _ => C0) (LM_range 0 2).
Lemma double_ok : Kwargs_Proofs.has_modes double 2 /\ is_real double 2 /\ ~ no_high double 2 /\ Kwargs_Proofs.has_modes nothing 2 /\ is_real nothing 2 /\ no_high nothing 2.
Proof.
  assert (Dm : forall l m, (0 <= l <= 2)%Z -> (- l <= m <= l)%Z -> mode_at double l m = if ((l =? 2) && (m =? 0))%Z then RtoC 2 else C0).
  { intros l m Hl Hm. assert (l = 0 \/ l = 1 \/ l = 2)%Z as [-> |[-> | ->]] by lia; [assert (m = 0)%Z as -> by lia|assert (m = -1 \/ m = 0 \/ m = 1)%Z as [-> |[-> | ->]] by lia|
      assert (m = -2 \/ m = -1 \/ m = 0 \/ m = 1 \/ m = 2)%Z as [-> |[-> |[-> |[-> | ->]]]] by lia]; reflexivity. }
  assert (Nm : forall l m, (0 <= l <= 2)%Z -> (- l <= m <= l)%Z -> mode_at nothing l m = C0) by (intros; unfold nothing; rewrite mapped_at by assumption; reflexivity).
  split; [reflexivity|]. split; [|split; [|split; [reflexivity|split]]].
  - intros l m Hl Hm. rewrite !Dm by lia. destruct (Z.eqb_spec l 2) as [-> |]; cbn [andb]; [|apply C_eq; cbn; ring]. destruct (Z.eqb_spec m 0) as [-> |]; [apply C_eq; cbn; ring|].
    destruct (Z.eqb_spec (- m) 0); [lia|]. apply C_eq; cbn; ring.
  - intros H. specialize (H 2%Z 0%Z ltac:(lia) ltac:(lia)). rewrite Dm in H by lia. apply (f_equal re) in H. cbn in H. lra.
  - intros l m Hl Hm. rewrite !Nm by lia. apply C_eq; cbn; ring.
  - intros l m Hl Hm. apply Nm; lia.
Qed.
Example C88_case_point : let spline := fun (_ y : list R) => Ok (fun x => x + nth 0 y 0) in
  target_mass spline [0] [double] 2 2 (map (fun ij => IZR (fst ij)) (cells 5)) = Ok (map (fun ij => - (IZR (fst ij) + re (field 0 2 (mode_at double) (node 5 ij)))) (cells 5)).
Proof.
  cbv zeta. apply (C88_target_point (fun (_ y : list R) => Ok (fun x => x + nth 0 y 0)) [0] [double] 2 (fun ij => IZR (fst ij)) (fun ij x => x + re (field 0 2 (mode_at double) (node 5 ij)))).
  - lia.
  - intros row [<- |[]]. apply double_ok.
  - intros ij _. reflexivity.
Qed.
Example C88_case_reached : exists spline map2salm a,
  supertranslation_to_target spline map2salm [0; 1; 2; 3] (map (fun _ => double) [0; 1; 2; 3]) 2 [0; 1; 2; 3] (map (fun _ => quadrupole) [0; 1; 2; 3]) 2 2 10 (Fin (/ 10 ^ 12))
    = Ok (mkbms a q1 (0, 0, 0), [PInf; Fin 0])
  /\ mode_at a 2 0 = RtoC (- 1 / 6)
  /\ (exists b errs, supertranslation_to_target spline map2salm [0; 1; 2; 3] (map (fun _ => nothing) [0; 1; 2; 3]) 2 [0; 1; 2; 3] (map (fun _ => quadrupole) [0; 1; 2; 3]) 2 2 10 (Fin (/ 10 ^ 12)) = Ok (b, errs)
      /\ sup b = nothing /\ length errs = 11%nat)
  /\ exists c, supertranslation_to_superrest spline map2salm [0; 1; 2; 3] (map (fun _ => quadrupole) [0; 1; 2; 3]) 2 2 10 (Fin (/ 10 ^ 12)) = Ok (mkbms c q1 (0, 0, 0), [PInf; Fin 0]) /\ mode_at c 2 0 = RtoC (1 / 6).
Proof.
  destruct (C68_inverse_exists 0 5 5) as [m2s HX]. destruct (C68_inverse_exists 0 3 3) as [m2s' HX'].
  set (sp := fun (_ y : list R) => @Ok (R -> R) (fun _ => hd 0 y)).
  assert (HS : keeps_constants sp [0; 1; 2; 3]) by (intros c; exists (fun _ => c); split; [reflexivity|intros; reflexivity]).
  destruct (C70_smaller_refuted sp m2s' [0; 1; 2; 3] HX' HS) as (Hm & Hr & Hc & _). destruct double_ok as (D1 & D2 & D3 & N1 & N2 & N3).
  assert (T : xlt (Fin 0) (Fin (/ 10 ^ 12)) = true).
  { unfold xlt. destruct (Rltb_spec 0 (/ 10 ^ 12)) as [|N]; [reflexivity|exfalso; apply N; apply Rinv_0_lt_compat; apply pow_lt; lra]. }
  destruct (C88_reached sp m2s [0; 1; 2; 3] quadrupole [0; 1; 2; 3] double 2 1 10 (Fin (/ 10 ^ 12)) ltac:(lia) HX HS HS Hm Hr Hc ltac:(lra) D1 D2 D3 ltac:(lia) T) as (a & _ & _ & E & Va & _).
  destruct (C70_stationary sp m2s [0; 1; 2; 3] quadrupole 2 1 10 (Fin (/ 10 ^ 12)) ltac:(lia) HX HS Hm Hr Hc ltac:(lra) ltac:(lia) T) as (c & _ & _ & Ec & Vc & _).
  exists sp, m2s, a. split; [exact E|]. split; [|split].
  - rewrite Va by lia. cbn [Z.ltb Z.compare Pos.compare Pos.compare_cont]. change (mode_at quadrupole 2 0) with C1. change (mode_at double 2 0) with (RtoC 2).
    change (IZR ((2 + 2) * (2 + 1) * 2 * (2 - 1))) with 24. apply C_eq; cbn; field.
  - destruct (C88_runs sp m2s [0; 1; 2; 3] quadrupole [0; 1; 2; 3] nothing 2 1 10 (Fin (/ 10 ^ 12)) ltac:(lia) HX HS HS Hm Hr Hc ltac:(lra) N1 N2) as [[b errs] H].
    exists b, errs. split; [exact H|]. destruct (C88_zero_target_refuted sp m2s _ _ _ _ nothing 2%Z _ _ _ _ ltac:(lia) HX HS N1 N2 N3 H) as (-> & Le & _). split; [reflexivity|exact Le].
  - exists c. split; [exact Ec|]. rewrite Vc by lia. cbn [Z.ltb Z.compare Pos.compare Pos.compare_cont].
    change (mode_at quadrupole 2 0) with C1. change (IZR ((2 + 2) * (2 + 1) * 2 * (2 - 1))) with 24. apply C_eq; cbn; field.
Qed.
