(** * C77: the violations of the Bondi-gauge equations *)
From Coq Require Import Reals ZArith List Bool Lia Lra.
From Verif Require Import Common Cplx Quat Modes_Model Create_Model Times_Model Tables_Model Modal_Model Kwargs_Model Transform_Model Rotate_Model
  Modes_Proofs Modal_Proofs Rotate_Proofs Times_Proofs Kwargs_Proofs Transform_Proofs Wigner_Model Wigner_Proofs Sphere_Model Sphere_Proofs Harmonics_Proofs
  Pipeline_Model Pipeline_Proofs ABD_Model ABD_Proofs ABDBalance_Proofs ABDPointwise_Proofs Zturn_Model Zturn_Proofs Product_Proofs Gridmul_Model Gridmul_Proofs
  Abdpipe_Model Abdpipe_Proofs Eth_Proofs Bianchi_Proofs Bianchimodes_Proofs Constraints_Model.
Import ListNotations.
Open Scope R_scope.

(** ** Specification *)
(** The spline through four or more points of a cubic is that cubic, with its first and second derivatives. *)
Definition derives (dspl : nat -> list R -> list C -> R -> C) : Prop := forall xs c0 c1 c2 c3, increasing xs -> (4 <= length xs)%nat ->
  forall x, dspl 0%nat xs (map (cubic c0 c1 c2 c3) xs) x = cubic c0 c1 c2 c3 x /\ has_derivative (cubic c0 c1 c2 c3) x (dspl 1%nat xs (map (cubic c0 c1 c2 c3) xs) x) /\
    has_derivative (dspl 1%nat xs (map (cubic c0 c1 c2 c3) xs)) x (dspl 2%nat xs (map (cubic c0 c1 c2 c3) xs) x).
(** [residual S k u q d]: the left side less the right side of equation number [k] in the documentation of bondi_constraints (constraints.py 12-24), for six
    functions of time and rotor in the order psi0, psi1, psi2, psi3, psi4, sigma, is [d] at time [u] and rotor [q]. *)
Definition residual (S : nat -> R -> quat -> C) (k : nat) (u : R) (q : quat) (d : C) : Prop :=
  match k with
  | 0%nat => exists D E, has_derivative (fun x => S 0%nat x q) u D /\ ethG (S 1%nat u) q E /\ d = (D - (E + Cscale 3 (S 5%nat u q * S 2%nat u q)))%C
  | 1%nat => exists D E, has_derivative (fun x => S 1%nat x q) u D /\ ethG (S 2%nat u) q E /\ d = (D - (E + Cscale 2 (S 5%nat u q * S 3%nat u q)))%C
  | 2%nat => exists D E, has_derivative (fun x => S 2%nat x q) u D /\ ethG (S 3%nat u) q E /\ d = (D - (E + S 5%nat u q * S 4%nat u q))%C
  | 3%nat => exists Sd E, (forall r, qnorm2 r = 1 -> has_derivative (fun x => S 5%nat x r) u (Sd r)) /\ ethG (fun r => Conj (Sd r)) q E /\ d = (S 3%nat u q + E)%C
  | 4%nat => exists Sd D, (forall x, has_derivative (fun y => S 5%nat y q) x (Sd x)) /\ has_derivative Sd u D /\ d = (S 4%nat u q + Conj D)%C
  | _ => exists Sd Es Ess, has_derivative (fun x => S 5%nat x q) u Sd /\ (forall r, qnorm2 r = 1 -> ethG (fun y => Conj (S 5%nat u y)) r (Es r)) /\ ethG Es q Ess /\
           d = RtoC (im (S 2%nat u q) + im (Ess + S 5%nat u q * Conj Sd)%C)
  end.
Definition spin_of_equation (k : nat) : Z := nth k [2; 1; 0; -1; -2; 0]%Z 0%Z.

(** ** Series that follow functions of time *)
Definition follows (f : mts) (F : R -> modes) : Prop := forall i l m, (i < length (ms_u f))%nat -> ms_at f i l m = F (nth i (ms_u f) 0) l m.
Lemma increasingb_true : forall l, increasing l -> increasingb l = true.
Proof.
  intros l H. induction H as [|x|x y l Hxy H IH]; [reflexivity..|]. change (increasingb (x :: y :: l)) with (Rltb x y && increasingb (y :: l)). rewrite IH, andb_true_r. destruct (Rltb_spec x y); [reflexivity|lra].
Qed.
Lemma peval_cubic : forall cs l m, (length cs <= 4)%nat -> exists c0 c1 c2 c3, forall t, peval cs t l m = cubic c0 c1 c2 c3 t.
Proof.
  intros cs l m H. destruct cs as [|c0 [|c1 [|c2 [|c3 [|]]]]]; [..|cbn in H; lia]; cbn [peval]; unfold fadd, fscale, cubic.
  - exists C0, C0, C0, C0. intros; cx.
  - exists (c0 l m), C0, C0, C0. intros; cx.
  - exists (c0 l m), (c1 l m), C0, C0. intros; cx.
  - exists (c0 l m), (c1 l m), (c2 l m), C0. intros; cx.
  - exists (c0 l m), (c1 l m), (c2 l m), (c3 l m). intros; cx.
Qed.
Section Derivatives.
Variable dspl : nat -> list R -> list C -> R -> C.
Hypothesis HD : derives dspl.
Section One.
Variable f : mts.
Variable F : R -> modes.
Hypothesis Hi : increasing (ms_u f).
Hypothesis H4 : (4 <= length (ms_u f))%nat.
Hypothesis HP : polynomial 3 F.
Hypothesis HF : follows f F.
Lemma mode_cubic : forall l m, exists c0 c1 c2 c3, (forall t, F t l m = cubic c0 c1 c2 c3 t) /\
  map (fun j => ms_at f j l m) (seq 0 (length (ms_u f))) = map (cubic c0 c1 c2 c3) (ms_u f).
Proof.
  intros l m. destruct HP as (cs & Hc & E). destruct (peval_cubic cs l m Hc) as (c0 & c1 & c2 & c3 & EC). exists c0, c1, c2, c3.
  assert (EF : forall t, F t l m = cubic c0 c1 c2 c3 t) by (intros t; rewrite E; apply EC). split; [exact EF|].
  apply nth_ext with (d := ms_at f 0 l m) (d' := cubic c0 c1 c2 c3 0); [rewrite !map_length, seq_length; reflexivity|]. intros i Hi'. rewrite map_length, seq_length in Hi'.
  rewrite (map_nth (fun j => ms_at f j l m) (seq 0 (length (ms_u f))) 0%nat), seq_nth, (map_nth (cubic c0 c1 c2 c3) (ms_u f) 0) by exact Hi'. cbn [Nat.add]. rewrite HF by exact Hi'. apply EF.
Qed.
Lemma interpolate_ok : forall new order, (order <= 3)%nat -> mts_interpolate dspl f new order = Ok (mkmts (ms_s f) (ms_hi f) (ms_tr f) new
  (fun i l m => dspl order (ms_u f) (map (fun j => ms_at f j l m) (seq 0 (length (ms_u f)))) (nth i new 0))).
Proof.
  intros new order Ho. unfold mts_interpolate. destruct (Nat.ltb_spec 3 order); [lia|]. destruct (Nat.ltb_spec (length (ms_u f)) 2); [lia|]. rewrite increasingb_true by exact Hi. reflexivity.
Qed.
Lemma interpolate_follows : forall new, exists g, mts_interpolate dspl f new 0 = Ok g /\ ms_u g = new /\ follows g F.
Proof.
  intros new. rewrite interpolate_ok by lia. eexists. split; [reflexivity|]. split; [reflexivity|]. intros i l m _. cbn [ms_at ms_u].
  destruct (mode_cubic l m) as (c0 & c1 & c2 & c3 & EF & ->). rewrite EF. apply HD; assumption.
Qed.
Variables dF ddF : R -> modes.
Hypothesis H1 : forall u l m, has_derivative (fun x => F x l m) u (dF u l m).
Hypothesis H2 : forall u l m, has_derivative (fun x => dF x l m) u (ddF u l m).
Lemma dspl_1 : forall x l m, dspl 1%nat (ms_u f) (map (fun j => ms_at f j l m) (seq 0 (length (ms_u f)))) x = dF x l m.
Proof.
  intros x l m. destruct (mode_cubic l m) as (c0 & c1 & c2 & c3 & EF & ->). apply (hd_unique (cubic c0 c1 c2 c3) x); [apply HD; assumption|].
  apply (hd_ext (fun y => F y l m)); [exact EF|apply H1].
Qed.
Lemma dot_follows : exists g, mts_dot dspl f = Ok g /\ ms_s g = ms_s f /\ ms_hi g = ms_hi f /\ ms_tr g = ms_tr f /\ ms_u g = ms_u f /\ follows g dF.
Proof.
  unfold mts_dot, mts_derivative. rewrite interpolate_ok by lia. eexists. split; [reflexivity|]. do 4 (split; [reflexivity|]). intros i l m _. cbn [ms_at ms_u]. apply dspl_1.
Qed.
Lemma ddot_follows : exists g, mts_ddot dspl f = Ok g /\ ms_s g = ms_s f /\ ms_hi g = ms_hi f /\ ms_tr g = ms_tr f /\ ms_u g = ms_u f /\ follows g ddF.
Proof.
  unfold mts_ddot, mts_derivative. rewrite interpolate_ok by lia. eexists. split; [reflexivity|]. do 4 (split; [reflexivity|]). intros i l m _. cbn [ms_at ms_u].
  set (t := nth i (ms_u f) 0). apply (hd_unique (fun x => dF x l m) t); [|apply H2].
  apply (hd_ext (fun x => dspl 1%nat (ms_u f) (map (fun j => ms_at f j l m) (seq 0 (length (ms_u f)))) x)); [intros x; apply dspl_1|].
  destruct (mode_cubic l m) as (c0 & c1 & c2 & c3 & EF & ->). apply HD; assumption.
Qed.
End One.
End Derivatives.
Lemma peval_map_bar : forall s cs u l m, peval (map (fbar s) cs) u l m = fbar s (peval cs u) l m.
Proof.
  intros s cs u l m. induction cs as [|c cs IH]; [unfold fbar; cbn; cx|]. cbn [map peval]. unfold fadd at 1, fscale at 1. rewrite IH. unfold fbar, fadd, fscale. cx.
Qed.
Lemma polynomial_bar : forall n s F, polynomial n F -> polynomial n (fun t => fbar s (F t)).
Proof.
  intros n s F (cs & Hc & E). exists (map (fbar s) cs). split; [rewrite map_length; exact Hc|]. intros t l m. rewrite peval_map_bar. unfold fbar. rewrite E. reflexivity.
Qed.
Lemma hd_fbar : forall s F dF u, (forall l m, has_derivative (fun x => F x l m) u (dF l m)) -> forall l m, has_derivative (fun x => fbar s (F x) l m) u (fbar s dF l m).
Proof. intros s F dF u H l m. unfold fbar. apply ABDBalance_Proofs.hd_cscale, ABDBalance_Proofs.hd_conj, H. Qed.

(** ** The six violations in modes *)
Section Modes.
Variable dspl : nat -> list R -> list C -> R -> C.
Variable a : adata.
Variable B : R -> bondi.
Notation L := (bd_hi (ad_data a)).
Notation u_ := (bd_u (ad_data a)).
Hypothesis HDs : derives dspl.
Hypothesis HL : (0 <= L)%Z.
Hypothesis Hi : increasing u_.
Hypothesis H4 : (4 <= length u_)%nat.
Hypothesis HS : samples (ad_data a) B.
Hypothesis HU : forall u f, (f < 6)%nat -> upto L (bfield (B u) f).
Hypothesis HP : forall f, (f < 6)%nat -> polynomial 3 (fun t => bfield (B t) f).
Variable dB : nat -> R -> modes.
Variable sdd : R -> modes.
Hypothesis HB1 : forall f u l m, (f < 6)%nat -> has_derivative (fun x => bfield (B x) f l m) u (dB f u l m).
Hypothesis HB2 : forall u l m, has_derivative (fun x => dB 5 x l m) u (sdd u l m).
Lemma of_follows : forall f, (f < 6)%nat -> follows (mts_of a f) (fun t => bfield (B t) f).
Proof.
  intros f Hf i l m Hi'. cbn [mts_of ms_at ms_u] in *.
  destruct (Z.leb_spec 0 l), (Z.leb_spec l L), (Z.leb_spec (- l) m), (Z.leb_spec m l); cbn [andb]; try (rewrite HU by (exact Hf || lia); reflexivity).
  apply HS; [exact Hf|exact Hi'|split; lia].
Qed.
Definition equation (out : Z) (k : nat) (u : R) : modes :=
  let b := B u in
  match k with
  | 0%nat => fsub (dB 0 u) (fadd (eth_GHP 1 (b_psi1 b)) (fscale 3 (multiply product_table L out 2 0 (b_sigma b) (b_psi2 b))))
  | 1%nat => fsub (dB 1 u) (fadd (eth_GHP 0 (b_psi2 b)) (fscale 2 (multiply product_table L out 2 (-1) (b_sigma b) (b_psi3 b))))
  | 2%nat => fsub (dB 2 u) (fadd (eth_GHP (-1) (b_psi3 b)) (multiply product_table L out 2 (-2) (b_sigma b) (b_psi4 b)))
  | 3%nat => fadd (b_psi3 b) (eth_GHP (-2) (fbar 2 (dB 5 u)))
  | 4%nat => fadd (b_psi4 b) (fbar 2 (sdd u))
  | _ => fadd (fimag (b_psi2 b)) (fimag (fadd (eth_GHP (-1) (eth_GHP (-2) (fbar 2 (b_sigma b)))) (multiply product_table L out 2 (-2) (b_sigma b) (fbar 2 (dB 5 u)))))
  end.
Definition top (k : nat) : Z := if ((k =? 3) || (k =? 4))%nat then L else truncated (ad_tr a) L L.
Lemma follows_at : forall f F, follows f F -> forall i, (i < length (ms_u f))%nat -> forall l m, ms_at f i l m = F (nth i (ms_u f) 0) l m.
Proof. intros f F H i Hi' l m. apply H. exact Hi'. Qed.
Lemma truncated_le : (L <= truncated (ad_tr a) L L)%Z.
Proof. destruct (ad_tr a); cbn [truncated]; lia. Qed.
Definition sum_of (f g : mts) : mts := mkmts (ms_s f) (Z.max (ms_hi f) (ms_hi g)) (ms_tr f) (ms_u f) (fun i => fadd (ms_at f i) (ms_at g i)).
Definition less_of (f g : mts) : mts := mkmts (ms_s f) (Z.max (ms_hi f) (ms_hi g)) (ms_tr f) (ms_u f) (fun i => fsub (ms_at f i) (ms_at g i)).
Definition imag_of (f : mts) : mts := mkmts 0 (ms_hi f) (ms_tr f) (ms_u f) (fun i => fimag (ms_at f i)).
Lemma add_ok : forall f g, ms_s f = ms_s g -> mts_add f g = Ok (sum_of f g).
Proof. intros f g E. unfold mts_add, sum_of. rewrite E, Z.eqb_refl. reflexivity. Qed.
Lemma sub_ok : forall f g, ms_s f = ms_s g -> mts_sub f g = Ok (less_of f g).
Proof. intros f g E. unfold mts_sub, less_of. rewrite E, Z.eqb_refl. reflexivity. Qed.
Lemma imag_ok : forall f, ms_s f = 0%Z -> mts_imag f = Ok (imag_of f).
Proof. intros f E. unfold mts_imag. rewrite E. reflexivity. Qed.
Lemma violations_modes : exists vs, bondi_violations product_table dspl a = Ok vs /\ length vs = 6%nat /\
  forall k v, nth_error vs k = Some v -> ms_s v = spin_of_equation k /\ ms_hi v = top k /\ ms_u v = u_ /\ follows v (equation (truncated (ad_tr a) L L) k).
Proof.
  pose proof truncated_le as TL.
  destruct (dot_follows dspl HDs (mts_of a 0) _ Hi H4 (HP 0%nat ltac:(lia)) (of_follows 0 ltac:(lia)) _ (fun u l m => HB1 0%nat u l m ltac:(lia))) as (g0 & E0 & S0 & M0 & T0 & U0 & F0).
  destruct (dot_follows dspl HDs (mts_of a 1) _ Hi H4 (HP 1%nat ltac:(lia)) (of_follows 1 ltac:(lia)) _ (fun u l m => HB1 1%nat u l m ltac:(lia))) as (g1 & E1 & S1 & M1 & T1 & U1 & F1).
  destruct (dot_follows dspl HDs (mts_of a 2) _ Hi H4 (HP 2%nat ltac:(lia)) (of_follows 2 ltac:(lia)) _ (fun u l m => HB1 2%nat u l m ltac:(lia))) as (g2 & E2 & S2 & M2 & T2 & U2 & F2).
  assert (FB : follows (mts_bar (mts_of a 5)) (fun t => fbar 2 (bfield (B t) 5))).
  { intros i l m Hi'. cbn [mts_bar ms_at ms_u]. change (ms_s (mts_of a 5)) with 2%Z. unfold fbar. rewrite (of_follows 5 ltac:(lia)) by exact Hi'. reflexivity. }
  pose proof (polynomial_bar 3 2 _ (HP 5%nat ltac:(lia))) as PB.
  assert (DB1 : forall u l m, has_derivative (fun x => fbar 2 (bfield (B x) 5) l m) u (fbar 2 (dB 5 u) l m)) by (intros u; apply (hd_fbar 2 (fun x => bfield (B x) 5)); intros; apply HB1; lia).
  assert (DB2 : forall u l m, has_derivative (fun x => fbar 2 (dB 5 x) l m) u (fbar 2 (sdd u) l m)) by (intros u; apply (hd_fbar 2 (dB 5)); intros; apply HB2).
  destruct (dot_follows dspl HDs (mts_bar (mts_of a 5)) _ Hi H4 PB FB _ DB1) as (g5 & E5 & S5 & M5 & T5 & U5 & F5).
  destruct (ddot_follows dspl HDs (mts_bar (mts_of a 5)) _ Hi H4 PB FB _ _ DB1 DB2) as (g6 & E6 & S6 & M6 & T6 & U6 & F6).
  change (ms_s (mts_of a 0)) with 2%Z in S0. change (ms_s (mts_of a 1)) with 1%Z in S1. change (ms_s (mts_of a 2)) with 0%Z in S2. change (ms_s (mts_bar (mts_of a 5))) with (-2)%Z in S5, S6.
  cbn [mts_of mts_bar ms_hi ms_tr ms_u] in M0, M1, M2, M5, M6, T5, U0, U1, U2, U5, U6.
  assert (A : forall f, (f < 6)%nat -> forall i, (i < length u_)%nat -> forall l m, ms_at (mts_of a f) i l m = bfield (B (nth i u_ 0)) f l m) by (intros f Hf i Hi' l m; apply (of_follows f Hf); exact Hi').
  assert (C_0 : bianchi_0 product_table dspl a true true = Ok (Both g0 (sum_of (mts_eth_GHP (mts_of a 1)) (mts_mul product_table (mts_scale 3 (mts_of a 5)) (mts_of a 2))))).
  { unfold bianchi_0, choose, psi0, psi1, psi2, sigma. rewrite E0, add_ok by reflexivity. reflexivity. }
  assert (C_1 : bianchi_1 product_table dspl a true true = Ok (Both g1 (sum_of (mts_eth_GHP (mts_of a 2)) (mts_mul product_table (mts_scale 2 (mts_of a 5)) (mts_of a 3))))).
  { unfold bianchi_1, choose, psi1, psi2, psi3, sigma. rewrite E1, add_ok by reflexivity. reflexivity. }
  assert (C_2 : bianchi_2 product_table dspl a true true = Ok (Both g2 (sum_of (mts_eth_GHP (mts_of a 3)) (mts_mul product_table (mts_of a 5) (mts_of a 4))))).
  { unfold bianchi_2, choose, psi2, psi3, psi4, sigma. rewrite E2, add_ok by reflexivity. reflexivity. }
  assert (C_3 : constraint_3 dspl a true true = Ok (Both (mts_of a 3) (mts_opp (mts_eth_GHP g5)))) by (unfold constraint_3, choose, psi3, sigma; rewrite E5; reflexivity).
  assert (C_4 : constraint_4 dspl a true true = Ok (Both (mts_of a 4) (mts_opp g6))) by (unfold constraint_4, choose, psi4, sigma; rewrite E6; reflexivity).
  assert (C_5 : constraint_mass_aspect product_table dspl a true true = Ok (Both (imag_of (mts_of a 2)) (mts_opp (imag_of (sum_of (mts_eth_GHP (mts_eth_GHP (mts_bar (mts_of a 5)))) (mts_mul product_table (mts_of a 5) g5)))))).
  { unfold constraint_mass_aspect, choose, psi2, sigma. rewrite E5. cbn [rbind]. rewrite add_ok by (cbn [mts_mul ms_s]; rewrite S5; reflexivity). cbn [rbind]. rewrite !imag_ok by reflexivity. reflexivity. }
  unfold bondi_violations, bondi_constraints. cbn [each]. rewrite C_0, C_1, C_2, C_3, C_4, C_5. cbn [rbind each].
  rewrite !sub_ok by (reflexivity || (cbn [mts_opp mts_eth_GHP ms_s]; rewrite ?S0, ?S1, ?S2, ?S5, ?S6; reflexivity)). cbn [rbind]. eexists. split; [reflexivity|]. split; [reflexivity|].
  intros k v Hk. destruct k as [|[|[|[|[|[|k]]]]]]; cbn [nth_error] in Hk; [..|destruct k; discriminate]; injection Hk as <-.
  - cbn [less_of sum_of imag_of mts_eth_GHP mts_bar mts_opp ms_s ms_hi ms_u ms_at ms_tr mts_of mts_scale mts_mul]. rewrite ?S0, ?S1, ?S2, ?M0. split; [reflexivity|]. split; [cbn [top Nat.eqb orb]; lia|]. split; [exact U0|].
    intros i l m Hi'. cbn [less_of sum_of imag_of mts_eth_GHP mts_opp mts_mul ms_u ms_at] in *. rewrite U0 in *. unfold equation, fsub, fadd. rewrite F0, U0 by (rewrite U0; exact Hi').
    rewrite (eth_ext 1 _ (b_psi1 (B (nth i u_ 0)))) by (apply (A 1%nat); [lia|exact Hi']). rewrite Z.max_id. apply (f_equal2 Csub eq_refl), (f_equal2 Cadd eq_refl). symmetry. unfold fscale at 1. rewrite <- multiply_scale_l. symmetry. apply multiply_ext; intros x y.
    + cbn [mts_scale ms_at]. unfold fscale. apply f_equal. apply (A 5%nat); [lia|exact Hi'].
    + apply (A 2%nat); [lia|exact Hi'].
  - cbn [less_of sum_of imag_of mts_eth_GHP mts_bar mts_opp ms_s ms_hi ms_u ms_at ms_tr mts_of mts_scale mts_mul]. rewrite ?S0, ?S1, ?S2, ?M1. split; [reflexivity|]. split; [cbn [top Nat.eqb orb]; lia|]. split; [exact U1|].
    intros i l m Hi'. cbn [less_of sum_of imag_of mts_eth_GHP mts_opp mts_mul ms_u ms_at] in *. rewrite U1 in *. unfold equation, fsub, fadd. rewrite F1, U1 by (rewrite U1; exact Hi').
    rewrite (eth_ext 0 _ (b_psi2 (B (nth i u_ 0)))) by (apply (A 2%nat); [lia|exact Hi']). rewrite Z.max_id. apply (f_equal2 Csub eq_refl), (f_equal2 Cadd eq_refl). symmetry. unfold fscale at 1. rewrite <- multiply_scale_l. symmetry. apply multiply_ext; intros x y.
    + cbn [mts_scale ms_at]. unfold fscale. apply f_equal. apply (A 5%nat); [lia|exact Hi'].
    + apply (A 3%nat); [lia|exact Hi'].
  - cbn [less_of sum_of imag_of mts_eth_GHP mts_bar mts_opp ms_s ms_hi ms_u ms_at ms_tr mts_of mts_scale mts_mul]. rewrite ?S0, ?S1, ?S2, ?M2. split; [reflexivity|]. split; [cbn [top Nat.eqb orb]; lia|]. split; [exact U2|].
    intros i l m Hi'. cbn [less_of sum_of imag_of mts_eth_GHP mts_opp mts_mul ms_u ms_at] in *. rewrite U2 in *. unfold equation, fsub, fadd. rewrite F2, U2 by (rewrite U2; exact Hi').
    rewrite (eth_ext (-1) _ (b_psi3 (B (nth i u_ 0)))) by (apply (A 3%nat); [lia|exact Hi']). rewrite Z.max_id. apply (f_equal2 Csub eq_refl), (f_equal2 Cadd eq_refl). apply multiply_ext; intros x y.
    + apply (A 5%nat); [lia|exact Hi'].
    + apply (A 4%nat); [lia|exact Hi'].
  - cbn [less_of sum_of imag_of mts_eth_GHP mts_bar mts_opp ms_s ms_hi ms_u ms_at ms_tr mts_of mts_scale mts_mul]. rewrite ?M5. split; [reflexivity|]. split; [cbn [top Nat.eqb orb]; lia|]. split; [reflexivity|].
    intros i l m Hi'. cbn [less_of sum_of imag_of mts_eth_GHP mts_opp mts_mul ms_u ms_at] in *. unfold equation, fsub, fadd, fopp. rewrite S5.
    rewrite (eth_ext (-2) (ms_at g5 i) (fbar 2 (dB 5 (nth i u_ 0)))) by (rewrite F5, U5 by (rewrite U5; exact Hi'); reflexivity).
    transitivity (bfield (B (nth i u_ 0)) 3 l m - - eth_GHP (-2) (fbar 2 (dB 5 (nth i u_ 0))) l m)%C; [f_equal; apply (A 3%nat); [lia|exact Hi']|change (ms_u (mts_of a 3)) with u_; change (ms_u (mts_of a 4)) with u_; cbn [bfield nth]; ring].
  - cbn [less_of sum_of imag_of mts_eth_GHP mts_bar mts_opp ms_s ms_hi ms_u ms_at ms_tr mts_of mts_scale mts_mul]. rewrite ?M6. split; [reflexivity|]. split; [cbn [top Nat.eqb orb]; lia|]. split; [reflexivity|].
    intros i l m Hi'. cbn [less_of sum_of imag_of mts_eth_GHP mts_opp mts_mul ms_u ms_at] in *. unfold equation, fsub, fadd, fopp. rewrite F6, U6 by (rewrite U6; exact Hi').
    transitivity (bfield (B (nth i u_ 0)) 4 l m - - fbar 2 (sdd (nth i u_ 0)) l m)%C; [f_equal; apply (A 4%nat); [lia|exact Hi']|change (ms_u (mts_of a 3)) with u_; change (ms_u (mts_of a 4)) with u_; cbn [bfield nth]; ring].
  - cbn [less_of sum_of imag_of mts_eth_GHP mts_bar mts_opp ms_s ms_hi ms_u ms_at ms_tr mts_of mts_scale mts_mul]. rewrite ?M5. split; [reflexivity|]. split; [cbn [top Nat.eqb orb]; lia|]. split; [reflexivity|].
    intros i l m Hi'. cbn [less_of sum_of imag_of mts_eth_GHP mts_opp mts_mul ms_u ms_at] in *. change (ms_u (mts_of a 2)) with u_. unfold equation. cbv zeta. unfold fsub at 1, fopp at 1. match goal with |- _ = fadd ?X ?Y l m => change (fadd X Y l m) with (X l m + Y l m)%C end.
    rewrite (fimag_ext (ms_at (mts_of a 2) i) (b_psi2 (B (nth i u_ 0)))) by (intros k; apply (A 2%nat); [lia|exact Hi']).
    match goal with |- (_ - - fimag ?X l m)%C = (_ + fimag ?Y l m)%C => rewrite (fimag_ext X Y) end; [ring|]. intros k. unfold fadd. f_equal.
    + apply eth_ext, eth_ext. cbn [mts_bar ms_at]. change (ms_s (mts_of a 5)) with 2%Z. unfold fbar. do 2 apply f_equal. apply (A 5%nat); [lia|exact Hi'].
    + cbn [mts_mul ms_at]. rewrite S5, M5. cbn [mts_of ms_hi ms_tr]. rewrite ?Z.max_id. apply multiply_ext; intros x y; [apply (A 5%nat); [lia|exact Hi']|]. rewrite F5, U5 by (rewrite U5; exact Hi'). reflexivity.
Qed.
End Modes.

(** ** The values of the violations *)
Definition values_of (L : Z) (B : R -> bondi) (f : nat) (u : R) (q : quat) : C := field (spin_of f) L (bfield (B u) f) q.
Lemma dots_exist : forall B, (forall f, (f < 6)%nat -> polynomial 3 (fun t => bfield (B t) f)) -> exists dB sdd,
  (forall f u l m, (f < 6)%nat -> has_derivative (fun x => bfield (B x) f l m) u (dB f u l m)) /\ (forall u l m, has_derivative (fun x => dB 5%nat x l m) u (sdd u l m)).
Proof.
  intros B HP. destruct (HP 0%nat ltac:(lia)) as (c0 & _ & E0). destruct (HP 1%nat ltac:(lia)) as (c1 & _ & E1). destruct (HP 2%nat ltac:(lia)) as (c2 & _ & E2).
  destruct (HP 3%nat ltac:(lia)) as (c3 & _ & E3). destruct (HP 4%nat ltac:(lia)) as (c4 & _ & E4). destruct (HP 5%nat ltac:(lia)) as (c5 & _ & E5).
  exists (fun f => peval (pder (nth f [c0; c1; c2; c3; c4; c5] c5))), (peval (pder (pder c5))). split; [|intros; apply peval_dot].
  intros f u l m Hf. destruct f as [|[|[|[|[|[|f]]]]]]; [..|lia]; cbn [nth].
  - apply (hd_ext (fun x => peval c0 x l m)); [intros; symmetry; apply E0|apply peval_dot].
  - apply (hd_ext (fun x => peval c1 x l m)); [intros; symmetry; apply E1|apply peval_dot].
  - apply (hd_ext (fun x => peval c2 x l m)); [intros; symmetry; apply E2|apply peval_dot].
  - apply (hd_ext (fun x => peval c3 x l m)); [intros; symmetry; apply E3|apply peval_dot].
  - apply (hd_ext (fun x => peval c4 x l m)); [intros; symmetry; apply E4|apply peval_dot].
  - apply (hd_ext (fun x => peval c5 x l m)); [intros; symmetry; apply E5|apply peval_dot].
Qed.
Lemma residual_unique : forall S k u q d e, qnorm2 q = 1 -> residual S k u q d -> residual S k u q e -> d = e.
Proof.
  intros S k u q d e Hq Hd He. destruct k as [|[|[|[|[|k]]]]]; cbn [residual] in Hd, He.
  - destruct Hd as (D & E & H1 & H2 & ->), He as (D' & E' & H1' & H2' & ->). rewrite (hd_unique _ _ _ _ H1 H1'), (eg_unique _ _ _ _ H2 H2'). reflexivity.
  - destruct Hd as (D & E & H1 & H2 & ->), He as (D' & E' & H1' & H2' & ->). rewrite (hd_unique _ _ _ _ H1 H1'), (eg_unique _ _ _ _ H2 H2'). reflexivity.
  - destruct Hd as (D & E & H1 & H2 & ->), He as (D' & E' & H1' & H2' & ->). rewrite (hd_unique _ _ _ _ H1 H1'), (eg_unique _ _ _ _ H2 H2'). reflexivity.
  - destruct Hd as (Sd & E & H1 & H2 & ->), He as (Sd' & E' & H1' & H2' & ->). f_equal. apply (eg_unique _ _ _ _ H2). apply (eg_ext (fun r => Conj (Sd' r))); [exact Hq| |exact H2'].
    intros r Hr. rewrite (hd_unique _ _ _ _ (H1' r Hr) (H1 r Hr)). reflexivity.
  - destruct Hd as (Sd & D & H1 & H2 & ->), He as (Sd' & D' & H1' & H2' & ->). f_equal. f_equal. apply (hd_unique _ _ _ _ H2). apply (hd_ext Sd'); [|exact H2'].
    intros x. apply (hd_unique _ _ _ _ (H1' x) (H1 x)).
  - destruct Hd as (Sd & Es & Ess & H1 & H2 & H3 & ->), He as (Sd' & Es' & Ess' & H1' & H2' & H3' & ->). rewrite (hd_unique _ _ _ _ H1 H1').
    rewrite (eg_unique _ _ _ _ H3 (eg_ext Es' Es q Ess' Hq (fun r Hr => eg_unique _ _ _ _ (H2' r Hr) (H2 r Hr)) H3')). reflexivity.
Qed.
Lemma field_fsub : forall s L f g q, field s L (fsub f g) q = (field s L f q - field s L g q)%C.
Proof.
  intros s L f g q. rewrite (field_ext s L (fsub f g) (fadd f (fopp g)) q) by (intros; unfold fsub, fadd, fopp; ring). rewrite field_fadd, field_fopp. ring.
Qed.
Lemma clean_sub : forall s L a b, clean s L a -> clean s L b -> clean s L (fsub a b).
Proof. intros s L a b Ha Hb l m O. unfold fsub. rewrite Ha, Hb by exact O. cx. Qed.
Section Pointwise.
Variable L : Z.
Variable B : R -> bondi.
Hypothesis HL : (0 <= L)%Z.
Hypothesis HC : forall u f, (f < 6)%nat -> clean (spin_of f) L (bfield (B u) f).
Variable dB : nat -> R -> modes.
Variable sdd : R -> modes.
Hypothesis HB1 : forall f u l m, (f < 6)%nat -> has_derivative (fun x => bfield (B x) f l m) u (dB f u l m).
Hypothesis HB2 : forall u l m, has_derivative (fun x => dB 5 x l m) u (sdd u l m).
(** [equation] without the data that it is computed from *)
Definition equation_of (out : Z) (k : nat) (u : R) : modes :=
  let b := B u in
  match k with
  | 0%nat => fsub (dB 0 u) (fadd (eth_GHP 1 (b_psi1 b)) (fscale 3 (multiply product_table L out 2 0 (b_sigma b) (b_psi2 b))))
  | 1%nat => fsub (dB 1 u) (fadd (eth_GHP 0 (b_psi2 b)) (fscale 2 (multiply product_table L out 2 (-1) (b_sigma b) (b_psi3 b))))
  | 2%nat => fsub (dB 2 u) (fadd (eth_GHP (-1) (b_psi3 b)) (multiply product_table L out 2 (-2) (b_sigma b) (b_psi4 b)))
  | 3%nat => fadd (b_psi3 b) (eth_GHP (-2) (fbar 2 (dB 5 u)))
  | 4%nat => fadd (b_psi4 b) (fbar 2 (sdd u))
  | _ => fadd (fimag (b_psi2 b)) (fimag (fadd (eth_GHP (-1) (eth_GHP (-2) (fbar 2 (b_sigma b)))) (multiply product_table L out 2 (-2) (b_sigma b) (fbar 2 (dB 5 u)))))
  end.
Definition top_of (out : Z) (k : nat) : Z := if ((k =? 3) || (k =? 4))%nat then L else out.
Lemma d_clean : forall f u, (f < 6)%nat -> clean (spin_of f) L (dB f u).
Proof. intros f u Hf. apply (clean_dot _ L (fun x => bfield (B x) f) _ u); [intros x; apply HC; exact Hf|intros; apply HB1; exact Hf]. Qed.
Lemma dd_clean : forall u, clean 2 L (sdd u).
Proof. intros u. apply (clean_dot _ L (dB 5) _ u); [intros x; apply (d_clean 5); lia|apply HB2]. Qed.
Lemma bar_clean : forall u, clean (-2) L (fbar 2 (b_sigma (B u))) /\ clean (-2) L (fbar 2 (dB 5 u)) /\ clean (-2) L (fbar 2 (sdd u)).
Proof. intros u. split; [|split]; (apply clean_bar; [reflexivity|]); [apply (HC u 5); lia|apply (d_clean 5); lia|apply dd_clean]. Qed.
Lemma equation_clean : forall k u, (k < 6)%nat -> clean (spin_of_equation k) (top_of (2 * L) k) (equation_of (2 * L) k u).
Proof.
  intros k u Hk. destruct (bar_clean u) as (K1 & K2 & K3). assert (G : forall s c, clean s L c -> clean s (2 * L) c) by (intros s c; apply clean_grow; lia).
  destruct k as [|[|[|[|[|[|k]]]]]]; [..|lia]; cbn [equation_of top_of spin_of_equation nth Nat.eqb orb].
  - apply clean_sub; [apply G, (d_clean 0); lia|]. apply clean_add; [apply G, (clean_eth 1), (HC u 1); lia|apply clean_scale, (clean_mul L 2 0)].
  - apply clean_sub; [apply G, (d_clean 1); lia|]. apply clean_add; [apply G, (clean_eth 0), (HC u 2); lia|apply clean_scale, (clean_mul L 2 (-1))].
  - apply clean_sub; [apply G, (d_clean 2); lia|]. apply clean_add; [apply G, (clean_eth (-1)), (HC u 3); lia|apply (clean_mul L 2 (-2))].
  - apply clean_add; [apply (HC u 3); lia|apply (clean_eth (-2)), K2].
  - apply clean_add; [apply (HC u 4); lia|exact K3].
  - apply clean_add; [apply clean_imag, G, (HC u 2); lia|]. apply clean_imag, clean_add; [apply G, (clean_eth (-1)), (clean_eth (-2)), K1|apply (clean_mul L 2 (-2))].
Qed.
Lemma equation_residual : forall k u q, (k < 6)%nat -> qnorm2 q = 1 ->
  residual (values_of L B) k u q (field (spin_of_equation k) (top_of (2 * L) k) (equation_of (2 * L) k u) q).
Proof.
  intros k u q Hk Hq. destruct (bar_clean u) as (K1 & K2 & K3).
  assert (DV : forall f x r, (f < 6)%nat -> has_derivative (fun y => values_of L B f y r) x (field (spin_of f) L (dB f x) r)).
  { intros f x r Hf. unfold values_of. apply (hd_field (spin_of f) L (fun y => bfield (B y) f)). intros; apply HB1; exact Hf. }
  assert (W : forall s c, clean s L c -> field s (2 * L) c q = field s L c q) by (intros s c Hc; symmetry; apply field_double; assumption).
  assert (PR : forall s1 s2 f g, clean s1 L f -> clean s2 L g -> field (s1 + s2) (2 * L) (multiply product_table L (2 * L) s1 s2 f g) q = (field s1 L f q * field s2 L g q)%C) by (intros; symmetry; apply prod_at; assumption).
  assert (CS : clean 2 L (b_sigma (B u))) by (apply (HC u 5); lia).
  destruct k as [|[|[|[|[|[|k]]]]]]; [..|lia]; cbn [equation_of top_of spin_of_equation nth Nat.eqb orb residual].
  - exists (field 2 L (dB 0 u) q), (field 2 L (eth_GHP 1 (b_psi1 (B u))) q). split; [apply (DV 0%nat); lia|]. split; [apply (eg_field 1)|].
    rewrite field_fsub, field_fadd, field_fscale. rewrite W by (apply (d_clean 0); lia). rewrite W by (apply (clean_eth 1), (HC u 1); lia). rewrite (PR 2%Z 0%Z) by (assumption || (apply (HC u 2); lia)). reflexivity.
  - exists (field 1 L (dB 1 u) q), (field 1 L (eth_GHP 0 (b_psi2 (B u))) q). split; [apply (DV 1%nat); lia|]. split; [apply (eg_field 0)|].
    rewrite field_fsub, field_fadd, field_fscale. rewrite W by (apply (d_clean 1); lia). rewrite W by (apply (clean_eth 0), (HC u 2); lia). rewrite (PR 2%Z (-1)%Z) by (assumption || (apply (HC u 3); lia)). reflexivity.
  - exists (field 0 L (dB 2 u) q), (field 0 L (eth_GHP (-1) (b_psi3 (B u))) q). split; [apply (DV 2%nat); lia|]. split; [apply (eg_field (-1))|].
    rewrite field_fsub, field_fadd. rewrite W by (apply (d_clean 2); lia). rewrite W by (apply (clean_eth (-1)), (HC u 3); lia). rewrite (PR 2%Z (-2)%Z) by (assumption || (apply (HC u 4); lia)). reflexivity.
  - exists (fun r => field 2 L (dB 5 u) r), (field (-1) L (eth_GHP (-2) (fbar 2 (dB 5 u))) q). split; [intros r _; apply (DV 5%nat); lia|]. split.
    + apply (eg_ext (field (-2) L (fbar 2 (dB 5 u)))); [exact Hq|intros r _; apply (bar_at L HL 2)|apply (eg_field (-2))].
    + apply field_fadd.
  - exists (fun x => field 2 L (dB 5 x) q), (field 2 L (sdd u) q). split; [intros x; apply (DV 5%nat); lia|]. split; [apply (hd_field 2 L (dB 5)); apply HB2|].
    rewrite field_fadd, (bar_at L HL 2). reflexivity.
  - exists (field 2 L (dB 5 u) q), (fun r => field (-1) L (eth_GHP (-2) (fbar 2 (b_sigma (B u)))) r), (field 0 L (eth_GHP (-1) (eth_GHP (-2) (fbar 2 (b_sigma (B u))))) q).
    split; [apply (DV 5%nat); lia|]. split; [intros r Hr; apply (eg_ext (field (-2) L (fbar 2 (b_sigma (B u))))); [exact Hr|intros y _; apply (bar_at L HL 2)|apply (eg_field (-2))]|]. split; [apply (eg_field (-1))|].
    rewrite field_fadd, !field_fimag by lia. rewrite field_fadd. rewrite W by (apply (HC u 2); lia). rewrite W by (apply (clean_eth (-1)), (clean_eth (-2)), K1).
    change (field 0 (2 * L) (multiply product_table L (2 * L) 2 (-2) (b_sigma (B u)) (fbar 2 (dB 5 u))) q) with (field (2 + -2) (2 * L) (multiply product_table L (2 * L) 2 (-2) (b_sigma (B u)) (fbar 2 (dB 5 u))) q).
    rewrite (PR 2%Z (-2)%Z _ _ CS K2), (bar_at L HL 2). unfold values_of. cbn [spin_of nth bfield]. apply C_eq; cbn; ring.
Qed.
End Pointwise.

(** Data that are values of functions of time, cubic in time and without modes outside the range of their spin weights *)
Record cubic_data (b : bdata) (B : R -> bondi) : Prop := {
  cd_ok : data_ok b;
  cd_increasing : increasing (bd_u b);
  cd_four : (4 <= length (bd_u b))%nat;
  cd_samples : samples b B;
  cd_clean : forall u f, (f < 6)%nat -> clean (spin_of f) (bd_hi b) (bfield (B u) f);
  cd_cubic : forall f, (f < 6)%nat -> polynomial 3 (fun t => bfield (B t) f) }.
(** The violations are the modes of the left sides less the right sides of the differential equations at the times of the data. *)
Theorem C77_violations : forall dspl a B, derives dspl -> cubic_data (ad_data a) B -> ad_tr a = Sum ->
  exists vs, bondi_violations product_table dspl a = Ok vs /\ length vs = 6%nat /\
    forall k v i q, nth_error vs k = Some v -> (i < length (bd_u (ad_data a)))%nat -> qnorm2 q = 1 ->
      ms_s v = spin_of_equation k /\ ms_u v = bd_u (ad_data a) /\
      residual (values_of (bd_hi (ad_data a)) B) k (nth i (bd_u (ad_data a)) 0) q (field (ms_s v) (ms_hi v) (ms_at v i) q).
Proof.
  intros dspl a B HD [Hok Hi H4 HS HC HP] Ht. destruct (dots_exist B HP) as (dB & sdd & H1 & H2). assert (HL := proj1 Hok).
  destruct (violations_modes dspl a B HD HL Hi H4 HS (fun u f Hf => clean_upto _ _ _ (HC u f Hf)) HP dB sdd H1 H2) as (vs & Ev & Ln & HV).
  exists vs. split; [exact Ev|]. split; [exact Ln|]. intros k v i q Hk Hi' Hq. destruct (HV k v Hk) as (Es & Eh & Eu & Ef). split; [exact Es|]. split; [exact Eu|].
  assert (Hk6 : (k < 6)%nat) by (rewrite <- Ln; apply nth_error_Some; rewrite Hk; discriminate).
  rewrite Es, Eh. unfold top. rewrite Ht in *. cbn [truncated] in *. replace (bd_hi (ad_data a) + bd_hi (ad_data a))%Z with (2 * bd_hi (ad_data a))%Z in * by ring.
  assert (E := equation_residual (bd_hi (ad_data a)) B HL HC dB sdd H1 H2 k (nth i (bd_u (ad_data a)) 0) q Hk6 Hq). unfold top_of in E.
  erewrite field_ext; [exact E|]. intros l m _ _. rewrite Ef by (rewrite Eu; exact Hi'). rewrite Eu. reflexivity.
Qed.
(** ** Norms *)
Lemma norm_zero : forall v i, (i < length (ms_u v))%nat -> nth i (mts_norm v) 0 = 0 <-> forall l m, (0 <= l <= ms_hi v)%Z -> (- l <= m <= l)%Z -> ms_at v i l m = C0.
Proof.
  intros v i Hi. unfold mts_norm. set (g := fun i => sqrt (rsum (fun lm => norm2 (ms_at v i (fst lm) (snd lm))) (LMs (ms_hi v)))).
  rewrite (nth_indep _ 0 (g 0%nat)) by (rewrite map_length, seq_length; exact Hi). rewrite (map_nth g), seq_nth by exact Hi. cbn [Nat.add]. unfold g.
  assert (P : forall x, In x (LMs (ms_hi v)) -> 0 <= norm2 (ms_at v i (fst x) (snd x))) by (intros x _; unfold norm2; nra). split.
  - intros E l m Hl Hm. apply sqrt_eq_0 in E; [|apply rsum_nonneg; exact P]. assert (N := rsum_zero _ _ P E (l, m) ltac:(apply LMs_In; lia)). cbn [fst snd] in N.
    unfold norm2 in N. apply C_eq; cbn [re im C0]; nra.
  - intros H. rewrite rsum_const0; [apply sqrt_0|]. intros [l m] I. apply LMs_In in I. cbn [fst snd]. rewrite H by lia. unfold norm2. cbn. ring.
Qed.
(** A norm is zero exactly where the equation holds all over the sphere. *)
Theorem C77_norms : forall dspl a B, derives dspl -> cubic_data (ad_data a) B -> ad_tr a = Sum ->
  exists ns, bondi_violation_norms product_table dspl a = Ok ns /\ length ns = 6%nat /\
    forall k i, (k < 6)%nat -> (i < length (bd_u (ad_data a)))%nat -> length (nth k ns []) = length (bd_u (ad_data a)) /\ 0 <= nth i (nth k ns []) 0 /\
      (nth i (nth k ns []) 0 = 0 <-> forall q, qnorm2 q = 1 -> residual (values_of (bd_hi (ad_data a)) B) k (nth i (bd_u (ad_data a)) 0) q C0).
Proof.
  intros dspl a B HD HCD Ht. assert (HCD' := HCD). destruct HCD' as [Hok Hi H4 HS HC HP]. destruct (dots_exist B HP) as (dB & sdd & H1 & H2). assert (HL := proj1 Hok).
  destruct (violations_modes dspl a B HD HL Hi H4 HS (fun u f Hf => clean_upto _ _ _ (HC u f Hf)) HP dB sdd H1 H2) as (vs & Ev & Ln & HV).
  exists (map mts_norm vs). unfold bondi_violation_norms. rewrite Ev. split; [reflexivity|]. split; [rewrite map_length; exact Ln|]. intros k i Hk Hi'.
  destruct (nth_error vs k) as [v|] eqn:Ek; [|apply nth_error_None in Ek; lia]. destruct (HV k v Ek) as (Es & Eh & Eu & Ef).
  assert (EN : nth k (map mts_norm vs) [] = mts_norm v) by (apply nth_error_nth; rewrite nth_error_map, Ek; reflexivity). rewrite EN.
  split; [unfold mts_norm; rewrite map_length, seq_length, Eu; reflexivity|]. split.
  { unfold mts_norm. set (g := fun i => sqrt (rsum (fun lm => norm2 (ms_at v i (fst lm) (snd lm))) (LMs (ms_hi v)))).
    rewrite (nth_indep _ 0 (g 0%nat)) by (rewrite map_length, seq_length, Eu; exact Hi'). rewrite (map_nth g). apply sqrt_pos. }
  rewrite norm_zero by (rewrite Eu; exact Hi'). unfold top in Eh. rewrite Ht in *. cbn [truncated] in *. replace (bd_hi (ad_data a) + bd_hi (ad_data a))%Z with (2 * bd_hi (ad_data a))%Z in * by ring.
  set (t := nth i (bd_u (ad_data a)) 0) in *. assert (F : forall l m, ms_at v i l m = equation_of (bd_hi (ad_data a)) B dB sdd (2 * bd_hi (ad_data a)) k t l m).
  { intros l m. rewrite Ef by (rewrite Eu; exact Hi'). rewrite Eu. reflexivity. }
  assert (CE := equation_clean (bd_hi (ad_data a)) B HL HC dB sdd H1 H2 k t Hk). unfold top_of in CE. rewrite <- Eh in CE. split.
  - intros Z q Hq. assert (E := equation_residual (bd_hi (ad_data a)) B HL HC dB sdd H1 H2 k t q Hk Hq). unfold top_of in E. rewrite <- Eh in E.
    assert (E0 : field (spin_of_equation k) (ms_hi v) (equation_of (bd_hi (ad_data a)) B dB sdd (2 * bd_hi (ad_data a)) k t) q = C0).
    { rewrite (field_valid _ _ _ zmodes); [unfold field, zmodes; apply csum_const0; intros; ring|]. intros l m Hl Hm. rewrite <- F. apply Z; lia. }
    rewrite E0 in E. exact E.
  - intros H l m Hl Hm. rewrite F. apply (clean_eq (spin_of_equation k) (ms_hi v) _ zmodes).
    + rewrite Eh. destruct (_ || _); lia.
    + exact CE.
    + intros x y _. reflexivity.
    + intros q Hq. assert (E := equation_residual (bd_hi (ad_data a)) B HL HC dB sdd H1 H2 k t q Hk Hq). unfold top_of in E. rewrite <- Eh in E.
      rewrite (residual_unique _ _ _ _ _ _ Hq E (H q Hq)). unfold field, zmodes. rewrite csum_const0; [reflexivity|]. intros; ring.
Qed.
(** ** Exact solutions *)
Lemma nth_repeat_lt : forall {A : Type} (x d : A) n i, (i < n)%nat -> nth i (repeat x n) d = x.
Proof. intros A x d n. induction n as [|n IH]; intros i H; [lia|]. destruct i as [|i]; [reflexivity|]. apply IH. lia. Qed.
Lemma norms_zero : forall dspl a B dB sdd, derives dspl -> (0 <= bd_hi (ad_data a))%Z -> increasing (bd_u (ad_data a)) -> (4 <= length (bd_u (ad_data a)))%nat -> samples (ad_data a) B ->
  (forall u f, (f < 6)%nat -> upto (bd_hi (ad_data a)) (bfield (B u) f)) -> (forall f, (f < 6)%nat -> polynomial 3 (fun t => bfield (B t) f)) ->
  (forall f u l m, (f < 6)%nat -> has_derivative (fun x => bfield (B x) f l m) u (dB f u l m)) -> (forall u l m, has_derivative (fun x => dB 5%nat x l m) u (sdd u l m)) ->
  (forall k u l m, (k < 6)%nat -> equation a B dB sdd (truncated (ad_tr a) (bd_hi (ad_data a)) (bd_hi (ad_data a))) k u l m = C0) ->
  bondi_violation_norms product_table dspl a = Ok (repeat (repeat 0 (length (bd_u (ad_data a)))) 6).
Proof.
  intros dspl a B dB sdd HD HL Hi H4 HS HU HP H1 H2 HZ. destruct (violations_modes dspl a B HD HL Hi H4 HS HU HP dB sdd H1 H2) as (vs & Ev & Ln & HV).
  unfold bondi_violation_norms. rewrite Ev. cbn [rbind]. f_equal.
  apply nth_ext with (d := []) (d' := []); [rewrite map_length, repeat_length; exact Ln|]. intros k Hk. rewrite map_length, Ln in Hk. rewrite nth_repeat_lt by exact Hk.
  destruct (nth_error vs k) as [v|] eqn:Ek; [|apply nth_error_None in Ek; lia]. destruct (HV k v Ek) as (Es & Eh & Eu & Ef).
  rewrite (nth_error_nth _ _ _ (map_nth_error mts_norm k vs Ek)).
  apply nth_ext with (d := 0) (d' := 0); [unfold mts_norm; rewrite map_length, seq_length, repeat_length, Eu; reflexivity|]. intros i Hi'. unfold mts_norm in Hi'. rewrite map_length, seq_length in Hi'.
  rewrite nth_repeat_lt by (rewrite <- Eu; exact Hi'). apply norm_zero; [exact Hi'|]. intros l m _ _. rewrite Ef by exact Hi'. apply HZ. exact Hk.
Qed.
(** Data on a solution of the equations, cubic in time, have violations of norm zero at every time. *)
Theorem C77_solution : forall dspl a B sd sdd sddd, derives dspl -> data_ok (ad_data a) -> increasing (bd_u (ad_data a)) -> (4 <= length (bd_u (ad_data a)))%nat -> samples (ad_data a) B ->
  bondi_solution (bd_hi (ad_data a)) B sd sdd sddd -> (forall f, (f < 6)%nat -> polynomial 3 (fun t => bfield (B t) f)) -> ad_tr a = Sum ->
  bondi_violation_norms product_table dspl a = Ok (repeat (repeat 0 (length (bd_u (ad_data a)))) 6).
Proof.
  intros dspl a B sd sdd sddd HD Hok Hi H4 HS HB HP Ht. destruct (dots_exist B HP) as (dB & sdd' & H1 & H2).
  assert (ES : forall u l m, dB 5%nat u l m = sd u l m) by (intros u l m; apply (hd_unique (fun x => b_sigma (B x) l m) u); [apply (H1 5%nat); lia|apply (bs_dot _ _ _ _ _ HB)]).
  assert (ESS : forall u l m, sdd' u l m = sdd u l m).
  { intros u l m. apply (hd_unique (fun x => sd x l m) u); [|apply (bs_ddot _ _ _ _ _ HB)]. apply (hd_ext (fun x => dB 5%nat x l m)); [intros; apply ES|apply H2]. }
  apply (norms_zero dspl a B dB sdd' HD (proj1 Hok) Hi H4 HS (bs_upto _ _ _ _ _ HB) HP H1 H2). rewrite Ht. cbn [truncated]. replace (bd_hi (ad_data a) + bd_hi (ad_data a))%Z with (2 * bd_hi (ad_data a))%Z by ring.
  intros k u l m Hk. destruct k as [|[|[|[|[|[|k]]]]]]; [..|lia]; cbn [equation]; unfold fsub, fadd at 1.
  - rewrite (hd_unique _ _ _ _ (H1 0%nat u l m ltac:(lia)) (bs_0 _ _ _ _ _ HB u l m)). unfold fadd, fscale. ring.
  - rewrite (hd_unique _ _ _ _ (H1 1%nat u l m ltac:(lia)) (bs_1 _ _ _ _ _ HB u l m)). unfold fadd, fscale. ring.
  - rewrite (hd_unique _ _ _ _ (H1 2%nat u l m ltac:(lia)) (bs_2 _ _ _ _ _ HB u l m)). unfold fadd, fscale. ring.
  - rewrite (bs_3 _ _ _ _ _ HB u l m). rewrite (eth_ext (-2) (fbar 2 (dB 5%nat u)) (fbar 2 (sd u))) by (unfold fbar; rewrite ES; reflexivity). ring.
  - rewrite (bs_4 _ _ _ _ _ HB u l m). unfold fbar. rewrite ESS. ring.
  - rewrite (bs_im _ _ _ _ _ HB u l m). match goal with |- (- ?x + ?y)%C = C0 => assert (E : y = x); [|rewrite E; ring] end. apply fimag_ext. intros k. unfold fadd. f_equal.
    apply multiply_ext; [reflexivity|]. intros x y. unfold fbar. rewrite ES. reflexivity.
Qed.
(** The data that are the values of functions of time at given times *)
Definition sampled_data (L : Z) (u : list R) (B : R -> bondi) (ft : ftype) : bdata :=
  mkbd u L (map (fun f => map (fun t => map (fun lm => bfield (B t) f (fst lm) (snd lm)) (LM_range 0 L)) u) (seq 0 6)) ft [].
Lemma sampled_data_ok : forall L u B ft, (0 <= L)%Z -> data_ok (sampled_data L u B ft) /\ samples (sampled_data L u B ft) B.
Proof.
  intros L u B ft HL. set (row := fun f t => map (fun lm => bfield (B t) f (fst lm) (snd lm)) (LM_range 0 L)).
  assert (NF : forall f, (f < 6)%nat -> nth f (bd_fields (sampled_data L u B ft)) [] = map (row f) u) by (intros f Hf; destruct f as [|[|[|[|[|[|f]]]]]]; try lia; reflexivity). split.
  - split; [exact HL|]. split; [reflexivity|]. intros f Hf. rewrite NF by exact Hf. split; [apply map_length|].
    intros r I. apply in_map_iff in I. destruct I as (t & <- & I). unfold row. apply map_length.
  - intros f i l m Hf Hi' Hv. cbn [sampled_data bd_u bd_hi] in Hi', Hv. unfold bmode. rewrite NF by exact Hf. rewrite (nth_indep _ [] (row f 0)) by (rewrite map_length; exact Hi').
    rewrite (map_nth (row f)). unfold row. rewrite mode_map by (lia || exact Hv). reflexivity.
Qed.
Lemma interpolate_samples : forall dspl a B new, derives dspl -> (0 <= bd_hi (ad_data a))%Z -> increasing (bd_u (ad_data a)) -> (4 <= length (bd_u (ad_data a)))%nat -> samples (ad_data a) B ->
  (forall u f, (f < 6)%nat -> upto (bd_hi (ad_data a)) (bfield (B u) f)) -> (forall f, (f < 6)%nat -> polynomial 3 (fun t => bfield (B t) f)) ->
  ad_interpolate dspl a new = Ok (mkad (sampled_data (bd_hi (ad_data a)) new B (bd_frameType (ad_data a))) Sum).
Proof.
  intros dspl a B new HD HL Hi H4 HS HU HP. unfold ad_interpolate. set (L := bd_hi (ad_data a)) in *.
  rewrite (each_ok _ _ _ (fun f => map (fun t => map (fun lm => bfield (B t) f (fst lm) (snd lm)) (LM_range 0 L)) new)); [reflexivity|]. intros f If. apply in_seq in If.
  destruct (interpolate_follows dspl HD (mts_of a f) _ Hi H4 (HP f ltac:(lia)) (of_follows a B H4 HS HU f ltac:(lia)) new) as (g & Eg & Eu & Fg). rewrite Eg. cbn [rbind]. f_equal.
  apply nth_ext with (d := []) (d' := []); [rewrite !map_length, seq_length; reflexivity|]. intros i Hi'. rewrite map_length, seq_length in Hi'.
  set (r := fun i => map (fun lm => ms_at g i (fst lm) (snd lm)) (LM_range 0 L)). set (w := fun t => map (fun lm => bfield (B t) f (fst lm) (snd lm)) (LM_range 0 L)).
  rewrite (nth_indep _ [] (r 0%nat)) by (rewrite map_length, seq_length; exact Hi'). rewrite (map_nth r), seq_nth by exact Hi'. rewrite (nth_indep _ [] (w 0)) by (rewrite map_length; exact Hi'). rewrite (map_nth w).
  cbn [Nat.add]. unfold r, w. apply map_ext. intros lm. rewrite Fg, Eu by (rewrite Eu; exact Hi'). reflexivity.
Qed.
(** Interpolating such data leaves the norms zero at the new times. *)
Theorem C77_interpolate : forall dspl a B sd sdd sddd new, derives dspl -> data_ok (ad_data a) -> increasing (bd_u (ad_data a)) -> (4 <= length (bd_u (ad_data a)))%nat -> samples (ad_data a) B ->
  bondi_solution (bd_hi (ad_data a)) B sd sdd sddd -> (forall f, (f < 6)%nat -> polynomial 3 (fun t => bfield (B t) f)) -> increasing new -> (4 <= length new)%nat ->
  exists a', ad_interpolate dspl a new = Ok a' /\ ad_tr a' = Sum /\ bd_u (ad_data a') = new /\ bd_hi (ad_data a') = bd_hi (ad_data a) /\ data_ok (ad_data a') /\ samples (ad_data a') B /\
    bondi_violation_norms product_table dspl a' = Ok (repeat (repeat 0 (length new)) 6).
Proof.
  intros dspl a B sd sdd sddd new HD Hok Hi H4 HS HB HP Hn Hn4. rewrite (interpolate_samples dspl a B new HD (proj1 Hok) Hi H4 HS (bs_upto _ _ _ _ _ HB) HP).
  eexists. split; [reflexivity|]. do 3 (split; [reflexivity|]). destruct (sampled_data_ok (bd_hi (ad_data a)) new B (bd_frameType (ad_data a)) (proj1 Hok)) as [O1 S1].
  split; [exact O1|]. split; [exact S1|]. exact (C77_solution dspl (mkad _ Sum) B sd sdd sddd HD O1 Hn Hn4 S1 HB HP eq_refl).
Qed.
(** ... and so does a supertranslation with a rotation, if the result has room for all modes and at least four times are left. *)
Theorem C77_transform : forall dspl spline map2salm a k p B sd sdd sddd, let b := ad_data a in let L := bd_hi b in let La := ell_max_of (p_super p) in let n := (2 * p_working p + 1)%Z in
  derives dspl -> passes spline -> cubics spline -> data_ok b -> increasing (bd_u b) -> (4 <= length (bd_u b))%nat -> abd_process L k = Ok p -> p_boost p = (0, 0, 0) ->
  bondi_solution L B sd sdd sddd -> (forall f, (f < 6)%nat -> polynomial 3 (fun t => bfield (B t) f)) -> samples b B ->
  (L + 7 * La <= p_output p <= p_working p)%Z -> (forall f, (f < 6)%nat -> exact map2salm (spin_of f) n n) ->
  exists a', ad_transform spline map2salm a k = Ok a' /\ ((4 <= length (bd_u (ad_data a')))%nat ->
    bondi_violation_norms product_table dspl a' = Ok (repeat (repeat 0 (length (bd_u (ad_data a')))) 6)).
Proof.
  intros dspl spline map2salm a k p B sd sdd sddd b L La n HD HS HCu Hb Hi H4 Hp Hv HB HP HSa Ho HX.
  destruct (C76_pipeline spline map2salm b k p B sd sdd sddd HS HCu Hb Hi H4 Hp Hv HB HP HSa Ho HX) as (b' & B' & sd' & sdd' & sddd' & E & Eh & Ok' & HB' & HS' & _ & ET & HP' & _).
  unfold ad_transform. fold b. rewrite E. cbn [rbind]. eexists. split; [reflexivity|]. cbn [ad_data]. intros H4'. rewrite <- Eh in HB'.
  apply (C77_solution dspl (mkad b' Sum) B' sd' sdd' sddd'); try assumption; [|reflexivity]. cbn [ad_data]. refine (C29_increasing _ _ _ _ _ _ Hi ET).
  unfold norm3. cbn. replace (0 * 0 + 0 * 0 + 0 * 0) with 0 by ring. rewrite sqrt_0. lra.
Qed.
(** ** Data built from initial values *)
Lemma upto_trunc : forall L s1 s2 f g, upto L f -> upto L g -> upto L (multiply product_table L L s1 s2 f g).
Proof.
  intros L s1 s2 f g Hf Hg l m O. destruct (Z.lt_ge_cases L l) as [B|B].
  - unfold multiply. destruct (Z.leb_spec l L); [lia|reflexivity].
  - apply (upto_mul L L s1 s2 L L f g Hf Hg). lia.
Qed.
Section Initial.
Variable L : Z.
Variable i : initial.
Hypothesis U0 : upto L (i_sigma0 i).
Hypothesis U1 : upto L (i_sigmadot0 i).
Hypothesis U2 : upto L (i_psi2 i).
Hypothesis U3 : upto L (i_psi1 i).
Hypothesis U4 : upto L (i_psi0 i).
Hypothesis HZ : forall l m, i_sigmaddot0 i l m = C0.
Lemma z_mul : forall s1 s2 f g l m, (forall x y, g x y = C0) -> mul product_table L s1 s2 f g l m = C0.
Proof. intros s1 s2 f g l m H. unfold mul. rewrite (multiply_ext _ _ _ _ _ f f g zmodes) by (reflexivity || (intros; apply H)). rewrite (multiply_comm _ _ _ _ _ _ _ _ _ C72_symmetric). apply multiply_zmodes. Qed.
Lemma z_mul_l : forall s1 s2 f g l m, (forall x y, f x y = C0) -> mul product_table L s1 s2 f g l m = C0.
Proof. intros s1 s2 f g l m H. unfold mul. rewrite (multiply_ext _ _ _ _ _ f zmodes g g) by (reflexivity || (intros; apply H)). apply multiply_zmodes. Qed.
Lemma z_eth : forall s f l m, (forall x y, f x y = C0) -> eth_GHP s f l m = C0.
Proof. intros s f l m H. unfold eth_GHP, eth, ladder, fscale. rewrite H. destruct (_ <? _)%Z; cx. Qed.
Lemma z_s2 : forall l m, s2 i l m = C0.
Proof. intros l m. unfold s2, fscale. rewrite HZ. cx. Qed.
Lemma z_p4 : forall l m, p4_0 i l m = C0.
Proof. intros l m. unfold p4_0, fscale, fbar. rewrite z_s2. cx. Qed.
Lemma z_p31 : forall l m, p3_1 i l m = C0.
Proof. intros l m. unfold p3_1, fscale. rewrite z_eth; [cx|]. intros x y. unfold fbar. rewrite z_s2. cx. Qed.
Lemma z_p22 : forall l m, p2_2 product_table L i l m = C0.
Proof. intros l m. unfold p2_2, fscale, fadd. rewrite z_mul, z_eth by (apply z_p4 || apply z_p31). cx. Qed.
Lemma z_p23 : forall l m, p2_3 product_table L i l m = C0.
Proof. intros l m. unfold p2_3. apply z_mul, z_p4. Qed.
Lemma z_p13 : forall l m, p1_3 product_table L i l m = C0.
Proof. intros l m. unfold p1_3, fscale at 1, fadd. rewrite z_mul by apply z_p31. rewrite z_mul_l by (intros; unfold fscale; rewrite z_s2; cx). rewrite z_eth by apply z_p22. cx. Qed.
Lemma z_p14 : forall l m, p1_4 product_table L i l m = C0.
Proof. intros l m. unfold p1_4, fscale at 1, fadd. rewrite z_mul by apply z_p31. rewrite z_eth by apply z_p23. cx. Qed.
Lemma z_p04 : forall l m, p0_4 product_table L i l m = C0.
Proof.
  intros l m. unfold p0_4, fscale at 1, fadd. rewrite (z_mul 2 0 _ (p2_3 product_table L i)) by apply z_p23. rewrite (z_mul 2 0 _ (p2_2 product_table L i)) by apply z_p22.
  rewrite z_mul_l by (intros; unfold fscale; rewrite z_s2; cx). rewrite z_eth by apply z_p13. cx.
Qed.
Lemma z_p05 : forall l m, p0_5 product_table L i l m = C0.
Proof. intros l m. unfold p0_5, fscale at 1, fadd. rewrite z_mul by apply z_p23. rewrite z_mul_l by (intros; unfold fscale; rewrite z_s2; cx). rewrite z_eth by apply z_p14. cx. Qed.
Lemma z_p06 : forall l m, p0_6 product_table L i l m = C0.
Proof. intros l m. unfold p0_6, fscale at 1. rewrite z_mul by apply z_p23. cx. Qed.
Let b := from_initial_values_exact product_table L i.
Lemma initial_cubic : forall f, (f < 6)%nat -> polynomial 3 (fun t => bfield (b t) f).
Proof.
  intros f Hf. destruct f as [|[|[|[|[|[|f]]]]]]; [..|lia].
  - exists [p0_0 i; p0_1 product_table L i; p0_2 product_table L i; p0_3 product_table L i].
    split; [cbn; lia|]. intros t l m. cbn [bfield nth peval]. unfold b, from_initial_values_exact, exact_psi0. cbn [b_psi0]. unfold fadd, fscale. rewrite z_p04, z_p05, z_p06. cx.
  - exists [p1_0 i; p1_1 product_table L i; p1_2 product_table L i].
    split; [cbn; lia|]. intros t l m. cbn [bfield nth peval]. unfold b, from_initial_values_exact, exact_psi1. cbn [b_psi1]. unfold fadd, fscale. rewrite z_p13, z_p14. cx.
  - exists [p2_0 product_table L i; p2_1 product_table L i].
    split; [cbn; lia|]. intros t l m. cbn [bfield nth peval]. unfold b, from_initial_values_exact, exact_psi2. cbn [b_psi2]. unfold fadd, fscale. rewrite z_p22, z_p23. cx.
  - exists [p3_0 i]. split; [cbn; lia|]. intros t l m. cbn [bfield nth peval]. unfold b, from_initial_values_exact, exact_psi3. cbn [b_psi3]. unfold fadd, fscale. rewrite z_p31. cx.
  - exists [p4_0 i]. split; [cbn; lia|]. intros t l m. cbn [bfield nth peval]. unfold b, from_initial_values_exact, exact_psi4. cbn [b_psi4]. unfold fadd, fscale. cx.
  - exists [s0 i; s1 i]. split; [cbn; lia|]. intros t l m. cbn [bfield nth peval]. unfold b, from_initial_values_exact, exact_sigma. cbn [b_sigma]. unfold fadd, fscale. rewrite z_s2. cx.
Qed.
Ltac up_all := repeat first [assumption | apply upto_trunc | match goal with
  | |- upto _ (eth_GHP _ _) => apply upto_eth | |- upto _ (fbar _ _) => apply upto_bar | |- upto _ (freal _) => apply upto_real | |- upto _ (fimag _) => apply upto_imag
  | |- upto _ (fmuli _) => apply upto_muli | |- upto _ (fopp _) => apply upto_opp | |- upto _ (fsub _ _) => apply upto_sub | |- upto _ (fadd _ _) => apply upto_add | |- upto _ (fscale _ _) => apply upto_scale end].
Lemma initial_upto : forall u f, (f < 6)%nat -> upto L (bfield (b u) f).
Proof.
  assert (US2 : upto L (s2 i)) by (intros l m _; apply z_s2). assert (US0 : upto L (s0 i)) by exact U0. assert (US1 : upto L (s1 i)) by exact U1.
  assert (P4 : upto L (p4_0 i)) by (unfold p4_0; up_all). assert (P30 : upto L (p3_0 i)) by (unfold p3_0; up_all). assert (P31 : upto L (p3_1 i)) by (unfold p3_1; up_all).
  assert (P20 : upto L (p2_0 product_table L i)) by (unfold p2_0, mul; up_all). assert (P21 : upto L (p2_1 product_table L i)) by (unfold p2_1, mul; up_all).
  assert (P22 : upto L (p2_2 product_table L i)) by (intros l m _; apply z_p22). assert (P23 : upto L (p2_3 product_table L i)) by (intros l m _; apply z_p23).
  assert (P10 : upto L (p1_0 i)) by exact U3. assert (P11 : upto L (p1_1 product_table L i)) by (unfold p1_1, mul; up_all). assert (P12 : upto L (p1_2 product_table L i)) by (unfold p1_2, mul; up_all).
  assert (P13 : upto L (p1_3 product_table L i)) by (intros l m _; apply z_p13). assert (P14 : upto L (p1_4 product_table L i)) by (intros l m _; apply z_p14).
  assert (P00 : upto L (p0_0 i)) by exact U4. assert (P01 : upto L (p0_1 product_table L i)) by (unfold p0_1, mul; up_all). assert (P02 : upto L (p0_2 product_table L i)) by (unfold p0_2, mul; up_all).
  assert (P03 : upto L (p0_3 product_table L i)) by (unfold p0_3, mul; up_all). assert (P04 : upto L (p0_4 product_table L i)) by (intros l m _; apply z_p04).
  assert (P05 : upto L (p0_5 product_table L i)) by (intros l m _; apply z_p05). assert (P06 : upto L (p0_6 product_table L i)) by (intros l m _; apply z_p06).
  intros u f Hf. unfold b, from_initial_values_exact, exact_psi0, exact_psi1, exact_psi2, exact_psi3, exact_psi4, exact_sigma.
  destruct f as [|[|[|[|[|[|f]]]]]]; [..|lia]; cbn [bfield nth b_psi0 b_psi1 b_psi2 b_psi3 b_psi4 b_sigma]; up_all.
Qed.
Hypothesis W0 : clean 2 L (i_sigma0 i).
Hypothesis W1 : clean 2 L (i_sigmadot0 i).
Hypothesis W3 : clean 1 L (i_psi1 i).
Hypothesis W4 : clean 2 L (i_psi0 i).
Lemma clean_trunc : forall s1 s2 f g, clean (s1 + s2) L (multiply product_table L L s1 s2 f g).
Proof.
  intros s1 s2 f g l m O. destruct (Z.lt_ge_cases L l) as [B|B]; [unfold multiply; destruct (Z.leb_spec l L); [lia|reflexivity]|].
  destruct (Z.lt_ge_cases (2 * L) l) as [B'|B']; [unfold multiply; destruct (Z.leb_spec l L); [|reflexivity]|].
  - apply csum_const0. intros p I. unfold LMs in I. destruct p as [x y]. apply LMs_In in I. lia.
  - pose proof (clean_mul L s1 s2 f g l m) as E. unfold multiply in *. destruct (Z.leb_spec l L); [|reflexivity]. destruct (Z.leb_spec l (2 * L)); [|lia]. apply E. lia.
Qed.
Lemma clean_upto0 : forall f, upto L f -> clean 0 L f.
Proof. intros f H l m O. apply H. lia. Qed.
Lemma initial_clean : forall u f, (f < 6)%nat -> clean (spin_of f) L (bfield (b u) f).
Proof.
  intros u f Hf. assert (C2 : clean 2 L (s2 i)) by (intros l m _; apply z_s2). assert (A0 : clean 2 L (s0 i)) by exact W0. assert (A1 : clean 2 L (s1 i)) by exact W1.
  destruct f as [|[|[|[|[|[|f]]]]]]; [..|lia].
  - assert (D1 : clean 1 L (p1_1 product_table L i)).
    { unfold p1_1. apply clean_add; [apply (clean_trunc 2 (-1))|apply (clean_eth 0), clean_upto0]. pose proof (initial_upto 0 2 ltac:(lia)) as H. intros l m O. specialize (H l m O). unfold b, from_initial_values_exact, exact_psi2, fadd, fscale in H. cbn [bfield nth b_psi2] in H. rewrite <- H. cx. }
    assert (D2 : clean 1 L (p1_2 product_table L i)).
    { unfold p1_2. apply clean_add; [apply clean_add; apply (clean_trunc 2 (-1))|]. apply clean_scale, (clean_eth 0). unfold p2_1. apply clean_add; [apply (clean_trunc 2 (-2))|]. apply (clean_eth (-1)).
      unfold p3_0. apply clean_opp, (clean_eth (-2)), clean_bar; [reflexivity|exact A1]. }
    assert (E0 : clean 2 L (p0_0 i)) by exact W4. assert (E1 : clean 2 L (p0_1 product_table L i)) by (unfold p0_1; apply clean_add; [apply (clean_trunc 2 0)|apply (clean_eth 1); exact W3]).
    assert (E2 : clean 2 L (p0_2 product_table L i)) by (unfold p0_2; apply clean_scale, clean_add; [apply clean_add; apply (clean_trunc 2 0)|apply (clean_eth 1); exact D1]).
    assert (E3 : clean 2 L (p0_3 product_table L i)) by (unfold p0_3; apply clean_add; [repeat apply clean_add; apply (clean_trunc 2 0)|apply clean_scale, (clean_eth 1); exact D2]).
    intros l m O. unfold b, from_initial_values_exact, exact_psi0, fadd, fscale. cbn [bfield nth b_psi0]. rewrite z_p04, z_p05, z_p06, E0, E1, E2, E3 by exact O. cx.
  - assert (D1 : clean 1 L (p1_1 product_table L i)).
    { unfold p1_1. apply clean_add; [apply (clean_trunc 2 (-1))|apply (clean_eth 0), clean_upto0]. pose proof (initial_upto 0 2 ltac:(lia)) as H. intros l m O. specialize (H l m O). unfold b, from_initial_values_exact, exact_psi2, fadd, fscale in H. cbn [bfield nth b_psi2] in H. rewrite <- H. cx. }
    assert (D2 : clean 1 L (p1_2 product_table L i)).
    { unfold p1_2. apply clean_add; [apply clean_add; apply (clean_trunc 2 (-1))|]. apply clean_scale, (clean_eth 0). unfold p2_1. apply clean_add; [apply (clean_trunc 2 (-2))|]. apply (clean_eth (-1)).
      unfold p3_0. apply clean_opp, (clean_eth (-2)), clean_bar; [reflexivity|exact A1]. }
    intros l m O. unfold b, from_initial_values_exact, exact_psi1, fadd, fscale. cbn [bfield nth b_psi1]. rewrite z_p13, z_p14, D1, D2 by exact O. unfold p1_0. rewrite W3 by exact O. cx.
  - apply clean_upto0. apply (initial_upto u 2). lia.
  - intros l m O. unfold b, from_initial_values_exact, exact_psi3, fadd, fscale. cbn [bfield nth b_psi3]. rewrite z_p31.
    assert (D : clean (-1) L (p3_0 i)) by (unfold p3_0; apply clean_opp, (clean_eth (-2)), clean_bar; [reflexivity|exact A1]). rewrite D by exact O. cx.
  - intros l m _. apply z_p4.
  - intros l m O. unfold b, from_initial_values_exact, exact_sigma, fadd, fscale. cbn [bfield nth b_sigma]. rewrite z_s2, A0, A1 by exact O. cx.
Qed.
End Initial.
(** Data built from initial values with a shear linear in time, which have the truncator `max`, have no violations: the equations hold for products cut at the
    highest degree of the data. *)
Theorem C77_initial : forall dspl a i, let L := bd_hi (ad_data a) in derives dspl -> data_ok (ad_data a) -> increasing (bd_u (ad_data a)) -> (4 <= length (bd_u (ad_data a)))%nat ->
  upto L (i_sigma0 i) -> upto L (i_sigmadot0 i) -> upto L (i_psi2 i) -> upto L (i_psi1 i) -> upto L (i_psi0 i) -> (forall l m, i_sigmaddot0 i l m = C0) ->
  samples (ad_data a) (from_initial_values_exact product_table L i) -> ad_tr a = Max ->
  bondi_violation_norms product_table dspl a = Ok (repeat (repeat 0 (length (bd_u (ad_data a)))) 6).
Proof.
  intros dspl a i L HD Hok Hi H4 U0 U1 U2 U3 U4 HZ HS Ht. set (B := from_initial_values_exact product_table L i) in *.
  pose proof (initial_cubic L i HZ) as HP. pose proof (initial_upto L i U0 U1 U2 U3 U4 HZ) as HU. fold B in HP, HU. pose proof (C34_exact product_table L i) as X. fold B in X.
  destruct (dots_exist B HP) as (dB & sdd' & H1 & H2). set (sd := exact_sigma_dot i) in *. set (sdd := exact_sigma_ddot i) in *.
  assert (ES : forall u l m, dB 5%nat u l m = sd u l m) by (intros u l m; apply (hd_unique (fun x => b_sigma (B x) l m) u); [apply (H1 5%nat); lia|apply (eq_sigma_dot _ _ _ _ _ X)]).
  assert (ESS : forall u l m, sdd' u l m = sdd u l m).
  { intros u l m. apply (hd_unique (fun x => sd x l m) u); [|apply (eq_sigma_ddot _ _ _ _ _ X)]. apply (hd_ext (fun x => dB 5%nat x l m)); [intros; apply ES|apply H2]. }
  apply (norms_zero dspl a B dB sdd' HD (proj1 Hok) Hi H4 HS HU HP H1 H2). rewrite Ht. cbn [truncated]. rewrite Z.max_id. fold L.
  intros k u l m Hk. destruct k as [|[|[|[|[|[|k]]]]]]; [..|lia]; cbn [equation]; fold L; unfold fsub, fadd at 1.
  - rewrite (hd_unique _ _ _ _ (H1 0%nat u l m ltac:(lia)) (eq_bianchi_0 _ _ _ _ _ X u l m)). unfold fadd, fscale. ring.
  - rewrite (hd_unique _ _ _ _ (H1 1%nat u l m ltac:(lia)) (eq_bianchi_1 _ _ _ _ _ X u l m)). unfold fadd, fscale. ring.
  - rewrite (hd_unique _ _ _ _ (H1 2%nat u l m ltac:(lia)) (eq_bianchi_2 _ _ _ _ _ X u l m)). unfold fadd, fscale. ring.
  - rewrite (eq_psi3 _ _ _ _ _ X u l m). rewrite (eth_ext (-2) (fbar 2 (dB 5%nat u)) (fbar 2 (sd u))) by (unfold fbar; rewrite ES; reflexivity). ring.
  - rewrite (eq_psi4 _ _ _ _ _ X u l m). unfold fbar. rewrite ESS. ring.
  - pose proof (C34_mass_aspect product_table L i C72_symmetric C72_flip u l m) as Y. cbv zeta in Y. fold B in Y. rewrite Y.
    match goal with |- (- ?x + ?y)%C = C0 => assert (E : y = x); [|rewrite E; ring] end. apply fimag_ext. intros k. unfold fadd. f_equal.
    apply multiply_ext; [reflexivity|]. intros x y. unfold fbar. rewrite ES. reflexivity.
Qed.

(** ** Truncation *)
Lemma each_inv : forall {A B : Type} (f : A -> res B) l r, each f l = Ok r -> forall k x, nth_error l k = Some x -> exists y, nth_error r k = Some y /\ f x = Ok y.
Proof.
  intros A B f l. induction l as [|x l IH]; intros r H k z Hk; [destruct k; discriminate|]. cbn [each] in H. destruct (f x) as [y|] eqn:E; [|discriminate]. cbn [rbind] in H.
  destruct (each f l) as [ys|] eqn:E2; [|discriminate]. cbn [rbind] in H. injection H as <-. destruct k as [|k]; cbn [nth_error] in *; [injection Hk as <-; exists y; auto|]. apply (IH ys eq_refl k z Hk).
Qed.
Lemma each_len : forall {A B : Type} (f : A -> res B) l r, each f l = Ok r -> length r = length l.
Proof.
  intros A B f l. induction l as [|x l IH]; intros r H; cbn [each] in H; [injection H as <-; reflexivity|]. destruct (f x); [|discriminate]. cbn [rbind] in H. destruct (each f l) as [ys|]; [|discriminate].
  cbn [rbind] in H. injection H as <-. cbn [length]. f_equal. apply IH. reflexivity.
Qed.
Section Explicit.
Variable dspl : nat -> list R -> list C -> R -> C.
Definition der (n : nat) (f : mts) : mts := mkmts (ms_s f) (ms_hi f) (ms_tr f) (ms_u f) (fun i l m => dspl n (ms_u f) (map (fun j => ms_at f j l m) (seq 0 (length (ms_u f)))) (nth i (ms_u f) 0)).
Definition timesb (u : list R) : bool := (2 <=? length u)%nat && increasingb u.
Lemma der_ok : forall n f, (n <= 3)%nat -> timesb (ms_u f) = true -> mts_derivative dspl f n = Ok (der n f).
Proof.
  intros n f Hn H. apply andb_true_iff in H. destruct H as [H1 H2]. apply Nat.leb_le in H1. unfold mts_derivative, mts_interpolate. destruct (Nat.ltb_spec 3 n); [lia|].
  destruct (Nat.ltb_spec (length (ms_u f)) 2); [lia|]. rewrite H2. reflexivity.
Qed.
Lemma der_err : forall n f, (n <= 3)%nat -> timesb (ms_u f) = false -> mts_derivative dspl f n = Err ValueError.
Proof.
  intros n f Hn H. unfold mts_derivative, mts_interpolate. destruct (Nat.ltb_spec 3 n); [lia|]. unfold timesb in H.
  destruct (Nat.leb_spec 2 (length (ms_u f))), (Nat.ltb_spec (length (ms_u f)) 2); try lia; cbn [andb orb] in *; [rewrite H|]; reflexivity.
Qed.
Variable K : Z -> Z -> Z -> Z -> Z -> Z -> Z -> R.
Lemma violations_explicit : forall a, timesb (bd_u (ad_data a)) = true -> let o := mts_of a in let sb := mts_bar (o 5%nat) in bondi_violations K dspl a = Ok
  [less_of (der 1 (o 0%nat)) (sum_of (mts_eth_GHP (o 1%nat)) (mts_mul K (mts_scale 3 (o 5%nat)) (o 2%nat))); less_of (der 1 (o 1%nat)) (sum_of (mts_eth_GHP (o 2%nat)) (mts_mul K (mts_scale 2 (o 5%nat)) (o 3%nat)));
   less_of (der 1 (o 2%nat)) (sum_of (mts_eth_GHP (o 3%nat)) (mts_mul K (o 5%nat) (o 4%nat))); less_of (o 3%nat) (mts_opp (mts_eth_GHP (der 1 sb))); less_of (o 4%nat) (mts_opp (der 2 sb));
   less_of (imag_of (o 2%nat)) (mts_opp (imag_of (sum_of (mts_eth_GHP (mts_eth_GHP sb)) (mts_mul K (o 5%nat) (der 1 sb)))))].
Proof.
  intros a H. cbv zeta. unfold bondi_violations, bondi_constraints. cbn [each].
  assert (D : forall n f, (n <= 3)%nat -> ms_u f = bd_u (ad_data a) -> mts_derivative dspl f n = Ok (der n f)) by (intros n f Hn E; apply der_ok; [exact Hn|rewrite E; exact H]).
  unfold bianchi_0, bianchi_1, bianchi_2, constraint_3, constraint_4, constraint_mass_aspect, choose, psi0, psi1, psi2, psi3, psi4, sigma, mts_dot, mts_ddot. rewrite !D by (reflexivity || lia). cbn [rbind].
  rewrite !add_ok by reflexivity. cbn [rbind]. rewrite !imag_ok by reflexivity. cbn [rbind each]. rewrite !sub_ok by reflexivity. reflexivity.
Qed.
End Explicit.
Lemma increasingb_iff : forall l, increasingb l = true <-> increasing l.
Proof.
  intros l. split; [|apply increasingb_true]. induction l as [|x l IH]; intros H; [constructor|]. destruct l as [|y l]; [constructor|].
  change (increasingb (x :: y :: l)) with (Rltb x y && increasingb (y :: l)) in H. apply andb_true_iff in H. destruct H as [H1 H2]. destruct (Rltb_spec x y); [|discriminate]. constructor; [assumption|apply IH; exact H2].
Qed.
(** The violations can be computed exactly for at least two increasing times, otherwise a ValueError is raised. *)
Theorem C77_refused : forall K dspl a, ((2 <= length (bd_u (ad_data a)))%nat /\ increasing (bd_u (ad_data a)) -> exists vs, bondi_violations K dspl a = Ok vs /\ length vs = 6%nat) /\
  (~ ((2 <= length (bd_u (ad_data a)))%nat /\ increasing (bd_u (ad_data a))) -> bondi_violations K dspl a = Err ValueError).
Proof.
  intros K dspl a. split.
  - intros [H1 H2]. rewrite violations_explicit by (unfold timesb; rewrite (proj2 (increasingb_iff _) H2), andb_true_r; apply Nat.leb_le; exact H1). eexists. split; reflexivity.
  - intros N. unfold bondi_violations, bondi_constraints. cbn [each]. unfold bianchi_0, choose, psi0, mts_dot. rewrite der_err; [reflexivity|lia|].
    change (ms_u (mts_of a 0)) with (bd_u (ad_data a)). destruct (timesb (bd_u (ad_data a))) eqn:E; [|reflexivity]. apply andb_true_iff in E. destruct E as [E1 E2]. exfalso. apply N. split; [apply Nat.leb_le; exact E1|apply increasingb_iff; exact E2].
Qed.
(** The truncator `max` only cuts the violations off at the highest degree of the data: below that they are those with `sum`, for any data and any spline. *)
Theorem C77_truncation : forall dspl b vs, (0 <= bd_hi b)%Z -> bondi_violations product_table dspl (mkad b Max) = Ok vs ->
  exists ws, bondi_violations product_table dspl (mkad b Sum) = Ok ws /\ length vs = 6%nat /\ length ws = 6%nat /\ forall k v w, nth_error vs k = Some v -> nth_error ws k = Some w ->
    ms_s v = ms_s w /\ ms_hi v = bd_hi b /\ ms_u v = ms_u w /\ forall i l m, (l <= bd_hi b)%Z -> ms_at v i l m = ms_at w i l m.
Proof.
  intros dspl b vs HL Hv. set (L := bd_hi b) in *.
  assert (TM : forall s1 s2 f g l m, (l <= L)%Z -> multiply product_table (Z.max L L) (Z.max L L) s1 s2 f g l m = multiply product_table (Z.max L L) (L + L) s1 s2 f g l m).
  { intros s1 s2 f g l m Hl. unfold multiply. destruct (Z.leb_spec l (Z.max L L)), (Z.leb_spec l (L + L)); try lia. reflexivity. }
  destruct (timesb (bd_u b)) eqn:T; [|exfalso; rewrite (proj2 (C77_refused product_table dspl (mkad b Max))) in Hv; [discriminate|]].
  2: { cbn [ad_data]. intros [H1 H2]. unfold timesb in T. rewrite (increasingb_true _ H2), andb_true_r in T. apply Nat.leb_gt in T. lia. }
  rewrite violations_explicit in Hv by exact T. injection Hv as <-. rewrite violations_explicit by exact T. eexists. split; [reflexivity|]. split; [reflexivity|]. split; [reflexivity|].
  intros k v w Hk Hk'. destruct k as [|[|[|[|[|[|k]]]]]]; cbn [nth_error] in Hk, Hk'; [..|destruct k; discriminate]; injection Hk as <-; injection Hk' as <-;
    (split; [reflexivity|]); (split; [cbn; fold L; lia|]); (split; [reflexivity|]); intros i l m Hl; cbn -[multiply Z.max Z.add eth_GHP Z.opp fimag]; fold L; unfold fsub, fadd, fopp; try reflexivity.
  - apply (f_equal2 Csub eq_refl), (f_equal2 Cadd eq_refl). apply TM. exact Hl.
  - apply (f_equal2 Csub eq_refl), (f_equal2 Cadd eq_refl). apply TM. exact Hl.
  - apply (f_equal2 Csub eq_refl), (f_equal2 Cadd eq_refl). apply TM. exact Hl.
  - apply (f_equal2 Csub eq_refl), f_equal. apply fimag_ext. intros k. apply (f_equal2 Cadd eq_refl). apply TM. exact Hl.
Qed.

(** ** What the truncator has to do with it *)
Definition ex_q : quat := mkq (3 / 5) 0 (4 / 5) 0.
Lemma wnorm_pos : forall n j, 0 < wnorm n j.
Proof. intros n j. unfold wnorm. apply sqrt_lt_R0. apply Rmult_lt_0_compat; apply INR_fact_lt_0. Qed.
Lemma y_norm_pos : forall l, (0 <= l)%Z -> 0 < sqrt (IZR (2 * l + 1) / (4 * PI)).
Proof. intros l Hl. apply sqrt_lt_R0. apply Rdiv_lt_0_compat; [apply (IZR_lt 0); lia|]. pose proof PI_RGT_0. lra. Qed.
Lemma table_3 : product_table 2 2 2 0 1 1 3 <> 0.
Proof.
  intros E. assert (Hq : qnorm2 ex_q = 1) by (unfold qnorm2, ex_q; cbn; field). pose proof (C72_harmonics 2 2 2 0 1 1 ex_q Hq) as H.
  rewrite csum_const0 in H.
  2: { intros l I. apply zrange_In in I. destruct (Z.eq_dec l 3) as [->|N]; [rewrite E; cx|]. rewrite swsh_not; [cx|]. unfold ok. destruct (Z.leb_spec (Z.abs (2 + 1)) l); [lia|]. apply andb_false_r. }
  assert (S2 : exists x, 0 < x /\ swsh 2 2 2 ex_q = RtoC x).
  { exists (sqrt (IZR (2 * 2 + 1) / (4 * PI)) * (wnorm 4 0 / wnorm 4 4) * (4 / 5 * (4 / 5) * (4 / 5) * (4 / 5))). split.
    - apply Rmult_lt_0_compat; [|lra]. apply Rmult_lt_0_compat; [apply y_norm_pos; lia|]. apply Rdiv_lt_0_compat; apply wnorm_pos.
    - unfold swsh, wigner_D. change ((Z.abs 2 <=? 2) && (Z.abs 2 <=? 2))%Z with true. cbv iota. change (Z.to_nat (2 * 2)) with 4%nat. change (Z.to_nat (2 + 2)) with 4%nat. change (Z.to_nat (2 + - (2))) with 0%nat.
      set (y := sqrt _). set (w := wnorm 4 0 / wnorm 4 4). assert (SG : sgn 2 = 1) by reflexivity. rewrite SG. apply C_eq; cbn; ring. }
  assert (S1 : exists x, 0 < x /\ swsh 0 1 1 ex_q = RtoC (- x)).
  { exists (sqrt (IZR (2 * 1 + 1) / (4 * PI)) * (wnorm 2 1 / wnorm 2 2) * (2 * (3 / 5) * (4 / 5))). split.
    - apply Rmult_lt_0_compat; [|lra]. apply Rmult_lt_0_compat; [apply y_norm_pos; lia|]. apply Rdiv_lt_0_compat; apply wnorm_pos.
    - unfold swsh, wigner_D. change ((Z.abs 0 <=? 1) && (Z.abs 1 <=? 1))%Z with true. cbv iota. change (Z.to_nat (2 * 1)) with 2%nat. change (Z.to_nat (1 + 1)) with 2%nat. change (Z.to_nat (1 + - 0)) with 1%nat.
      set (y := sqrt _). set (w := wnorm 2 1 / wnorm 2 2). assert (SG : sgn 0 = 1) by reflexivity. rewrite SG. apply C_eq; cbn; ring. }
  destruct S2 as (x & Hx & E2), S1 as (y & Hy & E1). rewrite E1, E2 in H. apply (f_equal re) in H. cbn in H. assert (0 < x * y) by (apply Rmult_lt_0_compat; assumption). nra.
Qed.
Definition ex_in : initial := mkinit (one_mode 2 2) zmodes zmodes (one_mode 1 1) zmodes zmodes.
Definition ex_data : bdata := sampled_data 2 [0; 1; 2; 3] (from_initial_values_exact product_table 2 ex_in) InertialFrame.
Lemma zmodes_upto : forall L, upto L zmodes.
Proof. intros L l m _. reflexivity. Qed.
Lemma ex_times : increasing [0; 1; 2; 3].
Proof. repeat constructor; lra. Qed.
(** Data from initial values whose equations hold exactly: the norms are zero, but not those of the same data after interpolating to the same times, and not those after
    the transformation that does nothing. *)
Theorem C77_truncator_refuted : forall dspl, derives dspl -> exists a ns, ad_tr a = Max /\ data_ok (ad_data a) /\
  bondi_violation_norms product_table dspl a = Ok (repeat (repeat 0 (length (bd_u (ad_data a)))) 6) /\
  ad_interpolate dspl a (bd_u (ad_data a)) = Ok (mkad (ad_data a) Sum) /\
  (forall spline map2salm, passes spline -> (forall f, (f < 6)%nat -> exact map2salm (spin_of f) 11 11) -> ad_transform spline map2salm a (mkkw None None None None None None None None) = Ok (mkad (ad_data a) Sum)) /\
  bondi_violation_norms product_table dspl (mkad (ad_data a) Sum) = Ok ns /\ nth 0 (nth 0 ns []) 0 <> 0.
Proof.
  intros dspl HD. set (B := from_initial_values_exact product_table 2 ex_in).
  assert (V1 : upto 2 (i_sigma0 ex_in)) by (apply one_upto; lia). assert (V3 : upto 2 (i_psi2 ex_in)) by (apply one_upto; lia). assert (VZ := zmodes_upto 2).
  assert (HZ : forall l m, i_sigmaddot0 ex_in l m = C0) by reflexivity.
  destruct (sampled_data_ok 2 [0; 1; 2; 3] B InertialFrame ltac:(lia)) as [O1 S1].
  pose proof (initial_cubic 2 ex_in HZ) as HP. pose proof (initial_upto 2 ex_in V1 VZ V3 VZ VZ HZ) as HU. fold B in HP, HU. destruct (dots_exist B HP) as (dB & sdd & H1 & H2).
  destruct (violations_modes dspl (mkad ex_data Sum) B HD ltac:(cbn; lia) ex_times ltac:(cbn; lia) S1 HU HP dB sdd H1 H2) as (vs & Ev & Ln & HV).
  exists (mkad ex_data Max), (map mts_norm vs). split; [reflexivity|]. split; [exact O1|]. split; [exact (C77_initial dspl (mkad ex_data Max) ex_in HD O1 ex_times ltac:(cbn; lia) V1 VZ V3 VZ VZ HZ S1 eq_refl)|].
  split; [exact (interpolate_samples dspl (mkad ex_data Max) B [0; 1; 2; 3] HD ltac:(cbn; lia) ex_times ltac:(cbn; lia) S1 HU HP)|].
  split.
  { intros spline map2salm HPs HX. unfold ad_transform. cbn [ad_data]. rewrite (C69_identity spline HPs map2salm ex_data _ O1 ex_times ltac:(cbn; lia)); try reflexivity; [| |exact HX].
    - repeat (split; [reflexivity|]). split; [|right; split; reflexivity]. unfold read_rotation. cbn [k_rotation quat_of].
      assert (A : qabs (mkq 1 0 0 0) = 1). { unfold qabs, qnorm2. cbn [qw qx qy qz]. replace (1 * 1 + 0 * 0 + 0 * 0 + 0 * 0) with 1 by ring. apply sqrt_1. }
      rewrite A. destruct (Rltb_spec 1 (3 / 10 ^ 16)); [exfalso; lra|]. unfold qnormalized. rewrite A. cbn [qw qx qy qz]. f_equal. apply quat_eq; cbn; field.
    - intros f i l m Hf Hi Hv Hl. rewrite (S1 f i l m Hf Hi Hv : bmode ex_data f i l m = _). unfold B.
      assert (Z1 : forall s, clean s 2 zmodes) by (intros s x y _; reflexivity). assert (S2 : clean 2 2 (one_mode 2 2)) by (intros x y O; unfold one_mode; destruct (Z.eqb_spec x 2), (Z.eqb_spec y 2); cbn [andb]; try reflexivity; exfalso; apply O; lia).
      apply (initial_clean 2 ex_in V1 VZ V3 VZ VZ HZ S2 (Z1 2%Z) (Z1 1%Z) (Z1 2%Z) _ f Hf). lia. }
  split; [unfold bondi_violation_norms; change (ad_data (mkad ex_data Max)) with ex_data; rewrite Ev; reflexivity|]. destruct vs as [|v vs]; [discriminate|]. cbn [map nth]. destruct (HV 0%nat v eq_refl) as (_ & Eh & Eu & Ef).
  intros N. rewrite norm_zero in N by (rewrite Eu; cbn; lia). rewrite Eh in N. cbn [top ad_tr truncated ad_data ex_data sampled_data bd_hi Nat.eqb orb] in N. specialize (N 3%Z 3%Z ltac:(lia) ltac:(lia)).
  rewrite Ef in N by (rewrite Eu; cbn; lia). rewrite Eu in N. cbn [equation ad_tr ad_data ex_data sampled_data bd_hi bd_u nth truncated] in N. unfold fsub, fadd, fscale in N.
  assert (D0 : dB 0%nat 0 3%Z 3%Z = C0).
  { apply (hd_unique (fun x => bfield (B x) 0 3%Z 3%Z) 0); [apply H1; lia|]. apply (hd_ext (fun _ => C0)); [intros x; symmetry; apply (HU x 0%nat); lia|apply hd_const]. }
  rewrite D0 in N. rewrite (upto_eth 2 1 _ (HU 0 1%nat ltac:(lia))) in N by lia.
  assert (SV : forall l m, b_sigma (B 0) l m = one_mode 2 2 l m) by (intros l m; unfold B, from_initial_values_exact, exact_sigma, fadd, fscale; cbn [b_sigma]; unfold s0, s1, s2, ex_in; cbn; unfold fscale, zmodes; cx).
  assert (PV : b_psi2 (B 0) 1%Z 1%Z = RtoC (/ 2) /\ b_psi2 (B 0) 2%Z 1%Z = C0).
  { assert (EB : forall l m, m = 1%Z -> eth_GHP (-1) (eth_GHP (-2) (fbar 2 (s0 ex_in))) l m = C0 /\ fbar 0 (eth_GHP (-1) (eth_GHP (-2) (fbar 2 (s0 ex_in)))) l m = C0).
    { intros l m ->. unfold s0, ex_in. cbn [i_sigma0]. unfold fbar, eth_GHP, eth, ladder, fscale, one_mode. cbn [Z.opp Z.eqb Pos.eqb]. rewrite ?andb_false_r. split; repeat match goal with |- context [if (?x <? ?y)%Z then _ else _] => destruct (x <? y)%Z end; cx. }
    assert (EM : forall f g l m, (forall x y, g x y = C0) -> mul product_table 2 2 (-2) f g l m = C0) by (intros; apply z_mul; assumption).
    assert (ZB : forall x y, fbar 2 (s1 ex_in) x y = C0) by (intros; unfold fbar, s1, ex_in, zmodes; cbn; cx).
    assert (FI : forall l, fimag (fadd (eth_GHP (-1) (eth_GHP (-2) (fbar 2 (s0 ex_in)))) (mul product_table 2 2 (-2) (s0 ex_in) (fbar 2 (s1 ex_in)))) l 1%Z = C0).
    { intros l. rewrite fimag_add. unfold fimag at 1. destruct (EB l 1%Z eq_refl) as [-> ->]. rewrite (fimag_zero (mul product_table 2 2 (-2) (s0 ex_in) (fbar 2 (s1 ex_in)))); [cx|].
      unfold fbar at 1. rewrite !EM by exact ZB. cx. }
    assert (P : forall l, b_psi2 (B 0) l 1%Z = freal (one_mode 1 1) l 1%Z).
    { intros l. unfold B, from_initial_values_exact, exact_psi2. cbn [b_psi2]. unfold fadd at 1, fscale at 1, p2_0, fsub, fmuli. rewrite FI. cbn [i_psi2 ex_in]. cx. }
    rewrite !P. unfold freal, fscale, fadd, fbar, one_mode. split; cbn; cx_lin. }
  assert (MV : multiply product_table 2 4 2 0 (b_sigma (B 0)) (b_psi2 (B 0)) 3%Z 3%Z = Cscale (product_table 2 2 2 0 1 1 3) (RtoC (/ 2))).
  { unfold multiply. change (3 <=? 4)%Z with true. cbv iota. rewrite (csum_pick _ _ (LMs 2) (2%Z, 2%Z)); [|apply LMs_NoDup|apply LMs_In; lia|].
    - rewrite (csum_pick _ _ (LMs 2) (1%Z, 1%Z)); [|apply LMs_NoDup|apply LMs_In; lia|].
      + cbn [fst snd]. change (2 + 1 =? 3)%Z with true. cbv iota. rewrite SV, (proj1 PV). unfold one_mode. cbn [Z.eqb Pos.eqb andb]. f_equal. cx.
      + intros [l m] I Ne. apply LMs_In in I. cbn [fst snd]. destruct (Z.eqb_spec (2 + m) 3) as [Em|]; [|reflexivity]. replace m with 1%Z in * by lia.
        destruct (Z.eq_dec l 1) as [->|]; [congruence|]. replace l with 2%Z by lia. rewrite (proj2 PV). cx.
    - intros [l m] I Ne. apply csum_const0. intros y _. cbn [fst snd]. rewrite SV. unfold one_mode. destruct (Z.eqb_spec l 2) as [->|]; [destruct (Z.eqb_spec m 2) as [->|]; [congruence|]|]; cbn [andb]; destruct (_ =? _)%Z; cx. }
  change (2 + 2)%Z with 4%Z in N. rewrite MV in N. pose proof table_3 as T3. generalize dependent (product_table 2 2 2 0 1 1 3). intros x N _ T3. apply (f_equal re) in N. cbn in N. apply T3. lra.
Qed.

(** ** The sides *)
(** Each of the six methods returns both sides, one of them or None, as asked for; a side does not depend on whether the other one is asked for. *)
Theorem C77_sides : forall K dspl a f, In f [bianchi_0 K dspl; bianchi_1 K dspl; bianchi_2 K dspl; constraint_3 dspl; constraint_4 dspl; constraint_mass_aspect K dspl] ->
  f a false false = Ok Nothing /\ (forall l r, f a true true = Ok (Both l r) <-> f a true false = Ok (One l) /\ f a false true = Ok (One r)) /\
  (forall c, f a true true = Ok c -> exists l r, c = Both l r) /\ (forall c, f a true false = Ok c -> exists l, c = One l) /\ (forall c, f a false true = Ok c -> exists r, c = One r).
Proof.
  intros K dspl a f Hf. assert (E : exists x y, forall b c, f a b c = choose b c x y).
  { cbn [In] in Hf. destruct Hf as [<-|[<-|[<-|[<-|[<-|[<-|[]]]]]]]; do 2 eexists; intros b c; reflexivity. }
  destruct E as (x & y & E). rewrite !E. unfold choose. split; [reflexivity|]. destruct x as [x|e], y as [y|e']; cbn [rbind]; (split; [intros l r; split; [intros H|intros [H H']]|]); try discriminate;
    try (injection H as <- <-; split; reflexivity); try (injection H as <-; injection H' as <-; reflexivity); (split; [|split]; intros c H); try discriminate; injection H as <-; eauto.
Qed.
(** bondi_constraints collects them. *)
Theorem C77_collected : forall K dspl a lhs rhs cs, bondi_constraints K dspl a lhs rhs = Ok cs -> length cs = 6%nat /\
  forall k f, nth_error [bianchi_0 K dspl; bianchi_1 K dspl; bianchi_2 K dspl; constraint_3 dspl; constraint_4 dspl; constraint_mass_aspect K dspl] k = Some f -> exists c, nth_error cs k = Some c /\ f a lhs rhs = Ok c.
Proof.
  intros K dspl a lhs rhs cs H. split.
  - exact (each_len _ _ _ H).
  - intros k f Hk. exact (each_inv _ _ _ H k f Hk).
Qed.
(** psi3 and psi4 that are made from the shear as by from_initial_values, from derivatives that are linear in the samples with real coefficients, have no violations, whatever the shear. *)
Theorem C77_sampled : forall dspl a Dm D2m, let b := ad_data a in let u := bd_u b in let n := length u in (0 <= bd_hi b)%Z -> (2 <= n)%nat -> increasing u ->
  (forall i ys, (i < n)%nat -> length ys = n -> dspl 1%nat u ys (nth i u 0) = csum (fun j => Cscale (Dm i j) (nth j ys C0)) (seq 0 n)) ->
  (forall i ys, (i < n)%nat -> length ys = n -> dspl 2%nat u ys (nth i u 0) = csum (fun j => Cscale (D2m i j) (nth j ys C0)) (seq 0 n)) ->
  (forall i l m, (i < n)%nat -> valid 0 (bd_hi b) l m -> bmode b 3 i l m = sampled_psi3 n Dm (bmode b 5) i l m /\ bmode b 4 i l m = sampled_psi4 n D2m (bmode b 5) i l m) ->
  exists vs, bondi_violations product_table dspl a = Ok vs /\
    forall k v, (k = 3 \/ k = 4)%nat -> nth_error vs k = Some v -> mts_norm v = repeat 0 n.
Proof.
  intros dspl a Dm D2m b u n HL H2 Hi HD1 HD2 HS.
  assert (T : timesb u = true) by (unfold timesb; rewrite (increasingb_true _ Hi), andb_true_r; apply Nat.leb_le; exact H2).
  assert (DR : forall d M, (forall i ys, (i < n)%nat -> length ys = n -> dspl d u ys (nth i u 0) = csum (fun j => Cscale (M i j) (nth j ys C0)) (seq 0 n)) ->
    forall i l m, (i < n)%nat -> valid 0 (bd_hi b) l m -> ms_at (der dspl d (mts_bar (mts_of a 5))) i l m = fbar 2 (apply_time n M (bmode b 5) i) l m).
  { intros d M HM i l m Hi' Hv. cbn [der ms_at ms_u mts_bar mts_of]. fold b u n. rewrite HM by (try exact Hi'; rewrite map_length, seq_length; reflexivity). unfold fbar, apply_time.
    rewrite csum_conj, <- csum_Cscale. apply csum_ext. intros j Ij. apply in_seq in Ij. change (ms_s (mts_of a 5)) with 2%Z. change (nth 5 spins 0%Z) with 2%Z.
    match goal with |- Cscale _ (nth j (map ?g _) C0) = _ => rewrite (nth_indep _ C0 (g 0%nat)) by (rewrite map_length, seq_length; lia); rewrite (map_nth g), seq_nth by lia end. cbn [Nat.add].
    destruct Hv as [Hv1 Hv2]. destruct (Z.leb_spec 0 l), (Z.leb_spec l (bd_hi b)), (Z.leb_spec (- l) (- m)), (Z.leb_spec (- m) l); try lia. cbn [andb].
    change (nth (pos l (- m)) (nth j (nth 5 (bd_fields b) []) []) C0) with (bmode b 5 j l (- m)). cx. }
  assert (MO : forall f i l m, valid 0 (bd_hi b) l m -> ms_at (mts_of a f) i l m = bmode b f i l m).
  { intros f i l m [Hv1 Hv2]. cbn [mts_of ms_at]. fold b. destruct (Z.leb_spec 0 l), (Z.leb_spec l (bd_hi b)), (Z.leb_spec (- l) m), (Z.leb_spec m l); try lia. reflexivity. }
  rewrite violations_explicit by exact T. eexists. split; [reflexivity|]. intros k v Hk Hv.
  assert (Z : forall i l m, (i < n)%nat -> valid 0 (bd_hi b) l m -> ms_at v i l m = C0 /\ ms_hi v = bd_hi b /\ ms_u v = u).
  { intros i l m Hi' V. destruct Hk as [-> | ->]; cbn [nth_error] in Hv; injection Hv as <-; cbn [less_of mts_opp mts_eth_GHP ms_at ms_hi ms_u mts_of der mts_bar]; fold b u n;
      (split; [|split; [apply Z.max_id|reflexivity]]); unfold fsub, fopp.
    - change (ms_at (mts_of a 3) i l m - - eth_GHP (-2) (ms_at (der dspl 1 (mts_bar (mts_of a 5))) i) l m = C0)%C.
      assert (E : eth_GHP (-2) (ms_at (der dspl 1 (mts_bar (mts_of a 5))) i) l m = eth_GHP (-2) (fbar 2 (apply_time n Dm (bmode b 5) i)) l m).
      { unfold eth_GHP, eth, ladder, fscale. rewrite (DR 1%nat Dm HD1 i l m Hi' V). reflexivity. }
      rewrite E, MO by assumption. rewrite (proj1 (HS i l m Hi' V)). unfold sampled_psi3, fopp. ring.
    - change (ms_at (mts_of a 4) i l m - - ms_at (der dspl 2 (mts_bar (mts_of a 5))) i l m = C0)%C.
      rewrite (DR 2%nat D2m HD2 i l m Hi' V), MO by assumption. rewrite (proj2 (HS i l m Hi' V)). unfold sampled_psi4, fopp. ring. }
  assert (Hh : ms_hi v = bd_hi b /\ ms_u v = u) by (apply (Z 0%nat 0%Z 0%Z); [lia|split; lia]). destruct Hh as [Eh Eu].
  apply nth_ext with (d := 0) (d' := 0); [unfold mts_norm; rewrite map_length, seq_length, repeat_length, Eu; reflexivity|]. intros i Hi'. unfold mts_norm in Hi'. rewrite map_length, seq_length, Eu in Hi'. fold n in Hi'.
  rewrite nth_repeat_lt by exact Hi'. apply norm_zero; [rewrite Eu; exact Hi'|]. intros l m Hl Hm. rewrite Eh in Hl. apply Z; [exact Hi'|split; lia].
Qed.

(** ** Cases *)
Definition dd (x0 x1 : R) (y0 y1 : C) : C := Cscale (/ (x1 - x0)) (y1 - y0)%C.
(** The cubic through the first four points, and its derivatives *)
Definition ex_dspl (n : nat) (xs : list R) (ys : list C) (x : R) : C :=
  match xs, ys with
  | x0 :: x1 :: x2 :: x3 :: _, y0 :: y1 :: y2 :: y3 :: _ =>
      let a1 := dd x0 x1 y0 y1 in let a2 := dd x0 x2 a1 (dd x1 x2 y1 y2) in
      let a3 := dd x0 x3 a2 (dd x1 x3 (dd x1 x2 y1 y2) (dd x2 x3 y2 y3)) in
      match n with
      | 0%nat => (y0 + Cscale (x - x0) (a1 + Cscale (x - x1) (a2 + Cscale (x - x2) a3)))%C
      | 1%nat => (a1 + Cscale ((x - x0) + (x - x1)) a2 + Cscale ((x - x1) * (x - x2) + (x - x0) * (x - x2) + (x - x0) * (x - x1)) a3)%C
      | 2%nat => (Cscale 2 a2 + Cscale (2 * ((x - x0) + (x - x1) + (x - x2))) a3)%C
      | _ => Cscale 6 a3
      end
  | _, _ => C0
  end.
Lemma ex_dspl_values : forall c0 c1 c2 c3 x0 x1 x2 x3 xs x, x0 < x1 -> x1 < x2 -> x2 < x3 -> let l := x0 :: x1 :: x2 :: x3 :: xs in let ys := map (cubic c0 c1 c2 c3) l in
  ex_dspl 0 l ys x = cubic c0 c1 c2 c3 x /\ ex_dspl 1 l ys x = (c1 + Cscale (2 * x) c2 + Cscale (3 * x * x) c3)%C /\ ex_dspl 2 l ys x = (Cscale 2 c2 + Cscale (6 * x) c3)%C.
Proof.
  intros [a0 b0] [a1 b1] [a2 b2] [a3 b3] x0 x1 x2 x3 xs x H1 H2 H3. cbv zeta. cbn [map ex_dspl]. cbv zeta. unfold dd, cubic. split; [|split]; apply C_eq; cbn; field; lra.
Qed.
Lemma ex_dspl_derives : derives ex_dspl.
Proof.
  intros xs c0 c1 c2 c3 HI H4 x. destruct xs as [|x0 [|x1 [|x2 [|x3 xs]]]]; try (cbn in H4; lia).
  assert (X1 : x0 < x1) by (apply increasing_lt with (l := x1 :: x2 :: x3 :: xs); [exact HI|left; reflexivity]).
  assert (X2 : x1 < x2) by (apply increasing_lt with (l := x2 :: x3 :: xs); [inversion HI; assumption|left; reflexivity]).
  assert (X3 : x2 < x3) by (apply increasing_lt with (l := x3 :: xs); [inversion HI as [| |? ? ? ? HJ]; inversion HJ; assumption|left; reflexivity]).
  pose proof (fun y => ex_dspl_values c0 c1 c2 c3 x0 x1 x2 x3 xs y X1 X2 X3) as V. cbv zeta in V. split; [apply V|]. split.
  - rewrite (proj1 (proj2 (V x))). unfold cubic. eapply hd_eq; [hd_solve|]. cx.
  - rewrite (proj2 (proj2 (V x))). apply (hd_ext (fun y => (c1 + Cscale (2 * y) c2 + Cscale (3 * y * y) c3)%C)); [intros y; symmetry; apply V|].
    apply (hd_ext (fun y => (c1 + Cscale y (Cscale 2 c2 + Cscale y (Cscale 3 c3)))%C)); [intros y; cx|]. eapply hd_eq; [hd_solve|]. cx.
Qed.
Definition ex_ad : adata := mkad (sampled_data 2 [0; 1; 2; 3] ex_B InertialFrame) Sum.
Lemma ex_B_clean : forall u f, (f < 6)%nat -> clean (spin_of f) 2 (bfield (ex_B u) f).
Proof.
  assert (Z1 : forall s, clean s 2 zmodes) by (intros s x y _; reflexivity).
  assert (O1 : forall s m, (Z.abs s <= 2)%Z -> (-2 <= m <= 2)%Z -> clean s 2 (one_mode 2 m)) by (intros s m Hs Hm x y O; unfold one_mode; destruct (Z.eqb_spec x 2), (Z.eqb_spec y m); cbn [andb]; try reflexivity; exfalso; apply O; lia).
  intros u f Hf. destruct f as [|[|[|[|[|[|f]]]]]]; [..|lia]; cbn [bfield nth ex_B b_psi0 b_psi1 b_psi2 b_psi3 b_psi4 b_sigma]; try apply Z1.
  - apply clean_add; [apply O1; cbn; lia|]. apply clean_scale, (clean_eth 1), O1; cbn; lia.
  - apply O1; cbn; lia.
Qed.
(** Growing psi0, at four times: hypotheses and results of the theorems *)
Example C77_case : derives ex_dspl /\ cubic_data (ad_data ex_ad) ex_B /\ bondi_solution 2 ex_B (fun _ => zmodes) (fun _ => zmodes) (fun _ => zmodes) /\
  bondi_violation_norms product_table ex_dspl ex_ad = Ok (repeat [0; 0; 0; 0] 6) /\
  (exists a', ad_interpolate ex_dspl ex_ad [-1; 0; / 2; 4; 5] = Ok a' /\ bondi_violation_norms product_table ex_dspl a' = Ok (repeat [0; 0; 0; 0; 0] 6)) /\
  eth_GHP 1 (b_psi1 (ex_B 0)) 2%Z 1%Z <> C0.
Proof.
  destruct ex_B_solution as [HB HP]. destruct (sampled_data_ok 2 [0; 1; 2; 3] ex_B InertialFrame ltac:(lia)) as [O1 S1].
  split; [exact ex_dspl_derives|]. split; [constructor; [exact O1|exact ex_times|cbn; lia|exact S1|exact ex_B_clean|exact HP]|]. split; [exact HB|].
  split; [exact (C77_solution ex_dspl ex_ad ex_B _ _ _ ex_dspl_derives O1 ex_times ltac:(cbn; lia) S1 HB HP eq_refl)|]. split.
  - destruct (C77_interpolate ex_dspl ex_ad ex_B _ _ _ [-1; 0; / 2; 4; 5] ex_dspl_derives O1 ex_times ltac:(cbn; lia) S1 HB HP) as (a' & E & _ & _ & _ & _ & _ & N); [repeat constructor; lra|cbn; lia|].
    exists a'. split; [exact E|exact N].
  - intros E. apply (f_equal re) in E. unfold eth_GHP, eth, ladder, fscale, one_mode in E. cbn in E.
    assert (P1 : 0 < / sqrt 2) by (apply Rinv_0_lt_compat, sqrt_lt_R0; lra). assert (P2 : 0 < sqrt 4) by (apply sqrt_lt_R0; lra). nra.
Qed.
Definition ex_kr : Kwargs_Model.kwargs := mkkw None None None (Some (Some 3)) (Some 9%Z) (Some 9%Z) (Some [0; 0; 0; 2]) None.
(** The same data after a rotation about the z axis by half a turn and a time translation *)
Example C77_case_transform : exists map2salm a', (forall f, (f < 6)%nat -> exact map2salm (spin_of f) 19 19) /\ ad_transform cubic_or_lookup map2salm ex_ad ex_kr = Ok a' /\
  bd_u (ad_data a') = [0 - 3; 1 - 3; 2 - 3; 3 - 3] /\ bondi_violation_norms product_table ex_dspl a' = Ok (repeat [0; 0; 0; 0] 6).
Proof.
  destruct (C68_inverse_exists 2 19 19) as [m1 X1]. destruct (C68_inverse_exists 1 19 19) as [m2 X2]. destruct (C68_inverse_exists 0 19 19) as [m3 X3].
  destruct (C68_inverse_exists (-1) 19 19) as [m4 X4]. destruct (C68_inverse_exists (-2) 19 19) as [m5 X5].
  set (mm := fun nt np vals s L => if (s =? 2)%Z then m1 nt np vals s L else if (s =? 1)%Z then m2 nt np vals s L else if (s =? 0)%Z then m3 nt np vals s L
             else if (s =? -1)%Z then m4 nt np vals s L else m5 nt np vals s L).
  assert (HX : forall f, (f < 6)%nat -> exact mm (spin_of f) 19 19).
  { intros f Hf. destruct f as [|[|[|[|[|[|f]]]]]]; try lia; intros L a lmax; [apply X1|apply X2|apply X3|apply X4|apply X5|apply X1]. }
  destruct ex_B_solution as [HB HP]. destruct (sampled_data_ok 2 [0; 1; 2; 3] ex_B InertialFrame ltac:(lia)) as [O1 S1].
  assert (K : rotation_only ex_kr (mkq 0 0 0 1) 3).
  { repeat (split; [reflexivity|]). split; [|left; reflexivity]. cbn [ex_kr k_rotation]. unfold read_rotation. cbn [quat_of].
    assert (A : qabs (mkq 0 0 0 2) = 2). { unfold qabs, qnorm2. cbn [qw qx qy qz]. replace (0 * 0 + 0 * 0 + 0 * 0 + 2 * 2) with (2 * 2) by ring. apply sqrt_square. lra. }
    rewrite A. destruct (Rltb_spec 2 (3 / 10 ^ 16)); [exfalso; lra|]. unfold qnormalized. rewrite A. cbn [qw qx qy qz]. f_equal. apply quat_eq; cbn; field. }
  pose proof (abd_rotation_process 2 ex_kr (mkq 0 0 0 1) 3 K ltac:(cbn; lia)) as EP. cbn [ex_kr k_working_ell_max k_output_ell_max dflt] in EP.
  destruct (C77_transform ex_dspl cubic_or_lookup mm ex_ad ex_kr _ ex_B _ _ _ ex_dspl_derives cubic_or_lookup_passes cubic_or_lookup_cubics O1 ex_times ltac:(cbn; lia) EP eq_refl HB HP S1) as (a' & E & N).
  { cbn [p_super p_output p_working]. change (ell_max_of _) with 1%Z. cbn. lia. }
  { exact HX. }
  destruct (C69_rotation cubic_or_lookup cubic_or_lookup_passes mm (ad_data ex_ad) ex_kr _ _ O1 ex_times ltac:(cbn; lia) K) as (b' & E' & U & _); [cbn; lia|cbn; lia|exact HX|].
  unfold ad_transform in E. rewrite E' in E. cbn [rbind] in E. injection E as <-. exists mm, (mkad b' Sum). split; [exact HX|]. split; [unfold ad_transform; rewrite E'; reflexivity|].
  cbn [ad_data] in *. split; [exact U|]. rewrite U in N. apply N. cbn. lia.
Qed.
