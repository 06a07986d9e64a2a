(** * Products of mode series on the grid *)
From Coq Require Import Reals ZArith List Bool Lia Lra.
From Verif Require Import Common Cplx Quat Modes_Model Create_Model Times_Model Tables_Model Modal_Model Kwargs_Model Transform_Model Rotate_Model
  Modes_Proofs Modal_Proofs Rotate_Proofs Times_Proofs Kwargs_Proofs Transform_Proofs Wigner_Model Wigner_Proofs Sphere_Model Sphere_Proofs Harmonics_Proofs
  Pipeline_Model Pipeline_Proofs ABD_Model ABD_Proofs ABDBalance_Proofs ABDPointwise_Proofs Zturn_Model Zturn_Proofs Product_Proofs Gridmul_Model.
Import ListNotations.
Open Scope R_scope.

(** ** Specification *)
(** [p] has the modes of the product of two fields, as functions on the sphere. *)
Definition product_modes (s1 L1 : Z) (f : Z -> Z -> C) (s2 L2 : Z) (g : Z -> Z -> C) (p : Z -> Z -> C) : Prop :=
  (forall q, qnorm2 q = 1 -> (field s1 L1 f q * field s2 L2 g q)%C = field (s1 + s2) (L1 + L2) p q) /\
  forall l m, (l < Z.abs (s1 + s2) \/ L1 + L2 < l)%Z -> p l m = C0.
(** What the documentation of spinsfast says of salm2map: the values of the field, when the grid has the points for it. *)
Definition synthesises (salm2map : list C -> Z -> Z -> Z -> Z -> res (list C)) : Prop :=
  forall row s L n, (0 <= L)%Z -> length row = length (LM_range 0 L) -> (2 * L + 1 <= n)%Z -> salm2map row s L n n = Ok (map (field s L (mode 0 row)) (grid_points n n)).

(** ** Products of fields *)
Lemma field_ext : forall s L a b q, (forall l m, (0 <= l <= L)%Z -> (- l <= m <= l)%Z -> a l m = b l m) -> field s L a q = field s L b q.
Proof. intros s L a b q H. unfold field. apply csum_ext. intros [l m] I. apply LM_range_In in I. cbn [fst snd]. rewrite H by lia. reflexivity. Qed.
Lemma field_grow : forall s L L' a q, (0 <= L <= L')%Z -> (forall l m, (L < l)%Z -> a l m = C0) -> field s L a q = field s L' a q.
Proof.
  intros s L L' a q HL H. rewrite !field_by_l. rewrite (zrange_split 0 (L + 1) (L' + 1)) by lia. rewrite csum_app, (csum_const0 _ (zrange (L + 1) _)); [ring|].
  intros l I. apply zrange_In in I. apply csum_const0. intros m _. rewrite H by lia. ring.
Qed.
Definition times (s1 L1 s2 L2 : Z) (f g : Z -> Z -> C) (l m : Z) : C :=
  csum (fun p => csum (fun r => if (snd p + snd r =? m)%Z
                                 then Cscale (product_table s1 (fst p) (snd p) s2 (fst r) (snd r) l) (f (fst p) (snd p) * g (fst r) (snd r))%C
                                 else C0) (LM_range 0 L2)) (LM_range 0 L1).
Theorem C72_fields : forall s1 L1 f s2 L2 g, (0 <= L1)%Z -> (0 <= L2)%Z -> product_modes s1 L1 f s2 L2 g (times s1 L1 s2 L2 f g).
Proof.
  intros s1 L1 f s2 L2 g H1 H2. split.
  - intros q Hq.
    set (T := fun p r : Z * Z => at_order (snd p + snd r) (fun l => RtoC (product_table s1 (fst p) (snd p) s2 (fst r) (snd r) l))).
    transitivity (field (s1 + s2) (L1 + L2) (fun l m => csum (fun p => (f (fst p) (snd p) * csum (fun r => (g (fst r) (snd r) * T p r l m)%C) (LM_range 0 L2))%C) (LM_range 0 L1)) q).
    + rewrite field_csum. unfold field at 1. rewrite <- csum_scale_r. apply csum_ext. intros [l1 m1] I1. apply LM_range_In in I1. cbn [fst snd].
      rewrite field_csum. unfold field at 1. transitivity (f l1 m1 * (swsh s1 l1 m1 q * csum (fun lm => g (fst lm) (snd lm) * swsh s2 (fst lm) (snd lm) q) (LM_range 0 L2)))%C; [ring|].
      f_equal. rewrite <- csum_scale. apply csum_ext. intros [l2 m2] I2. apply LM_range_In in I2. cbn [fst snd].
      transitivity (g l2 m2 * (swsh s1 l1 m1 q * swsh s2 l2 m2 q))%C; [ring|]. f_equal. rewrite product_field by exact Hq.
      apply field_grow; [lia|]. intros l m Hl. unfold T, at_order. cbn [fst snd]. destruct (m =? m1 + m2)%Z; [|reflexivity]. rewrite table_zero; [reflexivity|].
      replace (l <=? l1 + l2)%Z with false by lia. apply andb_false_r.
    + apply field_ext. intros l m _ _. unfold times. apply csum_ext. intros p _. rewrite <- csum_scale. apply csum_ext. intros r _. unfold T, at_order.
      rewrite Z.eqb_sym. destruct (snd p + snd r =? m)%Z; [rewrite Cscale_mul; ring|ring].
  - intros l m H. unfold times. apply csum_const0. intros [l1 m1] I1. apply csum_const0. intros [l2 m2] I2. apply LM_range_In in I1, I2. cbn [fst snd].
    destruct (m1 + m2 =? m)%Z; [|reflexivity]. rewrite table_zero; [apply C_eq; cbn; ring|]. unfold ok. destruct H as [H|H].
    + replace (Z.abs (s1 + s2) <=? l)%Z with false by lia. cbn [andb]. rewrite andb_false_r. reflexivity.
    + replace (l <=? l1 + l2)%Z with false by lia. apply andb_false_r.
Qed.
Lemma product_modes_unique : forall s1 L1 f s2 L2 g p p', (0 <= L1)%Z -> (0 <= L2)%Z -> product_modes s1 L1 f s2 L2 g p -> product_modes s1 L1 f s2 L2 g p' ->
  forall l m, (0 <= l)%Z -> (- l <= m <= l)%Z -> p l m = p' l m.
Proof.
  intros s1 L1 f s2 L2 g p p' H1 H2 [P Z] [P' Z'] l m Hl Hm. destruct (Z_lt_ge_dec l (Z.abs (s1 + s2))) as [A|A]; [rewrite Z, Z' by lia; reflexivity|].
  destruct (Z_lt_ge_dec (L1 + L2) l) as [B|B]; [rewrite Z, Z' by lia; reflexivity|].
  apply (field_unique (s1 + s2) (L1 + L2)); [lia| |lia|lia]. intros q Hq. rewrite <- P, <- P' by exact Hq. reflexivity.
Qed.

(** ** The modes of the external package: Modes.multiply with the table is the product of the functions *)
Lemma LMs_range : forall L, LMs L = LM_range 0 L.
Proof. reflexivity. Qed.
Lemma multiply_times : forall L Lo a b f g l m, (l <= Lo)%Z -> multiply product_table L Lo a b f g l m = times a L b L f g l m.
Proof. intros L Lo a b f g l m H. unfold multiply, times. replace (l <=? Lo)%Z with true by lia. reflexivity. Qed.
Definition rotor : Type := { q : quat | qnorm2 q = 1 }.
Definition values (L s : Z) (f : modes) (x : rotor) : C := field s (2 * L) f (proj1_sig x).
Theorem C72_evaluation : forall L, (0 <= L)%Z -> evaluation product_table L (values L).
Proof.
  intros L HL. constructor.
  - intros s f g [q Hq]. unfold values, field, fadd. rewrite <- csum_add. apply csum_ext. intros; ring.
  - intros s k f [q Hq]. unfold values, field, fscale. cbn [proj1_sig]. rewrite Cscale_mul, <- csum_scale. apply csum_ext. intros lm _. rewrite Cscale_mul. ring.
  - intros s f [q Hq]. unfold values, field, fmuli. rewrite <- csum_scale. apply csum_ext. intros; ring.
  - intros s f [q Hq]. unfold values. apply C68_conjugate_fields; [lia|]. intros l m _ _. reflexivity.
  - intros s f g [q Hq] H. unfold values. apply field_ext. intros; apply H.
  - intros a b f g [q Hq] Hf Hg. unfold values. cbn [proj1_sig]. destruct (C72_fields a L f b L g HL HL) as [P _].
    rewrite <- (field_grow a L (2 * L) f), <- (field_grow b L (2 * L) g) by (try (intros; apply Hf; lia); try (intros; apply Hg; lia); lia).
    rewrite P by exact Hq. replace (L + L)%Z with (2 * L)%Z by lia. apply field_ext. intros l m Hl _. apply multiply_times. lia.
Qed.

(** ** grid_multiply *)
Lemma same_times_true : forall t, same_times t t = true.
Proof. induction t as [|x t IH]; [reflexivity|]. cbn [same_times]. rewrite IH. destruct (Rleb_spec x x); [reflexivity|lra]. Qed.
Lemma same_times_eq : forall t u, same_times t u = true -> t = u.
Proof.
  induction t as [|x t IH]; intros [|y u] H; try discriminate; [reflexivity|]. cbn [same_times] in H. apply andb_true_iff in H. destruct H as [H H2]. apply andb_true_iff in H. destruct H as [A B].
  destruct (Rleb_spec x y); [|discriminate]. destruct (Rleb_spec y x); [|discriminate]. f_equal; [lra|apply IH, H2].
Qed.
Lemma combine_maps : forall A B A' B' (f : A -> A') (g : B -> B') l l', combine (map f l) (map g l') = map (fun p => (f (fst p), g (snd p))) (combine l l').
Proof. intros A B A' B' f g. induction l as [|x l IH]; intros [|y l']; [reflexivity..|]. cbn [map combine fst snd]. rewrite IH. reflexivity. Qed.
Lemma combine_map_same : forall A B D (f : A -> B) (g : A -> D) l, combine (map f l) (map g l) = map (fun x => (f x, g x)) l.
Proof. intros A B D f g. induction l as [|x l IH]; [reflexivity|]. cbn [map combine]. rewrite IH. reflexivity. Qed.
Lemma cut_range : forall (f : Z * Z -> C) out w, (0 <= out <= w)%Z -> firstn (Z.to_nat (LM_index out out 0 + 1)) (map f (LM_range 0 w)) = map f (LM_range 0 out).
Proof.
  intros f out w H. assert (S : LM_range 0 w = LM_range 0 out ++ LM_range (out + 1) w).
  { unfold LM_range. rewrite (zrange_split 0 (out + 1) (w + 1)) by lia. apply flat_map_app. }
  rewrite S, map_app. replace (Z.to_nat (LM_index out out 0 + 1)) with (length (map f (LM_range 0 out)) + 0)%nat.
  - rewrite firstn_app_2. apply app_nil_r.
  - rewrite map_length. pose proof (range_length 0 out ltac:(lia) ltac:(lia)). unfold LM_index. nia.
Qed.
Lemma whole_row : forall out row, (0 <= out)%Z -> length row = length (LM_range 0 out) -> from_ell_min 0 out row = Ok row.
Proof. intros out row H E. destruct (pad_ok 0 out row ltac:(lia) E) as [P _]. exact P. Qed.
Definition product_row (s1 L1 s2 L2 out : Z) (x y : list C) : list C :=
  map (fun lm => if ((Z.abs (s1 + s2) <=? fst lm) && (fst lm <=? L1 + L2))%Z then times s1 L1 s2 L2 (mode 0 x) (mode 0 y) (fst lm) (snd lm) else C0) (LM_range 0 out).
Section Main.
Variable salm2map : list C -> Z -> Z -> Z -> Z -> res (list C).
Variable map2salm : Z -> Z -> list C -> Z -> Z -> list C.
Hypothesis HS : synthesises salm2map.
Lemma each_synthesis : forall a n, series_ok a -> (2 * mt_hi a + 1 <= n)%Z ->
  each (fun row => salm2map row (mt_s a) (mt_hi a) n n) (mt_data a) = Ok (map (fun row => map (field (mt_s a) (mt_hi a) (mode 0 row)) (grid_points n n)) (mt_data a)).
Proof. intros a n (H1 & H2 & H3) Hn. apply each_ok. intros row I. apply HS; [exact H1|apply H3, I|exact Hn]. Qed.
Lemma grid_product_rows : forall a b out w, exact map2salm (mt_s a + mt_s b) (2 * w + 1) (2 * w + 1) -> series_ok a -> series_ok b -> mt_t a = mt_t b -> (mt_hi a + mt_hi b <= w)%Z -> (0 <= out <= w)%Z ->
  grid_product salm2map map2salm a b (Some out) (Some w) =
  Ok (mkmts (mt_t a) (mt_s a + mt_s b) out (map (fun p => product_row (mt_s a) (mt_hi a) (mt_s b) (mt_hi b) out (fst p) (snd p)) (combine (mt_data a) (mt_data b)))).
Proof.
  intros a b out w HX Ha Hb Ht Hw Ho. pose proof (proj1 Ha) as La. pose proof (proj1 Hb) as Lb. unfold grid_product. cbv zeta. rewrite Ht, same_times_true. cbn [negb].
  rewrite (each_synthesis a) by (assumption || lia). cbn [rbind]. rewrite (each_synthesis b) by (assumption || lia). cbn [rbind]. rewrite combine_maps, map_map. cbn [fst snd].
  rewrite (each_ok _ _ _ (fun row => firstn (Z.to_nat (LM_index out out 0 + 1)) row)).
  - cbn [rbind]. rewrite map_map. f_equal. f_equal. apply map_ext_in. intros [x y] I. cbn [fst snd]. rewrite combine_map_same, map_map. cbn [fst snd].
    destruct (C72_fields (mt_s a) (mt_hi a) (mode 0 x) (mt_s b) (mt_hi b) (mode 0 y) La Lb) as [P _].
    rewrite (map_ext_in _ (field (mt_s a + mt_s b) (mt_hi a + mt_hi b) (times (mt_s a) (mt_hi a) (mt_s b) (mt_hi b) (mode 0 x) (mode 0 y)))) by (intros q Iq; apply P, (grid_points_unit _ _ _ Iq)).
    rewrite HX by lia. rewrite cut_range by lia. reflexivity.
  - intros row I. apply in_map_iff in I. destruct I as ([x y] & <- & I). cbn [fst snd]. rewrite combine_map_same, map_map. cbn [fst snd].
    destruct (C72_fields (mt_s a) (mt_hi a) (mode 0 x) (mt_s b) (mt_hi b) (mode 0 y) La Lb) as [P _].
    rewrite (map_ext_in _ (field (mt_s a + mt_s b) (mt_hi a + mt_hi b) (times (mt_s a) (mt_hi a) (mt_s b) (mt_hi b) (mode 0 x) (mode 0 y)))) by (intros q Iq; apply P, (grid_points_unit _ _ _ Iq)).
    rewrite HX by lia. rewrite cut_range by lia. apply whole_row; [lia|apply map_length].
Qed.
(** The result has, at every time, the modes of the product of the two functions, up to the chosen degree. *)
Theorem C72_grid_multiply : forall a b output working, series_ok a -> series_ok b -> mt_t a = mt_t b ->
  let out := match output with Some l => l | None => mt_hi a end in let w := match working with Some l => l | None => (mt_hi a + mt_hi b)%Z end in
  exact map2salm (mt_s a + mt_s b) (2 * w + 1) (2 * w + 1) -> (mt_hi a + mt_hi b <= w)%Z -> (0 <= out <= w)%Z ->
  exists c, grid_product salm2map map2salm a b output working = Ok c /\ series_ok c /\ mt_t c = mt_t a /\ mt_s c = (mt_s a + mt_s b)%Z /\ mt_hi c = out /\
    forall i p l m, (i < length (mt_t a))%nat -> product_modes (mt_s a) (mt_hi a) (smode a i) (mt_s b) (mt_hi b) (smode b i) p -> valid 0 out l m -> smode c i l m = p l m.
Proof.
  intros a b output working Ha Hb Ht out w HX Hw Ho.
  assert (E : grid_product salm2map map2salm a b output working = grid_product salm2map map2salm a b (Some out) (Some w)) by reflexivity.
  rewrite E, grid_product_rows by assumption. eexists. split; [reflexivity|]. destruct Ha as (La & Na & Ra). destruct Hb as (Lb & Nb & Rb).
  assert (NC : length (combine (mt_data a) (mt_data b)) = length (mt_t a)) by (rewrite combine_length, Na, Nb, <- Ht; lia).
  split; [|split; [reflexivity|split; [reflexivity|split; [reflexivity|]]]].
  - split; [cbn; lia|]. split; [cbn; rewrite map_length; exact NC|]. cbn [mt_data mt_hi]. intros row I. apply in_map_iff in I. destruct I as (p & <- & _). unfold product_row. apply map_length.
  - intros i p l m Hi HP Hv. unfold smode at 1. cbn [mt_data].
    rewrite nth_indep with (d' := (fun p => product_row (mt_s a) (mt_hi a) (mt_s b) (mt_hi b) out (fst p) (snd p)) ([], [])) by (rewrite map_length, NC; exact Hi).
    rewrite (map_nth (fun p => product_row (mt_s a) (mt_hi a) (mt_s b) (mt_hi b) out (fst p) (snd p))), combine_nth by (rewrite Na, Nb, Ht; reflexivity). cbn [fst snd].
    unfold product_row. rewrite mode_map by (assumption || lia). cbn [fst snd]. destruct Hv as [Hl Hm]. pose proof (C72_fields (mt_s a) (mt_hi a) (smode a i) (mt_s b) (mt_hi b) (smode b i) La Lb) as PT.
    fold (smode a i) (smode b i). destruct (Z.leb_spec (Z.abs (mt_s a + mt_s b)) l) as [A|A].
    + destruct (Z.leb_spec l (mt_hi a + mt_hi b)) as [B|B]; cbn [andb].
      * apply (product_modes_unique _ _ _ _ _ _ _ _ La Lb PT HP); lia.
      * symmetry. apply (proj2 HP). lia.
    + cbn [andb]. symmetry. apply (proj2 HP). lia.
Qed.
(** Series of different times are refused. *)
Theorem C72_times_needed : forall a b output working, mt_t a <> mt_t b -> grid_product salm2map map2salm a b output working = Err ValueError.
Proof.
  intros a b output working H. unfold grid_product. destruct (same_times (mt_t a) (mt_t b)) eqn:E; [|reflexivity]. apply same_times_eq in E. contradiction.
Qed.
(** No more degrees can be asked for than the grid is made for. *)
Theorem C72_output_limit : forall a b output w, exact map2salm (mt_s a + mt_s b) (2 * w + 1) (2 * w + 1) -> series_ok a -> series_ok b -> mt_t a = mt_t b -> mt_t a <> [] ->
  (mt_hi a + mt_hi b <= w)%Z -> (w < output)%Z -> grid_product salm2map map2salm a b (Some output) (Some w) = Err ValueError.
Proof.
  intros a b out w HX Ha Hb Ht HN Hw Ho. pose proof (proj1 Ha) as La. pose proof (proj1 Hb) as Lb. unfold grid_product. cbv zeta. rewrite Ht, same_times_true. cbn [negb].
  rewrite (each_synthesis a) by (assumption || lia). cbn [rbind]. rewrite (each_synthesis b) by (assumption || lia). cbn [rbind]. rewrite combine_maps, map_map. cbn [fst snd].
  rewrite each_all_err with (e := ValueError); [reflexivity| |].
  - destruct Ha as (_ & Na & _). destruct Hb as (_ & Nb & _). rewrite Ht in Na. rewrite Ht in HN. destruct (mt_t b); [congruence|]. destruct (mt_data a); [discriminate|]. destruct (mt_data b); [discriminate|]. discriminate.
  - intros row I. apply in_map_iff in I. destruct I as ([x y] & <- & I). cbn [fst snd]. rewrite combine_map_same, map_map. cbn [fst snd].
    destruct (C72_fields (mt_s a) (mt_hi a) (mode 0 x) (mt_s b) (mt_hi b) (mode 0 y) La Lb) as [P _].
    rewrite (map_ext_in _ (field (mt_s a + mt_s b) (mt_hi a + mt_hi b) (times (mt_s a) (mt_hi a) (mt_s b) (mt_hi b) (mode 0 x) (mode 0 y)))) by (intros q Iq; apply P, (grid_points_unit _ _ _ Iq)).
    rewrite HX by lia. unfold from_ell_min. pose proof (range_length 0 w ltac:(lia) ltac:(lia)) as RL.
    rewrite firstn_all2 by (rewrite map_length; unfold LM_index; nia). rewrite map_length. destruct (Z.eqb_spec (Z.of_nat (length (LM_range 0 w))) ((out + 1) ^ 2 - 0 ^ 2)); [nia|reflexivity].
Qed.
(** The factors may be exchanged when the degree of the result is given (or both have the same). *)
Theorem C72_commutes : forall a b output working, series_ok a -> series_ok b -> mt_t a = mt_t b ->
  output <> None \/ mt_hi a = mt_hi b ->
  let out := match output with Some l => l | None => mt_hi a end in let w := match working with Some l => l | None => (mt_hi a + mt_hi b)%Z end in
  exact map2salm (mt_s a + mt_s b) (2 * w + 1) (2 * w + 1) -> (mt_hi a + mt_hi b <= w)%Z -> (0 <= out <= w)%Z ->
  grid_product salm2map map2salm a b output working = grid_product salm2map map2salm b a output working.
Proof.
  intros a b output working Ha Hb Ht HD out w HX Hw Ho.
  assert (HX' : exact map2salm (mt_s b + mt_s a) (2 * w + 1) (2 * w + 1)) by (rewrite (Z.add_comm (mt_s b)); exact HX).
  assert (O' : match output with Some l => l | None => mt_hi b end = out) by (unfold out; destruct output; [reflexivity|]; destruct HD as [HD|HD]; [congruence|symmetry; exact HD]).
  assert (W' : match working with Some l => l | None => (mt_hi b + mt_hi a)%Z end = w) by (unfold w; destruct working; [reflexivity|apply Z.add_comm]).
  destruct (C72_grid_multiply a b output working Ha Hb Ht HX Hw Ho) as (c & E & Oc & Tc & Sc & Hc & Pc).
  destruct (C72_grid_multiply b a output working Hb Ha (eq_sym Ht) ltac:(rewrite W'; exact HX') ltac:(rewrite W'; lia) ltac:(rewrite O', W'; lia)) as (d & E' & Od & Td & Sd & Hd & Pd).
  rewrite E, E'. f_equal. rewrite O' in Hd, Pd. destruct c as [tc sc hc dc]. destruct d as [td sd hd dd]. cbn [mt_t mt_s mt_hi mt_data] in *. fold out in Hc, Pc.
  destruct Oc as (Gc & Nc & Rc). destruct Od as (Gd & Nd & Rd). cbn [mt_t mt_s mt_hi mt_data] in *. subst tc td sc sd hc hd. rewrite Ht. rewrite (Z.add_comm (mt_s b)). f_equal.
  apply (nth_ext _ _ [] []); [rewrite Nc, Nd, Ht; reflexivity|]. intros i Hi. rewrite Nc in Hi.
  apply (row_equal out); [apply Rc, nth_In; rewrite Nc; exact Hi|apply Rd, nth_In; rewrite Nd, <- Ht; exact Hi|]. intros l m Hv.
  pose proof (C72_fields (mt_s a) (mt_hi a) (smode a i) (mt_s b) (mt_hi b) (smode b i) (proj1 Ha) (proj1 Hb)) as P.
  assert (P' : product_modes (mt_s b) (mt_hi b) (smode b i) (mt_s a) (mt_hi a) (smode a i) (times (mt_s a) (mt_hi a) (mt_s b) (mt_hi b) (smode a i) (smode b i))).
  { destruct P as [P Z]. split; [intros q Hq; rewrite (Z.add_comm (mt_s b)), (Z.add_comm (mt_hi b)), <- P by exact Hq; ring|intros l0 m0 H0; apply Z; lia]. }
  pose proof (Pc i _ l m Hi P Hv) as E1. pose proof (Pd i _ l m ltac:(rewrite <- Ht; exact Hi) P' Hv) as E2. unfold smode at 1 in E1. unfold smode at 1 in E2. cbn [mt_data] in E1, E2. rewrite E1, E2. reflexivity.
Qed.
End Main.
(** Series of the same degree L: the modes are those Modes.multiply computes with the table of products, truncated at L. *)
Theorem C72_same_as_modes : forall salm2map map2salm a b L, synthesises salm2map -> series_ok a -> series_ok b -> mt_t a = mt_t b -> mt_hi a = L -> mt_hi b = L ->
  exact map2salm (mt_s a + mt_s b) (4 * L + 1) (4 * L + 1) ->
  exists c, grid_product salm2map map2salm a b None None = Ok c /\ mt_hi c = L /\
    forall i l m, (i < length (mt_t a))%nat -> valid 0 L l m -> smode c i l m = multiply product_table L L (mt_s a) (mt_s b) (smode a i) (smode b i) l m.
Proof.
  intros sm ms a b L HS Ha Hb Ht La Lb HX. pose proof (proj1 Ha) as L0. rewrite La in L0.
  destruct (C72_grid_multiply sm ms HS a b None None Ha Hb Ht) as (c & E & _ & _ & _ & Hc & P); [rewrite La, Lb; replace (2 * (L + L) + 1)%Z with (4 * L + 1)%Z by lia; exact HX|lia|lia|].
  exists c. split; [exact E|]. split; [rewrite Hc; exact La|]. intros i l m Hi Hv. rewrite multiply_times by (destruct Hv; lia).
  apply (P i); [exact Hi| |rewrite La; exact Hv]. rewrite La, Lb. apply C72_fields; exact L0.
Qed.
(** The degree of the result is that of the left factor, unless given: the product of series of different degrees depends on their order. *)
Theorem C72_default_output_refuted : forall salm2map map2salm a b, synthesises salm2map -> series_ok a -> series_ok b -> mt_t a = mt_t b -> mt_hi a <> mt_hi b ->
  exact map2salm (mt_s a + mt_s b) (2 * (mt_hi a + mt_hi b) + 1) (2 * (mt_hi a + mt_hi b) + 1) ->
  grid_product salm2map map2salm a b None None <> grid_product salm2map map2salm b a None None.
Proof.
  intros sm ms a b HS Ha Hb Ht Ne HX. pose proof (proj1 Ha). pose proof (proj1 Hb).
  destruct (C72_grid_multiply sm ms HS a b None None Ha Hb Ht HX ltac:(cbn iota; lia) ltac:(cbn iota; lia)) as (c & E & _ & _ & _ & Hc & _).
  destruct (C72_grid_multiply sm ms HS b a None None Hb Ha (eq_sym Ht)) as (d & E' & _ & _ & _ & Hd & _); [rewrite (Z.add_comm (mt_s b)), (Z.add_comm (mt_hi b)); exact HX|lia|lia|].
  rewrite E, E'. intros Q. apply Ne. rewrite <- Hc, <- Hd. congruence.
Qed.

(** A grid for less than the sum of the degrees: Y_11 squared, on the grid for ell <= 1, comes out as a multiple of Y_{1,-1}. *)
Lemma row11 : forall l m, mode 0 [C0; C0; C0; C1] l m = if (LM_index l m 0 =? 3)%Z then C1 else C0.
Proof.
  intros l m. unfold mode. destruct (Z.eqb_spec (LM_index l m 0) 3) as [->|Ne]; [reflexivity|]. destruct (Z.to_nat (LM_index l m 0)) as [|[|[|[|k]]]] eqn:E; try reflexivity; [lia|].
  cbn. destruct k; reflexivity.
Qed.
Lemma y_ring : forall theta, swsh 0 1 1 (rot_y theta) = RtoC (- / 2 * sqrt (3 / (2 * PI)) * sin theta) /\ swsh 0 1 (-1) (rot_y theta) = RtoC (/ 2 * sqrt (3 / (2 * PI)) * sin theta).
Proof.
  intros theta. assert (U : qnorm2 (rot_y theta) = 1).
  { unfold qnorm2, rot_y. cbn [qw qx qy qz]. pose proof (sin2_cos2 (theta / 2)) as A. unfold Rsqr in A. nra. }
  rewrite !swsh_1m by (try exact U; lia). rewrite direction_formula by exact U. assert (S : sin theta = 2 * sin (theta / 2) * cos (theta / 2)) by (rewrite <- sin_2a; f_equal; field).
  unfold rot_y. cbn [qw qx qy qz Y1 Z.eqb Pos.eqb]. rewrite S. split; apply C_eq; cbn; ring.
Qed.
Lemma field_11 : forall (c : C) m q, (- 1 <= m <= 1)%Z -> field 0 1 (fun l k => if ((l =? 1) && (k =? m))%Z then c else C0) q = (c * swsh 0 1 m q)%C.
Proof.
  intros c m q Hm. unfold field. rewrite (csum_pick _ _ (LM_range 0 1) (1%Z, m)).
  - cbn [fst snd]. rewrite !Z.eqb_refl. reflexivity.
  - apply keys_nodup.
  - apply LM_range_In. lia.
  - intros [l k] _ Ne. cbn [fst snd]. destruct (Z.eqb_spec l 1) as [->|]; [destruct (Z.eqb_spec k m) as [->|]; [congruence|]|]; cbn [andb]; ring.
Qed.
Theorem C72_aliasing_refuted : forall salm2map map2salm t, synthesises salm2map -> exact map2salm 0 3 3 ->
  let a := mkmts [t] 0 1 [[C0; C0; C0; C1]] in
  exists c, grid_product salm2map map2salm a a None (Some 1%Z) = Ok c /\ smode c 0 1 (-1) <> C0 /\
    forall p, product_modes 0 1 (smode a 0) 0 1 (smode a 0) p -> p 1%Z (-1)%Z = C0.
Proof.
  intros sm ms t HS HX a. pose proof PI_RGT_0 as PP. set (A := / 2 * sqrt (3 / (2 * PI))).
  assert (AP : 0 < A) by (unfold A; apply Rmult_lt_0_compat; [lra|apply sqrt_lt_R0, Rdiv_lt_0_compat; lra]).
  assert (V : forall q, field 0 1 (mode 0 [C0; C0; C0; C1]) q = swsh 0 1 1 q).
  { intros q. rewrite (field_ext 0 1 _ (fun l k => if ((l =? 1) && (k =? 1))%Z then C1 else C0)).
    - rewrite field_11 by lia. ring.
    - intros l m Hl Hm. rewrite row11. unfold LM_index. destruct (Z.eqb_spec (l * (l + 1) - 0 ^ 2 + m) 3); destruct (Z.eqb_spec l 1); destruct (Z.eqb_spec m 1); cbn [andb]; try reflexivity; nia. }
  assert (G : forall q, In q (grid_points 3 3) -> (swsh 0 1 1 q * swsh 0 1 1 q)%C = field 0 1 (fun l k => if ((l =? 1) && (k =? -1))%Z then RtoC A else C0) q).
  { intros q I. rewrite field_11 by lia. unfold grid_points in I. apply in_flat_map in I. destruct I as (j & Ij & I). apply in_map_iff in I. destruct I as (k & <- & Ik). apply zrange_In in Ij, Ik.
    rewrite !swsh_spherical. destruct (y_ring (theta_at 3 j)) as [-> ->]. fold A.
    assert (S2 : sin (theta_at 3 j) * sin (theta_at 3 j) = sin (theta_at 3 j)).
    { unfold theta_at. change (3 <=? 1)%Z with false. cbv iota. change (IZR (3 - 1)) with 2. assert (J : (j = 0 \/ j = 1 \/ j = 2)%Z) by lia. destruct J as [->|[->| ->]].
      - rewrite Rmult_0_l, sin_0. ring.
      - rewrite Rmult_1_l, sin_PI2. ring.
      - replace (2 * (PI / 2)) with PI by field. rewrite sin_PI. ring. }
    assert (T : expi (3 * phi_at 3 k) = C1) by (rewrite <- (expi_turns k); f_equal; unfold phi_at; field).
    set (ph := phi_at 3 k) in *. set (sn := sin (theta_at 3 j)) in *.
    assert (E2 : (expi (IZR 1 * ph) * expi (IZR 1 * ph))%C = expi (IZR (-1) * ph)).
    { transitivity (expi (IZR (-1) * ph) * expi (3 * ph))%C; [rewrite <- !expi_add; f_equal; ring|rewrite T; ring]. }
    transitivity (expi (IZR 1 * ph) * expi (IZR 1 * ph) * RtoC (A * A * (sn * sn)))%C.
    - replace (A * A * (sn * sn)) with ((- A * sn) * (- A * sn)) by ring. replace (- / 2 * sqrt (3 / (2 * PI)) * sn) with (- A * sn) by (unfold A; ring). rewrite (RtoC_mul (- A * sn)). ring.
    - rewrite E2, S2. replace (A * A * sn) with (A * (A * sn)) by ring. rewrite (RtoC_mul A). ring. }
  assert (R3 : length [C0; C0; C0; C1] = length (LM_range 0 1)) by reflexivity.
  exists (mkmts [t] 0 1 [map (fun lm => if ((Z.abs 0 <=? fst lm) && (fst lm <=? 1))%Z then (fun l k => if ((l =? 1) && (k =? -1))%Z then RtoC A else C0) (fst lm) (snd lm) else C0) (LM_range 0 1)]).
  split; [|split].
  - unfold grid_product. cbv zeta. unfold a. cbn [mt_t mt_s mt_hi mt_data same_times]. destruct (Rleb_spec t t); [|lra]. cbn [andb negb]. cbn [each].
    replace (2 * 1 + 1)%Z with 3%Z by lia. rewrite HS by (exact R3 || lia). cbn [rbind]. cbn [combine map fst snd]. rewrite combine_map_same, map_map. cbn [fst snd].
    rewrite (map_ext_in _ (field 0 1 (fun l k => if ((l =? 1) && (k =? -1))%Z then RtoC A else C0))).
    + change (0 + 0)%Z with 0%Z. rewrite HX by lia. cbn [each]. rewrite cut_range by lia. rewrite whole_row by (apply map_length || lia). reflexivity.
    + intros q I. rewrite V. apply G, I.
  - unfold smode. cbn [mt_data nth]. rewrite mode_map by (try (split; lia); lia). cbn [fst snd Z.abs Z.leb Z.compare Z.eqb Pos.eqb Pos.compare Pos.compare_cont andb].
    intros Z. apply (f_equal re) in Z. cbn [re RtoC C0] in Z. lra.
  - intros p HP. rewrite (product_modes_unique 0 1 _ 0 1 _ p _ ltac:(lia) ltac:(lia) HP (C72_fields 0 1 _ 0 1 _ ltac:(lia) ltac:(lia))) by lia.
    unfold times. apply csum_const0. intros [l1 m1] I1. apply csum_const0. intros [l2 m2] I2. apply LM_range_In in I1, I2. cbn [fst snd].
    destruct (Z.eqb_spec (m1 + m2) (-1)) as [E|E]; [|reflexivity]. unfold smode, a. cbn [mt_data nth]. rewrite !row11.
    destruct (Z.eqb_spec (LM_index l1 m1 0) 3) as [N1|N1]; [|apply C_eq; cbn; ring]. destruct (Z.eqb_spec (LM_index l2 m2 0) 3) as [N2|N2]; [|apply C_eq; cbn; ring].
    exfalso. unfold LM_index in N1, N2. assert (l1 = 1 \/ l1 = 0)%Z by lia. assert (l2 = 1 \/ l2 = 0)%Z by lia. destruct H as [->| ->]; destruct H0 as [->| ->]; lia.
Qed.

(** ** What the theorems on charges assume of the product holds of the harmonics *)
Theorem C72_mass_aspect_real : forall L i u l m, let b := from_initial_values_exact product_table L i in
  fimag (b_psi2 (b u)) l m = (- fimag (fadd (eth_GHP (-1) (eth_GHP (-2) (fbar 2 (b_sigma (b u))))) (multiply product_table L L 2 (-2) (b_sigma (b u)) (fbar 2 (exact_sigma_dot i u)))) l m)%C.
Proof. intros L i u l m. exact (C34_mass_aspect product_table L i C72_symmetric C72_flip u l m). Qed.
Theorem C72_energy : forall L b sd sdd dflt, (1 <= L)%Z -> bondi_equations product_table L b sd sdd ->
  let E u := fst (bondi_four_momentum product_table L (b u) (fbar 2 (sd u)) dflt) in
  (forall u, derivable_pt_lim E u (- (norm_spin2 L (sd u) / (4 * PI)))) /\ (forall u v, u <= v -> E v <= E u).
Proof. intros L b sd sdd dflt HL EQ. exact (C57_energy product_table L b sd sdd dflt HL C72_orthogonal EQ). Qed.
Theorem C72_momentum : forall L b sbd dflt, (1 <= L)%Z -> upto L (b_sigma b) -> upto L sbd -> exists F,
  (forall q, qnorm2 q = 1 -> field 0 (2 * L) F q = RtoC (- re (field 0 (2 * L) (b_psi2 b) q + field 2 (2 * L) (b_sigma b) q * field (-2) (2 * L) sbd q)%C)) /\
  bondi_four_momentum product_table L b sbd dflt = charge_vector F.
Proof.
  intros L b sbd dflt HL Hs Hd. destruct (C36_momentum_pointwise product_table L (values L) (C72_evaluation L ltac:(lia)) HL b sbd Hs Hd dflt) as (F & P & Q).
  exists F. split; [|exact Q]. intros q Hq. exact (P (exist _ q Hq)).
Qed.
Theorem C72_supermomentum : forall L b sbd d, (1 <= L)%Z -> upto L (b_sigma b) -> upto L sbd -> exists F,
  (forall q, qnorm2 q = 1 -> let E s f := field s (2 * L) f q in E 0%Z F =
     (E 0%Z (b_psi2 b) + E 2%Z (b_sigma b) * E (-2)%Z sbd
      + match d with
        | BondiSachs => C0
        | Moreschi => E 0%Z (eth_GHP (-1) (eth_GHP (-2) (fbar 2 (b_sigma b))))
        | Geroch => Cscale (/ 2) (E 0%Z (eth_GHP (-1) (eth_GHP (-2) (fbar 2 (b_sigma b)))) - E 0%Z (ethbar_GHP 1 (ethbar_GHP 2 (b_sigma b))))
        | GerochWinicour => - E 0%Z (ethbar_GHP 1 (ethbar_GHP 2 (b_sigma b)))
        end)%C) /\
  forall l m, (l <= L)%Z -> supermomentum_aspect product_table L b sbd d l m = F l m.
Proof.
  intros L b sbd d HL Hs Hd. destruct (C35_pointwise product_table L (values L) (C72_evaluation L ltac:(lia)) HL b sbd Hs Hd d) as (F & P & Q).
  exists F. split; [|exact Q]. intros q Hq. exact (P (exist _ q Hq)).
Qed.

(** ** Concrete case: Y_10 squared has the mean 1 / sqrt(4 pi), in units of Y_00, and no mode (1, -1). *)
Lemma row10 : forall l m, mode 0 [C0; C0; C1; C0] l m = if (LM_index l m 0 =? 2)%Z then C1 else C0.
Proof.
  intros l m. unfold mode. destruct (Z.eqb_spec (LM_index l m 0) 2) as [->|Ne]; [reflexivity|]. destruct (Z.to_nat (LM_index l m 0)) as [|[|[|[|k]]]] eqn:E; try reflexivity; [lia|].
  cbn. destruct k; reflexivity.
Qed.
Lemma idx2 : forall l m, In (l, m) (LM_range 0 1) -> (l, m) <> (1, 0)%Z -> (LM_index l m 0 =? 2)%Z = false.
Proof. intros l m I Ne. apply LM_range_In in I. apply Z.eqb_neq. unfold LM_index. intros E. apply Ne. assert (l = 1 \/ l = 0)%Z as [->| ->] by lia; [f_equal; lia|lia]. Qed.
Example C72_case : let a := mkmts [7] 0 1 [[C0; C0; C1; C0]] in
  exists salm2map map2salm c, synthesises salm2map /\ exact map2salm 0 5 5 /\ series_ok a /\ grid_product salm2map map2salm a a None None = Ok c /\
    smode c 0 0 0 = RtoC (/ sqrt (4 * PI)) /\ smode c 0 1 (-1) = C0 /\ grid_product salm2map map2salm a (mkmts [8] 0 1 [[C0; C0; C1; C0]]) None None = Err ValueError.
Proof.
  intros a. destruct (C68_inverse_exists 0 5 5) as [ms HX]. set (sm := fun (row : list C) s L n (_ : Z) => Ok (map (field s L (mode 0 row)) (grid_points n n)) : res (list C)).
  assert (HS : synthesises sm) by (intros row s L n _ _ _; reflexivity).
  assert (OK : series_ok a) by (split; [cbn; lia|split; [reflexivity|]]; intros row [<-|[]]; reflexivity).
  destruct (C72_grid_multiply sm ms HS a a None None OK OK eq_refl HX ltac:(cbn; lia) ltac:(cbn; lia)) as (c & E & _ & _ & _ & Hc & P).
  exists sm, ms, c. split; [exact HS|]. split; [exact HX|]. split; [exact OK|]. split; [exact E|].
  assert (T : forall l m, valid 0 1 l m -> smode c 0 l m = if (m =? 0)%Z then RtoC (product_table 0 1 0 0 1 0 l) else C0).
  { intros l m Hv. rewrite (P 0%nat (times 0 1 0 1 (smode a 0) (smode a 0)) l m ltac:(cbn; lia) (C72_fields 0 1 _ 0 1 _ ltac:(lia) ltac:(lia)) Hv). unfold times.
    assert (S1 : forall l m, smode a 0 l m = if (LM_index l m 0 =? 2)%Z then C1 else C0) by (intros; apply row10).
    rewrite (csum_pick _ _ (LM_range 0 1) (1%Z, 0%Z)); [|apply keys_nodup|apply LM_range_In; lia|].
    - rewrite (csum_pick _ _ (LM_range 0 1) (1%Z, 0%Z)); [|apply keys_nodup|apply LM_range_In; lia|].
      + cbn [fst snd]. rewrite !S1. change (LM_index 1 0 0 =? 2)%Z with true. cbv iota. change (0 + 0)%Z with 0%Z. rewrite (Z.eqb_sym 0 m). destruct (m =? 0)%Z; [apply C_eq; cbn; ring|reflexivity].
      + intros [l2 m2] I2 N2. cbn [fst snd]. rewrite !S1, (idx2 l2 m2 I2 N2). destruct (_ =? m)%Z; [apply C_eq; cbn; ring|reflexivity].
    - intros [l1 m1] I1 N1. apply csum_const0. intros [l2 m2] I2. cbn [fst snd]. rewrite !S1, (idx2 l1 m1 I1 N1). destruct (_ =? m)%Z; [apply C_eq; cbn; ring|reflexivity]. }
  split; [|split].
  - rewrite T by (split; lia). cbn [Z.eqb]. change (product_table 0 1 0 0 1 0 0) with (product_table 0 1 0 (- 0) 1 (- 0) 0). rewrite C72_mean. cbn [Z.eqb Pos.eqb Z.abs Z.leb Z.compare Pos.compare Pos.compare_cont andb Z.add].
    change (sgn 0) with 1. f_equal. unfold Rdiv. ring.
  - rewrite T by (split; lia). reflexivity.
  - apply C72_times_needed. cbn [mt_t a]. intros Q. apply (f_equal (fun l => nth 0 l 0)) in Q. cbn [nth] in Q. unfold a in Q. cbn [mt_t nth] in Q. lra.
Qed.
