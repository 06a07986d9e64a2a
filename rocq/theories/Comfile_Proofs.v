(** * Removing the average motion of the centre of mass from waveform files (property C75) *)
From Coq Require Import String Ascii ZArith Reals List Bool Lia Lra Permutation.
From Verif Require Import Common Cplx Quat Modes_Model Times_Model Tables_Model Motion_Model Kwargs_Model Rotate_Model Sphere_Model Wigner_Model Modal_Model
  Transform_Model Pipeline_Model Validity_Model H5_Model Comfile_Model
  Validity_Proofs Modes_Proofs Modal_Proofs Times_Proofs Tables_Proofs Motion_Proofs Kwargs_Proofs Transform_Proofs Rotate_Proofs Wigner_Proofs Sphere_Proofs Pipeline_Proofs
  H5Names_Proofs H5_Proofs H5Main_Proofs.
Import ListNotations.
Open Scope string_scope.

(** ** Strings *)
Lemma length_app_s : forall a b, String.length (a ++ b) = (String.length a + String.length b)%nat.
Proof. induction a as [|c a IH]; intros b; [reflexivity|]. cbn [String.append String.length]. rewrite IH. reflexivity. Qed.
Lemma lower_app_s : forall a b, lower (a ++ b) = lower a ++ lower b.
Proof. induction a as [|c a IH]; intros b; [reflexivity|]. cbn [String.append lower]. rewrite IH. reflexivity. Qed.
Lemma lower_length : forall a, String.length (lower a) = String.length a.
Proof. induction a as [|c a IH]; [reflexivity|]. cbn [lower String.length]. rewrite IH. reflexivity. Qed.
Lemma starts_app : forall p s, starts p (p ++ s) = true.
Proof. intros p s. unfold starts. rewrite strip_app. reflexivity. Qed.
Lemma starts_some : forall p s, starts p s = true -> exists b, s = p ++ b.
Proof. intros p s H. unfold starts in H. destruct (strip p s) as [r|] eqn:E; [|discriminate]. exists r. apply strip_some, E. Qed.
Lemma app_inj_length : forall a b c d : string, a ++ b = c ++ d -> String.length a = String.length c -> a = c /\ b = d.
Proof.
  induction a as [|x a IH]; intros b [|y c] d H L; try discriminate L; [split; [reflexivity|exact H]|].
  cbn [String.append String.length] in *. injection H as -> H. injection L as L. destruct (IH _ _ _ H L) as [-> ->]. split; reflexivity.
Qed.

Lemma substitute_none : forall f n q s, (forall a t, s = a ++ t -> t <> "" -> f t = false) -> substitute f n q 0 s = s.
Proof.
  intros f n q. induction s as [|c s IH]; intros H; [reflexivity|]. cbn [substitute].
  rewrite (H "" (String c s)) by (reflexivity || discriminate). f_equal. apply IH. intros a t E N. apply (H (String c a) t); [rewrite E; reflexivity|exact N].
Qed.
Lemma substitute_skip : forall f n q x y, substitute f n q (String.length x) (x ++ y) = substitute f n q 0 y.
Proof. intros f n q. induction x as [|c x IH]; intros y; [reflexivity|]. cbn [String.append String.length substitute]. apply IH. Qed.
(** One place where the text is found, and no other *)
Lemma substitute_once : forall f p q D E, p <> "" -> f (p ++ E) = true ->
  (forall a t, D = a ++ t -> t <> "" -> f (t ++ p ++ E) = false) -> (forall a t, E = a ++ t -> t <> "" -> f t = false) ->
  substitute f (String.length p) q 0 (D ++ p ++ E) = D ++ q ++ E.
Proof.
  intros f p q D E Np Fp HD HE. induction D as [|c D IH].
  - cbn [String.append]. destruct p as [|c p]; [congruence|]. cbn [String.append substitute]. cbn [String.append] in Fp. rewrite Fp. f_equal.
    cbn [String.length]. rewrite Nat.sub_succ, Nat.sub_0_r, substitute_skip. apply substitute_none, HE.
  - cbn [String.append substitute]. change (String c (D ++ p ++ E)) with (String c D ++ p ++ E). rewrite (HD "" (String c D)) by (reflexivity || discriminate). f_equal.
    apply IH. intros a t Ed N. apply (HD (String c a) t); [rewrite Ed; reflexivity|exact N].
Qed.
(** ** Specification: a text that occurs once *)
Definition once (p D E : string) : Prop := forall a b, D ++ p ++ E = a ++ p ++ b -> a = D.
Definition once_ci (p D E : string) : Prop := once (lower p) (lower D) (lower E).
Lemma empty_length : forall s, String.length s = 0%nat -> s = "".
Proof. intros [|c s] H; [reflexivity|discriminate H]. Qed.
Lemma once_before : forall p D E a t, once p D E -> D = a ++ t -> t <> "" -> starts p (t ++ p ++ E) = false.
Proof.
  intros p D E a t O Ed N. destruct (starts p (t ++ p ++ E)) eqn:S; [|reflexivity]. exfalso. apply starts_some in S. destruct S as [b S].
  assert (A : a = D). { apply (O a b). rewrite Ed, app_assoc_s, S. reflexivity. }
  apply (f_equal String.length) in Ed. rewrite length_app_s, <- A in Ed. apply N, empty_length. lia.
Qed.
Lemma once_after : forall p D E a t, p <> "" -> once p D E -> E = a ++ t -> starts p t = false.
Proof.
  intros p D E a t Np O Ed. destruct (starts p t) eqn:S; [|reflexivity]. exfalso. apply starts_some in S. destruct S as [b S].
  assert (A : D ++ p ++ a = D). { apply (O _ b). rewrite Ed, S, !app_assoc_s. reflexivity. }
  apply (f_equal String.length) in A. rewrite !length_app_s in A. apply Np, empty_length. lia.
Qed.
Lemma replace_all_once : forall p q D E, p <> "" -> once p D E -> replace_all p q (D ++ p ++ E) = D ++ q ++ E.
Proof.
  intros p q D E Np O. apply substitute_once; [exact Np|apply starts_app| |].
  - intros a t Ed N. eapply once_before; eassumption.
  - intros a t Ed N. eapply once_after; eassumption.
Qed.
Lemma lower_nonempty : forall p, p <> "" -> lower p <> "".
Proof. intros [|c p] H; [congruence|discriminate]. Qed.
Lemma remove_ci_once : forall p D E, p <> "" -> once_ci p D E -> remove_ci p (D ++ p ++ E) = D ++ E.
Proof.
  intros p D E Np O. unfold remove_ci. rewrite substitute_once with (E := E); [reflexivity|exact Np| | |].
  - rewrite lower_app_s. apply starts_app.
  - intros a t Ed N. rewrite !lower_app_s. apply (once_before _ (lower D) _ (lower a)); [exact O|rewrite Ed, lower_app_s; reflexivity|apply lower_nonempty, N].
  - intros a t Ed N. apply (once_after _ (lower D) (lower E) (lower a)); [apply lower_nonempty, Np|exact O|rewrite Ed, lower_app_s; reflexivity].
Qed.
(** Deciding it *)
Fixpoint places (p : string) (i : nat) (s : string) : list nat :=
  ((if starts p s then [i] else []) ++ match s with EmptyString => [] | String _ s' => places p (S i) s' end)%list.
Lemma places_complete : forall p s i a b, s = a ++ p ++ b -> In (i + String.length a)%nat (places p i s).
Proof.
  intros p. induction s as [|c s IH]; intros i a b E.
  - assert (A : a = "") by (destruct a; [reflexivity|discriminate E]). subst a. cbn [String.append] in E. cbn [places String.length]. rewrite E at 1. rewrite starts_app. cbn. lia.
  - destruct a as [|c' a].
    + cbn [String.append] in E. cbn [places String.length]. rewrite E at 1. rewrite starts_app. cbn [app]. left. lia.
    + cbn [String.append] in E. injection E as -> E. cbn [places]. apply in_or_app. right. cbn [String.length]. rewrite Nat.add_succ_r. apply (IH (S i) a b E).
Qed.
Lemma once_by_places : forall p D E, places p 0 (D ++ p ++ E) = [String.length D] -> once p D E.
Proof.
  intros p D E H a b Eq. pose proof (places_complete p _ 0 a b Eq) as I. rewrite H in I. destruct I as [I|[]]. cbn [Nat.add] in I.
  symmetry. exact (proj1 (app_inj_length _ _ _ _ Eq I)).
Qed.

(** *** The extension *)
Lemma free_sub : forall a s b, free_of_h5 (a ++ s ++ b) -> free_of_h5 s.
Proof. intros a s b H x y E. apply (H (a ++ x) (y ++ b)). rewrite E, !app_assoc_s. reflexivity. Qed.
Lemma free_join : forall c b a, c <> "."%char -> c <> "h"%char -> c <> "5"%char -> free_of_h5 a -> free_of_h5 b -> free_of_h5 (a ++ String c b).
Proof.
  intros c b a N1 N2 N3. induction a as [|d a IH]; intros Fa Fb x y E.
  - destruct x as [|c' x]; cbn [String.append] in E; injection E as E1 E; [congruence|]. exact (Fb x y E).
  - destruct x as [|c' x]; cbn [String.append] in E.
    + injection E as -> E. destruct a as [|d1 a]; [cbn [String.append] in E; injection E as E1 _; congruence|]. cbn [String.append] in E. injection E as -> E.
      destruct a as [|d2 a]; [cbn [String.append] in E; injection E as E1 _; congruence|]. cbn [String.append] in E. injection E as -> E.
      apply (Fa "" a). reflexivity.
    + injection E as _ E. exact (IH (free_tail _ _ Fa) Fb x y E).
Qed.
Lemma replace_one_h5 : forall P g, free_of_h5 P -> replace_one ".h5" "_CoM.h5" (P ++ ".h5" ++ g) = P ++ "_CoM.h5" ++ g.
Proof. intros P g F. unfold replace_one. rewrite cut_first by exact F. reflexivity. Qed.

(** ** Where the corrected waveform goes *)
(** A directory as it is written in front of a file name *)
Definition directory_part (D : string) : Prop :=
  D = "" \/ D = "/" \/ exists x c, D = x ++ String c "/" /\ Ascii.eqb c slash = false.
Lemma dir_free : forall D s, directory_part D -> free_of_h5 D -> free_of_h5 s -> free_of_h5 (D ++ s).
Proof.
  intros D s [->|[->|(x & c & -> & Ec)]] FD Fs; [exact Fs| |].
  - apply (free_join "/" s ""); try discriminate; [apply free_empty|exact Fs].
  - replace ((x ++ String c "/") ++ s) with ((x ++ String c "") ++ String "/" s) by (rewrite !app_assoc_s; reflexivity).
    apply free_join; try discriminate; [|exact Fs]. apply (free_sub "" _ "/"). cbn [String.append]. rewrite app_assoc_s. exact FD.
Qed.
Lemma target_of : forall desc D base g, directory_part D -> has_slash base = false -> has_slash desc = false -> free_of_h5 (D ++ base) -> free_of_h5 g ->
  write_target desc (D ++ base ++ ".h5" ++ g) = Ok (D ++ desc ++ "_" ++ base ++ ".h5", g).
Proof.
  intros desc D base g HD HB HS Fb Fg. unfold write_target.
  replace (D ++ base ++ ".h5" ++ g) with ((D ++ base) ++ ".h5" ++ g) by apply app_assoc_s.
  assert (CU := cut_first (D ++ base) g Fb). assert (RC := rcut_last (D ++ base) g Fg).
  unfold contains at 1. rewrite CU. unfold ends_with. rewrite RC.
  assert (HB' : has_slash (base ++ ".h5") = false) by (rewrite has_slash_app, HB; reflexivity).
  assert (TG : forall f, f = (D ++ base) ++ ".h5" ->
     (if is_empty (dirname f) then desc ++ "_" ++ basename f else path_join (dirname f) (desc ++ "_" ++ basename f)) = D ++ desc ++ "_" ++ base ++ ".h5").
  { intros f ->. rewrite app_assoc_s. destruct HD as [->|[->|(x & c & -> & Ec)]].
    - cbn [String.append]. unfold dirname, basename. rewrite split_last_noslash by exact HB'. reflexivity.
    - assert (SL := split_last_dir "" (base ++ ".h5") HB'). cbn [String.append] in SL. unfold dirname, basename. cbn [String.append]. rewrite SL. reflexivity.
    - replace ((x ++ String c "/") ++ base ++ ".h5") with ((x ++ String c "") ++ "/" ++ base ++ ".h5") by (rewrite !app_assoc_s; reflexivity).
      unfold dirname, basename. rewrite (split_last_dir _ (base ++ ".h5") HB'). cbn [fst snd].
      assert (A : all_slashes ((x ++ String c "") ++ "/") = false) by (rewrite !all_slashes_app; cbn [all_slashes]; rewrite Ec, !andb_false_r; reflexivity).
      rewrite A, rstrip_strip by exact Ec.
      assert (B : all_slashes (x ++ String c "") = false) by (rewrite !all_slashes_app; cbn [all_slashes]; rewrite Ec, !andb_false_r; reflexivity).
      assert (Ne : is_empty (x ++ String c "") = false) by (destruct x; reflexivity).
      unfold path_join. rewrite Ne, B, !app_assoc_s. reflexivity. }
  destruct g as [|c g].
  - cbn [negb andb]. cbn [rbind]. rewrite app_nil_s. rewrite TG by reflexivity. reflexivity.
  - cbn [negb andb]. rewrite (proj2 (contains_free _) Fg). cbn [rbind]. rewrite TG by reflexivity. reflexivity.
Qed.

(** ** What a transformation returns *)
Lemma each_size : forall A B (f : A -> res B) l r, each f l = Ok r -> length r = length l.
Proof.
  intros A B f. induction l as [|a l IH]; intros r H; [injection H as <-; reflexivity|]. cbn [each] in H.
  apply rbind_ok in H. destruct H as (b & _ & H). apply rbind_ok in H. destruct H as (r' & E & H). injection H as <-. cbn [length]. f_equal. apply IH, E.
Qed.
Lemma each_in : forall A B (f : A -> res B) l r y, each f l = Ok r -> In y r -> exists x, In x l /\ f x = Ok y.
Proof.
  intros A B f. induction l as [|a l IH]; intros r y H I; [injection H as <-; destruct I|]. cbn [each] in H.
  apply rbind_ok in H. destruct H as (b & Eb & H). apply rbind_ok in H. destruct H as (r' & E & H). injection H as <-.
  destruct I as [<-|I]; [exists a; split; [left; reflexivity|exact Eb]|]. destruct (IH _ _ E I) as (x & Ix & Ex). exists x. split; [right; exact Ix|exact Ex].
Qed.
Lemma increasing_up : forall l, increasing l -> strictly_up l.
Proof.
  induction l as [|x l IH]; intros H i j Hij; [cbn in Hij; lia|]. assert (HL : increasing l) by (inversion H; [constructor|assumption]).
  destruct j as [|j]; [lia|]. destruct i as [|i]; cbn [nth].
  - apply (increasing_lt l x H). apply nth_In. cbn in Hij. lia.
  - apply IH; [exact HL|cbn in Hij; lia].
Qed.
Open Scope R_scope.
Lemma transform_shape : forall spline map2salm w em nt np k aux p, Pipeline_Model.transform spline map2salm w em nt np k aux = Ok p -> increasing (pw_t w) ->
  increasing (pw_t p) /\ wave_ok p /\ pw_dataType p = pw_dataType w /\ pw_r p = pw_r w /\ pw_frameType p = InertialFrame /\ pw_frame p = [].
Proof.
  intros spline map2salm w em nt np k aux p H HI. unfold Pipeline_Model.transform in H. apply rbind_ok in H. destruct H as (G & HG & H).
  unfold from_modes in HG. destruct (pw_frameType w) eqn:EF; try discriminate HG.
  apply rbind_ok in HG. destruct HG as (g & Eg & HG). apply rbind_ok in HG. destruct HG as (s & Es & HG). cbv zeta in HG.
  apply rbind_ok in HG. destruct HG as (dirs & _ & HG). apply rbind_ok in HG. destruct HG as (cols & _ & HG).
  apply rbind_ok in HG. destruct HG as (newt & En & HG). apply rbind_ok in HG. destruct HG as (out & _ & HG).
  assert (HG' : G = mkpg newt (map (fun i => map (fun c => nth i c C0) out) (seq 0 (length newt))) (gp_theta g) (gp_phi g) (pw_frameType w) (pw_dataType w) (pw_r w)) by congruence.
  destruct (grid_process_facts _ _ _ _ _ Eg) as (L & HL & Hm & El & Em & T1 & T2 & Hv & Hq).
  pose proof (C29_increasing _ _ _ _ _ Hv HI En) as IN.
  unfold to_modes in H. subst G. cbn [pg_dataType pg_theta pg_phi pg_data pg_t pg_frameType pg_r] in H. rewrite Es in H. cbn [rbind] in H. cbv zeta in H.
  cbn [dflt] in H. destruct (Z.ltb_spec (dflt (pw_hi w) em) 0) as [|He]; [discriminate|]. destruct ((Z.abs s <? 0) || (dflt (pw_hi w) em <? Z.abs s))%Z eqn:EC; [discriminate|].
  apply orb_false_iff in EC. destruct EC as [_ EC]. apply Z.ltb_ge in EC.
  apply rbind_ok in H. destruct H as (rows & ER & H). assert (Hp : p = mkpw newt rows (Z.abs s) (dflt (pw_hi w) em) [] (pw_frameType w) (pw_dataType w) (pw_r w)) by congruence.
  subst p. cbn [pw_t pw_dataType pw_r pw_frameType pw_frame]. split; [exact IN|]. split; [|repeat split; exact EF].
  split; [cbn [pw_lo pw_hi]; lia|]. split.
  - cbn [pw_data pw_t]. rewrite (each_size _ _ _ _ _ ER), map_length, seq_length. reflexivity.
  - cbn [pw_data pw_lo pw_hi]. intros row I. destruct (each_in _ _ _ _ _ _ ER I) as (x & _ & Ex). cbv zeta in Ex.
    match type of Ex with (if ?b then _ else _) = _ => destruct b eqn:Eb; [|discriminate Ex] end. apply Z.eqb_eq in Eb. injection Ex as Ex. rewrite <- Ex.
    pose proof (LM_range_length (Z.abs s) (dflt (pw_hi w) em) ltac:(lia) ltac:(lia)) as LL. unfold LM_index in Eb at 2.
    unfold zlen in *. nia.
Qed.

(** ** Specification *)
(** Integration that is exact for polynomials of degree at most two and an odd number of samples, as Simpson's rule is *)
Definition simpson (simps : list R -> list R -> R) : Prop :=
  forall ts a b c, increasing ts -> Nat.odd (length ts) = true ->
    is_int (nth 0 ts 0) (last ts 0) (fun t => a + b * t + c * t ^ 2) (simps (map (fun t => a + b * t + c * t ^ 2) ts) ts).
(** The mass-weighted mean of the positions of two black holes is x + v t *)
Definition uniform (hor : horizons) (x v : vec3) : Prop :=
  let '(x1, x2, x3) := x in let '(v1, v2, v3) := v in
  length (h_mA hor) = length (h_t hor) /\ length (h_mB hor) = length (h_t hor) /\
  length (h_xA hor) = length (h_t hor) /\ length (h_xB hor) = length (h_t hor) /\
  forall k, (k < length (h_t hor))%nat -> exists a1 a2 a3 b1 b2 b3,
    nth k (h_xA hor) [] = [a1; a2; a3] /\ nth k (h_xB hor) [] = [b1; b2; b3] /\
    let mA := nth k (h_mA hor) 0 in let mB := nth k (h_mB hor) 0 in let t := nth k (h_t hor) 0 in mA + mB <> 0 /\
    mA * a1 + mB * b1 = (mA + mB) * (x1 + v1 * t) /\ mA * a2 + mB * b2 = (mA + mB) * (x2 + v2 * t) /\ mA * a3 + mB * b3 = (mA + mB) * (x3 + v3 * t).
(** Samples at both ends of the interval of the fit, an even number of steps apart *)
Definition aligned (t : list R) (sb se : R) : Prop :=
  exists i j, (i < j < length t)%nat /\ Nat.even (j - i) = true /\
    nth i t 0 = nth 0 t 0 + (last t 0 - nth 0 t 0) * sb /\ nth j t 0 = last t 0 - (last t 0 - nth 0 t 0) * se.

(** *** The fit *)
Lemma argmin_ok : forall l, l <> [] -> exists i, argmin l = Ok i.
Proof. intros [|a l] H; [congruence|]. eexists. reflexivity. Qed.
Lemma last_default : forall A (l : list A) d d', l <> [] -> last l d = last l d'.
Proof. intros A. induction l as [|a l IH]; intros d d' N; [congruence|]. destruct l as [|b l]; [reflexivity|]. apply (IH d d'). discriminate. Qed.
Lemma estimate_total : forall simps t com sb se, t <> [] -> exists x v,
  estimate simps t com sb se false = Ok (x, v, 0, nth 0 t 0 + (last t 0 - nth 0 t 0) * sb, last t 0 - (last t 0 - nth 0 t 0) * se).
Proof.
  intros simps [|t0 t] com sb se N; [congruence|]. unfold estimate. rewrite (last_default _ (t0 :: t) 0 t0) by discriminate. cbn [nth].
  match goal with |- context [argmin ?l] => destruct (argmin_ok l) as [i Ei]; [discriminate|] end. rewrite Ei. cbn [rbind].
  match goal with |- context [argmin ?l] => destruct (argmin_ok l) as [j Ej]; [discriminate|] end. rewrite Ej. cbn [rbind]. cbv zeta.
  destruct (fit2 _ _ _ _) as [x v]. exists x, v. reflexivity.
Qed.
Lemma segment_length : forall A (l : list A) i j, (i <= j < length l)%nat -> length (segment i j l) = S (j - i).
Proof. intros A l i j H. unfold segment. rewrite firstn_length, skipn_length. lia. Qed.
Lemma nth_skip : forall A (l : list A) i k d, nth k (skipn i l) d = nth (i + k) l d.
Proof. intros A. induction l as [|a l IH]; intros [|i] k d; try reflexivity; [destruct k; reflexivity|]. cbn [skipn Nat.add nth]. apply IH. Qed.
Lemma nth_first : forall A (l : list A) n k d, (k < n)%nat -> nth k (firstn n l) d = nth k l d.
Proof. intros A. induction l as [|a l IH]; intros [|n] [|k] d H; try reflexivity; try lia. cbn [firstn nth]. apply IH. lia. Qed.
Lemma segment_nth : forall A (l : list A) i j k d, (i + k <= j)%nat -> nth k (segment i j l) d = nth (i + k) l d.
Proof. intros A l i j k d H. unfold segment. rewrite nth_first by lia. apply nth_skip. Qed.
Lemma increasing_tail : forall a l, increasing (a :: l) -> increasing l.
Proof. intros a l H. inversion H; [constructor|assumption]. Qed.
Lemma increasing_skip : forall l n, increasing l -> increasing (skipn n l).
Proof. induction l as [|a l IH]; intros [|n] H; try exact H. cbn [skipn]. apply IH. eapply increasing_tail, H. Qed.
Lemma increasing_first : forall l n, increasing l -> increasing (firstn n l).
Proof.
  induction l as [|a l IH]; intros [|n] H; try constructor. cbn [firstn]. inversion H as [|x|x y r Hxy Hr]; subst.
  - destruct n; constructor.
  - destruct n as [|n]; [constructor|]. cbn [firstn]. constructor; [exact Hxy|]. apply (IH (S n)), Hr.
Qed.
Lemma segment_map : forall A B (f : A -> B) i j l, segment i j (map f l) = map f (segment i j l).
Proof. intros A B f i j l. unfold segment. rewrite skipn_map, firstn_map. reflexivity. Qed.
Lemma last_nth_R : forall l : list R, last l 0 = nth (length l - 1) l 0.
Proof.
  induction l as [|a l IH]; [reflexivity|]. destruct l as [|b l]; [reflexivity|]. change (last (a :: b :: l) 0) with (last (b :: l) 0). rewrite IH.
  cbn [length]. rewrite !Nat.sub_succ, !Nat.sub_0_r. reflexivity.
Qed.
Lemma int_quad : forall ti tf a b c, exists I, is_int ti tf (fun t => t ^ 2 * (a + b * t + c * t ^ 2 / 2)) I.
Proof.
  intros ti tf a b c. eexists. eapply is_int_ext; [|exact (is_int_lin _ _ _ _ (c / 2) _ _ (is_int_lin _ _ _ _ b _ _ (is_int_lin _ _ _ _ (a - 1) _ _ (is_int_pow ti tf 2) (is_int_pow ti tf 2)) (is_int_pow ti tf 3)) (is_int_pow ti tf 4))].
  intros t. cbn beta. field.
Qed.
Lemma zip_map : forall A B D (f : A -> B) (g : A * B -> D) l, map g (combine l (map f l)) = map (fun x => g (x, f x)) l.
Proof. intros A B D f g. induction l as [|a l IH]; [reflexivity|]. cbn [map combine]. rewrite IH. reflexivity. Qed.
Lemma component_uniform : forall simps t x v sb se, simpson simps -> increasing t -> aligned t sb se ->
  estimate simps t (map (fun u => x + v * u) t) sb se false = Ok (x, v, 0, nth 0 t 0 + (last t 0 - nth 0 t 0) * sb, last t 0 - (last t 0 - nth 0 t 0) * se).
Proof.
  intros simps t x v sb se HS HI (i & j & Hij & He & Ei & Ej).
  assert (N : t <> []) by (intros ->; cbn in Hij; lia).
  destruct (estimate_total simps t (map (fun u => x + v * u) t) sb se N) as (x' & v' & E). rewrite E.
  destruct (C42_estimate _ _ _ _ _ _ _ _ _ _ _ (map_length _ _) E) as (t0 & tl & i' & j' & H0 & Hl & Eti & Etf & Li & Lj & Mi & Mj & F).
  cbv zeta in F. set (ti := nth 0 t 0 + (last t 0 - nth 0 t 0) * sb) in *. set (tf := last t 0 - (last t 0 - nth 0 t 0) * se) in *.
  pose proof (increasing_up t HI) as UP.
  assert (I1 : i' = i).
  { specialize (Mi i ltac:(lia)). rewrite Ei, (Rminus_diag_eq ti ti eq_refl), Rabs_R0 in Mi. pose proof (Rabs_pos (nth i' t 0 - ti)).
    assert (Z : nth i' t 0 - ti = 0). { destruct (Req_dec (nth i' t 0 - ti) 0) as [Z|Z]; [exact Z|]. pose proof (Rabs_pos_lt _ Z). lra. }
    destruct (lt_eq_lt_dec i' i) as [[L|L]|L]; [|exact L|].
    - pose proof (UP i' i ltac:(lia)). lra.
    - pose proof (UP i i' ltac:(lia)). lra. }
  assert (J1 : j' = j).
  { specialize (Mj j ltac:(lia)). rewrite Ej, (Rminus_diag_eq tf tf eq_refl), Rabs_R0 in Mj. pose proof (Rabs_pos (nth j' t 0 - tf)).
    assert (Z : nth j' t 0 - tf = 0). { destruct (Req_dec (nth j' t 0 - tf) 0) as [Z|Z]; [exact Z|]. pose proof (Rabs_pos_lt _ Z). lra. }
    destruct (lt_eq_lt_dec j' j) as [[L|L]|L]; [|exact L|].
    - pose proof (UP j' j ltac:(lia)). lra.
    - pose proof (UP j j' ltac:(lia)). lra. }
  subst i' j'. destruct F as [F _]. rewrite segment_map in F. set (ts := segment i j t) in *. rewrite zip_map in F. cbn [fst snd] in F.
  assert (LT : length ts = S (j - i)) by (apply segment_length; lia).
  assert (IT : increasing ts) by (unfold ts, segment; apply increasing_first, increasing_skip, HI).
  assert (OD : Nat.odd (length ts) = true) by (rewrite LT, Nat.odd_succ; exact He).
  assert (B0 : nth 0 ts 0 = ti) by (unfold ts; rewrite segment_nth by lia; rewrite Nat.add_0_r; exact Ei).
  assert (B1 : last ts 0 = tf). { rewrite last_nth_R, LT. unfold ts. rewrite segment_nth by lia. rewrite <- Ej. f_equal. lia. }
  assert (TT : ti < tf) by (rewrite <- Ei, <- Ej; apply UP; lia).
  pose proof (HS ts x v 0 IT OD) as M0. pose proof (HS ts 0 x v IT OD) as M1. rewrite B0, B1 in M0, M1.
  destruct (int_quad ti tf x v 0) as [I2 M2].
  assert (N0 : is_int ti tf (fun t => x + v * t + 0 * t ^ 2 / 2) (simps (map (fun t => x + v * t + 0 * t ^ 2) ts) ts)) by (eapply is_int_ext; [|exact M0]; intros; cbn beta; field).
  assert (N1 : is_int ti tf (fun t => t * (x + v * t + 0 * t ^ 2 / 2)) (simps (map (fun t => 0 + x * t + v * t ^ 2) ts) ts)) by (eapply is_int_ext; [|exact M1]; intros; cbn beta; field).
  destruct (C42_recovers ti tf x v 0 _ _ _ TT N0 N1 M2) as [_ K]. specialize (K eq_refl).
  replace (map (fun u => x + v * u) ts) with (map (fun u => x + v * u + 0 * u ^ 2) ts) in F by (apply map_ext; intros; ring).
  replace (map (fun u => u ^ 1 * (x + v * u)) ts) with (map (fun u => 0 + x * u + v * u ^ 2) ts) in F by (apply map_ext; intros; ring).
  rewrite K in F. injection F as -> ->. reflexivity.
Qed.
Lemma com_uniform : forall hor x v mA mB, uniform hor x v -> exists com, com_motion hor None mA mB = Ok (h_t hor, com) /\
  let '(x1, x2, x3) := x in let '(v1, v2, v3) := v in
  map (fun row => nth 0 row 0) com = map (fun u => x1 + v1 * u) (h_t hor) /\
  map (fun row => nth 1 row 0) com = map (fun u => x2 + v2 * u) (h_t hor) /\
  map (fun row => nth 2 row 0) com = map (fun u => x3 + v3 * u) (h_t hor).
Proof.
  intros hor [[x1 x2] x3] [[v1 v2] v3] mA mB (L1 & L2 & L3 & L4 & U).
  destruct (C54_black_holes hor mA mB (length (h_t hor)) L1 L2 L3 L4) as (com & E & LC & N). exists com. split; [exact E|].
  assert (G : forall c f, (forall k, (k < length (h_t hor))%nat -> nth c (nth k com []) 0 = f (nth k (h_t hor) 0)) ->
    map (fun row => nth c row 0) com = map f (h_t hor)).
  { intros c f H. apply nth_ext with (d := nth c [] 0) (d' := f 0); [rewrite !map_length; exact LC|]. intros k Hk. rewrite map_length in Hk.
    rewrite (map_nth (fun row => nth c row 0)), (map_nth f). apply H. lia. }
  repeat split; apply G; intros k Hk; rewrite (N k Hk); destruct (U k Hk) as (a1 & a2 & a3 & b1 & b2 & b3 & -> & -> & Nz & E1 & E2 & E3);
    unfold com_row; cbn [combine map fst snd nth]; [rewrite E1|rewrite E2|rewrite E3]; field; exact Nz.
Qed.
Lemma estimate_uniform : forall simps horizons_in matter_in ph hor x v sb se mA mB, simpson simps -> horizons_in ph = Some hor -> uniform hor x v ->
  increasing (h_t hor) -> aligned (h_t hor) sb se -> exists ti tf, estimate_avg simps horizons_in matter_in ph None sb se mA mB = Ok (x, v, ti, tf).
Proof.
  intros simps horizons_in matter_in ph hor x v sb se mA mB HS HH HU HI HA. unfold estimate_avg. cbn [rbind needs_horizons]. rewrite HH. cbn [rbind].
  destruct (com_uniform hor x v mA mB HU) as (com & E & C). rewrite E. cbn [rbind]. cbv zeta. destruct x as [[x1 x2] x3], v as [[v1 v2] v3]. destruct C as (C1 & C2 & C3).
  rewrite C1, C2, C3. do 3 (rewrite component_uniform by assumption; cbn [rbind]). do 2 eexists. reflexivity.
Qed.
(** A centre of mass that stays where it is needs no conditions on the samples. *)
Lemma component_zero : forall simps t sb se, (forall ts, simps (map (fun _ => 0) ts) ts = 0) -> t <> [] ->
  exists ti tf, estimate simps t (map (fun _ => 0) t) sb se false = Ok (0, 0, 0, ti, tf).
Proof.
  intros simps t sb se HZ N. destruct (estimate_total simps t (map (fun _ => 0) t) sb se N) as (x & v & E).
  destruct (C42_estimate _ _ _ _ _ _ _ _ _ _ _ (map_length _ _) E) as (t0 & tl & i & j & _ & _ & _ & _ & _ & _ & _ & _ & F & _). cbv zeta in F.
  rewrite segment_map, (zip_map R R R (fun _ => 0)) in F. cbn [fst snd] in F. rewrite HZ in F.
  replace (map (fun u => u ^ 1 * 0) (segment i j t)) with (map (fun _ : R => 0) (segment i j t)) in F by (apply map_ext; intros; ring). rewrite HZ in F.
  unfold fit2 in F. injection F as Fx Fv. rewrite E. exists (nth 0 t 0 + (last t 0 - nth 0 t 0) * sb), (last t 0 - (last t 0 - nth 0 t 0) * se).
  replace x with 0 by (rewrite <- Fx; unfold Rdiv; ring). replace v with 0 by (rewrite <- Fv; unfold Rdiv; ring). reflexivity.
Qed.
Definition origin : vec3 := (0, 0, 0).
Lemma estimate_centred : forall simps horizons_in matter_in ph hor sb se mA mB, (forall ts, simps (map (fun _ => 0) ts) ts = 0) -> horizons_in ph = Some hor ->
  uniform hor origin origin -> h_t hor <> [] -> exists ti tf, estimate_avg simps horizons_in matter_in ph None sb se mA mB = Ok (origin, origin, ti, tf).
Proof.
  intros simps horizons_in matter_in ph hor sb se mA mB HZ HH HU HN. unfold estimate_avg. cbn [rbind needs_horizons]. rewrite HH. cbn [rbind].
  destruct (com_uniform hor _ _ mA mB HU) as (com & E & C). rewrite E. cbn [rbind]. cbv zeta. cbn [origin] in C. destruct C as (C1 & C2 & C3).
  assert (Z : map (fun u => 0 + 0 * u) (h_t hor) = map (fun _ => 0) (h_t hor)) by (apply map_ext; intros; ring).
  rewrite C1, C2, C3, Z. destruct (component_zero simps (h_t hor) sb se HZ HN) as (ti & tf & K). rewrite K; cbn [rbind]. rewrite ?K; cbn [rbind]. do 2 eexists. reflexivity.
Qed.

(** *** Zero translation and boost *)
Lemma vector_zero : vector_as_ell_1_modes (vneg (0, 0, 0)) = [C0; C0; C0].
Proof. unfold vector_as_ell_1_modes, vneg. repeat f_equal; apply C_eq; cbn [re im Cscale C0 RtoC]; ring. Qed.
Definition nothing_to_do : Kwargs_Model.kwargs := mkkw None None None None None None None None.
Lemma nothing_rotation : rotation_only nothing_to_do q1 0.
Proof.
  repeat split; [|right; split; reflexivity]. unfold nothing_to_do. cbn [k_rotation]. unfold read_rotation. cbn [quat_of].
  assert (A : qabs (mkq 1 0 0 0) = 1) by (unfold qabs, qnorm2; cbn [qw qx qy qz]; replace (1 * 1 + 0 * 0 + 0 * 0 + 0 * 0) with 1 by ring; apply sqrt_1).
  rewrite A. destruct (Rltb_spec 1 (3 / 10 ^ 16)); [exfalso; lra|]. unfold qnormalized. rewrite A. f_equal. apply quat_eq; cbn; field.
Qed.
Lemma zero_process : forall e nt np, grid_process e nt np (translation_and_boost origin origin) = grid_process e nt np nothing_to_do.
Proof.
  intros e nt np. unfold grid_process, translation_and_boost, nothing_to_do. cbn [k_super read_super rbind k_rotation k_boost vlist origin].
  unfold override. cbn [k_spacetime k_space k_time repeat get nth_error rbind vec3_of]. destruct (vector_from_ell_1_modes [C0; C0; C0]) as [[vx vy] vz]. cbn [rbind].
  unfold put3. rewrite vector_zero. cbn [Kwargs_Model.put upd nth rbind]. reflexivity.
Qed.
Lemma zero_transform : forall spline map2salm w em nt np aux,
  Pipeline_Model.transform spline map2salm w em nt np (translation_and_boost origin origin) aux = Pipeline_Model.transform spline map2salm w em nt np nothing_to_do aux.
Proof. intros. unfold Pipeline_Model.transform, from_modes. rewrite zero_process. reflexivity. Qed.
Lemma unmoved : forall spline map2salm w aux, interpolates spline -> usable w -> let s := spin (pw_dataType w) in let n := (2 * (pw_hi w + 1) + 1)%Z in
  exact map2salm s n n -> pw_lo w = Z.abs s -> pw_frame w = [] ->
  Pipeline_Model.transform spline map2salm w None None None (translation_and_boost origin origin) aux = Ok w.
Proof.
  intros spline map2salm w aux HS HU s n HX HL HF. rewrite zero_transform.
  destruct (C68_rotation spline HS map2salm w None None None nothing_to_do q1 0 aux HU nothing_rotation) as (w' & E & T & L & M & F & G & D & Q & W & V); cbn [size dflt] in *; fold s n;
    try lia; try assumption. { destruct HU as ((H & _) & _). rewrite <- HL. lia. }
  rewrite E. f_equal. fold s in L. destruct HU as (HW & HI & H4 & HD & HT).
  assert (T' : pw_t w' = pw_t w) by (rewrite T; rewrite <- (map_id (pw_t w)) at 2; apply map_ext; intros; ring).
  apply waves_equal; try assumption; try congruence. rewrite L, M, T'. intros i l m Hi Hv. fold s in V. rewrite V by assumption.
  destruct Hv as [Hl Hm]. destruct (Z.leb_spec l (pw_hi w)); [|lia]. apply (turn_one wigner_D C25_wigner_one); lia.
Qed.

Section Removal.
Variable abspath : string -> string.
Variable simps : list R -> list R -> R.
Variable spline : list R -> list R -> res (R -> R).
Variable map2salm : Z -> Z -> list C -> Z -> Z -> list C.
Variable show : hwave -> string.
Variable born : string -> list string.
Variable listing : list string -> list string.
Hypothesis listing_perm : forall l, Permutation (listing l) l.
Variable from_history : string -> string -> option (list R).
Variable as_quat_array : arr -> option attr.
Variable diff_nd : arr -> res bool.
Variable noted : hwave -> list string.
Variable horizons_in : string -> option horizons.
Variable matter_in : string -> option matter.
Variable masses_in : string -> option (R * R).
Variable load_inertial : fs -> string -> res hwave.
Variable save_rpxmb : fs -> hwave -> string -> res fs.

Notation run := (remove_avg_com_motion abspath simps spline map2salm show born listing from_history as_quat_array diff_nd noted horizons_in matter_in masses_in load_inertial save_rpxmb).
Notation fetch := (read_from_h5 born listing from_history as_quat_array diff_nd).
Notation rd := (Comfile_Model.read born listing from_history as_quat_array diff_nd).
Notation estimated := (estimate_avg simps horizons_in matter_in).
Notation write := (write_to_h5 show).
Notation moved := (Pipeline_Model.transform spline map2salm).

(** The waveform to start from, and the directory the other files are looked for in *)
Definition begins (d : fs) (arg : given) (path : string) (w : hwave) : Prop :=
  (exists masses, arg = Wave w masses) \/ (arg = Nothing /\ rd d path = Ok w).
Definition beside (path file : string) : string :=
  match H5_Model.cut ".h5" path with Some (a, _) => path_join (dirname (abspath (a ++ ".h5"))) file | None => "" end.
Definition horizons_path (path : string) (ph : option string) : string := dflt (beside path "Horizons.h5") ph.
Definition corrected (w : hwave) (p : pwave) (x v : vec3) : hwave :=
  mkhwave (pw_t p) (pw_data p) (length (LM_range (pw_lo p) (pw_hi p))) (pw_lo p) (pw_hi p) (pw_dataType p) (frame_code (pw_frameType p)) (pw_r p) (w_m w) []
    (noted w) (w_versions w) (Some (vlist x)) (Some (vlist v)).
Definition attributes (x v : vec3) : list (string * aval) := [("space_translation", AVec (vlist x)); ("boost_velocity", AVec (vlist v))].

Lemma nrar_format : forall ff, lower ff = "nrar" -> format_of ff = NRAR.
Proof. intros ff H. unfold format_of. rewrite H. reflexivity. Qed.
Lemma run_inv : forall d arg path ph sb se mode pm mA mB ff wr w' d', lower ff = "nrar" -> run d arg path ph sb se mode pm mA mB ff wr = Ok (w', d') ->
  exists w x v ti tf aux p pm' mA' mB', begins d arg path w /\ contains ".h5" path = true /\
    estimated (horizons_path path ph) pm' sb se mA' mB' = Ok (x, v, ti, tf) /\ (pm = None -> matter_in (beside path "Matter.h5") = None -> pm' = None) /\
    companions born listing from_history as_quat_array diff_nd load_inertial d NRAR path (Comfile_Model.wanted (w_dataType w)) (fun _ => None) = Ok aux /\
    moved (as_pwave w) None None None (translation_and_boost x v) aux = Ok p /\ w' = corrected w p x v /\
    if wr then exists desc, descriptor_string (pw_dataType p) (pw_r p) (w_m w) = Ok desc /\
                 write d (as_hwave p (w_m w) (noted w)) (new_path desc path) mode (attributes x v) true = Ok d'
    else d' = d.
Proof.
  intros d arg path ph sb se mode pm mA mB ff wr w' d' HF H. unfold remove_avg_com_motion in H. rewrite (nrar_format ff HF) in H.
  destruct (H5_Model.cut ".h5" path) as [[a b]|] eqn:EC; [|discriminate H]. cbn [rbind] in H. cbv zeta in H.
  apply rbind_ok in H. destruct H as (arg' & EA & H). apply rbind_ok in H. destruct H as ([[pm' mA'] mB'] & EM & H).
  apply rbind_ok in H. destruct H as ([[[x v] ti] tf] & EE & H). destruct arg' as [|w masses|]; try discriminate H.
  apply rbind_ok in H. destruct H as (aux & ES & H). apply rbind_ok in H. destruct H as (p & EP & H).
  exists w, x, v, ti, tf, aux, p, pm', mA', mB'. split; [|split; [|split; [|split; [|split; [exact ES|split; [exact EP|]]]]]].
  - destruct arg as [|w0 m0|].
    + right. split; [reflexivity|]. apply rbind_ok in EA. destruct EA as (w0 & E0 & EA). injection EA as <- _. exact E0.
    + left. injection EA as <- <-. exists m0. reflexivity.
    + discriminate EA.
  - unfold contains. rewrite EC. reflexivity.
  - unfold horizons_path, beside. rewrite EC. destruct ph; exact EE.
  - intros -> N. unfold beside in N. rewrite EC in N. rewrite N in EM. injection EM as <- _ _. reflexivity.
  - destruct wr.
    + apply rbind_ok in H. destruct H as (desc & ED & H). apply rbind_ok in H. destruct H as (d1 & EW & H). injection H as <- <-.
      split; [reflexivity|]. exists desc. split; [exact ED|exact EW].
    + injection H as <- <-. split; reflexivity.
Qed.
(** The path names a file of that kind of data: directory, name with the usual prefix, group; the prefix is not found a second time. *)
Record named (desc path D stem g : string) : Prop := {
  nm_path : path = D ++ (desc ++ "_") ++ stem ++ ".h5" ++ g;
  nm_dir : directory_part D;
  nm_stem : has_slash stem = false;
  nm_once : once_ci (desc ++ "_") D (stem ++ "_CoM.h5" ++ g);
  nm_free : free_of_h5 (D ++ (desc ++ "_") ++ stem);
  nm_group : free_of_h5 g }.
Definition output (desc D stem : string) : string := D ++ (desc ++ "_") ++ stem ++ "_CoM.h5".

Lemma new_path_named : forall desc path D stem g, named desc path D stem g -> new_path desc path = D ++ (stem ++ "_CoM") ++ ".h5" ++ g.
Proof.
  intros desc path D stem g [-> HD HS HO HF HG]. unfold new_path.
  replace (D ++ (desc ++ "_") ++ stem ++ ".h5" ++ g) with ((D ++ (desc ++ "_") ++ stem) ++ ".h5" ++ g) by (rewrite !app_assoc_s; reflexivity).
  rewrite replace_one_h5 by exact HF.
  replace ((D ++ (desc ++ "_") ++ stem) ++ "_CoM.h5" ++ g) with (D ++ (desc ++ "_") ++ (stem ++ "_CoM.h5" ++ g)) by (rewrite !app_assoc_s; reflexivity).
  rewrite remove_ci_once; [rewrite !app_assoc_s; reflexivity|destruct desc; discriminate|exact HO].
Qed.
Lemma output_place : forall w desc path D stem g, named desc path D stem g -> is_datatype (w_dataType w) ->
  descriptor_string (w_dataType w) (w_r w) (w_m w) = Ok desc -> place w (new_path desc path) (output desc D stem) g.
Proof.
  intros w desc path D stem g N T E. exists desc. split; [exact E|]. rewrite (new_path_named _ _ _ _ _ N).
  destruct (descriptor_ok (w_dataType w) (w_r w) (w_m w) T) as (desc' & E' & NS). assert (desc' = desc) by congruence. subst desc'.
  destruct N as [-> HD HS HO HF HG]. rewrite target_of.
  - unfold output. rewrite !app_assoc_s. reflexivity.
  - exact HD.
  - rewrite has_slash_app, HS. reflexivity.
  - exact NS.
  - apply dir_free; [exact HD| |].
    + apply (free_sub "" D ((desc ++ "_") ++ stem)). exact HF.
    + apply (free_join "_" "CoM" stem); try discriminate; [|intros x y; destruct x as [|? [|? [|? [|? x]]]]; discriminate].
      apply (free_sub (D ++ (desc ++ "_")) stem ""). rewrite app_nil_s, app_assoc_s. exact HF.
  - exact HG.
Qed.

Lemma begins_one : forall d arg path w w0, begins d arg path w -> begins d arg path w0 -> w = w0.
Proof. intros d arg path w w0 [[m ->]|[-> E]] [[m0 H]|[H E0]]; congruence. Qed.
Lemma written_ok : forall w p x v aux, moved (as_pwave w) None None None (translation_and_boost x v) aux = Ok p -> increasing (w_times w) ->
  is_datatype (w_dataType w) -> pw_t p <> [] -> well_formed (as_hwave p (w_m w) (noted w)) /\ strictly_up (pw_t p) /\
  pw_dataType p = w_dataType w /\ pw_r p = w_r w.
Proof.
  intros w p x v aux E HI HT HN. destruct (transform_shape _ _ _ _ _ _ _ _ _ E HI) as (IP & (W1 & W2 & W3) & ED & ER & EF & EQ).
  cbn [as_pwave pw_dataType pw_r] in ED, ER. split; [|split; [apply increasing_up, IP|split; assumption]].
  constructor; cbn [as_hwave w_ell_min w_ell_max w_n_modes w_rows w_times w_dataType]; try assumption; try reflexivity.
  rewrite ED; exact HT.
Qed.
Lemma attributes_ok : forall x v, no_reserved (attributes x v) /\ NoDup (map fst (attributes x v)).
Proof.
  intros x v. split; [intros n [<-|[<-|[<-|[<-|[]]]]]; reflexivity|]. repeat constructor; intros H; cbn in H; [destruct H as [H|[]]; discriminate|destruct H].
Qed.

(** ** Theorems *)
(** Whatever is corrected is written next to the original, under the same name with "_CoM" at the end, in the same group; no other file
    is touched; and reading that file gives what the function returned, with the translation and the velocity. *)
Theorem C75_file : forall d arg path w ph sb se mode pm mA mB ff w' d' desc D stem g, lower ff = "nrar" -> begins d arg path w ->
  increasing (w_times w) -> is_datatype (w_dataType w) -> descriptor_string (w_dataType w) (w_r w) (w_m w) = Ok desc -> named desc path D stem g ->
  separate d (output desc D stem) g mode -> run d arg path ph sb se mode pm mA mB ff true = Ok (w', d') -> w_times w' <> [] ->
  (forall f, f <> output desc D stem -> assoc f d' = assoc f d) /\ output desc D stem <> (D ++ (desc ++ "_") ++ stem ++ ".h5")%string /\
  exists r, (forall kw, fetch d' (output desc D stem ++ g) kw = Ok r) /\ same_content w' r /\ w_space r = w_space w' /\ w_boost r = w_boost w' /\
    exists x v, w_space w' = Some (vlist x) /\ w_boost w' = Some (vlist v).
Proof.
  intros d arg path w ph sb se mode pm mA mB ff w' d' desc D stem g HF HB HI HT HD HN HS H NE.
  destruct (run_inv _ _ _ _ _ _ _ _ _ _ _ _ _ _ HF H) as (w0 & x & v & ti & tf & aux & p & pm' & mA' & mB' & B0 & CP & EE & _ & EC & EP & EW & desc' & ED & WR).
  assert (w0 = w) by (eapply begins_one; eassumption). subst w0. subst w'. cbn [corrected w_times] in NE.
  destruct (written_ok _ _ _ _ _ EP HI HT NE) as (WF & UP & TD & TR). assert (desc' = desc) by congruence. subst desc'.
  set (u := as_hwave p (w_m w) (noted w)) in *.
  assert (PL : place u (new_path desc path) (output desc D stem) g).
  { apply output_place; cbn [u as_hwave w_dataType w_r w_m]; [exact HN|rewrite TD; exact HT|exact ED]. }
  assert (CO : contains ".h5" (new_path desc path) = true).
  { rewrite (new_path_named _ _ _ _ _ HN). replace (D ++ (stem ++ "_CoM") ++ ".h5" ++ g)%string with ((D ++ (stem ++ "_CoM")) ++ ".h5" ++ g)%string by (rewrite !app_assoc_s; reflexivity).
    destruct (contains ".h5" ((D ++ stem ++ "_CoM") ++ ".h5" ++ g)) eqn:E; [reflexivity|]. apply contains_free in E. destruct (E _ _ eq_refl). }
  destruct (attributes_ok x v) as [NR ND].
  split; [|split].
  - intros f Nf. destruct (written show _ _ _ _ _ _ _ _ _ PL HS WR) as (f0 & f1 & g1 & _ & -> & _). apply assoc_put_other. congruence.
  - intros E. apply (f_equal String.length) in E. unfold output in E. rewrite !length_app_s in E. cbn in E. lia.
  - destruct (C48_round_trip show born listing listing_perm from_history as_quat_array diff_nd _ _ _ _ _ _ _ _ WF CO PL HS NR WR (or_introl UP)) as (r & RD & SC & _).
    destruct (C48_com_vectors show born listing listing_perm from_history as_quat_array diff_nd _ _ _ _ _ _ _ _ r (mkkwargs None None None None) (vlist x) (vlist v) WF CO PL HS NR ND WR (RD _) eq_refl eq_refl) as [VS VB].
    exists r. split; [exact RD|]. split; [exact SC|]. split; [rewrite VS; reflexivity|]. split; [rewrite VB; reflexivity|]. exists x, v. split; reflexivity.
Qed.

(** Two black holes whose mass-weighted mean position is x + v t: exactly that translation and that velocity are removed, and noted. *)
Theorem C75_uniform : forall d arg path w ph sb se mode mA mB ff wr w' d' hor x v, lower ff = "nrar" -> begins d arg path w ->
  matter_in (beside path "Matter.h5") = None -> horizons_in (horizons_path path ph) = Some hor -> uniform hor x v -> simpson simps ->
  increasing (h_t hor) -> aligned (h_t hor) sb se -> run d arg path ph sb se mode None mA mB ff wr = Ok (w', d') ->
  w_space w' = Some (vlist x) /\ w_boost w' = Some (vlist v) /\ w_versions w' = w_versions w /\
  exists aux p, moved (as_pwave w) None None None (mkkw None None (Some (vlist x)) None None None None (Some (vlist v))) aux = Ok p /\
    w_times w' = pw_t p /\ w_rows w' = pw_data p /\ w_ell_min w' = pw_lo p /\ w_ell_max w' = pw_hi p.
Proof.
  intros d arg path w ph sb se mode mA mB ff wr w' d' hor x v HF HB HM HH HU HS HI HA H.
  destruct (run_inv _ _ _ _ _ _ _ _ _ _ _ _ _ _ HF H) as (w0 & x0 & v0 & ti & tf & aux & p & pm' & mA' & mB' & B0 & CP & EE & EM & EC & EP & EW & _).
  assert (w0 = w) by (eapply begins_one; eassumption). subst w0. rewrite (EM eq_refl HM) in EE.
  destruct (estimate_uniform simps horizons_in matter_in _ hor x v sb se mA' mB' HS HH HU HI HA) as (ti' & tf' & EU). rewrite EU in EE.
  assert (x0 = x) by congruence. assert (v0 = v) by congruence. subst x0 v0 w'. repeat split. exists aux, p. repeat split. exact EP.
Qed.

(** Strain, news and psi4 need no other file; for two black holes whose centre of mass is always at the origin, correcting succeeds, changes
    nothing, and the file that is written holds the waveform as it was. *)
Theorem C75_centred : forall d w masses path ph sb se mode mA mB ff hor desc D stem g, lower ff = "nrar" ->
  In (w_dataType w) [h; hdot; psi4] -> usable (as_pwave w) -> w_n_modes w = length (LM_range (w_ell_min w) (w_ell_max w)) -> w_frameType w = 1%Z -> w_quats w = [] ->
  let s := spin (w_dataType w) in let n := (2 * (w_ell_max w + 1) + 1)%Z in w_ell_min w = Z.abs s -> exact map2salm s n n -> interpolates spline ->
  matter_in (beside path "Matter.h5") = None -> horizons_in (horizons_path path ph) = Some hor -> uniform hor origin origin -> h_t hor <> [] ->
  (forall ts, simps (map (fun _ => 0) ts) ts = 0) ->
  descriptor_string (w_dataType w) (w_r w) (w_m w) = Ok desc -> named desc path D stem g -> (g = "" \/ components g <> []) ->
  (mode = "w" \/ In mode ["a"; "w-"; "x"] /\ assoc (output desc D stem) d = None) ->
  exists w' d' r, run d (Wave w masses) path ph sb se mode None mA mB ff true = Ok (w', d') /\ same_content w w' /\ w_versions w' = w_versions w /\
    (forall f, f <> output desc D stem -> assoc f d' = assoc f d) /\ (forall kw, fetch d' (output desc D stem ++ g) kw = Ok r) /\ same_content w r.
Proof.
  intros d w masses path ph sb se mode mA mB ff hor desc D stem g HF HT HU HM HFT HQ s n HL HX HS HMA HH HUN HTN HZ HD HN HG HMO.
  assert (DT : is_datatype (w_dataType w)).
  { destruct HU as (_ & _ & _ & B & _). cbn [as_pwave pw_dataType] in B. unfold is_datatype. lia. }
  assert (EP : moved (as_pwave w) None None None (translation_and_boost origin origin) (fun _ => None) = Ok (as_pwave w)).
  { apply unmoved; try assumption. }
  assert (ET : w_times w <> []). { destruct HU as (_ & _ & L4 & _). cbn [as_pwave pw_t] in L4. intros E. rewrite E in L4. cbn in L4. lia. }
  assert (INC : increasing (w_times w)) by (destruct HU as (_ & I & _); exact I).
  destruct (written_ok _ _ _ _ _ EP INC DT ET) as (WF & UP & _ & _). set (u := as_hwave (as_pwave w) (w_m w) (noted w)) in *.
  assert (PL : place u (new_path desc path) (output desc D stem) g) by (apply output_place; assumption).
  destruct (C48_write_succeeds show d u (new_path desc path) mode (attributes origin origin) (output desc D stem) g WF PL HMO HG) as [d' WR].
  assert (CUT : exists b, H5_Model.cut ".h5" path = Some (D ++ (desc ++ "_") ++ stem, b)%string).
  { destruct HN as [-> _ _ _ HFR _]. exists g.
    replace (D ++ (desc ++ "_") ++ stem ++ ".h5" ++ g)%string with ((D ++ (desc ++ "_") ++ stem) ++ ".h5" ++ g)%string by (rewrite !app_assoc_s; reflexivity).
    apply cut_first, HFR. }
  destruct CUT as [b CUT].
  assert (RUN : run d (Wave w masses) path ph sb se mode None mA mB ff true = Ok (corrected w (as_pwave w) origin origin, d')).
  { unfold remove_avg_com_motion. rewrite (nrar_format ff HF), CUT. cbn [rbind]. cbv zeta.
    unfold beside in HMA. rewrite CUT in HMA. rewrite HMA. cbn [rbind].
    destruct (estimate_centred simps horizons_in matter_in (horizons_path path ph) hor sb se mA mB HZ HH HUN HTN) as (ti & tf & EE).
    assert (PH : (match ph with Some q => q | None => path_join (dirname (abspath ((D ++ (desc ++ "_") ++ stem) ++ ".h5")%string)) "Horizons.h5" end) = horizons_path path ph).
    { unfold horizons_path, beside. rewrite CUT. destruct ph; reflexivity. }
    rewrite PH, EE. cbn [rbind].
    assert (CW : Comfile_Model.wanted (w_dataType w) = []) by (unfold Comfile_Model.wanted; destruct HT as [<-|[<-|[<-|[]]]]; reflexivity).
    rewrite CW. cbn [companions rbind]. rewrite EP. cbn [rbind]. fold u. change (w_dataType u) with (w_dataType w). change (w_r u) with (w_r w). change (H5_Model.w_m u) with (H5_Model.w_m w).
    rewrite HD. cbn [rbind]. fold (attributes origin origin). rewrite WR. cbn [rbind]. reflexivity. }
  assert (SC : same_content w (corrected w (as_pwave w) origin origin)).
  { unfold same_content. cbn [corrected w_times w_rows w_n_modes w_ell_min w_ell_max w_dataType w_frameType w_r H5_Model.w_m as_pwave pw_t pw_data pw_lo pw_hi pw_dataType pw_frameType pw_r].
    rewrite HFT. repeat split. symmetry. exact HM. }
  assert (SEP : separate d (output desc D stem) g mode) by (destruct HMO as [M|[_ M]]; right; [left|right]; exact M).
  destruct (C75_file d (Wave w masses) path w ph sb se mode None mA mB ff _ d' desc D stem g HF (or_introl (ex_intro _ masses eq_refl)) INC DT HD HN SEP RUN ET) as (F1 & _ & r & RD & RC & _).
  exists (corrected w (as_pwave w) origin origin), d', r. split; [exact RUN|]. split; [exact SC|]. split; [reflexivity|]. split; [exact F1|]. split; [exact RD|].
  unfold same_content in *. intuition congruence.
Qed.

(** Nothing is written unless asked for, whatever the format. *)
Theorem C75_dry : forall d arg path ph sb se mode pm mA mB ff w' d', run d arg path ph sb se mode pm mA mB ff false = Ok (w', d') -> d' = d.
Proof.
  intros d arg path ph sb se mode pm mA mB ff w' d' H. unfold remove_avg_com_motion in H.
  apply rbind_ok in H. destruct H as ([f b] & _ & H). cbv zeta in H. apply rbind_ok in H. destruct H as (arg' & _ & H). apply rbind_ok in H. destruct H as ([[pm' mA'] mB'] & _ & H).
  apply rbind_ok in H. destruct H as ([[[x v] ti] tf] & _ & H). destruct arg' as [|w masses|]; try discriminate H.
  apply rbind_ok in H. destruct H as (aux & _ & H). apply rbind_ok in H. destruct H as (p & _ & H). destruct (format_of ff); injection H as _ <-; reflexivity.
Qed.
Definition known_format (ff : string) : Prop := In (lower ff) ["nrar"; "rpxmb"; "rpxm"].
Lemma unknown : forall ff, ~ known_format ff -> format_of ff = OtherFormat.
Proof.
  intros ff H. unfold format_of, known_format in *. destruct (String.eqb_spec (lower ff) "nrar") as [E|_]; [exfalso; apply H; rewrite E; left; reflexivity|].
  destruct (String.eqb_spec (lower ff) "rpxmb") as [E|_]; [exfalso; apply H; rewrite E; right; left; reflexivity|].
  destruct (String.eqb_spec (lower ff) "rpxm") as [E|_]; [exfalso; apply H; rewrite E; right; right; left; reflexivity|]. reflexivity.
Qed.
(** A format that is not known is refused when the waveform has to be read ... *)
Theorem C75_unknown_format : forall d path ph sb se mode pm mA mB ff wr, ~ known_format ff -> contains ".h5" path = true ->
  run d Nothing path ph sb se mode pm mA mB ff wr = Err ValueError.
Proof.
  intros d path ph sb se mode pm mA mB ff wr H C. unfold remove_avg_com_motion. unfold contains in C. destruct (H5_Model.cut ".h5" path) as [[a b]|]; [|discriminate C].
  cbn [rbind]. cbv zeta. rewrite (unknown ff H). reflexivity.
Qed.
(** ... but when it is given, the file that was asked for is not written, and there is no exception. *)
Theorem C75_unknown_format_refuted : forall d w masses path ph sb se mode pm mA mB ff w' d', ~ known_format ff ->
  run d (Wave w masses) path ph sb se mode pm mA mB ff true = Ok (w', d') -> d' = d.
Proof.
  intros d w masses path ph sb se mode pm mA mB ff w' d' NF H. unfold remove_avg_com_motion in H. rewrite (unknown ff NF) in H.
  apply rbind_ok in H. destruct H as ([f b] & _ & H). cbv zeta in H. cbn [rbind] in H. apply rbind_ok in H. destruct H as ([[pm' mA'] mB'] & _ & H).
  apply rbind_ok in H. destruct H as ([[[x v] ti] tf] & _ & H).
  apply rbind_ok in H. destruct H as (aux & _ & H). apply rbind_ok in H. destruct H as (p & _ & H). injection H as _ <-; reflexivity.
Qed.
(** Only waveforms in an inertial frame can be corrected. *)
Theorem C75_inertial_only : forall d w masses path ph sb se mode pm mA mB ff wr w' d', w_frameType w <> 1%Z ->
  run d (Wave w masses) path ph sb se mode pm mA mB ff wr <> Ok (w', d').
Proof.
  intros d w masses path ph sb se mode pm mA mB ff wr w' d' NF H. unfold remove_avg_com_motion in H.
  apply rbind_ok in H. destruct H as ([f b] & _ & H). cbv zeta in H. apply rbind_ok in H. destruct H as (arg' & EA & H).
  assert (arg' = Wave w masses) by (destruct (format_of ff); congruence). subst arg'.
  apply rbind_ok in H. destruct H as ([[pm' mA'] mB'] & _ & H). apply rbind_ok in H. destruct H as ([[[x v] ti] tf] & _ & H).
  apply rbind_ok in H. destruct H as (aux & _ & H). apply rbind_ok in H. destruct H as (p & EP & _). rewrite C68_inertial_only in EP; [discriminate|].
  cbn [as_pwave pw_frameType]. unfold frame_kind. destruct (Z.eqb_spec (w_frameType w) 1); [contradiction|]. destruct (w_frameType w =? 2)%Z; [discriminate|].
  destruct (w_frameType w =? 3)%Z; [discriminate|]. destruct (w_frameType w =? 4)%Z; discriminate.
Qed.

(** Neutron stars: the masses are those of the metadata beside the waveform, as if they and the file of the matter had been given. *)
Theorem C75_masses : forall d f g ph sb se mode ff wr w a b, let path := (f ++ ".h5" ++ g)%string in lower ff = "nrar" -> free_of_h5 g -> rd d path = Ok w ->
  matter_in (beside path "Matter.h5") <> None -> masses_in (dirname (f ++ ".h5")) = Some (a, b) -> forall masses,
  run d Nothing path ph sb se mode None None None ff wr = run d (Wave w masses) path ph sb se mode (Some (beside path "Matter.h5")) (Some a) (Some b) ff wr.
Proof.
  intros d f g ph sb se mode ff wr w a b path HF Fg HR HM HA masses. unfold remove_avg_com_motion. rewrite (nrar_format ff HF).
  destruct (H5_Model.cut ".h5" path) as [[x y]|] eqn:EC; [|reflexivity]. cbn [rbind]. cbv zeta.
  assert (RT : read_target path = ((f ++ ".h5")%string, g)) by (unfold read_target, path; rewrite rcut_last by exact Fg; reflexivity).
  rewrite HR, RT. cbn [rbind fst]. rewrite HA. unfold beside in *. rewrite EC in *.
  destruct (matter_in (path_join (dirname (abspath (x ++ ".h5"))) "Matter.h5")) as [mt|] eqn:EM; [|contradiction]. reflexivity.
Qed.
(** The file of the horizons is not looked at for two neutron stars, and is needed for a neutron star and a black hole. *)
Theorem C75_horizons : forall ph pm mt sb se mA mB, matter_in pm = Some mt ->
  (ns1 mt <> None -> ns2 mt <> None -> forall other, estimated ph (Some pm) sb se mA mB = estimate_avg simps other matter_in ph (Some pm) sb se mA mB) /\
  (ns1 mt <> None -> ns2 mt = None -> horizons_in ph = None -> estimated ph (Some pm) sb se mA mB = Err OSError).
Proof.
  intros ph pm mt sb se mA mB HM. split.
  - intros H1 H2 other. unfold estimate_avg. rewrite HM. cbn [rbind]. unfold needs_horizons. destruct (ns1 mt); [|contradiction]. destruct (ns2 mt); [|contradiction]. reflexivity.
  - intros H1 H2 H3. unfold estimate_avg. rewrite HM. cbn [rbind]. unfold needs_horizons. destruct (ns1 mt); [|contradiction]. rewrite H2, H3. reflexivity.
Qed.
(** Files in RPXMB format, also called RPXM, in either case, are loaded by sxs. *)
Theorem C75_rpxmb : forall d path ph sb se mode pm mA mB ff wr, contains ".h5" path = true -> lower ff = "rpxmb" \/ lower ff = "rpxm" ->
  (forall e, load_inertial d path = Err e -> run d Nothing path ph sb se mode pm mA mB ff wr = Err e) /\
  forall w, load_inertial d path = Ok w -> run d Nothing path ph sb se mode pm mA mB ff wr = run d (Wave w None) path ph sb se mode pm mA mB ff wr.
Proof.
  intros d path ph sb se mode pm mA mB ff wr C H. assert (F : format_of ff = RPXMB) by (unfold format_of; destruct H as [-> | ->]; reflexivity).
  unfold remove_avg_com_motion. unfold contains in C. destruct (H5_Model.cut ".h5" path) as [[a b]|]; [|discriminate C]. cbn [rbind]. cbv zeta. rewrite F.
  split; [intros e E|intros w E]; rewrite E; reflexivity.
Qed.

(** *** Weyl scalars of higher index *)
(** [n] is the first of the known names in the path *)
Definition earliest (n D E : string) : Prop := In n known_names /\ forall m a b, In m known_names -> (D ++ n ++ E = a ++ m ++ b)%string -> (String.length D <= String.length a)%nat.
Lemma two_prefixes : forall a b x y : string, (a ++ x = b ++ y)%string -> starts a b = true \/ starts b a = true.
Proof.
  induction a as [|c a IH]; intros b x y H; [left; unfold starts; reflexivity|]. destruct b as [|c' b]; [right; reflexivity|].
  cbn [String.append] in H. injection H as -> H. unfold starts in *. cbn [strip]. rewrite Ascii.eqb_refl. apply (IH _ _ _ H).
Qed.
Lemma names_apart : forall a b, In a known_names -> In b known_names -> starts a b = true -> a = b.
Proof.
  intros a b Ha Hb. cbn [known_names In] in Ha, Hb.
  repeat (destruct Ha as [<-|Ha]; [repeat (destruct Hb as [<-|Hb]; [vm_compute; first [reflexivity|discriminate]|]); destruct Hb|]). destruct Ha.
Qed.
Lemma first_name_here : forall n E, In n known_names -> first_name (n ++ E) = Some n.
Proof.
  intros n E I. destruct (find (fun m => starts m (n ++ E)) known_names) as [m|] eqn:F.
  - destruct (find_some _ _ F) as [Im Sm]. cbn beta in Sm. destruct (starts_some _ _ Sm) as [b Eb].
    assert (m = n). { destruct (two_prefixes _ _ _ _ Eb) as [S|S]; [symmetry; apply names_apart; assumption|apply names_apart; assumption]. } subst m.
    destruct (n ++ E)%string; cbn [first_name]; rewrite F; reflexivity.
  - exfalso. pose proof (find_none _ _ F n I) as Z. cbn beta in Z. rewrite starts_app in Z. discriminate.
Qed.
Lemma first_name_earliest : forall n D E, earliest n D E -> first_name (D ++ n ++ E) = Some n.
Proof.
  intros n D E [I H]. induction D as [|c D IH]; [cbn [String.append]; apply first_name_here, I|]. cbn [String.append first_name].
  destruct (find (fun m => starts m (String c (D ++ n ++ E))) known_names) as [m|] eqn:F.
  - exfalso. destruct (find_some _ _ F) as [Im Sm]. cbn beta in Sm. destruct (starts_some _ _ Sm) as [b Eb]. specialize (H m "" b Im Eb). cbn in H. lia.
  - apply IH. intros m a b Im Eq. specialize (H m (String c a) b Im). cbn [String.append String.length] in H. rewrite Eq in H. specialize (H eq_refl). lia.
Qed.
Lemma companions_ok : forall d path n D E is aux0 aux, path = (D ++ n ++ E)%string -> earliest n D E -> once n D E -> NoDup is ->
  companions born listing from_history as_quat_array diff_nd load_inertial d NRAR path is aux0 = Ok aux ->
  (forall i, In i is -> (i <= 4)%nat -> exists prefix x, nth_error file_prefix i = Some prefix /\ rd d (D ++ prefix ++ E) = Ok x /\ aux (5 - i)%nat = Some (as_pwave x)) /\
  (forall DT, (forall i, In i is -> DT <> 5 - i)%nat -> aux DT = aux0 DT).
Proof.
  intros d path n D E is aux0 aux -> HE HO. pose proof (first_name_earliest _ _ _ HE) as FN.
  assert (NE : n <> ""%string). { destruct HE as [I _]. intros ->. cbn in I. repeat (destruct I as [I|I]; [discriminate|]). destruct I. }
  revert aux0. induction is as [|i is IH]; intros aux0 ND H.
  - injection H as <-. split; [intros i []|reflexivity].
  - cbn [companions] in H. rewrite FN in H. destruct (nth_error file_prefix i) as [prefix|] eqn:EP; [|discriminate H].
    rewrite (replace_all_once n prefix D E NE HO) in H. apply rbind_ok in H. destruct H as (x & EX & H). inversion ND as [|? ? NI ND']; subst.
    destruct (IH _ ND' H) as [A B]. split.
    + intros j [<-|Ij] Hj; [|exact (A j Ij Hj)]. exists prefix, x. split; [exact EP|]. split; [exact EX|]. rewrite B.
      * rewrite Nat.eqb_refl. reflexivity.
      * intros k Ik Ek. assert (i = k). { assert (i < 4)%nat by (change 4%nat with (length file_prefix); apply nth_error_Some; congruence). lia. } congruence.
    + intros DT N. rewrite B by (intros k Ik; apply N; right; exact Ik). destruct (Nat.eqb_spec DT (5 - i)) as [->|_]; [exfalso; apply (N i); [left; reflexivity|reflexivity]|reflexivity].
Qed.
(** psi3, psi2, psi1 and psi0 are corrected together with all scalars of higher index, read from the files whose names begin with theirs in
    the same directory: if one of them cannot be read, nothing is returned. *)
Theorem C75_companions : forall d arg path w ph sb se mode pm mA mB ff wr w' d' n D E, lower ff = "nrar" -> begins d arg path w ->
  (1 <= w_dataType w <= 4)%Z -> path = (D ++ n ++ E)%string -> earliest n D E -> once n D E ->
  run d arg path ph sb se mode pm mA mB ff wr = Ok (w', d') ->
  exists x v aux p, w_space w' = Some (vlist x) /\ w_boost w' = Some (vlist v) /\ moved (as_pwave w) None None None (translation_and_boost x v) aux = Ok p /\
    w_times w' = pw_t p /\ w_rows w' = pw_data p /\
    forall k prefix, In (k, prefix) [(5, "rMPsi4"); (4, "r2Psi3"); (3, "r3Psi2OverM"); (2, "r4Psi1OverM2")]%nat%string -> (w_dataType w < Z.of_nat k)%Z ->
      exists x, fetch d (D ++ prefix ++ E) (mkkwargs None None None None) = Ok x /\ aux k = Some (as_pwave x).
Proof.
  intros d arg path w ph sb se mode pm mA mB ff wr w' d' n D E HF HB HT HP HE HO H.
  destruct (run_inv _ _ _ _ _ _ _ _ _ _ _ _ _ _ HF H) as (w0 & x & v & ti & tf & aux & p & pm' & mA' & mB' & B0 & CP & EE & EM & EC & EP & EW & _).
  assert (w0 = w) by (eapply begins_one; eassumption). subst w0 w'. exists x, v, aux, p. do 3 (split; [first [reflexivity|exact EP]|]). do 2 (split; [reflexivity|]).
  assert (CW : Comfile_Model.wanted (w_dataType w) = seq 0 (Z.to_nat (5 - w_dataType w))).
  { unfold Comfile_Model.wanted, h, hdot, psi4. destruct (Z.eqb_spec (w_dataType w) 7); [lia|]. destruct (Z.eqb_spec (w_dataType w) 8); [lia|]. destruct (Z.eqb_spec (w_dataType w) 5); [lia|]. reflexivity. }
  rewrite CW in EC. destruct (companions_ok _ _ n D E _ _ _ HP HE HO (seq_NoDup _ _) EC) as [A _].
  intros k prefix I Hk.
  assert (K : exists i, (k = 5 - i /\ i < 4)%nat /\ nth_error file_prefix i = Some prefix).
  { cbn [In] in I. destruct I as [I|[I|[I|[I|[]]]]]; injection I as <- <-; [exists 0%nat|exists 1%nat|exists 2%nat|exists 3%nat]; (split; [lia|reflexivity]). }
  destruct K as (i & (-> & Hi) & Ep). destruct (A i) as (prefix' & y & E1 & E2 & E3); [apply in_seq; lia|lia|].
  assert (prefix' = prefix) by congruence. subst prefix'. exists y. split; [exact E2|exact E3].
Qed.

(** The version history is put back only after the file has been written: the waveform that is returned has it, the file never does. *)
Theorem C75_versions_refuted : forall d arg path w ph sb se mode pm mA mB ff w' d' desc D stem g r kw, lower ff = "nrar" -> begins d arg path w ->
  increasing (w_times w) -> is_datatype (w_dataType w) -> descriptor_string (w_dataType w) (w_r w) (w_m w) = Ok desc -> named desc path D stem g ->
  (mode = "w" \/ assoc (output desc D stem) d = None) -> run d arg path ph sb se mode pm mA mB ff true = Ok (w', d') -> w_times w' <> [] ->
  fetch d' (output desc D stem ++ g) kw = Ok r -> w_versions w' = w_versions w /\ w_versions r = [].
Proof.
  intros d arg path w ph sb se mode pm mA mB ff w' d' desc D stem g r kw HF HB HI HT HD HN HS H NE HR.
  destruct (run_inv _ _ _ _ _ _ _ _ _ _ _ _ _ _ HF H) as (w0 & x & v & ti & tf & aux & p & pm' & mA' & mB' & B0 & CP & EE & _ & EC & EP & EW & desc' & ED & WR).
  assert (w0 = w) by (eapply begins_one; eassumption). subst w0. subst w'. cbn [corrected w_times] in NE.
  destruct (written_ok _ _ _ _ _ EP HI HT NE) as (WF & UP & TD & TR). assert (desc' = desc) by congruence. subst desc'.
  split; [reflexivity|]. set (u := as_hwave p (w_m w) (noted w)) in *.
  assert (PL : place u (new_path desc path) (output desc D stem) g).
  { apply output_place; cbn [u as_hwave w_dataType w_r w_m]; [exact HN|rewrite TD; exact HT|exact ED]. }
  assert (CO : contains ".h5" (new_path desc path) = true).
  { rewrite (new_path_named _ _ _ _ _ HN). replace (D ++ (stem ++ "_CoM") ++ ".h5" ++ g)%string with ((D ++ (stem ++ "_CoM")) ++ ".h5" ++ g)%string by (rewrite !app_assoc_s; reflexivity).
    destruct (contains ".h5" ((D ++ stem ++ "_CoM") ++ ".h5" ++ g)) eqn:E; [reflexivity|]. apply contains_free in E. destruct (E _ _ eq_refl). }
  rewrite (C48_versions show born listing listing_perm from_history as_quat_array diff_nd _ _ _ _ _ _ _ _ r kw WF CO PL HS (proj1 (attributes_ok x v)) WR HR) by (intros a b []).
  destruct (is_empty g); reflexivity.
Qed.
(** Correcting once more, into the file that is already there, is refused. *)
Theorem C75_twice : forall d w masses path ph sb se mode pm mA mB ff w' d' desc D stem g, lower ff = "nrar" ->
  In (w_dataType w) [h; hdot; psi4] -> increasing (w_times w) -> descriptor_string (w_dataType w) (w_r w) (w_m w) = Ok desc -> named desc path D stem g ->
  components g <> [] -> separate d (output desc D stem) g mode -> run d (Wave w masses) path ph sb se mode pm mA mB ff true = Ok (w', d') -> w_times w' <> [] ->
  run d' (Wave w masses) path ph sb se "a" pm mA mB ff true = Err ValueError.
Proof.
  intros d w masses path ph sb se mode pm mA mB ff w' d' desc D stem g HF HT HI HD HN HC HS H NE.
  assert (DT : is_datatype (w_dataType w)) by (unfold is_datatype; destruct HT as [<-|[<-|[<-|[]]]]; unfold h, hdot, psi4; lia).
  assert (CW : Comfile_Model.wanted (w_dataType w) = []) by (unfold Comfile_Model.wanted; destruct HT as [<-|[<-|[<-|[]]]]; reflexivity).
  unfold remove_avg_com_motion in H |- *. rewrite (nrar_format ff HF) in *.
  destruct (H5_Model.cut ".h5" path) as [[a b]|] eqn:ECut; [|discriminate H]. cbn [rbind] in *. cbv zeta in *.
  apply rbind_ok in H. destruct H as ([[pm' mA'] mB'] & EM & H). rewrite EM. cbn [rbind].
  apply rbind_ok in H. destruct H as ([[[x v] ti] tf] & EE & H). rewrite EE. cbn [rbind]. rewrite CW in *. cbn [companions rbind] in *.
  apply rbind_ok in H. destruct H as (p & EP & H). rewrite EP. cbn [rbind].
  apply rbind_ok in H. destruct H as (desc' & ED & H). rewrite ED. cbn [rbind].
  apply rbind_ok in H. destruct H as (d1 & WR & H). injection H as <- <-. cbn [w_times as_hwave] in NE.
  destruct (written_ok _ _ _ _ _ EP HI DT NE) as (WF & UP & TD & TR).
  set (u := as_hwave p (w_m w) (noted w)) in *. assert (desc' = desc) by (cbn [u as_hwave w_dataType w_r w_m] in ED; congruence). subst desc'.
  assert (PL : place u (new_path desc path) (output desc D stem) g).
  { apply output_place; [exact HN| |exact ED]. cbn [u as_hwave w_dataType]. rewrite TD. exact DT. }
  destruct (written show _ _ _ _ _ _ _ _ _ PL HS WR) as (f0 & f & g0 & _ & -> & _ & WL). apply (written_lookup born from_history) in WL.
  assert (NG : is_empty g = false) by (destruct g; [destruct HC; reflexivity|reflexivity]). rewrite NG in WL.
  rewrite (C48_occupied_group show _ _ _ _ _ _ f g0 WF PL); [reflexivity|apply assoc_put_same|exact HC|exact WL].
Qed.
(** A directory whose name ends with the prefix: the file goes to another directory. *)
Theorem C75_directory_refuted : forall d w masses ph sb se pm mA mB w' d', w_dataType w = h -> w_r w = true -> w_m w = true -> increasing (w_times w) ->
  run d (Wave w masses) "rhOverM_runs/rhOverM_A.h5" ph sb se "w" pm mA mB "NRAR" true = Ok (w', d') -> w_times w' <> [] ->
  assoc "runs/rhOverM_A_CoM.h5" d' <> None /\ assoc "rhOverM_runs/rhOverM_A_CoM.h5" d' = assoc "rhOverM_runs/rhOverM_A_CoM.h5" d.
Proof.
  intros d w masses ph sb se pm mA mB w' d' HT HR HM HI H NE.
  destruct (run_inv _ _ _ _ _ _ _ _ _ _ "NRAR" _ _ _ eq_refl H) as (w0 & x & v & ti & tf & aux & p & pm' & mA' & mB' & B0 & CP & EE & _ & EC & EP & EW & desc' & ED & WR).
  assert (w0 = w) by (eapply begins_one; [exact B0|left; exists masses; reflexivity]). subst w0. subst w'. cbn [corrected w_times] in NE.
  destruct (written_ok _ _ _ _ _ EP HI) as (WF & UP & TD & TR); [rewrite HT; unfold is_datatype, h; lia|exact NE|].
  rewrite TD, TR, HT, HR, HM in ED. assert (desc' = "rhOverM"%string) by (vm_compute in ED; congruence). subst desc'.
  assert (PL : place (as_hwave p (w_m w) (noted w)) (new_path "rhOverM" "rhOverM_runs/rhOverM_A.h5") "runs/rhOverM_A_CoM.h5" "").
  { exists "rhOverM"%string. cbn [as_hwave w_dataType w_r w_m]. rewrite TD, TR, HT, HR, HM. split; vm_compute; reflexivity. }
  destruct (written show _ _ _ _ _ _ _ _ _ PL (or_intror (or_introl eq_refl)) WR) as (f0 & f & g0 & _ & -> & _).
  split; [rewrite assoc_put_same; discriminate|apply assoc_put_other; discriminate].
Qed.
(** Likewise, the other scalars are looked for in another directory. *)
Theorem C75_companion_refuted : forall d w masses ph sb se mode pm mA mB wr w' d', w_dataType w = psi3 -> assoc "rMPsi4_runs/r2Psi3_A.h5" d = None ->
  run d (Wave w masses) "rhOverM_runs/r2Psi3_A.h5" ph sb se mode pm mA mB "NRAR" wr <> Ok (w', d').
Proof.
  intros d w masses ph sb se mode pm mA mB wr w' d' HT HA H.
  destruct (run_inv _ _ _ _ _ _ _ _ _ _ "NRAR" _ _ _ eq_refl H) as (w0 & x & v & ti & tf & aux & p & pm' & mA' & mB' & B0 & CP & EE & _ & EC & _).
  assert (w0 = w) by (eapply begins_one; [exact B0|left; exists masses; reflexivity]). subst w0. rewrite HT in EC. change (Comfile_Model.wanted psi3) with [0%nat] in EC.
  cbn [companions] in EC. change (first_name "rhOverM_runs/r2Psi3_A.h5") with (Some "rhOverM"%string) in EC. cbn [nth_error file_prefix] in EC.
  change (replace_all "rhOverM" "rMPsi4" "rhOverM_runs/r2Psi3_A.h5") with "rMPsi4_runs/r2Psi3_A.h5"%string in EC.
  apply rbind_ok in EC. destruct EC as (y & EY & _). unfold Comfile_Model.read, read_from_h5 in EY.
  change (read_target "rMPsi4_runs/r2Psi3_A.h5") with ("rMPsi4_runs/r2Psi3_A.h5"%string, ""%string) in EY. cbn beta iota zeta in EY. rewrite HA in EY. discriminate EY.
Qed.

(** *** The scripts *)
(** The script that should correct a whole catalog changes nothing, whatever is on disk: the name is passed in place of the waveform. *)
Theorem C75_catalog_refuted : forall d filename,
  run_in abspath simps spline map2salm show born listing from_history as_quat_array diff_nd noted horizons_in matter_in masses_in load_inertial save_rpxmb d filename = d.
Proof.
  intros d filename. assert (N : forall mode r, racm abspath simps spline map2salm show born listing from_history as_quat_array diff_nd noted horizons_in matter_in masses_in load_inertial save_rpxmb d mode <> Ok r).
  { intros mode [w' d'] H. unfold racm in H.
    destruct (run_inv _ _ _ _ _ _ _ _ _ _ "NRAR" _ _ _ eq_refl H) as (w0 & x & v & ti & tf & aux & p & pm' & mA' & mB' & [[m B]|[B _]] & _); discriminate B. }
  unfold run_in. destruct (assoc _ d); [reflexivity|]. destruct (racm _ _ _ _ _ _ _ _ _ _ _ _ _ _ _ _ d "w") as [[w' d1]|e] eqn:E; [destruct (N _ _ E)|reflexivity].
Qed.
(** Rows of the table of all centres of mass have one cell more than the heading, so that the last heading, tf, is that of the end of the fit. *)
Theorem C75_table_refuted : forall py_float filename row, csv_row simps horizons_in matter_in py_float filename = Ok row ->
  length row = 11%nat /\ length csv_header = 10%nat /\
  exists x v ti tf hor, estimated filename None (1 / 100) (10 / 100) None None = Ok (x, v, ti, tf) /\ horizons_in filename = Some hor /\
    nth 8 row (CText "") = CNum ti /\ nth 9 row (CText "") = CNum tf /\ nth 10 row (CText "") = CNum (last (h_t hor) 0).
Proof.
  intros py_float filename row H. unfold csv_row in H. destruct (horizons_in filename) as [hor|] eqn:EH; [|discriminate H]. cbn [rbind] in H.
  apply rbind_ok in H. destruct H as (tl & ET & H). apply rbind_ok in H. destruct H as ([[[[[x1 x2] x3] [[v1 v2] v3]] ti] tf] & EE & H).
  destruct (split_on _ _ _) as [|dir [|lev [|]]]; try discriminate H. apply rbind_ok in H. destruct H as (l & _ & H).
  assert (R : row = [CText dir; CNum l; CNum x1; CNum x2; CNum x3; CNum v1; CNum v2; CNum v3; CNum ti; CNum tf; CNum tl]) by (cbn [vlist app map] in H; congruence).
  subst row. split; [reflexivity|]. split; [reflexivity|]. exists (x1, x2, x3), (v1, v2, v3), ti, tf, hor. split; [exact EE|]. split; [reflexivity|]. do 2 (split; [reflexivity|]).
  cbn [nth]. f_equal. destruct (rev (h_t hor)) as [|y l'] eqn:ER; [discriminate ET|]. injection ET as <-.
  rewrite <- (rev_involutive (h_t hor)), ER. cbn [rev]. rewrite last_last. reflexivity.
Qed.
End Removal.

(** ** Cases *)
(** Three samples are enough to integrate a polynomial of degree two. *)
Definition three_points (ys ts : list R) : R :=
  let t0 := nth 0 ts 0 in let t1 := nth 1 ts 0 in let t2 := last ts 0 in let a := t1 - t0 in let b := t2 - t1 in
  (t2 - t0) / 6 * ((2 - b / a) * nth 0 ys 0 + (a + b) ^ 2 / (a * b) * nth 1 ys 0 + (2 - a / b) * last ys 0).
Lemma last_map_R : forall (f : R -> R) l, l <> [] -> last (map f l) 0 = f (last l 0).
Proof. intros f. induction l as [|a l IH]; intros N; [congruence|]. destruct l as [|b l]; [reflexivity|]. change (last (map f (b :: l)) 0 = f (last (b :: l) 0)). apply IH. discriminate. Qed.
Lemma three_points_simpson : simpson three_points.
Proof.
  intros ts a b c HI HO.
  assert (I : forall s e, is_int s e (fun t => a + b * t + c * t ^ 2) (a * (e - s) + b * (e ^ 2 - s ^ 2) / 2 + c * (e ^ 3 - s ^ 3) / 3)).
  { intros s e. replace (a * (e - s) + b * (e ^ 2 - s ^ 2) / 2 + c * (e ^ 3 - s ^ 3) / 3) with
      ((e ^ 1 - s ^ 1) / INR 1 + (a - 1) * ((e ^ 1 - s ^ 1) / INR 1) + b * ((e ^ 2 - s ^ 2) / INR 2) + c * ((e ^ 3 - s ^ 3) / INR 3)) by (simpl; field).
    eapply is_int_ext; [|exact (is_int_lin _ _ _ _ c _ _ (is_int_lin _ _ _ _ b _ _ (is_int_lin _ _ _ _ (a - 1) _ _ (is_int_pow s e 0) (is_int_pow s e 0)) (is_int_pow s e 1)) (is_int_pow s e 2))].
    intros t. cbn beta. ring. }
  destruct ts as [|t0 [|t1 [|t2 ts]]]; try discriminate HO.
  - cbn [nth last map]. replace (three_points [a + b * t0 + c * t0 ^ 2] [t0]) with (a * (t0 - t0) + b * (t0 ^ 2 - t0 ^ 2) / 2 + c * (t0 ^ 3 - t0 ^ 3) / 3); [apply I|].
    unfold three_points. cbn [nth last]. unfold Rdiv. ring.
  - set (l := t0 :: t1 :: t2 :: ts) in *.
    assert (L1 : t0 < t1) by (inversion HI; assumption).
    assert (L2 : t1 < last l 0).
    { change (last l 0) with (last (t2 :: ts) 0). apply (increasing_lt (t2 :: ts) t1); [inversion HI; assumption|].
      rewrite last_nth_R. apply nth_In. cbn. lia. }
    replace (three_points (map (fun t => a + b * t + c * t ^ 2) l) l) with (a * (last l 0 - t0) + b * (last l 0 ^ 2 - t0 ^ 2) / 2 + c * (last l 0 ^ 3 - t0 ^ 3) / 3); [apply I|].
    unfold three_points. rewrite last_map_R by discriminate. cbn [l nth map]. fold l. clearbody l. generalize dependent (last l 0). intros e L2. field. split; lra.
Qed.
(** Two black holes of different masses in motion about a point that moves uniformly *)
Definition ex_times : list R := [0; 1; 2; 3; 4].
Definition ex_hor : horizons :=
  mkhor ex_times [1; 1; 1; 1; 1] (map (fun t => [1 + t - 3 * (t ^ 2); 2 + 3 * t; 0]) ex_times) [3; 3; 3; 3; 3] (map (fun t => [1 + t + t ^ 2; 2 - t; 4]) ex_times).
Definition ex_still : horizons := mkhor [0; 1] [1; 1] [[3; 0; 0]; [0; 3; 0]] [3; 3] [[-1; 0; 0]; [0; -1; 0]].
Definition ex_wave : hwave := mkhwave [0; 1; 2; 3] (repeat [C1; C0; Ci; C0; C1] 4) 5 2 2 7 1 true true [] [] [("3c5a"%string, "initial"%string)] None None.
Lemma free_by : forall s, contains ".h5" s = false -> free_of_h5 s.
Proof. intros s. apply contains_free. Qed.
Lemma ex_named : named "rhOverM" "out/rhOverM_A.h5/Extrapolated_N2.dir" "out/" "A" "/Extrapolated_N2.dir".
Proof.
  constructor; try reflexivity.
  - right. right. exists "ou"%string, "t"%char. split; reflexivity.
  - apply once_by_places. reflexivity.
  - apply free_by. reflexivity.
  - apply free_by. reflexivity.
Qed.
Example C75_case_names : named "rhOverM" "out/rhOverM_A.h5/Extrapolated_N2.dir" "out/" "A" "/Extrapolated_N2.dir" /\
  output "rhOverM" "out/" "A" = "out/rhOverM_A_CoM.h5"%string /\ earliest "r3Psi2OverM" "out/" "_A.h5" /\ once "r3Psi2OverM" "out/" "_A.h5" /\ known_format "RPXMB" /\ ~ known_format "HDF5".
Proof.
  split; [exact ex_named|]. split; [reflexivity|]. split; [|split; [|split]].
  - split; [cbn; tauto|]. intros m a b I E. pose proof (places_complete m _ 0 a b E) as P. cbn [known_names In] in I.
    cbn [Nat.add] in P. assert (G : forall k, In k (places m 0 ("out/" ++ "r3Psi2OverM" ++ "_A.h5")) -> (4 <= k)%nat); [|exact (G _ P)]. clear P E.
    decompose [or] I; try contradiction; subst m; intros k Hk; vm_compute in Hk; [..|]; try (destruct Hk as [<-|Hk]; [lia|]); destruct Hk.
  - apply once_by_places. reflexivity.
  - unfold known_format. cbn. tauto.
  - unfold known_format. cbn. intros [H|[H|[H|[]]]]; discriminate H.
Qed.
Example C75_case_motion : simpson three_points /\ (forall ts, three_points (map (fun _ => 0) ts) ts = 0) /\ uniform ex_hor (1, 2, 3) (1, 0, 0) /\ increasing (h_t ex_hor) /\
  aligned (h_t ex_hor) (1 / 4) (1 / 4) /\ uniform ex_still origin origin /\
  (exists ti tf, estimate_avg three_points (fun _ => Some ex_hor) (fun _ => None) "Horizons.h5" None (1 / 4) (1 / 4) None None = Ok ((1, 2, 3), (1, 0, 0), ti, tf)).
Proof.
  assert (U : uniform ex_hor (1, 2, 3) (1, 0, 0)).
  { unfold uniform. cbn [ex_hor h_t h_mA h_mB h_xA h_xB ex_times map]. repeat (split; [reflexivity|]).
    intros k Hk. simpl in Hk. destruct k as [|[|[|[|[|k]]]]]; [| | | | |simpl in Hk; lia]; cbn [nth]; do 6 eexists; (split; [reflexivity|]); (split; [reflexivity|]); cbv zeta; repeat split; simpl; lra. }
  assert (I : increasing (h_t ex_hor)) by (cbn; repeat constructor; lra).
  assert (A : aligned (h_t ex_hor) (1 / 4) (1 / 4)).
  { exists 1%nat, 3%nat. cbn [ex_hor h_t ex_times length nth last]. split; [lia|]. split; [reflexivity|]. split; lra. }
  split; [exact three_points_simpson|]. split; [|split; [exact U|split; [exact I|split; [exact A|split]]]].
  - intros ts. unfold three_points. assert (Z : forall k, nth k (map (fun _ : R => 0) ts) 0 = 0).
    { induction ts as [|x ts IH]; intros [|k]; try reflexivity. apply IH. }
    rewrite last_nth_R with (l := map (fun _ : R => 0) ts), !Z. ring.
  - unfold uniform, origin. cbn [ex_still h_t h_mA h_mB h_xA h_xB]. repeat (split; [reflexivity|]).
    intros k Hk. simpl in Hk. destruct k as [|[|k]]; [| |simpl in Hk; lia]; cbn [nth]; do 6 eexists; (split; [reflexivity|]); (split; [reflexivity|]); cbv zeta; repeat split; lra.
  - apply (estimate_uniform three_points (fun _ => Some ex_hor) (fun _ => None) "Horizons.h5" ex_hor); try assumption; [exact three_points_simpson|reflexivity].
Qed.
(** A strain of five modes at four times, the two black holes of [ex_still]: the whole correction, from the waveform to the new file *)
Example C75_case_file : forall show born listing from_history as_quat_array diff_nd noted, (forall l, Permutation (listing l) l) ->
  exists map2salm w' d' r, remove_avg_com_motion (fun s => s) three_points (fun xs ys => Ok (lookup xs ys)) map2salm show born listing from_history as_quat_array diff_nd noted
      (fun _ => Some ex_still) (fun _ => None) (fun _ => None) (fun _ _ => Err OSError) (fun _ _ _ => Err OSError)
      [] (Wave ex_wave None) "out/rhOverM_A.h5/Extrapolated_N2.dir" None (1 / 100) (10 / 100) "w" None None None "NRAR" true = Ok (w', d') /\
    same_content ex_wave w' /\ w_versions w' = [("3c5a"%string, "initial"%string)] /\
    read_from_h5 born listing from_history as_quat_array diff_nd d' "out/rhOverM_A_CoM.h5/Extrapolated_N2.dir" (mkkwargs None None None None) = Ok r /\ same_content ex_wave r /\
    w_versions r = [].
Proof.
  intros show born listing from_history as_quat_array diff_nd noted LP.
  destruct (C68_inverse_exists (spin (w_dataType ex_wave)) 7 7) as [mm HX]. exists mm.
  assert (U : usable (as_pwave ex_wave)).
  { split; [split; [cbn; lia|]; split; [reflexivity|]; intros row I; apply repeat_spec in I; subst row; reflexivity|].
    split; [cbn; repeat constructor; lra|]. split; [cbn; lia|]. split; [cbn; lia|reflexivity]. }
  destruct C75_case_motion as (_ & HZ & _ & _ & _ & HU & _).
  destruct (C75_centred (fun s => s) three_points (fun xs ys => Ok (lookup xs ys)) mm show born listing LP from_history as_quat_array diff_nd noted
      (fun _ => Some ex_still) (fun _ => None) (fun _ => None) (fun _ _ => Err OSError) (fun _ _ _ => Err OSError)
      [] ex_wave None "out/rhOverM_A.h5/Extrapolated_N2.dir" None (1 / 100) (10 / 100) "w" None None "NRAR" ex_still "rhOverM" "out/" "A" "/Extrapolated_N2.dir")
    as (w' & d' & r & RUN & SC & SV & _ & RD & RC); try reflexivity; try assumption.
  - left. reflexivity.
  - exact lookup_interpolates.
  - discriminate.
  - exact ex_named.
  - right. discriminate.
  - left. reflexivity.
  - exists w', d', r. split; [exact RUN|]. split; [exact SC|]. split; [exact SV|]. split; [exact (RD _)|]. split; [exact RC|].
    destruct (C75_versions_refuted (fun s => s) three_points (fun xs ys => Ok (lookup xs ys)) mm show born listing LP from_history as_quat_array diff_nd noted
      (fun _ => Some ex_still) (fun _ => None) (fun _ => None) (fun _ _ => Err OSError) (fun _ _ _ => Err OSError)
      [] (Wave ex_wave None) "out/rhOverM_A.h5/Extrapolated_N2.dir" ex_wave None (1 / 100) (10 / 100) "w" None None None "NRAR" w' d' "rhOverM" "out/" "A" "/Extrapolated_N2.dir" r (mkkwargs None None None None))
      as [_ V]; try reflexivity; try exact V.
    + left. exists None. reflexivity.
    + cbn. repeat constructor; lra.
    + unfold is_datatype. cbn. lia.
    + exact ex_named.
    + left. reflexivity.
    + exact RUN.
    + destruct SC as [-> _]. discriminate.
    + apply RD.
Qed.
