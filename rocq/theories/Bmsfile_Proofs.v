(** C83: BMS transformations as objects: what construction guarantees and accepts, copies, files and comparison. *)
From Coq Require Import String ZArith Reals List Bool Lia Lra.
From Verif Require Import Common Cplx Quat Modes_Model Modes_Proofs Times_Model Times_Proofs Kwargs_Model Kwargs_Proofs Transform_Model Transform_Proofs Spin_Model Spin_Proofs Bmsfile_Model.
Import ListNotations.
Open Scope R_scope.

(** ** The order *)
Lemma comp_eqb_eq : forall a b, comp_eqb a b = true <-> a = b.
Proof. intros [] []; cbn; split; congruence. Qed.
Lemma inb_In : forall c l, inb c l = true <-> In c l.
Proof.
  intros c l. unfold inb. rewrite existsb_exists. split.
  - intros (x & Hx & E). apply comp_eqb_eq in E. subst. exact Hx.
  - intros H. exists c. split; [exact H|apply comp_eqb_eq; reflexivity].
Qed.
Lemma complete_all : forall cs order, exists rest, Spin_Model.complete cs order = order ++ rest /\ (forall c, In c cs -> In c (Spin_Model.complete cs order)) /\
  (forall c, In c rest -> In c cs /\ ~ In c order) /\ NoDup rest.
Proof.
  unfold Spin_Model.complete. induction cs as [|c cs IH]; intros order; cbn [fold_left].
  - exists []. rewrite app_nil_r. repeat split; try (intros; contradiction); constructor.
  - destruct (inb c order) eqn:E.
    + destruct (IH order) as (rest & E1 & A & N & D). exists rest. split; [exact E1|]. split; [|split; [|exact D]].
      * intros c' [<-|H]; [|apply A; exact H]. rewrite E1. apply in_or_app. left. apply inb_In. exact E.
      * intros c' H. destruct (N c' H). split; [right; assumption|assumption].
    + destruct (IH (order ++ [c])) as (rest & E1 & A & N & D). exists (c :: rest).
      rewrite E1, <- app_assoc. split; [reflexivity|]. split; [|split].
      * intros c' [<-|H]; [apply in_or_app; right; left; reflexivity|]. specialize (A c' H). rewrite E1, <- app_assoc in A. exact A.
      * intros c' [<-|H].
        { split; [left; reflexivity|]. intros H. apply inb_In in H. congruence. }
        destruct (N c' H) as [N1 N2]. split; [right; exact N1|]. intros H'. apply N2. apply in_or_app. left. exact H'.
      * constructor; [|exact D]. intros H. destruct (N c H) as [_ N2]. apply N2. apply in_or_app. right. left. reflexivity.
Qed.
Lemma complete_full : forall cs order, (forall c, In c cs -> In c order) -> Spin_Model.complete cs order = order.
Proof.
  unfold Spin_Model.complete. induction cs as [|c cs IH]; intros order H; [reflexivity|]. cbn [fold_left].
  rewrite (proj2 (inb_In c order) (H c (or_introl eq_refl))). apply IH. intros c' H'. apply H. right. exact H'.
Qed.

(** ** Construction *)
Lemma construct_inv : forall ell k order x, construct ell k order = Ok x -> exists p, abd_process ell k = Ok p
  /\ (Z.of_nat (List.length (p_super p)) <= (ell + 1) * (ell + 1))%Z
  /\ o_sup x = p_super p ++ repeat C0 (Z.to_nat ((ell + 1) * (ell + 1) - Z.of_nat (List.length (p_super p))))
  /\ o_rot x = p_rotation p /\ o_boost x = p_boost p /\ o_order x = Spin_Model.complete [CS; CR; CB] order /\ o_ell x = ell.
Proof.
  intros ell k order x H. unfold construct in H. destruct (abd_process ell k) as [p|e] eqn:E; [|discriminate]. cbn [rbind] in H.
  unfold pad_to in H. destruct (Z.ltb_spec ((ell + 1) * (ell + 1)) (Z.of_nat (List.length (p_super p)))) as [|L]; [discriminate|].
  cbn [rbind] in H. injection H as <-. exists p. cbn [o_sup o_rot o_boost o_order o_ell]. repeat split; try reflexivity. exact L.
Qed.
Lemma mode_at_app : forall a n l m, mode_at (a ++ repeat C0 n) l m = mode_at a l m.
Proof.
  intros. unfold mode_at. destruct (Nat.lt_ge_cases (Z.to_nat (l * l + l + m)) (List.length a)) as [H|H].
  - apply app_nth1. exact H.
  - rewrite app_nth2 by exact H. rewrite nth_repeat. symmetry. apply nth_overflow. exact H.
Qed.
Lemma mode_at_beyond : forall a L l m, has_modes a L -> (0 <= L < l)%Z -> (- l <= m <= l)%Z -> mode_at a l m = C0.
Proof. intros a L l m H Hl Hm. unfold mode_at. apply nth_overflow. unfold has_modes in H. nia. Qed.

(** What the attributes of a constructed object are: all modes up to [ell_max], of a real function, those of the real part of the
    argument except where a translation is given; a unit rotor; a velocity below one; an order that starts with the one given
    and names every part. *)
Theorem C83_constructed : forall ell k order x, (0 <= ell)%Z -> construct ell k order = Ok x ->
  (1 <= ell)%Z /\ o_ell x = ell /\ has_modes (o_sup x) ell /\ is_real (o_sup x) ell
  /\ (forall l m, (2 <= l <= ell)%Z -> (- l <= m <= l)%Z -> mode_at (o_sup x) l m = arg_real_part k l m)
  /\ mode_at (o_sup x) 0 0 = match winning_time k with Some t => constant_as_ell_0_mode t | None => arg_real_part k 0 0 end
  /\ (forall m, (-1 <= m <= 1)%Z -> mode_at (o_sup x) 1 m =
       match winning_space k with Some v => nth (Z.to_nat (m + 1)) (vector_as_ell_1_modes (vneg v)) C0 | None => arg_real_part k 1 m end)
  /\ qnorm2 (o_rot x) = 1 /\ norm3 (o_boost x) < 1
  /\ exists rest, o_order x = order ++ rest /\ (forall c, In c (o_order x)) /\ (forall c, In c rest -> ~ In c order) /\ NoDup rest.
Proof.
  intros ell k order x He H. destruct (construct_inv ell k order x H) as (p & E & Hn & Es & Er & Eb & Eo & El).
  destruct (C28_precedence ell k p E) as (L & HL & Hm & A & T & X).
  destruct (C28_real ell k p E) as (L' & HL' & Hm' & Rl).
  assert (L' = L) by (unfold has_modes in *; nia). subst L'.
  assert (LE : (L <= ell)%Z) by (unfold has_modes in Hm; nia).
  assert (Hmodes : has_modes (o_sup x) ell). { unfold has_modes. rewrite Es, app_length, repeat_length. lia. }
  assert (Bey : forall l m, (L < l)%Z -> (- l <= m <= l)%Z -> mode_at (o_sup x) l m = C0).
  { intros l m Hl Hlm. rewrite Es, mode_at_app. apply mode_at_beyond with (L := L); [exact Hm|lia|exact Hlm]. }
  assert (Arg : forall l m, (L < l)%Z -> (- l <= m <= l)%Z -> arg_mode k l m = C0).
  { intros l m Hl Hlm. unfold arg_mode. destruct (abd_process_inv ell k p E) as (a & s & E1 & E2 & _).
    destruct (k_super k) as [b|] eqn:Kb; [|reflexivity].
    assert (Len : List.length (pad4 b) = List.length (p_super p)).
    { unfold read_super in E1. destruct (Kwargs_Model.complete (pad4 b)) eqn:Cp; [|discriminate].
      apply complete_spec in Cp. destruct Cp as (M & HM & Hb & _).
      destruct (impose_reality_spec _ M HM Hb) as (a' & Ea & Ha & _). rewrite Ea in E1. injection E1 as <-.
      assert (H4 : (4 <= List.length a')%nat). { destruct (pad4_spec b) as (P & _). unfold has_modes in *. lia. }
      destruct (override_spec k a' _ s H4 E2) as (LL & _). unfold has_modes in *. lia. }
    unfold mode_at. apply nth_overflow.
    assert (Lb : (List.length b <= List.length (pad4 b))%nat).
    { unfold pad4. destruct (List.length b <=? 4)%nat; [rewrite app_length|]; lia. }
    unfold has_modes in Hm. nia. }
  assert (ArgR : forall l m, (L < l)%Z -> (- l <= m <= l)%Z -> arg_real_part k l m = C0).
  { intros l m Hl Hlm. unfold arg_real_part. rewrite !Arg by lia. cx. }
  split; [lia|]. split; [exact El|]. split; [exact Hmodes|]. split.
  { intros l m Hl Hlm. destruct (Z_le_gt_dec l L) as [G|G].
    - rewrite Es, !mode_at_app. apply Rl; lia.
    - rewrite !Bey by lia. cx. }
  split.
  { intros l m Hl Hlm. destruct (Z_le_gt_dec l L) as [G|G].
    - rewrite Es, mode_at_app. apply A; lia.
    - rewrite Bey, ArgR by lia. reflexivity. }
  split; [rewrite Es, mode_at_app; exact T|]. split; [intros m Hlm; rewrite Es, mode_at_app; apply X; exact Hlm|].
  destruct (C28_parameters ell k p E) as (Q & V & _). rewrite Er, Eb. split; [exact Q|]. split; [exact V|].
  destruct (complete_all [CS; CR; CB] order) as (rest & E1 & A1 & N1 & D1). exists rest. rewrite Eo. split; [exact E1|].
  split; [intros c; apply A1; destruct c; cbn; tauto|]. split; [intros c Hc; apply N1; exact Hc|exact D1].
Qed.

(** Which arguments are accepted: those of a transformation of data, when the object can hold the supertranslation. *)
Theorem C83_accepted : forall ell k order, (0 <= ell)%Z -> k_working_ell_max k = None ->
  ((exists x, construct ell k order = Ok x) <->
   (1 <= ell)%Z /\ acceptable ell k /\ (exists q, read_rotation (k_rotation k) = Ok q) /\ (exists v, read_boost (k_boost k) = Ok v)
   /\ forall a, k_super k = Some a -> (Z.of_nat (List.length a) <= (ell + 1) * (ell + 1))%Z).
Proof.
  intros ell k order He Kw.
  assert (Len : forall p, abd_process ell k = Ok p -> Z.of_nat (List.length (p_super p)) = Z.max 4 (match k_super k with Some a => Z.of_nat (List.length a) | None => 4%Z end)).
  { intros p E. destruct (abd_process_inv ell k p E) as (a & s & E1 & E2 & _).
    assert (H4 : (4 <= List.length a)%nat). { destruct (read_super_modes k a E1) as (L & HL & Hm & _). unfold has_modes in Hm. nia. }
    destruct (override_spec k a _ s H4 E2) as (LL & _). rewrite LL. clear LL E2.
    unfold read_super in E1. destruct (k_super k) as [b|].
    - destruct (Kwargs_Model.complete (pad4 b)) eqn:Cp; [|discriminate]. apply complete_spec in Cp. destruct Cp as (M & HM & Hb & _).
      destruct (impose_reality_spec _ M HM Hb) as (a' & Ea & Ha & _). rewrite Ea in E1. injection E1 as <-.
      destruct (pad4_spec b) as (P & P4 & Pid & _). unfold has_modes in *.
      destruct (Nat.le_gt_cases (List.length b) 4) as [G|G]; [specialize (P4 G); lia|]. rewrite Pid in Hb by lia. lia.
    - injection E1 as <-. reflexivity. }
  split.
  - intros [x H]. destruct (construct_inv ell k order x H) as (p & E & Hn & _).
    destruct (C83_constructed ell k order x He H) as (H1 & _). split; [exact H1|].
    destruct (proj1 (C28_accepted ell k He Kw) (ex_intro _ p E)) as (A & B & D). split; [exact A|]. split; [exact B|]. split; [exact D|].
    intros a Ka. rewrite (Len p E), Ka in Hn. lia.
  - intros (H1 & A & B & D & F). destruct (proj2 (C28_accepted ell k He Kw) (conj A (conj B D))) as [p E].
    unfold construct. rewrite E. cbn [rbind]. unfold pad_to.
    destruct (Z.ltb_spec ((ell + 1) * (ell + 1)) (Z.of_nat (List.length (p_super p)))) as [G|G]; [exfalso|cbn [rbind]; eexists; reflexivity].
    rewrite (Len p E) in G. destruct (k_super k) as [a|]; [specialize (F a eq_refl); nia|nia].
Qed.

(** Arguments that a transformation of data accepts, but whose supertranslation the object cannot hold, raise ValueError. *)
Theorem C83_too_long : forall ell k order, (0 <= ell)%Z -> k_working_ell_max k = None ->
  acceptable ell k -> (exists q, read_rotation (k_rotation k) = Ok q) -> (exists v, read_boost (k_boost k) = Ok v) ->
  (ell = 0%Z \/ exists a, k_super k = Some a /\ ((ell + 1) * (ell + 1) < Z.of_nat (List.length a))%Z) ->
  construct ell k order = Err ValueError.
Proof.
  intros ell k order He Kw A B D H. destruct (proj2 (C28_accepted ell k He Kw) (conj A (conj B D))) as [p E].
  assert (N : ~ exists x, construct ell k order = Ok x).
  { rewrite (C83_accepted ell k order He Kw). intros (H1 & _ & _ & _ & F). destruct H as [H|(a & Ha & L)]; [lia|]. specialize (F a Ha). lia. }
  unfold construct in *. rewrite E in *. cbn [rbind] in *. unfold pad_to in *. destruct (_ <? _)%Z; [reflexivity|].
  exfalso. apply N. cbn [rbind]. eexists. reflexivity.
Qed.

(** ** Copies *)
Definition valid (x : bobj) : Prop := (1 <= o_ell x)%Z /\ has_modes (o_sup x) (o_ell x) /\ is_real (o_sup x) (o_ell x)
  /\ qnorm2 (o_rot x) = 1 /\ norm3 (o_boost x) < 1 /\ forall c, In c (o_order x).
Lemma constructed_valid : forall ell k order x, (0 <= ell)%Z -> construct ell k order = Ok x -> valid x.
Proof.
  intros ell k order x He H. destruct (C83_constructed ell k order x He H) as (H1 & H2 & H3 & H4 & _ & _ & _ & H5 & H6 & rest & _ & H7 & _).
  unfold valid. rewrite H2. repeat split; try assumption; apply H3 || apply H4.
Qed.
Lemma quat_of_list : forall q, quat_of (quat_list q) = Some q.
Proof. intros []. reflexivity. Qed.
Lemma vec3_of_list : forall v, vec3_of (vec_list v) = Some v.
Proof. intros [[x y] z]. reflexivity. Qed.
Lemma reconstruct : forall x, valid x -> construct (o_ell x) (attributes (o_sup x) (quat_list (o_rot x)) (vec_list (o_boost x))) (o_order x) = Ok x.
Proof.
  intros x (H1 & H2 & H3 & H4 & H5 & H6).
  set (k := attributes (o_sup x) (quat_list (o_rot x)) (vec_list (o_boost x))).
  assert (Rq : read_rotation (k_rotation k) = Ok (o_rot x)).
  { unfold read_rotation, k, attributes. cbn [k_rotation]. rewrite quat_of_list. unfold qabs. rewrite H4, sqrt_1.
    destruct (Rltb_spec 1 (3 / 10 ^ 16)); [exfalso; lra|]. rewrite (qnormalized_id _ H4). reflexivity. }
  assert (Rv : read_boost (k_boost k) = Ok (o_boost x)).
  { unfold read_boost, k, attributes. cbn [k_boost]. rewrite vec3_of_list. destruct (Rleb_spec 1 (norm3 (o_boost x))); [exfalso; lra|reflexivity]. }
  destruct (proj2 (C28_accepted (o_ell x) k ltac:(lia) eq_refl)) as [p E].
  { split; [|split; [exists (o_rot x); exact Rq|exists (o_boost x); exact Rv]].
    split; [|split; [|split]]; unfold k, attributes; cbn [k_super k_spacetime k_space k_time]; try discriminate.
    intros a Ea. injection Ea as <-. right. exists (o_ell x). split; [lia|exact H2]. }
  assert (S : p_super p = o_sup x).
  { apply (C28_unchanged (o_ell x) k p (o_sup x) (o_ell x) E); try reflexivity; try lia; assumption. }
  destruct (abd_process_inv _ k p E) as (_ & _ & _ & _ & Er & Ev & _). rewrite Rq in Er. rewrite Rv in Ev. injection Er as Er. injection Ev as Ev.
  unfold construct. rewrite E. cbn [rbind]. unfold pad_to. rewrite S. unfold has_modes in H2.
  destruct (Z.ltb_spec ((o_ell x + 1) * (o_ell x + 1)) (Z.of_nat (List.length (o_sup x)))) as [|_]; [exfalso; lia|].
  cbn [rbind]. rewrite <- Er, <- Ev. rewrite complete_full by (intros c _; apply H6).
  replace (Z.to_nat _) with 0%nat by lia. cbn [repeat]. rewrite app_nil_r. destruct x; reflexivity.
Qed.
(** A copy has the attributes of the original: neither padding nor normalisation nor completion changes them again. *)
Theorem C83_copy : forall ell k order x, (0 <= ell)%Z -> construct ell k order = Ok x -> copy x = Ok x.
Proof. intros ell k order x He H. apply reconstruct. exact (constructed_valid ell k order x He H). Qed.

(** ** Files *)
Definition name (g : option string) : string := match g with Some g => g | None => ""%string end.
Lemma find_group_app : forall f g n s, find_group (f ++ [(n, s)]) g = match find_group f g with Some r => Some r | None => if (n =? g)%string then Some s else None end.
Proof. induction f as [|[n' s'] f IH]; intros g n s; cbn; [reflexivity|]. destruct (n' =? g)%string; [reflexivity|apply IH]. Qed.
(** What is written is read: in every mode and group in which writing succeeds. *)
Theorem C83_file : forall ell k order x fs m g f, (0 <= ell)%Z -> construct ell k order = Ok x ->
  to_file x fs m g = Ok f -> from_file (Some f) g = Ok x.
Proof.
  intros ell k order x fs m g f He H W. unfold to_file in W. destruct (open_file fs m) as [f0|e]; [|discriminate]. cbn [rbind] in W.
  fold (name g) in W. destruct (find_group f0 (name g)) eqn:E; [discriminate|]. injection W as <-.
  unfold from_file. fold (name g). rewrite find_group_app, E, String.eqb_refl. cbn [st_ell st_sup st_rot st_boost st_order].
  apply reconstruct. exact (constructed_valid ell k order x He H).
Qed.
(** Adding to a file leaves what was there; writing afresh removes it. *)
Theorem C83_others : forall x f0 m g f g', to_file x (Some f0) m g = Ok f -> name g' <> name g ->
  from_file (Some f) g' = match m with Mw => Err match g' with Some _ => KeyError | None => TypeError end | _ => from_file (Some f0) g' end.
Proof.
  intros x f0 m g f g' W N. unfold to_file in W. destruct m; cbn [open_file rbind] in W; try discriminate; fold (name g) in W;
    (destruct (find_group _ (name g)) eqn:E; [discriminate|]); injection W as <-; unfold from_file; fold (name g'); rewrite ?find_group_app.
  - cbn [find_group app]. destruct (String.eqb_spec (name g) (name g')); [congruence|]. destruct g'; reflexivity.
  - destruct (String.eqb_spec (name g) (name g')); [congruence|]. destruct (find_group f0 (name g')); reflexivity.
  - destruct (String.eqb_spec (name g) (name g')); [congruence|]. destruct (find_group f0 (name g')); reflexivity.
Qed.
(** When writing succeeds: never over a transformation in the same place, except when the whole file is replaced. *)
Theorem C83_writes : forall x fs m g, (exists f, to_file x fs m g = Ok f) <->
  match m, fs with
  | Mw, _ | Mx, None | Ma, None => True
  | Mx, Some _ | Mrplus, None => False
  | Ma, Some f0 | Mrplus, Some f0 => ~ In (name g) (map fst f0)
  end.
Proof.
  assert (F : forall f g, find_group f g = None <-> ~ In g (map fst f)).
  { induction f as [|[n s] f IH]; intros g; cbn [find_group map fst In]; [tauto|].
    destruct (String.eqb_spec n g) as [->|N]; [split; [discriminate|tauto]|]. rewrite IH. tauto. }
  intros x fs m g. unfold to_file. fold (name g).
  destruct m, fs as [f0|]; cbn [open_file rbind find_group]; try (split; [intros _; exact I|intros _; eexists; reflexivity]);
    try (split; [intros [f H]; discriminate|intros []]);
    rewrite <- (F f0 (name g)); (destruct (find_group f0 (name g)); [split; [intros [f H]; discriminate|discriminate]|split; [reflexivity|intros _; eexists; reflexivity]]).
Qed.
(** What is raised otherwise: ValueError for an existing group, OSError when the file must or must not exist. *)
Theorem C83_refusals : forall x fs m g e, to_file x fs m g = Err e -> e =
  match m, fs with Ma, Some _ | Mrplus, Some _ => ValueError | _, _ => OSError end.
Proof.
  intros x fs m g e H. unfold to_file in H. destruct m, fs as [f0|]; cbn [open_file rbind find_group] in H; try discriminate; try congruence;
    destruct (find_group f0 _); congruence.
Qed.
(** Any number of transformations, appended one after the other to different groups of one file, are all read back. *)
Fixpoint write_all (xs : list (string * bobj)) (fs : option h5) : res (option h5) :=
  match xs with [] => Ok fs | (g, x) :: xs => let? f := to_file x fs Ma (Some g) in write_all xs (Some f) end.
Theorem C83_many : forall xs, NoDup (map fst xs) -> (forall g x, In (g, x) xs -> exists ell k order, (0 <= ell)%Z /\ construct ell k order = Ok x) ->
  exists fs, write_all xs None = Ok fs /\ forall g x, In (g, x) xs -> from_file fs (Some g) = Ok x.
Proof.
  assert (G : forall xs f0, NoDup (map fst xs ++ map fst f0) -> (forall g x, In (g, x) xs -> exists ell k order, (0 <= ell)%Z /\ construct ell k order = Ok x) ->
    exists f, write_all xs (Some f0) = Ok (Some f) /\ (forall g x, In (g, x) xs -> from_file (Some f) (Some g) = Ok x)
      /\ forall g, In g (map fst f0) -> from_file (Some f) (Some g) = from_file (Some f0) (Some g)).
  { induction xs as [|[g x] xs IH]; intros f0 N V.
    - exists f0. split; [reflexivity|]. split; [intros g x []|reflexivity].
    - cbn [map fst app] in N. inversion N as [|? ? N1 N2]; subst. rewrite in_app_iff in N1.
      destruct (V g x (or_introl eq_refl)) as (ell & k & order & He & Hc).
      destruct (proj2 (C83_writes x (Some f0) Ma (Some g))) as [f1 W]; [cbn [name]; tauto|].
      assert (M1 : map fst f1 = map fst f0 ++ [g]).
      { unfold to_file in W. cbn [open_file rbind] in W. destruct (find_group f0 g); [discriminate|]. injection W as <-. rewrite map_app. reflexivity. }
      destruct (IH f1) as (f & Wf & R1 & R2).
      + rewrite M1, app_assoc. apply NoDup_Add with (a := g) (l := map fst xs ++ map fst f0).
        * rewrite <- (app_nil_r (map fst xs ++ map fst f0)) at 1. apply Add_app.
        * split; [exact N2|]. rewrite in_app_iff. exact N1.
      + intros g' x' H'. apply (V g' x'). right. exact H'.
      + exists f. cbn [write_all]. rewrite W. cbn [rbind]. split; [exact Wf|]. split.
        * intros g' x' [E|H']; [injection E as <- <-|apply R1; exact H'].
          rewrite (R2 g) by (rewrite M1; apply in_or_app; right; left; reflexivity). exact (C83_file ell k order x (Some f0) Ma (Some g) f1 He Hc W).
        * intros g' H'. rewrite (R2 g') by (rewrite M1; apply in_or_app; left; exact H').
          apply (C83_others x f0 Ma (Some g) f1 (Some g') W). cbn [name]. intros ->. tauto. }
  intros xs N V. destruct xs as [|[g x] xs]; [exists None; split; [reflexivity|intros g x []]|].
  destruct (G ((g, x) :: xs) []) as (f & W & R1 & _); [cbn [map]; rewrite app_nil_r; exact N|exact V|]. exists (Some f). split; [|exact R1].
  cbn [write_all] in W |- *. exact W.
Qed.

(** ** Comparison *)
Lemma Cmod_RtoC : forall x, Cmod (RtoC x) = Rabs x.
Proof. intros x. unfold Cmod, norm2, RtoC. cbn [re im]. replace (x * x + 0 * 0) with (Rsqr x) by (unfold Rsqr; ring). apply sqrt_Rsqr_abs. Qed.
Definition near (a b : C) : Prop := Cmod (a - b)%C <= / 10 ^ 8 + / 10 ^ 5 * Cmod b.
Lemma close1_near : forall a b, close1 a b = true <-> near a b.
Proof. intros a b. unfold close1, near. destruct (Rleb_spec (Cmod (a - b)%C) (/ 10 ^ 8 + / 10 ^ 5 * Cmod b)); split; try tauto; try discriminate; intros; lra. Qed.
Lemma allclose_spec : forall a b, List.length a = List.length b -> exists r, allclose a b = Ok r /\ (r = true <-> forall i, (i < List.length a)%nat -> near (nth i a C0) (nth i b C0)).
Proof.
  intros a b H. unfold allclose. rewrite H, Nat.eqb_refl. eexists. split; [reflexivity|]. revert b H.
  induction a as [|x a IH]; intros [|y b] H; try discriminate; cbn [combine forallb length].
  - split; [intros _ i Hi; cbn in Hi; lia|reflexivity].
  - cbn [fst snd]. rewrite andb_true_iff, close1_near. rewrite (IH b) by (cbn in H; lia). split.
    + intros [A B] [|i] Hi; [exact A|]. cbn [nth]. apply B. cbn in Hi, H. lia.
    + intros A. split; [apply (A 0%nat); cbn; lia|]. intros i Hi. apply (A (Datatypes.S i)). cbn in H |- *. lia.
Qed.
(** Exactly what the comparison decides, for objects of the same size. *)
Theorem C83_close : forall x y, valid x -> valid y -> o_ell x = o_ell y -> exists r, is_close_to x y = Ok r /\
  (r = true <-> (forall i, (i < 4)%nat -> near (RtoC (nth i (quat_list (o_rot x)) 0)) (RtoC (nth i (quat_list (o_rot y)) 0)))
    /\ (forall i, (i < 3)%nat -> near (RtoC (nth i (vec_list (o_boost x)) 0)) (RtoC (nth i (vec_list (o_boost y)) 0)))
    /\ forall l m, (0 <= l <= o_ell x)%Z -> (- l <= m <= l)%Z -> near (mode_at (o_sup x) l m) (mode_at (o_sup y) l m)).
Proof.
  intros x y (X1 & X2 & _) (Y1 & Y2 & _) E. unfold is_close_to, lorentz_is_close_to.
  assert (Lq : forall q, List.length (map RtoC (quat_list q)) = 4%nat) by reflexivity.
  assert (Lv : forall v, List.length (map RtoC (vec_list v)) = 3%nat) by (intros [[? ?] ?]; reflexivity).
  assert (Nm : forall l i, nth i (map RtoC l) C0 = RtoC (nth i l 0)) by (intros; exact (map_nth RtoC l 0 i)).
  destruct (allclose_spec (map RtoC (quat_list (o_rot x))) (map RtoC (quat_list (o_rot y))) eq_refl) as (a & -> & A).
  destruct (allclose_spec (map RtoC (vec_list (o_boost x))) (map RtoC (vec_list (o_boost y)))) as (b & -> & B); [rewrite !Lv; reflexivity|].
  destruct (allclose_spec (o_sup x) (o_sup y)) as (c & -> & D); [unfold has_modes in X2, Y2; rewrite E in X2; lia|]. cbn [rbind]. eexists. split; [reflexivity|].
  rewrite !andb_true_iff, A, B, D, Lq, Lv. split.
  - intros [[P Q] T]. split; [intros i Hi; rewrite <- !Nm; apply P; exact Hi|]. split; [intros i Hi; rewrite <- !Nm; apply Q; exact Hi|].
    intros l m Hl Hm. apply T. pose proof (pos_lt l m (o_ell x) Hl Hm) as PL. rewrite pos_eq in PL. unfold has_modes in X2. lia.
  - intros (P & Q & T). split; [split; intros i Hi; rewrite !Nm; [apply P|apply Q]; exact Hi|].
    intros i Hi. unfold has_modes in X2.
    set (l := Z.sqrt (Z.of_nat i)). assert (SS := Z.sqrt_spec (Z.of_nat i) ltac:(lia)). fold l in SS. assert (L0 : (0 <= l)%Z) by apply Z.sqrt_nonneg.
    set (m := (Z.of_nat i - l * l - l)%Z). assert (Ei : Z.to_nat (l * l + l + m) = i) by (unfold m; lia).
    unfold Z.succ in SS. assert (Hll : (0 <= l <= o_ell x)%Z) by (clearbody l; clear -SS L0 X1 X2 Hi; nia).
    assert (Hmm : (- l <= m <= l)%Z) by (unfold m; clearbody l; clear -SS L0; nia).
    specialize (T l m Hll Hmm). unfold mode_at in T. rewrite Ei in T. exact T.
Qed.
Lemma near_refl : forall a, near a a.
Proof.
  intros a. unfold near. replace (a - a)%C with C0 by (destruct a; cx). rewrite Cmod_0.
  assert (0 <= Cmod a) by apply sqrt_pos. assert (0 <= / 10 ^ 5 * Cmod a) by (apply Rmult_le_pos; lra). lra.
Qed.
(** An object is close to itself, its copy, and what is read from its file; the order plays no part. *)
Theorem C83_close_same : forall x o, valid x -> (forall c, In c o) -> is_close_to x (mkobj (o_sup x) (o_rot x) (o_boost x) o (o_ell x)) = Ok true.
Proof.
  intros x o V Ho. destruct (C83_close x (mkobj (o_sup x) (o_rot x) (o_boost x) o (o_ell x)) V) as (r & E & S); [|reflexivity|].
  - destruct V as (V1 & V2 & V3 & V4 & V5 & _). repeat split; assumption.
  - rewrite E. f_equal. apply S. cbn [o_rot o_boost o_sup]. repeat split; intros; apply near_refl.
Qed.
(** Rotors of opposite sign are the same rotation, but never close. *)
Theorem C83_close_sign_refuted : forall x y, valid x -> valid y -> o_ell x = o_ell y -> o_rot y = qopp (o_rot x) -> is_close_to x y = Ok false.
Proof.
  intros x y X Y E Q. destruct (C83_close x y X Y E) as (r & Er & S). rewrite Er. f_equal. destruct r; [exfalso|reflexivity].
  destruct (proj1 S eq_refl) as (P & _). destruct X as (_ & _ & _ & U & _). rewrite Q in P. destruct (o_rot x) as [w a b c].
  assert (K : forall t, near (RtoC t) (RtoC (- t)) -> t * t < / 4).
  { intros t N. unfold near in N. replace (RtoC t - RtoC (- t))%C with (RtoC (2 * t)) in N by cx. rewrite !Cmod_RtoC, Rabs_Ropp, Rabs_mult, (Rabs_right 2) in N by lra.
    assert (T := Rabs_pos t). assert (B : Rabs t < / 2) by lra. replace (t * t) with (Rabs t * Rabs t) by (rewrite <- Rabs_mult; apply Rabs_right; nra). nra. }
  pose proof (K w (P 0%nat ltac:(lia))). pose proof (K a (P 1%nat ltac:(lia))). pose proof (K b (P 2%nat ltac:(lia))). pose proof (K c (P 3%nat ltac:(lia))).
  unfold qnorm2 in U. cbn [qw qx qy qz] in U. lra.
Qed.
(** Objects of different sizes cannot be compared, even when they are the same transformation. *)
Theorem C83_close_sizes_refuted : forall x y, valid x -> valid y -> o_ell x <> o_ell y -> is_close_to x y = Err ValueError.
Proof.
  intros x y (X1 & X2 & _) (Y1 & Y2 & _) N. unfold is_close_to, lorentz_is_close_to.
  destruct (allclose_spec (map RtoC (quat_list (o_rot x))) (map RtoC (quat_list (o_rot y))) eq_refl) as (a & -> & _).
  destruct (allclose_spec (map RtoC (vec_list (o_boost x))) (map RtoC (vec_list (o_boost y)))) as (b & -> & _); [destruct (o_boost x) as [[? ?] ?], (o_boost y) as [[? ?] ?]; reflexivity|].
  cbn [rbind]. unfold allclose, has_modes in *. destruct (Nat.eqb_spec (List.length (o_sup x)) (List.length (o_sup y))) as [E|_]; [exfalso; nia|].
  destruct (o_sup x) as [|x0 [|x1 xs]]; destruct (o_sup y) as [|y0 [|y1 ys]]; cbn [List.length] in X2, Y2; try reflexivity; exfalso; nia.
Qed.
(** Closeness is not symmetric. *)
Theorem C83_close_symmetric_refuted : exists x y, valid x /\ valid y /\ is_close_to x y = Ok true /\ is_close_to y x = Ok false.
Proof.
  set (b := (1 + / 2 * / 10 ^ 5) * / 10 ^ 8).
  assert (V : forall t, valid (mkobj (RtoC t :: repeat C0 3) q1 (0, 0, 0) [CS; CR; CB] 1)).
  { intros t. repeat split; cbn [o_ell o_sup o_rot o_boost o_order].
    - lia.
    - intros l m Hl Hm. assert (D : (l = 0 \/ l = 1)%Z) by lia. destruct D as [-> | ->].
      + assert (m = 0)%Z by lia. subst. unfold mode_at, sgn. cbn. apply C_eq; cbn; ring.
      + assert (D : (m = -1 \/ m = 0 \/ m = 1)%Z) by lia. destruct D as [-> | [-> | ->]]; unfold mode_at;
          [change (Z.to_nat (1 * 1 + 1 + -1)) with 1%nat; change (Z.to_nat (1 * 1 + 1 + - -1)) with 3%nat|change (Z.to_nat (1 * 1 + 1 + 0)) with 2%nat; change (Z.to_nat (1 * 1 + 1 + - 0)) with 2%nat|change (Z.to_nat (1 * 1 + 1 + 1)) with 3%nat; change (Z.to_nat (1 * 1 + 1 + - (1))) with 1%nat];
          cbn [nth repeat]; cx.
    - unfold qnorm2, q1. cbn. ring.
    - unfold norm3. replace (0 * 0 + 0 * 0 + 0 * 0) with 0 by ring. rewrite sqrt_0. lra.
    - intros []; cbn; tauto. }
  exists (mkobj (RtoC 0 :: repeat C0 3) q1 (0, 0, 0) [CS; CR; CB] 1), (mkobj (RtoC b :: repeat C0 3) q1 (0, 0, 0) [CS; CR; CB] 1).
  split; [apply V|]. split; [apply V|]. split.
  - destruct (C83_close _ _ (V 0) (V b) eq_refl) as (r & E & S). rewrite E. f_equal. apply S. cbn [o_rot o_boost o_sup o_ell].
    split; [intros; apply near_refl|]. split; [intros; apply near_refl|]. intros l m Hl Hm. unfold mode_at. destruct (Z.to_nat _) as [|i]; [|apply near_refl].
    cbn [nth]. unfold near. replace (RtoC 0 - RtoC b)%C with (RtoC (- b)) by cx. rewrite !Cmod_RtoC, Rabs_Ropp, Rabs_right; unfold b; lra.
  - destruct (C83_close _ _ (V b) (V 0) eq_refl) as (r & E & S). rewrite E. f_equal. destruct r; [exfalso|reflexivity]. destruct (proj1 S eq_refl) as (_ & _ & T).
    specialize (T 0%Z 0%Z ltac:(cbn; lia) ltac:(lia)). unfold mode_at in T. cbn in T. unfold near in T. replace (RtoC b - RtoC 0)%C with (RtoC b) in T by cx.
    rewrite !Cmod_RtoC, Rabs_R0, Rabs_right in T; unfold b in *; lra.
Qed.

(** Objects that differ in their order are close, although they are different transformations: here a half turn about z and
    a boost along x, whose Lorentz matrices differ by more than a sign. *)
Theorem C83_close_order_refuted : exists x y L M, valid x /\ valid y /\ is_close_to x y = Ok true
  /\ Lorentz_to_spin_matrix (mklorentz (o_rot x) (o_boost x) (o_order x) (o_ell x)) = Ok L
  /\ Lorentz_to_spin_matrix (mklorentz (o_rot y) (o_boost y) (o_order y) (o_ell y)) = Ok M /\ L <> M /\ L <> mopp M.
Proof.
  assert (Hv : norm3 (/ 2, 0, 0) = / 2). { unfold norm3. replace (/ 2 * / 2 + 0 * 0 + 0 * 0) with (Rsqr (/ 2)) by (unfold Rsqr; ring). rewrite sqrt_Rsqr; lra. }
  assert (Hq : good_rotor (mkq 0 0 0 1)). { split; [unfold qnorm2; cbn; ring|]. intros E. injection E. intros. lra. }
  assert (V : valid (mkobj (repeat C0 4) (mkq 0 0 0 1) (/ 2, 0, 0) [CS; CR; CB] 1)).
  { repeat split; cbn [o_ell o_sup o_rot o_boost o_order].
    - lia.
    - intros l m _ _. unfold mode_at. rewrite !nth_repeat. cx.
    - apply Hq.
    - rewrite Hv. lra.
    - intros []; cbn; tauto. }
  exists (mkobj (repeat C0 4) (mkq 0 0 0 1) (/ 2, 0, 0) [CS; CR; CB] 1), (mkobj (repeat C0 4) (mkq 0 0 0 1) (/ 2, 0, 0) [CS; CB; CR] 1).
  do 2 eexists. split; [exact V|]. split; [destruct V as (V1 & V2 & V3 & V4 & V5 & _); repeat split; try assumption; intros []; cbn; tauto|].
  split; [exact (C83_close_same (mkobj (repeat C0 4) (mkq 0 0 0 1) (/ 2, 0, 0) [CS; CR; CB] 1) [CS; CB; CR] V ltac:(intros []; cbn; tauto))|].
  split; [reflexivity|]. split; [reflexivity|]. cbn [mklorentz l_rot l_boost o_rot o_boost o_order].
  rewrite (rotation_spin_matrix_eq _ Hq), (boost_spin_matrix_eq (/ 2, 0, 0)) by (rewrite Hv; lra).
  assert (Gp := gamma_pos (/ 2, 0, 0) ltac:(rewrite Hv; lra)). assert (Hc := half_c_pos (/ 2, 0, 0) ltac:(rewrite Hv; lra)).
  unfold bmat. set (c := half_c _) in *. set (g := gamma _) in *. cbn [scalev hmatc].
  clearbody c g. change (0 <? 1)%nat with true. change (1 <? 0)%nat with false. cbv iota.
  assert (K : 0 < g / (2 * c)) by (unfold Rdiv; apply Rmult_lt_0_compat; [exact Gp|apply Rinv_0_lt_compat; lra]). set (s := g / (2 * c)) in *. clearbody s.
  split; intros E.
  - apply (f_equal m01) in E. unfold mmul, rmat in E. cbn [m00 m01 m10 m11 qw qx qy qz] in E. apply (f_equal im) in E. cbn in E. lra.
  - apply (f_equal m00) in E. unfold mmul, rmat, mopp in E. cbn [m00 m01 m10 m11 qw qx qy qz] in E. apply (f_equal im) in E. cbn in E. lra.
Qed.
(** A case that meets the hypotheses above: an array of nine modes that is not real, a rotor that is not a unit, a velocity and an
    incomplete order. *)
Example C83_case : exists x, construct 3 (mkkw (Some (repeat Ci 9)) None None (Some (Some 5)) None None (Some [0; 2; 0; 0]) (Some [0; 0; / 2])) [CB] = Ok x
  /\ o_rot x = mkq 0 1 0 0 /\ o_order x = [CB; CS; CR] /\ List.length (o_sup x) = 16%nat /\ copy x = Ok x
  /\ exists f, to_file x (Some []) Mrplus (Some "g"%string) = Ok f /\ from_file (Some f) (Some "g"%string) = Ok x.
Proof.
  set (k := mkkw (Some (repeat Ci 9)) None None (Some (Some 5)) None None (Some [0; 2; 0; 0]) (Some [0; 0; / 2])).
  assert (Q : qabs (mkq 0 2 0 0) = 2). { unfold qabs, qnorm2. cbn [qw qx qy qz]. replace (0 * 0 + 2 * 2 + 0 * 0 + 0 * 0) with (Rsqr 2) by (unfold Rsqr; ring). apply sqrt_Rsqr. lra. }
  assert (Rq : read_rotation (k_rotation k) = Ok (mkq 0 1 0 0)).
  { unfold read_rotation, k. cbn [k_rotation quat_of]. rewrite Q. destruct (Rltb_spec 2 (3 / 10 ^ 16)); [exfalso; lra|]. f_equal. unfold qnormalized. rewrite Q. apply quat_eq; cbn; field. }
  assert (Rv : read_boost (k_boost k) = Ok (0, 0, / 2)).
  { unfold read_boost, k. cbn [k_boost vec3_of]. assert (N : norm3 (0, 0, / 2) = / 2).
    { unfold norm3. replace (0 * 0 + 0 * 0 + / 2 * / 2) with (Rsqr (/ 2)) by (unfold Rsqr; ring). apply sqrt_Rsqr. lra. }
    rewrite N. destruct (Rleb_spec 1 (/ 2)); [exfalso; lra|reflexivity]. }
  destruct (proj2 (C83_accepted 3 k [CB] ltac:(lia) eq_refl)) as [x E].
  { split; [lia|]. split; [|split; [eexists; exact Rq|split; [eexists; exact Rv|]]].
    - unfold acceptable, k. cbn [k_super k_spacetime k_space k_time]. repeat split; try discriminate. intros a Ea. injection Ea as <-. right. exists 2%Z. split; [lia|reflexivity].
    - unfold k. cbn [k_super]. intros a Ea. injection Ea as <-. cbn. lia. }
  exists x. split; [exact E|].
  destruct (construct_inv 3 k [CB] x E) as (p & Ep & _ & _ & Er & _ & Eo & El). destruct (abd_process_inv 3 k p Ep) as (_ & _ & _ & _ & Ea & _).
  rewrite Rq in Ea. injection Ea as Ea. split; [rewrite Er; symmetry; exact Ea|]. split; [rewrite Eo; reflexivity|].
  destruct (C83_constructed 3 k [CB] x ltac:(lia) E) as (_ & _ & Hm & _). split; [unfold has_modes in Hm; lia|].
  split; [exact (C83_copy 3 k [CB] x ltac:(lia) E)|].
  destruct (proj2 (C83_writes x (Some []) Mrplus (Some "g"%string))) as [f W]; [cbn; tauto|]. exists f. split; [exact W|].
  exact (C83_file 3 k [CB] x (Some []) Mrplus (Some "g"%string) f ltac:(lia) E W).
Qed.
(** Sixteen modes of a supertranslation are too many for an object of degree two. *)
Example C83_case_too_long : construct 2 (mkkw (Some (repeat Ci 16)) None None None None None None None) [] = Err ValueError.
Proof.
  apply C83_too_long; try reflexivity; try lia.
  - unfold acceptable. cbn [k_super k_spacetime k_space k_time]. repeat split; try discriminate. intros a Ea. injection Ea as <-. right. exists 3%Z. split; [lia|reflexivity].
  - unfold read_rotation. cbn [k_rotation quat_of]. destruct (Rltb_spec (qabs (mkq 1 0 0 0)) (3 / 10 ^ 16)) as [G|_]; [exfalso|eexists; reflexivity].
    unfold qabs, qnorm2 in G. cbn [qw qx qy qz] in G. replace (1 * 1 + 0 * 0 + 0 * 0 + 0 * 0) with 1 in G by ring. rewrite sqrt_1 in G. lra.
  - unfold read_boost. cbn [k_boost vec3_of]. destruct (Rleb_spec 1 (norm3 (0, 0, 0))) as [G|_]; [exfalso|eexists; reflexivity].
    unfold norm3 in G. replace (0 * 0 + 0 * 0 + 0 * 0) with 0 in G by ring. rewrite sqrt_0 in G. lra.
  - right. eexists. split; [reflexivity|]. cbn. lia.
Qed.
