(** Asymptotic Bondi data: /repo/scri/asymptotic_bondi_data/from_initial_values.py, constraints.py, bms_charges.py,
    the operators of map_to_superrest_frame.py:76-105, and the parts of /repo/scri/modes_time_series.py they use.

    A field on the sphere at one time is a function of (ell, m); arrays hold 0 <= ell <= ell_max.  Multiplication of
    modes is done by spherical_functions (Clebsch-Gordan sums); its coefficients are the table [K] here, so that the
    product is the bilinear sum the library computes, truncated in ell.  Rounding is not modelled. *)
From Coq Require Import String Ascii ZArith Reals List Bool.
From Verif Require Import Common Cplx Times_Model Quat Kwargs_Model.
Import ListNotations.
Open Scope R_scope.

Definition modes := Z -> Z -> C.
Definition fadd (f g : modes) : modes := fun l m => (f l m + g l m)%C.
Definition fsub (f g : modes) : modes := fun l m => (f l m - g l m)%C.
Definition fopp (f : modes) : modes := fun l m => (- f l m)%C.
Definition fscale (x : R) (f : modes) : modes := fun l m => Cscale x (f l m).
(** multiplication by 1j *)
Definition fmuli (f : modes) : modes := fun l m => (Ci * f l m)%C.
(** Modes.bar (external): the modes of the complex conjugate of a function of spin weight [s]. *)
Definition fbar (s : Z) (f : modes) : modes := fun l m => Cscale (sgn (s + m)) (Conj (f l (- m)%Z)).
(** Modes.real and Modes.imag (external), for spin weight 0. *)
Definition freal (f : modes) : modes := fscale (/ 2) (fadd f (fbar 0 f)).
Definition fimag (f : modes) : modes := fun l m => Cscale (/ 2) (- Ci * (f l m - fbar 0 f l m))%C.
(** Modes.eth, Modes.ethbar (external). *)
Definition ladder (s s' : Z) (f : modes) (sign : R) (l m : Z) : C :=
  if (l <? Z.max (Z.abs s) (Z.abs s'))%Z then C0
  else Cscale (sign * sqrt (IZR ((l - s) * (l + s')))) (f l m).
Definition eth (s : Z) (f : modes) : modes := ladder s (s + 1) f 1.
Definition ethbar (s : Z) (f : modes) : modes :=
  fun l m => if (l <? Z.max (Z.abs s) (Z.abs (s - 1)))%Z then C0
             else Cscale (- sqrt (IZR ((l + s) * (l - s + 1)))) (f l m).
(** modes_time_series.py:132-141 *)
Definition eth_GHP (s : Z) (f : modes) : modes := fscale (/ sqrt 2) (eth s f).
Definition ethbar_GHP (s : Z) (f : modes) : modes := fscale (/ sqrt 2) (ethbar s f).

(** All (ell, m) with 0 <= ell <= L. *)
Definition LMs (L : Z) : list (Z * Z) := flat_map (fun l => map (pair l) (zrange (- l) (l + 1))) (zrange 0 (L + 1)).

Section Product.
  (** Coefficient of (l1,m1) x (l2,m2) -> l for spin weights s1, s2. *)
  Variable K : Z -> Z -> Z -> Z -> Z -> Z -> Z -> R.
  Variable L : Z.  (* ell_max of the object *)

  (** Modes.multiply with output truncated at [Lout]. *)
  Definition multiply (Lout s1 s2 : Z) (f g : modes) : modes := fun l m =>
    if (l <=? Lout)%Z then
      csum (fun p => csum (fun q => if (snd p + snd q =? m)%Z
                                     then Cscale (K s1 (fst p) (snd p) s2 (fst q) (snd q) l) (f (fst p) (snd p) * g (fst q) (snd q))%C
                                     else C0) (LMs L)) (LMs L)
    else C0.

  (** ** from_initial_values, exact branch (from_initial_values.py:85-127) *)
  Definition mul := multiply L.   (* multiplication_truncator=max, all operands having ell_max = L *)

  Record initial := mkinit { i_sigma0 : modes; i_sigmadot0 : modes; i_sigmaddot0 : modes; i_psi2 : modes; i_psi1 : modes; i_psi0 : modes }.
  Record bondi := mkbondi { b_psi0 : modes; b_psi1 : modes; b_psi2 : modes; b_psi3 : modes; b_psi4 : modes; b_sigma : modes }.

  Section Exact.
    Variable i : initial.
    Definition s0 := i_sigma0 i.
    Definition s1 := i_sigmadot0 i.
    Definition s2 := fscale (/ 2) (i_sigmaddot0 i).
    Definition p4_0 := fscale (-2) (fbar 2 s2).
    Definition p3_0 := fopp (eth_GHP (-2) (fbar 2 s1)).
    Definition p3_1 := fscale (-2) (eth_GHP (-2) (fbar 2 s2)).
    Definition p2_0 := fsub (freal (i_psi2 i))
                            (fmuli (fimag (fadd (eth_GHP (-1) (eth_GHP (-2) (fbar 2 s0))) (mul 2 (-2) s0 (fbar 2 s1))))).
    Definition p2_1 := fadd (mul 2 (-2) s0 p4_0) (eth_GHP (-1) p3_0).
    Definition p2_2 := fscale (/ 2) (fadd (mul 2 (-2) s1 p4_0) (eth_GHP (-1) p3_1)).
    Definition p2_3 := mul 2 (-2) (fscale (1 / 3) s2) p4_0.
    Definition p1_0 := i_psi1 i.
    Definition p1_1 := fadd (mul 2 (-1) (fscale 2 s0) p3_0) (eth_GHP 0 p2_0).
    Definition p1_2 := fadd (fadd (mul 2 (-1) s0 p3_1) (mul 2 (-1) s1 p3_0)) (fscale (/ 2) (eth_GHP 0 p2_1)).
    Definition p1_3 := fscale (/ 3) (fadd (fadd (mul 2 (-1) (fscale 2 s1) p3_1) (mul 2 (-1) (fscale 2 s2) p3_0)) (eth_GHP 0 p2_2)).
    Definition p1_4 := fscale (/ 4) (fadd (mul 2 (-1) (fscale 2 s2) p3_1) (eth_GHP 0 p2_3)).
    Definition p0_0 := i_psi0 i.
    Definition p0_1 := fadd (mul 2 0 (fscale 3 s0) p2_0) (eth_GHP 1 p1_0).
    Definition p0_2 := fscale (/ 2) (fadd (fadd (mul 2 0 (fscale 3 s0) p2_1) (mul 2 0 (fscale 3 s1) p2_0)) (eth_GHP 1 p1_1)).
    Definition p0_3 := fadd (fadd (fadd (mul 2 0 s0 p2_2) (mul 2 0 s1 p2_1)) (mul 2 0 s2 p2_0)) (fscale (/ 3) (eth_GHP 1 p1_2)).
    Definition p0_4 := fscale (/ 4) (fadd (fadd (fadd (mul 2 0 (fscale 3 s0) p2_3) (mul 2 0 (fscale 3 s1) p2_2)) (mul 2 0 (fscale 3 s2) p2_1)) (eth_GHP 1 p1_3)).
    Definition p0_5 := fscale (/ 5) (fadd (fadd (mul 2 0 (fscale 3 s1) p2_3) (mul 2 0 (fscale 3 s2) p2_2)) (eth_GHP 1 p1_4)).
    Definition p0_6 := fscale (/ 2) (mul 2 0 s2 p2_3).
    (** the data at time u *)
    Definition exact_sigma (u : R) : modes := fadd (fscale u (fadd (fscale u s2) s1)) s0.
    Definition exact_psi4 (u : R) : modes := p4_0.
    Definition exact_psi3 (u : R) : modes := fadd (fscale u p3_1) p3_0.
    Definition exact_psi2 (u : R) : modes := fadd (fscale u (fadd (fscale u (fadd (fscale u p2_3) p2_2)) p2_1)) p2_0.
    Definition exact_psi1 (u : R) : modes := fadd (fscale u (fadd (fscale u (fadd (fscale u (fadd (fscale u p1_4) p1_3)) p1_2)) p1_1)) p1_0.
    Definition exact_psi0 (u : R) : modes :=
      fadd (fscale u (fadd (fscale u (fadd (fscale u (fadd (fscale u (fadd (fscale u (fadd (fscale u p0_6) p0_5)) p0_4)) p0_3)) p0_2)) p0_1)) p0_0.
    Definition from_initial_values_exact (u : R) : bondi :=
      mkbondi (exact_psi0 u) (exact_psi1 u) (exact_psi2 u) (exact_psi3 u) (exact_psi4 u) (exact_sigma u).
  End Exact.

  (** ** from_initial_values, sampled branch (from_initial_values.py:128-154)
      ModesTimeSeries.dot, .ddot and .int evaluate a spline fitted to the samples, its derivatives or its
      antiderivative; each is a real-linear map of the samples, given by the matrices [Dm], [D2m], [Jm]. *)
  Definition series := nat -> modes.
  Variable n : nat.
  Variables Dm D2m Jm : nat -> nat -> R.
  Definition apply_time (M : nat -> nat -> R) (f : series) : series :=
    fun i l m => csum (fun j => Cscale (M i j) (f j l m)) (seq 0 n).
  Definition sadd (f g : series) : series := fun i => fadd (f i) (g i).
  Definition sconst (f : modes) : series := fun _ => f.
  Section Sampled.
    Variable sigma : series.
    Variables q2 q1 q0 : modes.
    Definition sampled_psi4 : series := fun i => fopp (fbar 2 (apply_time D2m sigma i)).
    Definition sampled_psi3 : series := fun i => fopp (eth_GHP (-2) (fbar 2 (apply_time Dm sigma i))).
    Definition adjusted_psi2 : modes :=
      fsub (freal q2) (fmuli (fimag (fadd (eth_GHP (-1) (eth_GHP (-2) (fbar 2 (sigma 0%nat))))
                                          (mul 2 (-2) (sigma 0%nat) (apply_time Dm (fun j => fbar 2 (sigma j)) 0%nat))))).
    Definition sampled_psi2 : series :=
      sadd (apply_time Jm (fun j => fadd (eth_GHP (-1) (sampled_psi3 j)) (mul 2 (-2) (sigma j) (sampled_psi4 j)))) (sconst adjusted_psi2).
    Definition sampled_psi1 : series :=
      sadd (apply_time Jm (fun j => fadd (eth_GHP 0 (sampled_psi2 j)) (mul 2 (-1) (fscale 2 (sigma j)) (sampled_psi3 j)))) (sconst q1).
    Definition sampled_psi0 : series :=
      sadd (apply_time Jm (fun j => fadd (eth_GHP 1 (sampled_psi1 j)) (mul 2 0 (fscale 3 (sigma j)) (sampled_psi2 j)))) (sconst q0).
  End Sampled.

  (** ** bms_charges.py, at one time; [sbd] is sigma.bar.dot at that time *)
  Section Charges.
    Variable b : bondi.
    Variable sbd : modes.
    Variable t : R.
    Definition truncate_ell (k : Z) (f : modes) : modes := fun l m => if (l <=? k)%Z then f l m else C0.

    (** mass_aspect, lines 14-47.  [TCall f]: a callable truncator; it is given the two ell_max. *)
    Inductive truncation := TCall (f : Z -> Z -> Z) | TInt (k : Z).
    (** [dflt] is the ell_max resulting from the object's own multiplication_truncator. *)
    Definition mass_aspect (dflt : Z) (tr : truncation) : modes :=
      match tr with
      | TCall f => fopp (freal (fadd (b_psi2 b) (multiply (f L L) 2 (-2) (b_sigma b) sbd)))
      | TInt k => if (k =? 0)%Z then fopp (freal (fadd (b_psi2 b) (multiply dflt 2 (-2) (b_sigma b) sbd)))
                  else fopp (freal (fadd (truncate_ell k (b_psi2 b)) (multiply k 2 (-2) (b_sigma b) sbd)))
      end.

    (** charge_vector_from_aspect, lines 50-67, on the modes (0,0), (1,-1), (1,0), (1,1) *)
    Definition charge_vector (f : modes) : R * vec3 :=
      let d := sqrt (4 * PI) in
      (re (f 0%Z 0%Z) / d,
       (re (f 1%Z (-1)%Z - f 1%Z 1%Z)%C / sqrt 6 / d,
        im (f 1%Z (-1)%Z + f 1%Z 1%Z)%C / sqrt 6 / d,
        re (f 1%Z 0%Z) / sqrt 3 / d)).

    (** bondi_four_momentum, lines 77-85 *)
    Definition bondi_four_momentum (dflt : Z) : R * vec3 := charge_vector (mass_aspect dflt (TInt 1)).
    (** bondi_rest_mass, lines 70-74 *)
    Definition bondi_rest_mass (dflt : Z) : R :=
      let '(e, (x, y, z)) := bondi_four_momentum dflt in sqrt (e ^ 2 - (x ^ 2 + y ^ 2 + z ^ 2)).
    (** bondi_angular_momentum, lines 88-101 *)
    Definition angular_aspect : modes :=
      fmuli (fadd (truncate_ell 1 (b_psi1 b)) (multiply 1 2 (-1) (b_sigma b) (eth_GHP (-2) (fbar 2 (b_sigma b))))).
    Definition bondi_angular_momentum : vec3 := snd (charge_vector angular_aspect).
    (** bondi_boost_charge, lines 154-172 *)
    Definition com_part : modes :=
      fadd (fadd (truncate_ell 1 (b_psi1 b)) (multiply 1 2 (-1) (b_sigma b) (eth_GHP (-2) (fbar 2 (b_sigma b)))))
           (fscale (1 / 2) (eth_GHP 0 (multiply 1 2 (-2) (b_sigma b) (fbar 2 (b_sigma b))))).
    Definition boost_aspect : modes :=
      fopp (fsub com_part
                 (fscale t (eth_GHP 0 (freal (fadd (truncate_ell 1 (b_psi2 b)) (multiply 1 2 (-2) (b_sigma b) sbd)))))).
    Definition bondi_boost_charge : vec3 := snd (charge_vector boost_aspect).
    (** bondi_CoM_charge, lines 175-189 *)
    Definition bondi_CoM_charge : vec3 := snd (charge_vector (fopp com_part)).

    (** supermomentum, lines 192-270; grid_multiply truncates its result at self.ell_max. *)
    Definition grid_multiply (f g : modes) (a c : Z) : modes := multiply L a c f g.
    Inductive smdef := BondiSachs | Moreschi | Geroch | GerochWinicour.
    Definition supermomentum_aspect (d : smdef) : modes :=
      let base := fadd (b_psi2 b) (grid_multiply (b_sigma b) sbd 2 (-2)) in
      let e2 := eth_GHP (-1) (eth_GHP (-2) (fbar 2 (b_sigma b))) in
      let e2b := ethbar_GHP 1 (ethbar_GHP 2 (b_sigma b)) in
      match d with
      | BondiSachs => base
      | Moreschi => fadd base e2
      | Geroch => fadd base (fscale (1 / 2) (fsub e2 e2b))
      | GerochWinicour => fsub base e2b
      end.
    Definition lower_char (c : ascii) : ascii :=
      let k := nat_of_ascii c in if (65 <=? k)%nat && (k <=? 90)%nat then ascii_of_nat (k + 32) else c.
    Fixpoint lower (s : string) : string := match s with EmptyString => EmptyString | String c r => String (lower_char c) (lower r) end.
    Definition parse_def (s : string) : res smdef :=
      let w := lower s in
      if (w =? "bondi-sachs")%string || (w =? "bs")%string then Ok BondiSachs
      else if (w =? "moreschi")%string || (w =? "m")%string then Ok Moreschi
      else if (w =? "geroch")%string || (w =? "g")%string then Ok Geroch
      else if (w =? "geroch-winicour")%string || (w =? "gw")%string then Ok GerochWinicour
      else Err ValueError.
    Definition supermomentum (name : string) (integrated : bool) : res modes :=
      let? d := parse_def name in
      let f := supermomentum_aspect d in
      Ok (if integrated then fscale (- (1 / 2) / sqrt PI) (fbar 0 f) else f).
  End Charges.
End Product.

(** bondi_dimensionless_spin, bms_charges.py:135-151, from the charges at one time. *)
Definition v3add (a b : vec3) : vec3 := let '(x, y, z) := a in let '(u, v, w) := b in (x + u, y + v, z + w).
Definition v3scale (k : R) (a : vec3) : vec3 := let '(x, y, z) := a in (k * x, k * y, k * z).
Definition v3dot (a b : vec3) : R := let '(x, y, z) := a in let '(u, v, w) := b in x * u + y * v + z * w.
Definition v3cross (a b : vec3) : vec3 := let '(x, y, z) := a in let '(u, v, w) := b in (y * w - z * v, z * u - x * w, x * v - y * u).
Definition dimensionless_spin (N J : vec3) (E : R) (P : vec3) : vec3 :=
  let M_sqr := E ^ 2 - v3dot P P in
  let v := v3scale (/ E) P in
  let v_norm := norm3 v in
  let vhat := if Req_EM_T v_norm 0 then v else v3scale (/ v_norm) v in
  let gam := 1 / sqrt (1 - v_norm ^ 2) in
  v3scale (/ M_sqr) (v3add (v3scale gam (v3add J (v3cross v N))) (v3scale (- ((gam - 1) * v3dot J vhat)) vhat)).

(** The operators D and its inverse on one row of modes, map_to_superrest_frame.py:76-105. *)
Definition LM (l m : Z) : Z := l * (l + 1) + m.
Fixpoint scale_between (a b : Z) (x : R) (pos : Z) (h : list C) : list C :=
  match h with
  | [] => []
  | c :: r => (if (a <=? pos)%Z && (pos <? b)%Z then Cscale x c else c) :: scale_between a b x (pos + 1) r
  end.
Definition poly4 (l : Z) : R := IZR ((l + 2) * (l + 1) * l * (l - 1)).
Definition D_value (l : Z) : R := if (l <? 2)%Z then 0 else poly4 l / 4.
Definition Dinv_value (l : Z) : R := if (l <? 2)%Z then 0 else 4 / poly4 l.
Definition scale_all (value : Z -> R) (h : list C) (ell_max : Z) : list C :=
  fold_left (fun acc l => scale_between (LM l (- l)) (LM l l + 1) (value l) 0 acc) (zrange 0 (ell_max + 1)) h.
Definition D_op := scale_all D_value.
Definition Dinverse := scale_all Dinv_value.
