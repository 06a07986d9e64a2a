(** * BMS transformation of the modes of a waveform, from end to end
    /repo/scri/waveform_grid.py: WaveformGrid.from_modes (332-613), WaveformGrid.to_modes (274-329),
    WaveformGrid.transform (615-630), which is also WaveformModes.transform (waveform_modes.py).

    The arguments are read by [grid_process] (Kwargs_Model), the rotors of the grid and everything done in one
    direction are those of Transform_Model, the harmonics are those of Sphere_Model.  Only two-dimensional data
    are modelled (final_dim = 1), exceptions of the separate directions are reported in the order of the grid,
    and the history, the warnings and the keyword arguments left over are not modelled. *)
From Coq Require Import Reals ZArith List Bool.
From Verif Require Import Common Cplx Quat Modes_Model Times_Model Tables_Model Kwargs_Model Transform_Model Rotate_Model Wigner_Model Sphere_Model.
Import ListNotations.
Open Scope R_scope.

Record pwave : Type := mkpw {
  pw_t : list R; pw_data : list (list C); pw_lo : Z; pw_hi : Z;
  pw_frame : list quat; pw_frameType : ftype; pw_dataType : Z; pw_r : bool }.
(** A WaveformGrid: one row of n_theta n_phi values for every time *)
Record pgrid : Type := mkpg {
  pg_t : list R; pg_data : list (list C); pg_theta : Z; pg_phi : Z;
  pg_frameType : ftype; pg_dataType : Z; pg_r : bool }.

Fixpoint each {A B} (f : A -> res B) (l : list A) : res (list B) :=
  match l with [] => Ok [] | a :: l' => let? b := f a in let? r := each f l' in Ok (b :: r) end.
(** a[i:j] with 0 <= i <= j *)
Definition cut {A} (i j : Z) (l : list A) : list A := firstn (Z.to_nat (j - i)) (skipn (Z.to_nat i) l).

(** 475-484, 534-545: one row of modes with degrees ell_min..ell_max, at one rotor; the harmonics go up to [top] *)
Definition value (s top ell_min ell_max : Z) (q : quat) (row : list C) : res C :=
  tensordot row (cut (LM_index ell_min (- ell_min) 0) (LM_index ell_max ell_max 0 + 1) (SWSH s top q)).

(** External sf.eth_GHP(modes, s, 0) and sf.ethbar_GHP(modes, s, 0), without the factor 1/sqrt 2: the modes of degree
    ell are multiplied by sqrt((ell - s)(ell + s + 1)), respectively - sqrt((ell + s)(ell - s + 1)). *)
Definition up_factor (s l : Z) : R := if (l <? Z.max (Z.abs s) (Z.abs (s + 1)))%Z then 0 else sqrt (IZR ((l - s) * (l + s + 1))).
Definition down_factor (s l : Z) : R := if (l <? Z.max (Z.abs s) (Z.abs (s - 1)))%Z then 0 else - sqrt (IZR ((l + s) * (l - s + 1))).
Definition scale_modes (f : Z -> R) (ell_max : Z) (a : list C) : list C :=
  map (fun p => Cscale (f (fst (fst p))) (snd p)) (combine (LM_range 0 ell_max) a).

(** 472, 474, 487-514: what is known about the direction of one rotor.  The derivative of the supertranslation is taken
    with ethbar twice when the data are a strain (488), with eth twice otherwise (497); Transform_Model wants the
    conjugate of the former. *)
Definition direction_data (dataType : Z) (super : list C) (ell_s top : Z) (v : vec3) (q : quat) : res dir :=
  let? alpha := tensordot super (SWSH 0 ell_s q) in
  let? eth_alpha := tensordot (scale_modes (up_factor 0) ell_s super) (SWSH 1 ell_s q) in
  let? eth2_alpha :=
    if (dataType =? h)%Z then
      let? x := tensordot (scale_modes (fun l => down_factor (-1) l * down_factor 0 l) ell_s super)
                  (cut 0 (LM_index ell_s ell_s 0 + 1) (SWSH (-2) top q)) in Ok (Conj x)
    else tensordot (scale_modes (fun l => up_factor 1 l * up_factor 0 l) ell_s super)
           (cut 0 (LM_index ell_s ell_s 0 + 1) (SWSH 2 top q)) in
  let? vr1 := tensordot (C0 :: vector_as_ell_1_modes v) (SWSH 1 1 q) in
  Ok (mkdir (direction q) (re alpha) eth_alpha eth2_alpha vr1).

(** 525-550: the Weyl scalars of higher index, evaluated at one rotor and time.  An auxiliary waveform with a single
    time is broadcast. *)
Definition aux_value (w : pwave) (q : quat) (i : nat) : res C :=
  let? s := spin_weight (pw_dataType w) in
  match nth_error (pw_data w) (if Nat.eqb (length (pw_data w)) 1 then 0 else i) with
  | Some row => value s (pw_hi w) (pw_lo w) (pw_hi w) q row
  | None => Err ValueError
  end.
Definition aux_fields (dt : nat) (aux : nat -> option pwave) (q : quat) (i : nat) (x : C) : res fields :=
  let? vs := each (fun DT => if (DT <? dt)%nat then Ok C0 else if (DT =? dt)%nat then Ok x else
                     match aux DT with Some w => aux_value w q i | None => Err ValueError end) [1; 2; 3; 4; 5]%nat in
  match vs with
  | [a0; a1; a2; a3; a4] => Ok (mkfields a0 a1 a2 a3 a4 C0)
  | _ => Err ValueError
  end.

Section External.
(** scipy's InterpolatedUnivariateSpline(x, y), a function or an exception *)
Variable spline : list R -> list R -> res (R -> R).
(** spinsfast.map2salm of an n_theta x n_phi array of values, with spin weight and largest degree *)
Variable map2salm : Z -> Z -> list C -> Z -> Z -> list C.

(** 485-559: the values of the field in one direction at all times of the waveform *)
Definition column (w : pwave) (s top : Z) (nontrivial : bool) (v : vec3) (aux : nat -> option pwave) (q : quat) (d : dir) : res (list C) :=
  each (fun p => let '(i, (t, row)) := p in
    let? x := value s top (pw_lo w) (pw_hi w) q row in
    let? f := if nontrivial && (1 <=? pw_dataType w)%Z && (pw_dataType w <=? 4)%Z
              then aux_fields (Z.to_nat (pw_dataType w)) aux q i x else Ok (mkfields C0 C0 C0 C0 C0 C0) in
    grid_point nontrivial v d (pw_dataType w) (pw_r w) t f x)
   (combine (seq 0 (length (pw_t w))) (combine (pw_t w) (pw_data w))).
(** 578-588: interpolation in one direction, real and imaginary parts apart *)
Definition resample (v : vec3) (d : dir) (t : list R) (vals : list C) (newt : list R) : res (list C) :=
  let? fr := spline (knots v d t) (map re vals) in
  let? fi := spline (knots v d t) (map im vals) in
  Ok (map (fun u => mkC (fr u) (fi u)) newt).
(** supertranslation[1:] != 0 *)
Definition Cnonzero (z : C) : bool := if Req_EM_T (re z) 0 then (if Req_EM_T (im z) 0 then false else true) else true.

Definition from_modes (w : pwave) (n_theta n_phi : option Z) (k : kwargs) (aux : nat -> option pwave) : res pgrid :=
  match pw_frameType w with
  | InertialFrame =>
      let? g := grid_process (pw_hi w) n_theta n_phi k in
      let? s := spin_weight (pw_dataType w) in
      let v := gp_boost g in
      let rotors := map (grid_rotor (gp_rotation g) v) (grid_points (gp_theta g) (gp_phi g)) in
      let? dirs := each (direction_data (pw_dataType w) (gp_super g) (gp_ell_super g) (gp_ell_max g) v) rotors in
      let nontrivial := (if Req_EM_T (norm3 v) 0 then false else true) || existsb Cnonzero (tl (gp_super g)) in
      let? cols := each (fun qd => column w s (gp_ell_max g) nontrivial v aux (fst qd) (snd qd)) (combine rotors dirs) in
      let? newt := new_slices v (nth 0 (gp_super g) C0) dirs (pw_t w) in
      let? out := each (fun dc => resample v (fst dc) (pw_t w) (snd dc) newt) (combine dirs cols) in
      Ok (mkpg newt (map (fun i => map (fun c => nth i c C0) out) (seq 0 (length newt)))
            (gp_theta g) (gp_phi g) (pw_frameType w) (pw_dataType w) (pw_r w))
  | _ => Err ValueError
  end.

Definition to_modes (g : pgrid) (ell_max ell_min : option Z) : res pwave :=
  let? s := spin_weight (pg_dataType g) in
  let em := dflt ((Z.max (pg_theta g) (pg_phi g) - 1) / 2)%Z ell_max in
  let el := dflt (Z.abs s) ell_min in
  if (em <? 0)%Z then Err ValueError
  else if ((el <? 0) || (em <? el))%Z then Err ValueError
  else
    let? rows := each (fun vals =>
        let row := skipn (Z.to_nat (LM_index el (- el) 0)) (map2salm (pg_theta g) (pg_phi g) vals s em) in
        if (Z.of_nat (length row) =? LM_index em em el + 1)%Z then Ok row else Err ValueError) (pg_data g) in
    Ok (mkpw (pg_t g) rows el em [] (pg_frameType g) (pg_dataType g) (pg_r g)).

Definition transform (w : pwave) (ell_max n_theta n_phi : option Z) (k : kwargs) (aux : nat -> option pwave) : res pwave :=
  let? g := from_modes w n_theta n_phi k aux in
  to_modes g (Some (dflt (pw_hi w) ell_max)) None.
End External.
