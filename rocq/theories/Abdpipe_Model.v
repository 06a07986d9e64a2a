(** * BMS transformation of asymptotic Bondi data, from end to end
    /repo/scri/asymptotic_bondi_data/transformations.py: transform (199-430), which is AsymptoticBondiData.transform.

    The arguments are read by [abd_process] (Kwargs_Model); rotors of the grid, conformal factors and the mixing of the
    fields at one point are those of Transform_Model; harmonics are those of Sphere_Model.  The six fields are a list in
    the order psi0, psi1, psi2, psi3, psi4, sigma; each is a list of rows of modes, ell from 0.  Arithmetic between a
    Grid and the one-dimensional array of times acts along the time axis, as the comment at 300-302 says.  Exceptions of
    the separate directions are reported in the order of the grid. *)
From Coq Require Import Reals ZArith List Bool.
From Verif Require Import Common Cplx Quat Modes_Model Times_Model Tables_Model Kwargs_Model Transform_Model Rotate_Model Wigner_Model Sphere_Model Pipeline_Model.
Import ListNotations.
Open Scope R_scope.

(** asymptotic_bondi_data/__init__.py:35-75 *)
Record bdata : Type := mkbd { bd_u : list R; bd_hi : Z; bd_fields : list (list (list C)); bd_frameType : ftype; bd_frame : list quat }.
Definition spins : list Z := [2; 1; 0; -1; -2; 2]%Z.

(** sf.Modes.real for spin weight 0, line 291 *)
Definition real_modes (a : list C) : list C :=
  map (fun lm => let '(l, m) := lm in
         Cscale (/ 2) (nth (pos l m) a C0 + Cscale (sgn m) (Conj (nth (pos l (- m)) a C0)))%C) (LM_range 0 (ell_max_of a)).
(** 303-314, conformal_factors 182-192: what is known about the direction of one rotor *)
Definition abd_direction (a : list C) (v : vec3) (q : quat) : res dir :=
  let L := ell_max_of a in
  let? alpha := tensordot a (SWSH 0 L q) in
  let? eth_alpha := tensordot (scale_modes (up_factor 0) L a) (SWSH 1 L q) in
  let? eth2_alpha := tensordot (scale_modes (fun l => up_factor 1 l * up_factor 0 l) L a) (SWSH 2 L q) in
  let? vr1 := tensordot (C0 :: vector_as_ell_1_modes v) (SWSH 1 1 q) in
  Ok (mkdir (direction q) (re alpha) eth_alpha eth2_alpha vr1).

(** 320-331: the six fields at one rotor and time *)
Definition six (l : list C) : fields := mkfields (nth 0 l C0) (nth 1 l C0) (nth 2 l C0) (nth 3 l C0) (nth 4 l C0) (nth 5 l C0).
Definition list6 (f : fields) : list C := [f0 f; f1 f; f2 f; f3 f; f4 f; fs f].
Definition evaluate6 (b : bdata) (q : quat) (n : nat) : res (list C) :=
  each (fun sr => match nth_error (snd sr) n with
                  | Some row => tensordot row (SWSH (fst sr) (bd_hi b) q)
                  | None => Err ValueError
                  end) (combine spins (bd_fields b)).

Section External.
(** scipy's CubicSpline(x, y) for complex y, a function or an exception *)
Variable spline : list R -> list C -> res (R -> C).
(** spinsfast.map2salm of an n_theta x n_phi array of values, with spin weight and largest degree *)
Variable map2salm : Z -> Z -> list C -> Z -> Z -> list C.

(** 336-388, one direction: the transformed fields at all input times, one list of six per time *)
Definition column6 (b : bdata) (v : vec3) (q : quat) (d : dir) : res (list (list C)) :=
  each (fun n => let? x := evaluate6 b q n in Ok (list6 (abd_point v d (nth n (bd_u b) 0) (six x)))) (seq 0 (length (bd_u b))).
(** 405-414, one direction: the six fields at the new times, one list per field *)
Definition resample6 (v : vec3) (d : dir) (u : list R) (col : list (list C)) (newt : list R) : res (list (list C)) :=
  each (fun f => let? g := spline (knots v d u) (map (fun x => nth f x C0) col) in Ok (map g newt)) (seq 0 6).
(** 419-430: the modes of one field at all new times; the assignment fails when the sizes do not match *)
Definition decompose (n : Z) (s out : Z) (rows : list (list C)) : res (list (list C)) :=
  each (fun vals => let row := map2salm n n vals s out in
          if (Z.of_nat (length row) =? (out + 1) ^ 2)%Z then Ok row else Err ValueError) rows.

Definition abd_transform (b : bdata) (k : kwargs) : res bdata :=
  let? p := abd_process (bd_hi b) k in
  let n := (2 * p_working p + 1)%Z in
  let v := p_boost p in
  let a := real_modes (p_super p) in
  let rotors := map (grid_rotor (p_rotation p) v) (grid_points n n) in
  let? dirs := each (abd_direction a v) rotors in
  let? cols := each (fun qd => column6 b v (fst qd) (snd qd)) (combine rotors dirs) in
  let? newt := new_slices v (nth 0 a C0) dirs (bd_u b) in
  let? vals := each (fun dc => resample6 v (fst dc) (bd_u b) (snd dc) newt) (combine dirs cols) in
  let? out := each (fun fs => decompose n (snd fs) (p_output p)
                                (map (fun i => map (fun c => nth i (nth (fst fs) c []) C0) vals) (seq 0 (length newt))))
                (combine (seq 0 6) spins) in
  Ok (mkbd newt (p_output p) out InertialFrame []).
End External.
