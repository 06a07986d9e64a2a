(** * Rotation of asymptotic Bondi data about the z axis without the grid
    /repo/scri/asymptotic_bondi_data/map_to_superrest_frame.py: MT_to_WM (18-52, sxs_version False), WM_to_MT (55-73),
    rotation (589-618) and the news entering rotation_from_vectors and the error of the rotation (475-514, 625-645).

    Data are two-dimensional; the histories are not modelled. *)
From Coq Require Import Reals ZArith List Bool.
From Verif Require Import Common Cplx Quat Modes_Model Modal_Model ABD_Model Create_Model Times_Model Tables_Model Transform_Model Rotate_Model Pipeline_Model Abdpipe_Model.
Import ListNotations.
Open Scope R_scope.

(** modes_time_series.py 10-60: modes from ell = 0 to ell_max, one row per time, with spin weight *)
Record mts : Type := mkmts { mt_t : list R; mt_s : Z; mt_hi : Z; mt_data : list (list C) }.
(** The arithmetic used: a real number times the modes, and Modes.bar *)
Definition mt_scale (x : R) (a : mts) : mts := mkmts (mt_t a) (mt_s a) (mt_hi a) (map (map (Cscale x)) (mt_data a)).
Definition mt_bar (a : mts) : mts := mkmts (mt_t a) (- mt_s a) (mt_hi a) (map (bar_row (mt_s a) (mt_hi a)) (mt_data a)).

(** MT_to_WM, 18-41.  A spin weight larger than ell_max leaves ell_min > ell_max, which is not refused. *)
Definition MT_to_WM (a : mts) (dataType : Z) : pwave :=
  let s := Z.abs (mt_s a) in
  mkpw (mt_t a) (map (skipn (Z.to_nat (LM_index s (- s) 0))) (mt_data a)) s (mt_hi a) [] InertialFrame dataType true.
(** External sf.SWSH_modes.Modes(data, spin_weight, ell_min, ell_max): the data must have the modes of that range, zeros are
    put in place of the modes below ell_min. *)
Definition from_ell_min (lo hi : Z) (row : list C) : res (list C) :=
  if (Z.of_nat (length row) =? (hi + 1) ^ 2 - lo ^ 2)%Z then Ok (repeat C0 (Z.to_nat (lo ^ 2)) ++ row) else Err ValueError.
(** WM_to_MT, 55-73 *)
Definition WM_to_MT (w : pwave) : res mts :=
  let? s := spin_weight (pw_dataType w) in
  let? rows := each (from_ell_min (pw_lo w) (pw_hi w)) (pw_data w) in
  Ok (mkmts (pw_t w) s (pw_hi w) rows).

(** The assignment `abd.psi4 = ...` (__init__.py 136-175): `self._psi4[:] = new` wants the shape it has. *)
Definition assign (u : list R) (hi : Z) (a : mts) : res (list (list C)) :=
  if Nat.eqb (length (mt_data a)) (length u) && forallb (fun row => Z.of_nat (length row) =? (hi + 1) ^ 2)%Z (mt_data a)
  then Ok (mt_data a) else Err ValueError.

Section External.
(** External sf._Wigner_D_matrices and the contents of fresh memory, as in Rotate_Model *)
Variable wigner : quat -> Z -> Z -> list C.
Variable garbage : Z -> list C.

(** 603-608: W.rotate_physical_system(q) for one waveform *)
Definition rotate_wave (w : pwave) (q : quat) : res pwave :=
  let? W := rotate_physical wigner garbage (mkrw (pw_lo w) (pw_hi w) (pw_data w) (F1 (pw_frame w)) (pw_frameType w)) (RQuat q) in
  Ok (mkpw (pw_t w) (rw_data W) (rw_lo W) (rw_hi W) (match rw_frame W with F1 l => l | F2 _ => [] end) (rw_type W) (pw_dataType w) (pw_r w)).

(** 597-601, 604-608, 612-616: the Weyl scalar with the given index; -sqrt 2 to the power of the index and back *)
Definition turn_psi (u : list R) (hi : Z) (q : quat) (N : nat) (rows : list (list C)) : res (list (list C)) :=
  let a := mkmts u (nth N spins 0%Z) hi rows in
  let W := MT_to_WM (mt_scale (/ 2 * (- sqrt 2) ^ N) a) (nth N [psi0; psi1; psi2; psi3; psi4] 0%Z) in
  let? W' := rotate_wave W q in
  let? a' := WM_to_MT W' in
  assign u hi (mt_scale (2 * (- 1 / sqrt 2) ^ N) a').
(** 596, 603, 611: the shear, by way of the strain *)
Definition turn_sigma (u : list R) (hi : Z) (q : quat) (rows : list (list C)) : res (list (list C)) :=
  let W := MT_to_WM (mt_scale 2 (mt_bar (mkmts u 2 hi rows))) h in
  let? W' := rotate_wave W q in
  let? a' := WM_to_MT W' in
  assign u hi (mt_scale (/ 2) (mt_bar a')).

(** rotation, 589-618.  External quaternion.from_rotation_vector is exp of half the vector.  The fields are independent, so
    the order in which they are treated only matters for which exception comes first. *)
Definition z_rotation (b : bdata) (phi : R) : res bdata :=
  let q := qexp_vec (scalev (/ 2) (scalev (- phi) (0, 0, 1))) in
  let? psis := each (fun N => turn_psi (bd_u b) (bd_hi b) q N (nth N (bd_fields b) [])) (seq 0 5) in
  let? s := turn_sigma (bd_u b) (bd_hi b) q (nth 5 (bd_fields b) []) in
  Ok (mkbd (bd_u b) (bd_hi b) (psis ++ [s]) (bd_frameType b) (bd_frame b)).
End External.

Section News.
(** External: derivative with respect to time of the rows of modes at the given times (the derivative of a cubic spline, both
    for WaveformModes.data_dot and for ModesTimeSeries.dot) *)
Variable ddt : list R -> list (list C) -> list (list C).

(** 501, 514, 645: news of Bondi data *)
Definition own_news (u : list R) (hi : Z) (sigma_rows : list (list C)) : pwave :=
  let a := mt_scale 2 (mt_bar (mkmts u 2 hi sigma_rows)) in
  MT_to_WM (mkmts u (mt_s a) hi (ddt u (mt_data a))) hdot.
(** 475-488, 625-638: news of the target, from its strain *)
Definition target_news (w : pwave) : res pwave :=
  let? rows := each (from_ell_min 2 (pw_hi w)) (ddt (pw_t w) (pw_data w)) in
  Ok (MT_to_WM (mkmts (pw_t w) (-2) (pw_hi w) (ddt (pw_t w) rows)) hdot).
End News.
