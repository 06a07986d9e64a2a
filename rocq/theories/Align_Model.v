(** Alignment of the decomposition frame to the modes (/repo/scri/rotations.py 114-265). *)
From Coq Require Import Reals ZArith List Bool.
From Verif Require Import Common Cplx Quat Times_Model Tables_Model Modes_Model Modal_Model Kwargs_Model Transform_Model Rotate_Model.
Import ListNotations.
Open Scope R_scope.

(** External quaternion.sqrt, in exact arithmetic; for -1 and other negative numbers it answers along x. *)
Definition qsqrt (q : quat) : quat :=
  let s := qabs q + qw q in
  if Req_EM_T (qabs q) 0 then q0
  else if Req_EM_T s 0 then mkq 0 (sqrt (qabs q)) 0 0
  else let c := sqrt (/ 2 / s) in mkq (s * c) (qx q * c) (qy q * c) (qz q * c).
(** math.atan2(y, x), without signed zeros *)
Definition atan2 (y x : R) : R :=
  if Rltb 0 x then atan (y / x)
  else if Rltb x 0 then (if Rltb y 0 then atan (y / x) - PI else atan (y / x) + PI)
  else if Rltb 0 y then PI / 2 else if Rltb y 0 then - (PI / 2) else 0.
(** `quaternion.quaternion(0, *v)` *)
Definition pureq (v : vec3) : quat := let '(x, y, z) := v in mkq 0 x y z.
(** [exp] of a multiple of quaternion.z *)
Definition exp_z (phi : R) : quat := qexp_vec (0, 0, phi).

(** An array element, or IndexError *)
Definition elt {A} (l : list A) (i : nat) : res A := match nth_error l i with Some x => Ok x | None => Err IndexError end.
(** The largest index with t[i] <= t_fid (173), if there is one *)
Fixpoint last_le (t : list R) (tf : R) (i : nat) (found : option nat) : option nat :=
  match t with [] => found | x :: t' => last_le t' tf (S i) (if Rleb x tf then Some i else found) end.
(** Lines 173-177: the index and the region [i1, i2) of indices around it *)
Definition region (t : list R) (tf : R) : res (nat * nat * nat) :=
  match last_le t tf 0 None with
  | None => Err IndexError
  | Some i0 =>
      let n := length t in
      let i := if (i0 <? n - 1)%nat then S i0 else i0 in
      let i1 := (i - 5)%nat in
      let i2 := if (n <? i1 + 11)%nat then n else (i1 + 11)%nat in
      Ok (i, i1, i2)
  end.

Section External.
Variable wigner : quat -> Z -> Z -> list C.
Variable garbage : Z -> list C.
(** mode_calculations.angular_velocity of a waveform with the given times *)
Variable angular_velocity : list R -> rwave -> list vec3.
(** The two interpolations of WaveformBase.interpolate (950-967) to one time, and LLDominantEigenvector of
    one instant of time *)
Variable squad : list quat -> list R -> R -> quat.
Variable spline : list R -> list (list C) -> R -> list C.
Variable dominant : rwave -> vec3.

Definition to_rw (w : wf R quat C) (ft : ftype) : rwave := mkrw (wlmin w) (wlmax w) (wdata w) (F1 (wframe w)) ft.
(** `W.data[0, W.index(2, m)]` *)
Definition mode_2 (W : rwave) (m : Z) : res C := rd (nth 0 (rw_data W) []) (LM_index 2 m (rw_lo W)).

(** Lines 199-222, given omegaHat in the frame of the waveform, the instant and the axis V_f. *)
Definition aligned_axis (omegaHat : quat) (V : vec3) : quat :=
  let V_f := qnormalized (pureq V) in
  if Rltb (dotv (qvec omegaHat) (qvec V_f)) 0 then qopp V_f else V_f.
Definition axis_rotor (V : quat) : quat := qsqrt (qmul (qopp V) qk).
Definition alignment_rotor (omegaHat : quat) (Instant : rwave) (R_f0 : quat) (V : vec3) (nHat : quat) : res quat :=
  let R_V := axis_rotor (aligned_axis omegaHat V) in
  let? I' := rotate_basis wigner garbage Instant (RQuat R_V) in
  let? h22 := mode_2 I' 2 in
  let? h2m2 := mode_2 I' (-2) in
  let phase_22 := atan2 (im h22) (re h22) in
  let phase_2m2 := atan2 (im h2m2) (re h2m2) in
  let R_eps := qmul R_V (exp_z (- (phase_22 - phase_2m2) / 8)) in
  let x' := qmul (qmul (qmul (qmul R_f0 R_eps) qi) (qinv R_eps)) (qinv R_f0) in
  Ok (if Rltb (dotv (qvec nHat) (qvec x')) 0 then qmul R_eps (exp_z (PI / 2)) else R_eps).

Definition rotating (ft : ftype) : bool :=
  match ft with CoprecessingFrame | CoorbitalFrame | CorotatingFrame => true | _ => false end.
(** get_alignment_of_decomposition_frame_to_modes (114-224); [ncol] is the number of data columns.  The
    waveform [w] itself is not changed: everything works on slices that are copied. *)
Definition get_alignment (ncol : Z) (w : wf R quat C) (ft : ftype) (tf : R) (nHat : quat) (ell_max : option Z) : res quat :=
  let top := match ell_max with Some l => l | None => wlmax w end in
  if negb (rotating ft) then Err ValueError
  else if negb (length (wframe w) =? length (wt w))%nat then Err ValueError
  else match wt w with
  | [] => Err IndexError
  | t0 :: rest =>
      if Rltb tf t0 || Rltb (last rest t0) tf then Err ValueError
      else
        let? (ii, i2) := region (wt w) tf in
        let '(i, i1) := ii in
        let key := (Some (Z.of_nat i1), Some (Z.of_nat i2)) in
        let? reg := getitem_pair ncol w key (MInt 2) in
        let? Region := to_inertial wigner garbage (to_rw reg ft) in
        let? om := elt (angular_velocity (wt reg) Region) (i - i1) in
        let? R := elt (wframe w) i in
        let omegaHat := qmul (qmul (qinv R) (qnormalized (pureq om))) R in
        let part := getitem_slice w key in
        let R_f0 := squad (wframe part) (wt part) tf in
        let inst := mkwf [tf] [R_f0] [spline (wt part) (wdata part) tf] (wlmin w) (wlmax w) (wLM part) in
        let? some := getitem_pair ncol inst (None, None) (MSlice None (Some (top + 1)%Z) None) in
        alignment_rotor omegaHat (to_rw inst ft) R_f0 (dominant (to_rw some ft)) nHat
  end.
(** align_decomposition_frame_to_modes (228-265), without the history *)
Definition align (ncol : Z) (w : wf R quat C) (ft : ftype) (tf : R) (nHat : quat) (ell_max : option Z) : res rwave :=
  let? R_eps := get_alignment ncol w ft tf nHat ell_max in
  rotate_basis wigner garbage (to_rw w ft) (RQuat R_eps).
End External.
