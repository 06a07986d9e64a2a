(** Going to a corotating or coprecessing frame: /repo/scri/mode_calculations.py 434-489 (corotating_frame) and
    /repo/scri/rotations.py 14-101.  The histories are not modelled. *)
From Coq Require Import Reals ZArith List Bool.
From Verif Require Import Common Cplx Quat Ops_Model Times_Model Numeric_Model Motion_Model Kwargs_Model Transform_Model Rotate_Model Align_Model.
Import ListNotations.
Open Scope R_scope.

(** `np.argmin(np.abs(t - x))` *)
Definition nearest (t : list R) (x : R) : res nat := argmin (map (fun u => Rabs (u - x)) t).
Definition sum3 (l : list vec3) : vec3 :=
  fold_right (fun v s => let '(x, y, z) := v in let '(a, b, c) := s in (x + a, y + b, z + c)) (0, 0, 0) l.
(** `np.mean(l, axis=0)` as a quaternion, `.normalized()`; [None] stands for a quaternion of NaNs *)
Definition mean_direction (l : list vec3) : option quat :=
  let q := pureq (scalev (/ INR (length l)) (sum3 l)) in
  match l with [] => None | _ => if Req_EM_T (qabs q) 0 then None else Some (qnormalized q) end.
(** `power_of_2` of line 86, `2 ** int(-np.floor(np.log2(2 * tolerance)))`: the exponent is an int of unlimited
    size, possibly negative; log2 of 0 is -inf (int(inf) is an OverflowError), of a negative number NaN (a ValueError).
    Integers from 2^64 on turn the array into one of objects, which np.round refuses (in versions of numpy before 2). *)
Definition truncation_power (tol : R) : res R :=
  if Rltb tol 0 then Err ValueError
  else if Req_EM_T tol 0 then Err OverflowError
  else
    let k := (- floorR (ln (2 * tol) / ln 2))%Z in
    if (64 <=? k)%Z then Err TypeError else Ok (powerRZ 2 k).
(** `np.round(x * p) / p` on the four components (87) *)
Definition round_quat (p : R) (q : quat) : quat :=
  mkq (IZR (rint (qw q * p)) / p) (IZR (rint (qx q * p)) / p) (IZR (rint (qy q * p)) / p) (IZR (rint (qz q * p)) / p).

(** External np.log and np.exp of quaternions, in exact arithmetic (np.log of 0 aside) *)
Definition qlog (q : quat) : quat :=
  let b := norm3 (qvec q) in
  if Req_EM_T b 0 then (if Rltb (qw q) 0 then mkq (ln (- qw q)) PI 0 0 else mkq (ln (qw q)) 0 0 0)
  else let f := atan2 b (qw q) / b in mkq (ln (qnorm2 q) / 2) (f * qx q) (f * qy q) (f * qz q).
Definition qexp (q : quat) : quat := qscale (exp (qw q)) (qexp_vec (qvec q)).

Section External.
Variable wigner : quat -> Z -> Z -> list C.
Variable garbage : Z -> list C.
(** angular_velocity, integrate_angular_velocity at the same times, max_norm_time, last eigenvector of the
    matrix <LL> of one row of modes *)
Variable angular_velocity : list R -> rwave -> list vec3.
Variable integrate : list R -> list vec3 -> quat -> R -> list quat.
Variable max_norm_time : list R -> rwave -> res R.
Variable eigenvector : Z -> Z -> list C -> vec3.
(** quaternion.minimal_rotation, and lines 41-43 of rotations.py: rotors from index i0 on that slow down between
    the times number i0 and i1 *)
Variable minimal : list quat -> list R -> list quat.
Variable slowed : list quat -> list R -> R -> R -> list quat.

Definition eigenvectors (W : rwave) : list vec3 := map (eigenvector (rw_lo W) (rw_hi W)) (rw_data W).

(** The rotor of lines 463-482; [Ok None] stands for NaNs *)
Definition correction (t : list R) (W : rwave) (omega : list vec3) (frame : list quat) (a b : R) : res (option quat) :=
  let t0 := nth 0 t 0 in
  let? tm := max_norm_time t W in
  let? i1 := nearest t (t0 + a * (tm - t0)) in
  let? i2 := nearest t (t0 + b * (tm - t0)) in
  let cut {A} (l : list A) := firstn (i2 - i1) (skipn i1 l) in
  let i1m := (i1 - 10)%nat in
  let? rough := elt omega (i1m + 10) in
  let? Vhat := dominant (cut (eigenvectors W)) rough 0 in
  let Vc := map (fun p => qvec (qmul (qmul (qconj (fst p)) (pureq (snd p))) (fst p))) (combine (cut frame) Vhat) in
  Ok (option_map (fun m => qinv (qsqrt (qmul (qopp qk) m))) (mean_direction Vc)).
(** corotating_frame *)
Definition corotating_frame (t : list R) (W : rwave) (R0 : quat) (tol : R) (z_region : option (R * R))
  : res (option (list quat) * list vec3) :=
  match t with
  | [] => Err IndexError
  | _ =>
      let omega := angular_velocity t W in
      let frame := integrate t omega R0 tol in
      let? c := match z_region with None => Ok (Some q1) | Some (a, b) => correction t W omega frame a b end in
      Ok (option_map (fun c => map (fun f => qnormalized (qmul f c)) frame) c, omega)
  end.
(** to_corotating_frame; the result is the waveform, omega and log_frame if asked for, [None] if the frame
    consists of NaNs. *)
Definition to_corotating (t : list R) (W : rwave) (R0 : quat) (tol : R) (z_region : option (R * R))
    (return_omega truncate_log_frame : bool) : res (option (rwave * option (list vec3) * option (list quat))) :=
  let? (frame, omega) := corotating_frame t W R0 tol z_region in
  match frame with
  | None => Ok None
  | Some frame =>
      let? (frame, log_frame) :=
        (if truncate_log_frame then
           let? p := truncation_power tol in
           let l := map (fun f => round_quat p (qlog f)) frame in
           Ok (map qexp l, Some l)
         else Ok (frame, None)) in
      let? W1 := rotate_basis wigner garbage W (RArr1 frame) in
      Ok (Some (mkrw (rw_lo W1) (rw_hi W1) (rw_data W1) (rw_frame W1) CorotatingFrame,
                if return_omega then Some omega else None, log_frame))
  end.

(** to_coprecessing_frame (14-47); a negative RoughDirectionIndex is not modelled. *)
Definition to_coprecessing (t : list R) (W : rwave) (rough : vec3) (index : option nat) (transition : option (R * R)) : res rwave :=
  let idx := match index with Some i => i | None => (length t / 8)%nat end in
  let? dpa := dominant (eigenvectors W) rough (Z.of_nat idx) in
  let R := minimal (map (fun v => qsqrt (qmul (qopp (qnormalized (pureq v))) qk)) dpa) t in
  let? R' :=
    match transition with
    | None => Ok R
    | Some (a, b) =>
        let? i0 := nearest t a in
        let? i1 := nearest t b in
        Ok (firstn i0 R ++ slowed (skipn i0 R) (skipn i0 t) (nth i0 t 0) (nth i1 t 0))
    end in
  let? W1 := rotate_basis wigner garbage W (RArr1 R') in
  Ok (mkrw (rw_lo W1) (rw_hi W1) (rw_data W1) (rw_frame W1) CoprecessingFrame).
End External.
