(** * The sample waveform of a precessing binary: fake_precessing_waveform, /repo/scri/sample_waveforms.py 383-533

    Times and values are real and complex numbers: rounding is not modelled, nor are warnings.  A positive mass ratio, a nonzero
    precession_relative_rate and ell_max >= 1 are supposed.  The data type of the result is always scri.h. *)
From Coq Require Import Reals ZArith List Bool.
From Verif Require Import Common Cplx Quat Modes_Model Times_Model Tables_Model Kwargs_Model Transform_Model Rotate_Model Motion_Model Superrest_Model Align_Model Corot_Model Transition_Model Pipeline_Model Sample_Model.
Import ListNotations.
Open Scope R_scope.

(** The arguments (384-392); None where the code has its default None *)
Record pargs : Type := mkpa {
  pa_t0 : R; pa_t1 : R; pa_dt : R; pa_hi : Z; pa_ratio : R;
  pa_opening : R; pa_opening_dot : option R; pa_rate : R; pa_nutation : option R }.

(** 451 *)
Definition merger (p : pargs) : R := pa_t1 p - 100.
(** np.argmin(np.abs(t - x)) *)
Definition nearest (x : R) (t : list R) : res nat := Motion_Model.argmin (map (fun s => Rabs (s - x)) t).
Definition at_ (l : list R) (k : nat) : R := nth k l 0.

(** ** Powers of numbers that may be zero or negative: 0 ** b is infinite for b < 0, a ** b is nan for a < 0 *)
Definition power (a b : R) : xf :=
  if Rltb a 0 then NaN else if Req_EM_T a 0 then (if Rltb b 0 then PInf else Fin 0) else Fin (Rpower a b).
Definition times_x (k : R) (x : xf) : xf := match x with Fin r => Fin (k * r) | x => x end.   (* for k > 0, or finite x *)
Definition is_nan (x : xf) : bool := match x with NaN => true | _ => false end.
Definition distance_x (y : R) (x : xf) : xf :=
  match x with Fin r => Fin (Rabs (r - y)) | NaN => NaN | _ => PInf end.
(** np.argmin for an array without nan *)
Fixpoint xargmin_from (best : xf) (ib i : nat) (l : list xf) : nat :=
  match l with
  | [] => ib
  | a :: r => if xlt a best then xargmin_from a i (S i) r else xargmin_from best ib (S i) r
  end.
Definition xargmin (l : list xf) : res nat :=
  match l with [] => Err ValueError | a :: r => Ok (xargmin_from a 0 1 r) end.
(** A value that is used in what follows.  In the code nan and inf would go on; for positive mass ratios and dt they do not occur. *)
Definition settled (x : xf) : res R := match x with Fin r => Ok r | _ => Err PlainException end.

(** 459-463 *)
Definition phase_at (nu tm s : R) : xf := times_x (-4) (power (nu * (tm - s) / 5) (5 / 8)).
Definition frequency_at (nu tm s : R) : xf := times_x (nu / 2) (power (nu * (tm - s) / 5) (- (3 / 8))).

Section Precessing.
(** External: quaternion.calculus.indefinite_integral; matrices and memory as in [Rotate_Model] *)
Variable integral : list R -> list R -> list R.
Variable wigner : quat -> Z -> Z -> list C.
Variable garbage : Z -> list C.

(** 459-475: phi and omega *)
Definition phasing (nu tm : R) (t : list R) : res (list R * list R) :=
  let phi := map (phase_at nu tm) t in
  let omega := map (frequency_at nu tm) t in
  let? i1 := xargmin (map (distance_x (1 / 4)) (filter (fun x => negb (is_nan x)) omega)) in
  let? i0 := nearest (at_ t i1 - 5) t in
  let? (tr, _, _) := transition_function t (at_ t i0) (at_ t i1) 0 1 in
  let? om := each (fun k => if (k <? i1)%nat
                            then let? w := settled (nth k omega NaN) in Ok (w * (1 - at_ tr k) + 1 / 4 * at_ tr k)
                            else Ok (1 / 4)) (seq 0 (length t)) in
  let? ph := each settled (firstn i0 phi) in
  let? p0 := settled (nth i0 phi NaN) in
  Ok (ph ++ map (Rplus p0) (integral (skipn i0 om) (skipn i0 t)), om).

(** 493-500: np.exp(a * quaternion.z / 2) and with x *)
Definition turn_z (a : R) : quat := qexp (mkq 0 0 0 (a / 2)).
Definition turn_x (a : R) : quat := qexp (mkq 0 (a / 2) 0 0).
(** 501-503 *)
Definition frame_of (phi prec opening nut : R) : quat :=
  qmul (qmul (qmul (qmul (qmul (qmul (turn_z phi) (turn_x nut)) (qconj (turn_z phi))) (turn_z prec)) (turn_x opening)) (qconj (turn_z prec))) (turn_z phi).
(** 507-513: np.sign(m) *)
Definition sign_of (m : Z) : R := IZR (Z.sgn m).
(** 509-516, one row *)
Definition row_at (hi : Z) (q omega modulation ringdown : R) : list C :=
  map (fun lm => Cscale ringdown (Cscale (1 + sign_of (snd lm) * modulation) (pn_leading_order_amplitude (fst lm) (snd lm) (Rpower omega (2 / 3)) q))) (LM_range 2 hi).

(** 442-528: times and waveform in the rotating frame *)
Definition precessing_corotating (p : pargs) : res (list R * rwave) :=
  let q := if Rltb (pa_ratio p) 1 then 1 / pa_ratio p else pa_ratio p in
  let nu := q / (1 + q) ^ 2 in
  let tm := merger p in
  let? t := arange (pa_t0 p) (pa_t1 p + 99 / 100 * pa_dt p) (pa_dt p) in
  let? im := nearest tm t in
  if (im <? 20)%nat then Err ValueError else
  let? _ := zeros (LM_total_size 2 (pa_hi p)) in
  let? (phi, omega) := phasing nu tm t in
  (* 478-486 *)
  let? i0 := nearest tm t in
  let? i1 := nearest (at_ t i0 + 20) t in
  let t0 := at_ t i0 in
  let t1 := at_ t i1 in
  let? (tr, _, _) := transition_function t t0 t1 0 1 in
  let ringdown := map (fun k => if (k <? i0)%nat then 1 else 1 * (1 - at_ tr k) + 9 / 4 * exp (- (at_ t k - tm) / (23 / 2)) * at_ tr k) (seq 0 (length t)) in
  (* 489-504 *)
  let dot := dflt (2 * pa_opening p / (t1 - at_ t 0)) (pa_opening_dot p) in
  let nut := dflt (pa_opening p / 10) (pa_nutation p) in
  let? opening := transition_to_constant integral (map (fun s => pa_opening p + dot * s) t) t t0 t1 in
  let? prec := transition_to_constant integral (map (fun f => f / pa_rate p) phi) t t0 t1 in
  let frame := map (fun k => frame_of (at_ phi k) (at_ prec k) (at_ opening k) (nut * at_ tr k)) (seq 0 (length t)) in
  let tweak := qconj (qsqrt (nth 0 frame q1)) in
  (* 507-516 *)
  let? (down, _, _) := transition_function t t0 t1 1 0 in
  let rows := map (fun k => row_at (pa_hi p) q (at_ omega k) (at_ down k * cos (at_ phi k) / 40) (at_ ringdown k)) (seq 0 (length t)) in
  Ok (t, mkrw 2 (pa_hi p) rows (F1 (map (qmul tweak) frame)) CorotatingFrame).

(** 530-533 *)
Definition fake_precessing_waveform (p : pargs) (inertial : bool) : res (list R * rwave) :=
  let? (t, W) := precessing_corotating p in
  if inertial then let? W' := to_inertial wigner garbage W in Ok (t, W') else Ok (t, W).
End Precessing.
