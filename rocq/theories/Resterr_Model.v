(** * How far data are from the superrest frame: rel_err_for_abd_in_superrest, /repo/scri/asymptotic_bondi_data/map_to_superrest_frame.py 621-668
    with supermomentum as a method of the whole object
    (/repo/scri/asymptotic_bondi_data/bms_charges.py 192-270).

    The charges are those of [Charges_Model], positions of the centre of mass and averages those of [Passes_Model], the angular velocity
    that of [Velocity_Model].  An energy of zero (a division by zero) is not modelled; a vector of length zero is.  Rounding is not modelled. *)
From Coq Require Import String ZArith Reals List Bool.
From Verif Require Import Common Cplx Quat Modes_Model Ops_Model Times_Model Tables_Model Kwargs_Model Transform_Model Spin_Model Motion_Model Superrest_Model Pipeline_Model ABD_Model Abdpipe_Model
  Constraints_Model Charges_Model Rest_Model Passes_Model Velocity_Model.
Import ListNotations.
Open Scope R_scope.

Section Errors.
(** Coefficients of products, splines with derivatives and integrals as in [Passes_Model] *)
Variable K : Z -> Z -> Z -> Z -> Z -> Z -> Z -> R.
Variable dspl : nat -> list R -> list C -> R -> C.
Variable integral : list R -> list R -> list R.
(** External: what integrating an array with an entry nan gives, nan or an exception *)
Variable undefined : res xf.

(** bms_charges.py 192-270, at every time *)
Definition ad_supermomentum (a : adata) (name : string) (integrated : bool) : res (list modes) :=
  let? d := sigma_bar_dot dspl a in
  each (fun i => supermomentum K (bd_hi (ad_data a)) (bondi_of a i) (ms_at d i) name integrated) (seq 0 (length (bd_u (ad_data a)))).

(** integrate(f, t)[-1] / (t[-1] - t[0]) where an entry None of the array is nan *)
Fixpoint all_of {A : Type} (l : list (option A)) : option (list A) :=
  match l with
  | [] => Some []
  | Some x :: l => match all_of l with Some r => Some (x :: r) | None => None end
  | None :: _ => None
  end.
Definition average_of (f : list (option R)) (t : list R) : res xf :=
  match all_of f with Some f => Ok (average integral f t) | None => undefined end.
(** v / np.linalg.norm(v, axis=-1)[:, None]: zero divided by zero is nan *)
Definition direction (v : vec3) : option vec3 := if Req_EM_T (norm3 v) 0 then None else Some (hat v).

(** 622-623 *)
Definition error_com (a : adata) : res xf :=
  let? G := com_position K dspl a in Ok (average integral (map norm3 G) (bd_u (ad_data a))).

(** ** The angular velocity of a waveform, mode_calculations.py 403-423; [f] has spin weight -2 and is stored from degree 2 on (MT_to_WM, 18-41) *)
Definition row_of (f : mts) (i : nat) : list C := map (fun lm => ms_at f i (fst lm) (snd lm)) (LM_range 2 (ms_hi f)).
Definition angular_velocity_at (f g : mts) (i : nat) : res vec3 := velocity 2 (ms_hi f) (row_of f i) (row_of g i).
Definition angular_velocity (f : mts) : res (list vec3) :=
  let? g := mts_dot dspl f in each (angular_velocity_at f g) (seq 0 (length (ms_u f))).

(** The strain of the data, 2.0 * abd.sigma.bar (846-848), and its news, 2.0 * abd.sigma.bar.dot (645) *)
Definition strain (a : adata) : mts := mts_scale 2 (mts_bar (sigma a)).
Definition news (a : adata) : res mts := let? d := sigma_bar_dot dspl a in Ok (mts_scale 2 d).
(** 626-638: the derivative of target_strain.data_dot, labelled as news *)
Definition target_news (h : mts) : res mts := let? d := mts_dot dspl h in mts_dot dspl d.
(** 640-643: CubicSpline raises ValueError for an array with nan. *)
Definition component_spline (t : list R) (ws : list vec3) (c : vec3 -> R) (x : R) : R := re (dspl 0 t (map (fun w => RtoC (c w)) ws) x).
Definition target_direction (h : mts) : res (R -> vec3) :=
  let? n := target_news h in
  let? w := angular_velocity n in
  match all_of (map direction w) with
  | None => Err ValueError
  | Some ws => Ok (fun x => (component_spline (ms_u h) ws (fun w => fst (fst w)) x, component_spline (ms_u h) ws (fun w => snd (fst w)) x, component_spline (ms_u h) ws snd x))
  end.
(** 645-651 *)
Definition error_velocity (a : adata) (h : mts) : res xf :=
  let? s := target_direction h in
  let? n := news a in
  let? w := angular_velocity n in
  average_of (map (fun x => option_map (fun d => norm3 (v3add d (v3scale (-1) (s (snd x))))) (direction (fst x))) (combine w (bd_u (ad_data a)))) (bd_u (ad_data a)).
(** 653-657 *)
Definition error_spin (a : adata) : res xf :=
  let? chi := ad_dimensionless_spin K dspl a in average_of (map (fun c => option_map from_z (direction c)) chi) (bd_u (ad_data a)).

(** ** The supermomentum, 659-666; the target is given by its highest degree, times and modes *)
Definition tail_of (hi : Z) (f : modes) : list C := map (fun lm => f (fst lm) (snd lm)) (skipn 4 (LM_range 0 hi)).
Definition norm_of (l : list C) : R := sqrt (fold_right Rplus 0 (map norm2 l)).
(** Arrays of different lengths cannot be subtracted, unless one has length one. *)
Definition subtract (x y : list C) : res (list C) :=
  if (length x =? length y)%nat then Ok (map (fun p => (fst p - snd p)%C) (combine x y))
  else match x, y with
  | [a], _ => Ok (map (fun b => (a - b)%C) y)
  | _, [b] => Ok (map (fun a => (a - b)%C) x)
  | _, _ => Err ValueError
  end.
Definition error_psi (a : adata) (target : option mts) : res R :=
  let? P := ad_supermomentum a "Moreschi" false in
  let? i := Motion_Model.argmin (map Rabs (bd_u (ad_data a))) in
  let mine := tail_of (bd_hi (ad_data a)) (nth i P (fun _ _ => C0)) in
  match target with
  | None => Ok (norm_of mine)
  | Some T =>
    let? j := Motion_Model.argmin (map Rabs (ms_u T)) in
    let? d := subtract mine (tail_of (ms_hi T) (ms_at T j)) in
    Ok (norm_of d)
  end.

(** ** 621-668 *)
Definition rest_error (a : adata) (target_PsiM target_strain : option mts) : res (xf * xf * xf) :=
  let? c := error_com a in
  let? r := match target_strain with Some h => error_velocity a h | None => error_spin a end in
  let? p := error_psi a target_PsiM in
  Ok (c, r, Fin p).
End Errors.
