(** The Bondi-gauge constraints of AsymptoticBondiData: /repo/scri/asymptotic_bondi_data/constraints.py, with the operations on ModesTimeSeries
    (/repo/scri/modes_time_series.py) that they use.

    Multiplication, addition, conjugation, eth, real and imaginary parts and norms of modes belong to spherical_functions; they are modelled as in
    [ABD_Model], with the checks of spin weights and the choice of the highest degree that the package makes.  Values and derivatives of scipy's
    CubicSpline are the parameter [dspl].  Rounding is not modelled. *)
From Coq Require Import ZArith Reals List Bool.
From Verif Require Import Common Cplx Quat Modes_Model Times_Model Tables_Model Kwargs_Model Transform_Model Pipeline_Model ABD_Model Abdpipe_Model.
Import ListNotations.
Open Scope R_scope.

(** The two multiplication_truncators that the package is used with (asymptotic_bondi_data/__init__.py 36-53), on the two highest degrees *)
Inductive truncator := Sum | Max.
Definition truncated (tr : truncator) (l1 l2 : Z) : Z := match tr with Sum => l1 + l2 | Max => Z.max l1 l2 end%Z.
(** A ModesTimeSeries: spin weight, highest degree, truncator, times, and the modes at each index of time *)
Record mts : Type := mkmts { ms_s : Z; ms_hi : Z; ms_tr : truncator; ms_u : list R; ms_at : nat -> modes }.
(** An AsymptoticBondiData, with the truncator that all six of its fields are made with (__init__.py 64-73) *)
Record adata : Type := mkad { ad_data : bdata; ad_tr : truncator }.

Section Constraints.
(** Coefficients of products (spherical_functions), as in [ABD_Model.multiply] *)
Variable K : Z -> Z -> Z -> Z -> Z -> Z -> Z -> R.
(** scipy.interpolate.CubicSpline: [dspl n xs ys x] is the value at [x] of the [n]-th derivative of the spline through the points (xs, ys) *)
Variable dspl : nat -> list R -> list C -> R -> C.

(** CubicSpline refuses fewer than two points, and points that do not increase. *)
Fixpoint increasingb (l : list R) : bool := match l with x :: ((y :: _) as r) => Rltb x y && increasingb r | _ => true end.
(** modes_time_series.py 72-98, for derivative orders 0 to 3 (a negative order, that is an antiderivative, is left out); every mode is treated by itself *)
Definition mts_interpolate (f : mts) (new : list R) (order : nat) : res mts :=
  if (3 <? order)%nat then Err ValueError
  else if (length (ms_u f) <? 2)%nat || negb (increasingb (ms_u f)) then Err ValueError
  else Ok (mkmts (ms_s f) (ms_hi f) (ms_tr f) new
                 (fun i l m => dspl order (ms_u f) (map (fun j => ms_at f j l m) (seq 0 (length (ms_u f)))) (nth i new 0))).
(** modes_time_series.py 104-116 *)
Definition mts_derivative (f : mts) (order : nat) : res mts := mts_interpolate f (ms_u f) order.
Definition mts_dot (f : mts) : res mts := mts_derivative f 1.
Definition mts_ddot (f : mts) : res mts := mts_derivative f 2.
(** modes_time_series.py 132-135 *)
Definition mts_eth_GHP (f : mts) : mts := mkmts (ms_s f + 1) (ms_hi f) (ms_tr f) (ms_u f) (fun i => eth_GHP (ms_s f) (ms_at f i)).
(** spherical_functions: Modes.bar, unary minus, product with a number *)
Definition mts_bar (f : mts) : mts := mkmts (- ms_s f) (ms_hi f) (ms_tr f) (ms_u f) (fun i => fbar (ms_s f) (ms_at f i)).
Definition mts_opp (f : mts) : mts := mkmts (ms_s f) (ms_hi f) (ms_tr f) (ms_u f) (fun i => fopp (ms_at f i)).
Definition mts_scale (x : R) (f : mts) : mts := mkmts (ms_s f) (ms_hi f) (ms_tr f) (ms_u f) (fun i => fscale x (ms_at f i)).
(** spherical_functions: product of two Modes, truncated by the truncator of the first factor *)
Definition mts_mul (f g : mts) : mts :=
  let out := truncated (ms_tr f) (ms_hi f) (ms_hi g) in
  mkmts (ms_s f + ms_s g) out (ms_tr f) (ms_u f) (fun i => multiply K (Z.max (ms_hi f) (ms_hi g)) out (ms_s f) (ms_s g) (ms_at f i) (ms_at g i)).
(** spherical_functions: sum and difference of two Modes; the spin weights must agree, the highest degree is the larger one *)
Definition mts_add (f g : mts) : res mts :=
  if negb (ms_s f =? ms_s g)%Z then Err ValueError
  else Ok (mkmts (ms_s f) (Z.max (ms_hi f) (ms_hi g)) (ms_tr f) (ms_u f) (fun i => fadd (ms_at f i) (ms_at g i))).
Definition mts_sub (f g : mts) : res mts :=
  if negb (ms_s f =? ms_s g)%Z then Err ValueError
  else Ok (mkmts (ms_s f) (Z.max (ms_hi f) (ms_hi g)) (ms_tr f) (ms_u f) (fun i => fsub (ms_at f i) (ms_at g i))).
(** spherical_functions: Modes.imag, which np.imag calls; for spin weight 0 only *)
Definition mts_imag (f : mts) : res mts :=
  if negb (ms_s f =? 0)%Z then Err ValueError else Ok (mkmts 0 (ms_hi f) (ms_tr f) (ms_u f) (fun i => fimag (ms_at f i))).
(** spherical_functions: Modes.norm, the root of the sum of the squared magnitudes of all stored modes, at every time *)
Definition mts_norm (f : mts) : list R :=
  map (fun i => sqrt (rsum (fun lm => norm2 (ms_at f i (fst lm) (snd lm))) (LMs (ms_hi f)))) (seq 0 (length (ms_u f))).

(** The fields of the object (asymptotic_bondi_data/__init__.py 68-73): number [f] in the order of _raw_data *)
Definition mts_of (a : adata) (f : nat) : mts :=
  let b := ad_data a in
  mkmts (nth f spins 0%Z) (bd_hi b) (ad_tr a) (bd_u b)
        (fun i l m => if ((0 <=? l) && (l <=? bd_hi b) && (- l <=? m) && (m <=? l))%Z then nth (pos l m) (nth i (nth f (bd_fields b) []) []) C0 else C0).
Definition psi0 a := mts_of a 0.
Definition psi1 a := mts_of a 1.
Definition psi2 a := mts_of a 2.
Definition psi3 a := mts_of a 3.
Definition psi4 a := mts_of a 4.
Definition sigma a := mts_of a 5.

(** What the six methods return: a pair, one side, or None *)
Inductive sides := Both (l r : mts) | One (v : mts) | Nothing.
(** constraints.py 114-123, and the same lines of the five others: each side is computed only if asked for *)
Definition choose (lhs rhs : bool) (l r : res mts) : res sides :=
  let? lv := (if lhs then (let? v := l in Ok (Some v)) else Ok None) in
  let? rv := (if rhs then (let? v := r in Ok (Some v)) else Ok None) in
  Ok (match lv, rv with Some x, Some y => Both x y | Some x, None => One x | None, Some y => One y | None, None => Nothing end).
(** constraints.py 95-123 *)
Definition bianchi_0 (a : adata) (lhs rhs : bool) : res sides :=
  choose lhs rhs (mts_dot (psi0 a)) (mts_add (mts_eth_GHP (psi1 a)) (mts_mul (mts_scale 3 (sigma a)) (psi2 a))).
(** 126-154 *)
Definition bianchi_1 (a : adata) (lhs rhs : bool) : res sides :=
  choose lhs rhs (mts_dot (psi1 a)) (mts_add (mts_eth_GHP (psi2 a)) (mts_mul (mts_scale 2 (sigma a)) (psi3 a))).
(** 157-185 *)
Definition bianchi_2 (a : adata) (lhs rhs : bool) : res sides :=
  choose lhs rhs (mts_dot (psi2 a)) (mts_add (mts_eth_GHP (psi3 a)) (mts_mul (sigma a) (psi4 a))).
(** 188-216 *)
Definition constraint_3 (a : adata) (lhs rhs : bool) : res sides :=
  choose lhs rhs (Ok (psi3 a)) (let? d := mts_dot (mts_bar (sigma a)) in Ok (mts_opp (mts_eth_GHP d))).
(** 219-247 *)
Definition constraint_4 (a : adata) (lhs rhs : bool) : res sides :=
  choose lhs rhs (Ok (psi4 a)) (let? d := mts_ddot (mts_bar (sigma a)) in Ok (mts_opp d)).
(** 250-280 *)
Definition constraint_mass_aspect (a : adata) (lhs rhs : bool) : res sides :=
  choose lhs rhs (mts_imag (psi2 a))
    (let? d := mts_dot (mts_bar (sigma a)) in
     let? t := mts_add (mts_eth_GHP (mts_eth_GHP (mts_bar (sigma a)))) (mts_mul (sigma a) d) in
     let? v := mts_imag t in Ok (mts_opp v)).
(** 9-37 *)
Definition bondi_constraints (a : adata) (lhs rhs : bool) : res (list sides) :=
  each (fun f => f a lhs rhs) [bianchi_0; bianchi_1; bianchi_2; constraint_3; constraint_4; constraint_mass_aspect].
(** 40-64; unpacking anything but a pair raises *)
Definition bondi_violations (a : adata) : res (list mts) :=
  let? cs := bondi_constraints a true true in
  each (fun c => match c with Both l r => mts_sub l r | _ => Err TypeError end) cs.
(** 67-92 *)
Definition bondi_violation_norms (a : adata) : res (list (list R)) := let? vs := bondi_violations a in Ok (map mts_norm vs).

(** AsymptoticBondiData.interpolate (asymptotic_bondi_data/__init__.py 186-201), the frame left out: the new object is made without a truncator, that is, with `sum`. *)
Definition ad_interpolate (a : adata) (new : list R) : res adata :=
  let b := ad_data a in
  let? fs := each (fun f => let? g := mts_interpolate (mts_of a f) new 0 in
                            Ok (map (fun i => map (fun lm => ms_at g i (fst lm) (snd lm)) (LM_range 0 (bd_hi b))) (seq 0 (length new)))) (seq 0 6) in
  Ok (mkad (mkbd new (bd_hi b) fs (bd_frameType b) []) Sum).
End Constraints.

(** AsymptoticBondiData.transform makes its result without a truncator too (transformations.py 417) *)
Definition ad_transform (spline : list R -> list C -> res (R -> C)) map2salm (a : adata) (k : kwargs) : res adata :=
  let? b := abd_transform spline map2salm (ad_data a) k in Ok (mkad b Sum).
