(** * Derivatives and integrals of time series

    Source: /repo/scri/waveform_base.py 689-703 (data_dot, data_ddot, data_int, data_iint) and
    /repo/scri/modes_time_series.py 72-126 (interpolate, antiderivative, derivative, dot, ddot, int, iint).  Both
    call scipy.interpolate.CubicSpline with its default end conditions ("not-a-knot"); scipy's algorithm is written
    out here: the linear system for the slopes at the knots, the coefficients of each piece, evaluation, derivative
    and antiderivative of piecewise polynomials.  scipy solves the system with LAPACK's banded solver; here it is
    eliminated without pivoting, in exact arithmetic.  Complex values are treated by real and imaginary part. *)
From Coq Require Import Reals ZArith List Bool.
From Verif Require Import Common Cplx Times_Model Constraints_Model.
Import ListNotations.
Open Scope R_scope.

(** Polynomials, constant coefficient first; value, derivative, antiderivative with value [k] at zero *)
Fixpoint peval (p : list R) (u : R) : R := match p with [] => 0 | a :: r => a + u * peval r u end.
Fixpoint pmulx (k : R) (p : list R) : list R := match p with [] => [] | a :: r => (k * a) :: pmulx (k + 1) r end.
Definition pderiv (p : list R) : list R := match p with [] => [] | _ :: r => pmulx 1 r end.
Fixpoint pdivx (k : R) (p : list R) : list R := match p with [] => [] | a :: r => (a / k) :: pdivx (k + 1) r end.
Definition panti (k : R) (p : list R) : list R := k :: pdivx 1 p.

(** ** Piecewise polynomials (scipy's PPoly): breakpoints [x 0], ..., [x m], coefficients of piece [i] in powers of
    the distance from [x i] *)
Section PPoly.
Variable x : nat -> R.
(** The piece for the argument [v]: the last one starting at or before [v], among the pieces 0 to [k]; the first one before all *)
Fixpoint piece (k : nat) (v : R) : nat :=
  match k with 0%nat => 0%nat | S j => if Rleb (x k) v then k else piece j v end.
Definition ppval (m : nat) (c : nat -> list R) (v : R) : R :=
  let i := piece (m - 1) v in peval (c i) (v - x i).
(** PPoly.derivative *)
Definition ppderiv (c : nat -> list R) (i : nat) : list R := pderiv (c i).
(** PPoly.antiderivative: the constant of each piece continues the previous one.  For a repeated antiderivative scipy
    integrates all pieces and then adjusts the constants order by order, which is the same as integrating repeatedly. *)
Fixpoint start (c : nat -> list R) (i : nat) : R :=
  match i with 0%nat => 0 | S j => peval (panti (start c j) (c j)) (x i - x j) end.
Definition ppanti (c : nat -> list R) (i : nat) : list R := panti (start c i) (c i).
End PPoly.

(** ** CubicSpline(x, y) for the points 0, ..., [m] *)
Section Cubic.
Variables x y : nat -> R.
Variable m : nat.
Definition dx (i : nat) : R := x (S i) - x i.
Definition sl (i : nat) : R := (y (S i) - y i) / dx i.
(** Rows of the system for at least four points: lower, main and upper diagonal and right side *)
Definition lower (i : nat) : R := if (i =? m)%nat then x m - x (m - 2)%nat else dx i.
Definition diag (i : nat) : R := if (i =? 0)%nat then dx 1 else if (i =? m)%nat then dx (m - 2) else 2 * (dx (i - 1) + dx i).
Definition upper (i : nat) : R := if (i =? 0)%nat then x 2%nat - x 0%nat else dx (i - 1).
Definition rhs (i : nat) : R :=
  if (i =? 0)%nat then let d := x 2%nat - x 0%nat in ((dx 0 + 2 * d) * dx 1 * sl 0 + dx 0 * dx 0 * sl 1) / d
  else if (i =? m)%nat then
    let d := x m - x (m - 2)%nat in (dx (m - 1) * dx (m - 1) * sl (m - 2) + (2 * d + dx (m - 1)) * dx (m - 2) * sl (m - 1)) / d
  else 3 * (dx i * sl (i - 1) + dx (i - 1) * sl i).
(** Elimination *)
Fixpoint cp (i : nat) : R :=
  match i with 0%nat => upper 0 / diag 0 | S j => upper i / (diag i - lower i * cp j) end.
Fixpoint dp (i : nat) : R :=
  match i with 0%nat => rhs 0 / diag 0 | S j => (rhs i - lower i * dp j) / (diag i - lower i * cp j) end.
Fixpoint back (k : nat) : R :=
  match k with 0%nat => dp m | S j => dp (m - k) - cp (m - k) * back j end.
(** Slopes at the knots; for three points a parabola, for two a straight line *)
Definition slope (i : nat) : R :=
  match m with
  | 0%nat => 0
  | 1%nat => sl 0
  | 2%nat => let s1 := (dx 1 * sl 0 + dx 0 * sl 1) / (dx 0 + dx 1) in
             match i with 0%nat => 2 * sl 0 - s1 | 1%nat => s1 | _ => 2 * sl 1 - s1 end
  | _ => back (m - i)
  end.
(** CubicHermiteSpline: coefficients of piece [i] *)
Definition hermite (s : nat -> R) (i : nat) : list R :=
  let t := (s i + s (S i) - 2 * sl i) / dx i in
  [y i; s i; (sl i - s i) / dx i - t; t / dx i].
End Cubic.

(** The coefficients after differentiating [k] times, or integrating [-k] times *)
Definition order_of (x : nat -> R) (c : nat -> list R) (k : Z) : nat -> list R :=
  if (k <? 0)%Z then Nat.iter (Z.to_nat (- k)) (ppanti x) c else Nat.iter (Z.to_nat k) ppderiv c.
(** CubicSpline(xs, ys), its derivative of order [k] or its antiderivative of order [-k], at [v], for real values *)
Definition spline_real (k : Z) (xs ys : list R) (v : R) : R :=
  let x i := nth i xs 0 in let y i := nth i ys 0 in let m := (length xs - 1)%nat in
  ppval x m (order_of x (hermite x y (slope x y m)) k) v.
(** The same for complex values *)
Definition spline (k : Z) (xs : list R) (ys : list C) (v : R) : C :=
  mkC (spline_real k xs (map re ys) v) (spline_real k xs (map im ys) v).

(** CubicSpline refuses fewer than two points, and points that do not increase; with several columns every column has its own spline. *)
Definition splines (k : Z) (t : list R) (data : list (list C)) (n : nat) (new : list R) : res (list (list C)) :=
  if (length t <? 2)%nat || negb (increasingb t) then Err ValueError
  else Ok (map (fun v => map (fun j => spline k t (map (fun r => nth j r C0) data) v) (seq 0 n)) new).
(** waveform_base.py 689-703, for data with [n] columns *)
Definition data_dot t data n := splines 1 t data n t.
Definition data_ddot t data n := splines 2 t data n t.
Definition data_int t data n := splines (-1) t data n t.
Definition data_iint t data n := splines (-2) t data n t.

(** modes_time_series.py 72-98: [out] is None or an array, given by shape and entries.  85: [out or np.empty(...)] asks for
    the truth value of an array, which is defined for at most one entry (an empty array counts as false); a false one is replaced by a new array. *)
Record array := mkarr { a_rows : nat; a_cols : nat; a_data : list (list C) }.
Definition truth (a : array) : res bool :=
  match (a_rows a * a_cols a)%nat with
  | 0%nat => Ok false
  | 1%nat => let z := nth 0 (nth 0 (a_data a) []) C0 in
             Ok (negb ((if Req_EM_T (re z) 0 then true else false) && (if Req_EM_T (im z) 0 then true else false)))
  | _ => Err ValueError
  end.
(** The result, and what the array given as [out] holds afterwards *)
Definition interpolate (t : list R) (data : list (list C)) (n : nat) (new : list R) (order : Z) (out : option array) : res (list (list C) * option array) :=
  let? filled := match out with
    | None => Ok false
    | Some a => if negb ((a_rows a =? length new)%nat && (a_cols a =? n)%nat) then Err ValueError else truth a
    end in
  if (3 <? order)%Z then Err ValueError
  else
    let? r := splines order t data n new in
    Ok (r, match out with Some a => if filled then Some (mkarr (a_rows a) (a_cols a) r) else out | None => None end).
(** 100-126 *)
Definition derivative t data n order := let? r := interpolate t data n t order None in Ok (fst r).
Definition antiderivative t data n order := let? r := interpolate t data n t (- order) None in Ok (fst r).
