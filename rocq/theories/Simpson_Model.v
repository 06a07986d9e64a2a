(** * scipy's Simpson rule, as used for the moments of the centre of mass (property C96) *)
From Coq Require Import Reals List Arith.
Import ListNotations.
Open Scope R_scope.

(** [estimate_avg_com_motion] (scri/SpEC/com_motion.py, lines 196 and 206-209) integrates with [scipy.integrate.simps(y, t, axis=0)].
    That function is written out here after scipy's code, one column at a time.  Its treatment of an even number of samples depends on the
    version of scipy: up to 1.10 the keyword [even] is 'avg' ([simps_avg]), from 1.11 until its removal in 1.14 a corrected last interval is
    used ([simps_new]).  Simplified: exact real arithmetic, equally many samples and times, and the empty array gives 0 (the code raises
    IndexError). *)

(** [_basic_simpson]: the weights of one pair of intervals of lengths h0 and h1 *)
Definition panel (y0 y1 y2 h0 h1 : R) : R :=
  let hsum := h0 + h1 in let hprod := h0 * h1 in let h0divh1 := h0 / h1 in
  hsum / 6 * (y0 * (2 - 1 / h0divh1) + y1 * (hsum * hsum / hprod) + y2 * (2 - h0divh1)).

(** [_basic_simpson(y, start, stop, x, dx, axis)] with slices of step 2, from the first sample; a last interval without partner is left out *)
Fixpoint basic (ys ts : list R) : R :=
  match ys, ts with
  | y0 :: (y1 :: ((y2 :: _) as ys')), t0 :: (t1 :: ((t2 :: _) as ts')) => panel y0 y1 y2 (t1 - t0) (t2 - t1) + basic ys' ts'
  | _, _ => 0
  end.

(** [0.5*last_dx*(y[slice1]+y[slice2])] *)
Definition trapezoid (ys ts : list R) (i j : nat) : R := / 2 * (nth j ts 0 - nth i ts 0) * (nth j ys 0 + nth i ys 0).

(** [simps(y, x)] with even='avg': the mean of Simpson's rule on all but the last and on all but the first interval, the missing intervals
    by trapezoids *)
Definition simps_avg (ys ts : list R) : R :=
  let n := length ys in
  if Nat.odd n then basic ys ts
  else (basic ys ts + basic (tl ys) (tl ts)) / 2 + (trapezoid ys ts (n - 2) (n - 1) + trapezoid ys ts 0 1) / 2.

(** [simps(y, x)] from version 1.11: the last interval by the parabola through the last three samples *)
Definition simps_new (ys ts : list R) : R :=
  let n := length ys in
  if Nat.odd n then basic ys ts
  else if Nat.leb n 2 then trapezoid ys ts 0 1
  else let h0 := nth (n - 2) ts 0 - nth (n - 3) ts 0 in let h1 := nth (n - 1) ts 0 - nth (n - 2) ts 0 in
       let alpha := (2 * h1 ^ 2 + 3 * h0 * h1) / (6 * (h1 + h0)) in
       let beta := (h1 ^ 2 + 3 * h0 * h1) / (6 * h0) in
       let eta := h1 ^ 3 / (6 * h0 * (h0 + h1)) in
       basic ys ts + (alpha * nth (n - 1) ys 0 + beta * nth (n - 2) ys 0 - eta * nth (n - 3) ys 0).
