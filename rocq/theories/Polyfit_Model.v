(** * Least squares written out (properties C43 and C70) *)
From Coq Require Import Reals List.
From Verif Require Import Common Cplx.
Import ListNotations.
Open Scope R_scope.

(** The code calls [numpy.polynomial.polynomial.polyfit(x, y, N)] (scri/extrapolation.py, lines 2 and 1403) and [numpy.polyfit(t, y, deg=1)]
    (scri/asymptotic_bondi_data/map_to_superrest_frame.py, line 334).  numpy solves the least-squares problem with a
    singular value decomposition after scaling the columns; here it is solved in exact arithmetic by orthogonal polynomials.  Where the
    solution is unique ([C43_unique]) no other method can return anything else. *)

(** Value at x of the polynomial with coefficients [c], lowest order first *)
Fixpoint value (c : list C) (x : R) : C := match c with [] => C0 | a :: r => (a + RtoC x * value r x)%C end.
Definition inner (l : list nat) (f g : nat -> C) : C := csum (fun i => (Conj (g i) * f i)%C) l.
Definition combination (c : list C) (k : C) (d : list C) : list C := map (fun p => (fst p + k * snd p)%C) (combine c d).

(** The n coefficients of the polynomial of degree below n nearest to the values [y] at the points [X] *)
Fixpoint project (l : list nat) (X : nat -> R) (n : nat) (y : nat -> C) : list C :=
  match n with
  | O => []
  | S n' =>
      let m := project l X n' (fun i => RtoC (X i ^ n')) in
      let q := combination (repeat C0 n' ++ [C1]) (- C1)%C (m ++ [C0]) in
      let Q := fun i => value q (X i) in
      let beta := if Req_EM_T (rsum (fun i => norm2 (Q i)) l) 0 then C0 else (inner l y Q / inner l Q Q)%C in
      combination (project l X n' y ++ [C0]) beta q
  end.
(** [numpy.polynomial.polynomial.polyfit(x, y, N)]: N + 1 coefficients *)
Definition polyfit (x : list R) (y : list C) (N : nat) : list C :=
  project (seq 0 (length x)) (fun i => nth i x 0) (S N) (fun i => nth i y C0).

(** [numpy.polyfit(t, y, deg=1)]: slope and intercept from the normal equations *)
Definition total (l : list R) : R := fold_right Rplus 0 l.
Definition line (t y : list R) : R * R :=
  let n := INR (length t) in let st := total t in let sy := total y in
  let stt := total (map (fun a => a * a) t) in let sty := total (map (fun p => fst p * snd p) (combine t y)) in
  let d := n * stt - st * st in
  ((n * sty - st * sy) / d, (stt * sy - st * sty) / d).
