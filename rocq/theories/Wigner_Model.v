(** * Wigner's D matrices, as computed by the external package spherical_functions

    The formula is that of the package's documentation for [Wigner_D_element(R, ell, mp, m)], with the two
    complex parts R.a = w + i z and R.b = y + i x of a rotor (rotations.py 316, 330).  The code of /repo calls
    [sf._Wigner_D_matrices]; how that computes the sum is not modelled. *)
From Coq Require Import Reals ZArith List Bool.
From Verif Require Import Cplx Quat Transform_Model.
Import ListNotations.
Open Scope R_scope.

Definition part_a (q : quat) : C := mkC (qw q) (qz q).
Definition part_b (q : quat) : C := mkC (qy q) (qx q).
(** Binomial coefficients. *)
Fixpoint bin (n k : nat) : nat :=
  match n, k with
  | _, O => 1
  | O, S _ => 0
  | S n', S k' => bin n' k' + bin n' k
  end.
(** Term number [r] of the sum, with n = 2 ell, j' = ell + m', j = ell + m; terms with a negative exponent
    are absent. *)
Definition wterm (a b : C) (n j' j r : nat) : C :=
  if ((r + j <=? n) && (j' <=? r + j))%nat
  then Cscale (INR (bin j' r) * INR (bin (n - j') (n - j - r)) * (-1) ^ r)
         (Cpow a (j' - r) * Cpow (Conj a) (n - j - r) * Cpow b (r + j - j') * Cpow (Conj b) r)%C
  else C0.
Definition wnorm (n j : nat) : R := sqrt (INR (fact j) * INR (fact (n - j))).
Definition wigner_D (q : quat) (l m' m : Z) : C :=
  let n := Z.to_nat (2 * l) in
  let j' := Z.to_nat (l + m') in
  let j := Z.to_nat (l + m) in
  Cscale (wnorm n j / wnorm n j') (csum (wterm (part_a q) (part_b q) n j' j) (seq 0 (S j'))).
