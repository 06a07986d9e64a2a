(** * Fields on the sphere: spin-weighted spherical harmonics evaluated on rotors, and the equiangular grid

    The harmonics are those of the external package spherical_functions, whose documentation defines
    SWSH(R, s, [ell, m]) = (-1)^s sqrt((2 ell + 1) / (4 pi)) D^ell_{m,-s}(R); SWSH_grid evaluates all of them
    on an array of rotors (waveform_grid.py 467-468, 509, 512, 532) and Modes.evaluate sums them with the mode
    weights (transformations.py 290-333). *)
From Coq Require Import Reals ZArith List Bool.
From Verif Require Import Common Cplx Quat Modes_Model Kwargs_Model Transform_Model Wigner_Model.
Import ListNotations.
Open Scope R_scope.

Definition swsh (s l m : Z) (q : quat) : C :=
  if ((Z.abs s <=? l) && (Z.abs m <=? l))%Z
  then Cscale (sgn s * sqrt (IZR (2 * l + 1) / (4 * PI))) (wigner_D q l m (- s))
  else C0.
(** sf.SWSH_grid at one rotor: the harmonics of all degrees up to ell_max, in the order of the modes *)
Definition SWSH (s ell_max : Z) (q : quat) : list C := map (fun lm => swsh s (fst lm) (snd lm) q) (LM_range 0 ell_max).
(** np.tensordot of one row of modes with the harmonics at one rotor *)
Fixpoint dotl (a b : list C) : C := match a, b with x :: a', y :: b' => (x * y + dotl a' b')%C | _, _ => C0 end.
Definition tensordot (a b : list C) : res C := if Nat.eqb (length a) (length b) then Ok (dotl a b) else Err ValueError.

(** External quaternion.from_spherical_coords(theta, phi) = exp(phi z / 2) exp(theta y / 2) *)
Definition from_spherical (theta phi : R) : quat :=
  mkq (cos (phi / 2) * cos (theta / 2)) (- sin (phi / 2) * sin (theta / 2)) (cos (phi / 2) * sin (theta / 2)) (sin (phi / 2) * cos (theta / 2)).
(** np.linspace(0, pi, num=n, endpoint=True) and np.linspace(0, 2 pi, num=n, endpoint=False)
    (waveform_grid.py 131-136, transformations.py 136-141); a single point is at 0 *)
Definition theta_at (n j : Z) : R := if (n <=? 1)%Z then 0 else IZR j * (PI / IZR (n - 1)).
Definition phi_at (n k : Z) : R := IZR k * (2 * PI / IZR n).
(** The grid points, row after row *)
Definition grid_points (n_theta n_phi : Z) : list quat :=
  flat_map (fun j => map (fun k => from_spherical (theta_at n_theta j) (phi_at n_phi k)) (zrange 0 n_phi)) (zrange 0 n_theta).
