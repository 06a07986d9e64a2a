(** Data-type codes, weight tables and unit conversion: /repo/scri/__init__.py 78-84,
    waveform_base.py 440-475 and 969-1044, SpEC/file_io/__init__.py 36-47 and 421-450. *)
From Coq Require Import Reals ZArith List Lia Lra Bool.
From Verif Require Import Common Cplx.
Import ListNotations.
Open Scope Z_scope.

(** __init__.py 81-86.  [sys.maxsize] as on 64-bit platforms. *)
Definition maxsize : Z := 2 ^ 63 - 1.
Definition UnknownDataType := 0. Definition psi0 := 1. Definition psi1 := 2. Definition psi2 := 3.
Definition psi3 := 4. Definition psi4 := 5. Definition sigma := 6. Definition h := 7.
Definition hdot := 8. Definition news := 9. Definition psin := 10.
Definition DataType : list Z := zrange 0 11.
Definition SpinWeights : list Z := [maxsize; 2; 1; 0; -1; -2; 2; -2; -2; -2; maxsize].
Definition ConformalWeights : list Z := [maxsize; 2; 1; 0; -1; -2; 1; 0; -1; -1; -3].
Definition RScaling : list Z := [maxsize; 5; 4; 3; 2; 1; 2; 1; 1; 1; 0].
Definition MScaling : list Z := [maxsize; 2; 2; 2; 2; 2; 0; 0; 1; 1; 2].

(** Python indexing of a list by a non-negative or negative integer. *)
Definition py_get (l : list Z) (i : Z) : res Z :=
  let n := Z.of_nat (length l) in
  let j := if i <? 0 then i + n else i in
  if (0 <=? j) && (j <? n) then Ok (nth (Z.to_nat j) l 0) else Err IndexError.

(** dictionary lookup *)
Fixpoint dict_get (d : list (Z * Z)) (k : Z) : res Z :=
  match d with
  | [] => Err KeyError
  | (a, b) :: r => if a =? k then Ok b else dict_get r k
  end.

(** SpEC/file_io/__init__.py 36-40 *)
Definition GWFrames_to_waveforms (d : Z) : res Z :=
  if d <? 8 then
    dict_get [(0, UnknownDataType); (1, h); (2, hdot); (3, psi4); (4, psi3); (5, psi2); (6, psi1); (7, psi0)] d
  else py_get DataType (d - 8).

(** Lines 43-47 *)
Definition waveforms_to_GWFrames (d : Z) : res Z :=
  if existsb (Z.eqb d) [UnknownDataType; h; hdot; psi4; psi3; psi2; psi1; psi0] then
    dict_get [(UnknownDataType, 0); (h, 1); (hdot, 2); (psi4, 3); (psi3, 4); (psi2, 5); (psi1, 6); (psi0, 7)] d
  else Ok (d + 8).

(** waveform_base.py 440-475 *)
Definition spin_weight (d : Z) : res Z := py_get SpinWeights d.
Definition conformal_weight (d : Z) (r_scaled : bool) : res Z :=
  let? c := py_get ConformalWeights d in
  let? r := py_get RScaling d in
  Ok (c + (if r_scaled then - r else 0)).
Definition gamma_weight (d : Z) (r_scaled m_scaled : bool) : res Z :=
  let? m := py_get MScaling d in
  let? r := py_get RScaling d in
  Ok ((if m_scaled then m else 0) + (if r_scaled && m_scaled then - r else 0)).
Definition r_scaling (d : Z) : res Z := py_get RScaling d.
Definition m_scaling (d : Z) : res Z := py_get MScaling d.

Open Scope R_scope.
(** __init__.py 61-76 *)
Definition speed_of_light : R := 299792458.
Definition m_sun_in_meters : R := 147662503851 / 100000000.
Definition parsec_in_meters : R := 30856775814913672789139379577965 / 1000000000000000.

(** The part of a waveform touched by unit changes; a row per time, a column per mode. *)
Record uwave := mkuwave { u_t : list R; u_data : list (list C); u_type : Z; u_r : bool; u_m : bool }.

(** SI_units, waveform_base.py 969-1044 (warnings not modelled). *)
Definition amplitude_scaling (rs ms : Z) (r_scaled m_scaled : bool) (R_over_M M_in_meters : R) : R :=
  if r_scaled then
    if m_scaled then powerRZ R_over_M (- rs) * powerRZ M_in_meters (- ms)
    else powerRZ R_over_M (- rs)
  else if m_scaled then powerRZ M_in_meters (- ms) else 1.

Definition SI_units (w : uwave) (mass distance : R) : res uwave :=
  let? rs := r_scaling (u_type w) in
  let? ms := m_scaling (u_type w) in
  let M_in_meters := mass * m_sun_in_meters in
  let M_in_seconds := M_in_meters / speed_of_light in
  let R_in_meters := distance * (1000000 * parsec_in_meters) in
  let R_over_M := R_in_meters / M_in_meters in
  let a := amplitude_scaling rs ms (u_r w) (u_m w) R_over_M M_in_meters in
  Ok (mkuwave (if u_m w then map (Rmult M_in_seconds) (u_t w) else u_t w)
              (map (map (Cscale a)) (u_data w)) (u_type w) false false).

(** make_variable_dimensionless, SpEC/file_io/__init__.py 421-450 *)
Definition make_variable_dimensionless (w : uwave) (ch_mass : R) : res uwave :=
  if u_m w then Ok w
  else
    let? factor :=
      (if existsb (Z.eqb (u_type w)) [psi4; psi3; psi2; psi1; psi0] then Ok (powerRZ ch_mass (u_type w - 4))
       else if (u_type w =? h)%Z then Ok (1 / ch_mass)
       else if (u_type w =? hdot)%Z then Ok 1
       else Err ValueError) in
    Ok (mkuwave (map (fun t => t / ch_mass) (u_t w)) (map (map (Cscale factor)) (u_data w))
                (u_type w) (u_r w) true).
