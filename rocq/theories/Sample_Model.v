(** * Sample waveforms: /repo/scri/sample_waveforms.py
    modes_constructor (12-57), constant_waveform (60-77), single_mode (80-101), single_mode_constant_rotation (195-251),
    single_mode_proportional_to_time (254-309), single_mode_proportional_to_time_supertranslated (312-380) and
    pn_leading_order_amplitude (536-593).

    Times and values are real and complex numbers; warnings, the constructor statement and the history are not modelled, nor are
    the checks repeated by the WaveformModes initializer (Create_Model, Modes_Model). *)
From Coq Require Import Reals ZArith List Bool.
From Verif Require Import Common Cplx Quat Modes_Model Times_Model Tables_Model Kwargs_Model Transform_Model Rotate_Model Sphere_Model Pipeline_Model.
Import ListNotations.
Open Scope R_scope.

(** np.arange(a, b, d): ceil((b - a) / d) numbers a + i d *)
Definition ceiling (x : R) : Z := (1 - up (- x))%Z.
Definition arange (a b d : R) : res (list R) :=
  if Req_EM_T d 0 then Err ValueError
  else Ok (map (fun i => a + INR i * d) (seq 0 (Z.to_nat (ceiling ((b - a) / d))))).
(** list.index *)
Fixpoint index_of (x : Z) (l : list Z) (i : Z) : res Z :=
  match l with [] => Err ValueError | y :: l' => if (y =? x)%Z then Ok i else index_of x l' (i + 1)%Z end.
(** sf.LM_total_size *)
Definition LM_total_size (lo hi : Z) : Z := (hi * (hi + 2) - lo ^ 2 + 1)%Z.
Definition zeros (n : Z) : res (list C) := if (n <? 0)%Z then Err ValueError else Ok (repeat C0 (Z.to_nat n)).
(** Python index [i] into [n] columns *)
Definition column_number (n i : Z) : res nat :=
  let j := if (i <? 0)%Z then (i + n)%Z else i in
  if ((0 <=? j) && (j <? n))%Z then Ok (Z.to_nat j) else Err IndexError.
(** np.exp of a complex number *)
Definition Cexp (z : C) : C := Cscale (exp (re z)) (mkC (cos (im z)) (sin (im z))).

(** Keyword arguments of the three functions of lines 195-380, None where absent *)
Record sargs : Type := mksa {
  sa_s : option Z; sa_ell : option Z; sa_m : option Z; sa_lo : option Z; sa_hi : option Z; sa_type : option Z;
  sa_t0 : option R; sa_t1 : option R; sa_dt : option R }.
Definition a_s (a : sargs) : Z := dflt (-2)%Z (sa_s a).
Definition a_ell (a : sargs) : Z := dflt (Z.abs (a_s a)) (sa_ell a).
Definition a_m (a : sargs) : Z := dflt (- a_ell a)%Z (sa_m a).
Definition a_lo (a : sargs) : Z := dflt (Z.abs (a_s a)) (sa_lo a).
Definition a_hi (a : sargs) : Z := dflt 8%Z (sa_hi a).
Definition a_t0 (a : sargs) : R := dflt (-20) (sa_t0 a).
Definition a_t1 (a : sargs) : R := dflt 20 (sa_t1 a).
Definition a_dt (a : sargs) : R := dflt (1 / 10) (sa_dt a).
(** 227 = 285 = 333: the default is looked up even when a type is given *)
Definition a_type (a : sargs) : res Z :=
  let? i := index_of (a_s a) SpinWeights 0 in
  let? d := py_get DataType i in
  Ok (dflt d (sa_type a)).
(** 222-235, 280-293, 328-341 *)
Definition single_rows (f : R -> C) (a : sargs) : res (Z * list R * list (list C)) :=
  let? d := a_type a in
  let? t := arange (a_t0 a) (a_t1 a + a_dt a) (a_dt a) in
  let? row := zeros (LM_total_size (a_lo a) (a_hi a)) in
  let? j := column_number (LM_total_size (a_lo a) (a_hi a)) (LM_index (a_ell a) (a_m a) (a_lo a)) in
  let? rows := each (fun x => put row j (f x)) t in
  Ok (d, t, rows).
Definition single_waveform (f : R -> C) (a : sargs) : res pwave :=
  let? (p, rows) := single_rows f a in
  Ok (mkpw (snd p) rows (a_lo a) (a_hi a) [] InertialFrame (fst p) true).
(** 195-251 *)
Definition constant_rotation (omega : C) (a : sargs) : res pwave := single_waveform (fun t => Cexp (Ci * omega * RtoC t)%C) a.
(** 254-309 *)
Definition proportional_to_time (beta : C) (a : sargs) : res pwave := single_waveform (fun t => (beta * RtoC t)%C) a.

Section Wigner.
(** External sf.Wigner3j(j1, j2, j3, m1, m2, m3) *)
Variable wigner3j : Z -> Z -> Z -> Z -> Z -> Z -> R.

(** 342-346 *)
Definition read_alpha (super : option (list C)) (space : option vec3) : res (list C) :=
  let a := dflt [] super in
  match space with
  | None => Ok a
  | Some v => let a := if (length a <? 4)%nat then a ++ repeat C0 (4 - length a) else a in put3 a (map (fun z => (- z)%C) (vector_as_ell_1_modes v))
  end.
(** 355-363 *)
Definition addition (s ell m : Z) (beta x : C) (l2 m2 l' : Z) : C :=
  Cscale ((if (Z.modulo (s + (m + m2)) 2 =? 1)%Z then - 1 else 1) * sqrt (IZR ((2 * l2 + 1) * (2 * ell + 1) * (2 * l' + 1)) / (4 * PI))
          * wigner3j l2 ell l' 0 (- s) s * wigner3j l2 ell l' m2 m (- (m + m2)))
    (beta * x)%C.
Definition add_at (row : list C) (n i : Z) (v : C) : res (list C) :=
  let? j := column_number n i in let? x := get row j in put row j (x + v)%C.
(** 350-364 for one row of data *)
Definition supertranslate_row (a : sargs) (beta : C) (alpha : list C) (L : Z) (row : list C) : res (list C) :=
  let s := a_s a in let ell := a_ell a in let m := a_m a in let lo := a_lo a in let hi := a_hi a in
  fold_res (fun row p =>
    let '(x, (l2, m2)) := p in
    if Cnonzero x then
      fold_res (fun row l' => if (Z.abs (m + m2) <=? l')%Z
                              then add_at row (LM_total_size lo hi) (LM_index l' (m + m2) lo) (addition s ell m beta x l2 m2 l') else Ok row)
        (zrange lo (Z.min hi (ell + l2) + 1)) row
    else Ok row) (combine alpha (LM_range 0 L)) row.
(** 312-380; the size is checked at 347-349 *)
Definition supertranslated (beta : C) (super : option (list C)) (space : option vec3) (a : sargs) : res pwave :=
  let? (p, rows) := single_rows (fun t => (beta * RtoC t)%C) a in
  let? alpha := read_alpha super space in
  let L := ell_max_of alpha in
  if (L * (L + 2) + 1 =? Z.of_nat (length alpha))%Z then
    let? rows := each (supertranslate_row a beta alpha L) rows in
    Ok (mkpw (snd p) rows (a_lo a) (a_hi a) [] InertialFrame (fst p) true)
  else Err ValueError.
End Wigner.

(** ** modes_constructor and its callers *)
Record mckw : Type := mkmc {
  mc_t : option (list R); mc_frame : option (list quat); mc_frameType : option ftype; mc_dataType : option Z; mc_r : option bool;
  mc_lo : option Z; mc_hi : option Z }.
Definition no_kwargs : mckw := mkmc None None None None None None None.
(** np.linspace(-10, 100, num=1101) *)
Definition default_times : list R := map (fun i => -10 + INR i * (110 / 1100)) (seq 0 1101).
(** 31-57. [functor t LM] is one row for every time *)
Definition modes_constructor (functor : list R -> list (Z * Z) -> res (list (list C))) (k : mckw) : res pwave :=
  let t := dflt default_times (mc_t k) in
  let d := dflt h (mc_dataType k) in
  let? s := spin_weight d in
  let lo := dflt (Z.abs s) (mc_lo k) in
  let hi := dflt 8%Z (mc_hi k) in
  let? rows := functor t (LM_range lo hi) in
  Ok (mkpw t rows lo hi (dflt [] (mc_frame k)) (dflt InertialFrame (mc_frameType k)) d (dflt true (mc_r k))).
(** 60-77: the keyword arguments are reported as unused and not passed on (77) *)
Definition constant_waveform (k : mckw) : res pwave :=
  modes_constructor (fun t LM => Ok (map (fun _ => map (fun lm => mkC (IZR (snd lm)) (- IZR (snd lm))) LM) t)) no_kwargs.
(** 80-101, likewise *)
Definition single_mode (ell m : Z) (k : mckw) : res pwave :=
  modes_constructor (fun t LM =>
    match map fst LM with
    | [] => Err ValueError
    | l0 :: ls => let lo := fold_left Z.min ls l0 in
        let? row := zeros (Z.of_nat (length LM)) in
        let? j := column_number (Z.of_nat (length LM)) (LM_index ell m lo) in
        each (fun _ => put row j C1) t
    end) no_kwargs.

(** ** pn_leading_order_amplitude, 536-593, for ell >= 2, |m| <= ell, x > 0 and a positive mass ratio *)
Fixpoint dfact (n : nat) : R := match n with O => 1 | S O => 1 | S (S n' as n1) => INR n * dfact n' end.
Definition factR (n : Z) : R := INR (fact (Z.to_nat n)).
Definition nu_of (q : R) : R := q / (1 + q) ^ 2.
(** 552-556 *)
Definition pn_sigma (q : R) (l : Z) : R :=
  (1 / (q + 1)) ^ Z.to_nat (l - 1) + sgn l * (q / (q + 1)) ^ Z.to_nat (l - 1).
(** 549-593 for m >= 0 *)
Definition pn_amplitude (l m : Z) (x q : R) : C :=
  let q := if Rltb q 1 then 1 / q else q in
  let i_m := Cpow (Ci * RtoC (IZR m))%C (Z.to_nat l) in
  let A :=
    if (Z.modulo (l + m) 2 =? 0)%Z then
      Cscale (sgn ((l - m + 2) / 2) / (2 ^ Z.to_nat (l + 1) * factR ((l + m) / 2) * factR ((l - m) / 2) * dfact (Z.to_nat (2 * l - 1)))
              * sqrt (IZR (5 * (l + 1) * (l + 2)) * factR (l + m) * factR (l - m) / IZR (l * (l - 1) * (2 * l + 1)))
              * pn_sigma q l) (i_m * RtoC (Rpower x (IZR l / 2 - 1)))%C
    else
      Cscale (sgn ((l - m - 1) / 2) / (2 ^ Z.to_nat (l - 1) * factR ((l + m - 1) / 2) * factR ((l - m - 1) / 2) * dfact (Z.to_nat (2 * l + 1)))
              * sqrt (IZR (5 * (l + 2) * (2 * l + 1)) * factR (l + m) * factR (l - m) / IZR (l * (l - 1) * (l + 1)))
              * pn_sigma q (l + 1)) (Ci * i_m * RtoC (Rpower x ((IZR l - 1) / 2)))%C in
  Cscale (8 * sqrt (PI / 5) * nu_of q * x) A.
(** 546-547 *)
Definition pn_leading_order_amplitude (l m : Z) (x q : R) : C :=
  if (m <? 0)%Z then Cscale (sgn l) (Conj (pn_amplitude l (- m) x q)) else pn_amplitude l m x q.
