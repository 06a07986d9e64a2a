(** Fluxes of energy, momentum, angular momentum and boost (/repo/scri/flux.py).  Numbers are exact; a row
    holds the modes of one time. *)
From Coq Require Import Reals ZArith List Bool Lia.
From Verif Require Import Common Cplx Modes_Model Modal_Model.
Import ListNotations.
Open Scope Z_scope.

(** * External: Clebsch-Gordan coefficients (spherical_functions.clebsch_gordan) *)
(** The standard table of <l m; 1 mu | J m+mu>; zero outside the selection rules. *)
Definition cg_table (l mu J M : Z) : R :=
  match (J - l)%Z, mu with
  | 1, 1 => (sqrt (IZR ((l + M) * (l + M + 1)) / IZR ((2 * l + 1) * (2 * l + 2))))%R
  | 1, 0 => (sqrt (IZR ((l - M + 1) * (l + M + 1)) / IZR ((2 * l + 1) * (l + 1))))%R
  | 1, -1 => (sqrt (IZR ((l - M) * (l - M + 1)) / IZR ((2 * l + 1) * (2 * l + 2))))%R
  | 0, 1 => (- sqrt (IZR ((l + M) * (l - M + 1)) / IZR (2 * l * (l + 1))))%R
  | 0, 0 => (IZR M / sqrt (IZR (l * (l + 1))))%R
  | 0, -1 => (sqrt (IZR ((l - M) * (l + M + 1)) / IZR (2 * l * (l + 1))))%R
  | -1, 1 => (sqrt (IZR ((l - M) * (l - M + 1)) / IZR (2 * l * (2 * l + 1))))%R
  | -1, 0 => (- sqrt (IZR ((l - M) * (l + M)) / IZR (l * (2 * l + 1))))%R
  | -1, -1 => (sqrt (IZR ((l + M + 1) * (l + M)) / IZR (2 * l * (2 * l + 1))))%R
  | _, _ => (0)%R
  end.
(** clebsch_gordan(l, m, 1, mu, J, M) *)
Definition CG_l1 (l m mu J M : Z) : R :=
  if (M =? m + mu) && (Z.abs m <=? l) && (Z.abs M <=? J) && (Z.abs mu <=? 1) && (Z.abs (l - 1) <=? J) && (J <=? l + 1)
  then cg_table l mu J M else 0%R.
(** clebsch_gordan(1, mu, l, m, J, M): exchanging the two angular momenta gives the sign (-1)^(1+l-J). *)
Definition CG_1l (mu l m J M : Z) : R := (sgn (1 + l - J) * CG_l1 l m mu J M)%R.

(** * Matrix generators *)
(** What a generator yields: (ellp, mp, ell, m, value). *)
Record entry : Type := mke { e_j : Z; e_n : Z; e_l : Z; e_m : Z; e_v : C }.

(** The loops common to p_z (235-245), p_plusminus (289-297) and the four generators inside boost_flux
    (485-496, 507-518, 549-557, 590-598): ellp within one of ell and inside the range, mp = m + sign. *)
Definition coupled (lo hi dm : Z) (val : Z -> Z -> Z -> R) : list entry :=
  flat_map (fun ell =>
    flat_map (fun ellp =>
      flat_map (fun m =>
        let mp := m + dm in
        if (mp <? - ellp) || (ellp <? mp) then [] else [mke ellp mp ell m (RtoC (val ellp ell m))])
        (zrange (- ell) (ell + 1)))
      (zrange (Z.max lo (ell - 1)) (Z.min hi (ell + 1) + 1)))
    (zrange lo (hi + 1)).

(** p_z (213-245) *)
Definition p_z_val (s ellp ell m : Z) : R :=
  (sqrt ((2 * IZR ell + 1) / (2 * IZR ellp + 1)) * CG_l1 ell m 0 ellp m * CG_l1 ell (- s) 0 ellp (- s))%R.
Definition p_z (s lo hi : Z) : res (list entry) := Ok (coupled lo hi 0 (p_z_val s)).

(** swsh_Y_mat_el and the two variants of boost_flux with l1 = 1: (271-285), (544-547), (585-588).
    [spin] is the second Clebsch-Gordan coefficient. *)
Definition Y_mat_el (c : R) (spin : R) (ellp mp sign ell m : Z) : R :=
  (sqrt ((2 * 1 + 1) * (2 * IZR ell + 1) / (4 * PI * (2 * IZR ellp + 1))) * (c * CG_1l sign ell m ellp mp) * spin)%R.
Definition pm_prefac (sign : Z) : R := (-1 * IZR sign * sqrt (8 * PI / 3))%R.
(** p_plusminus (248-300) *)
Definition p_pm_val (s sign ellp ell m : Z) : R :=
  (pm_prefac sign * Y_mat_el 1 (CG_1l 0 ell (- s) ellp (- s)) ellp (m + sign) sign ell m)%R.
Definition p_plusminus (s sign lo hi : Z) : res (list entry) :=
  if (sign =? 1) || (sign =? -1) then Ok (coupled lo hi sign (p_pm_val s sign)) else Err ValueError.

(** j_z (345-357) *)
Definition j_z (lo hi : Z) : res (list entry) :=
  Ok (flat_map (fun ell => map (fun m => mke ell m ell m (Cscale (IZR m) Ci)) (zrange (- ell) (ell + 1))) (zrange lo (hi + 1))).
(** External ladder_operator_coefficient(l, m) = sqrt((l-m)(l+m+1)). *)
Definition ladder_lm (l m : Z) : R := sqrt (IZR ((l - m) * (l + m + 1))).
(** j_plusminus (360-391) *)
Definition j_plusminus (sign lo hi : Z) : res (list entry) :=
  if (sign =? 1) || (sign =? -1) then
    Ok (flat_map (fun ell =>
          flat_map (fun m =>
            let mp := m + sign in
            if (mp <? - ell) || (ell <? mp) then [] else [mke ell mp ell m (Cscale (ladder_lm ell (m * sign)) Ci)])
            (zrange (- ell) (ell + 1))) (zrange lo (hi + 1)))
  else Err ValueError.

(** eth_chi_z (475-496), ethbar_chi_z (498-518), eth_chi_plusminus (524-557), ethbar_chi_plusminus (564-598) *)
Definition eth_chi_z_val (s ellp ell m : Z) : R :=
  (sqrt ((2 * IZR ell + 1) / (2 * IZR ellp + 1)) * (sqrt 2 * CG_l1 ell m 0 ellp m) * CG_l1 ell (- s) (-1) ellp (- 1 - s))%R.
Definition eth_chi_z (s lo hi : Z) : res (list entry) := Ok (coupled lo hi 0 (eth_chi_z_val s)).
Definition ethbar_chi_z_val (s ellp ell m : Z) : R :=
  (sqrt ((2 * IZR ell + 1) / (2 * IZR ellp + 1)) * (sqrt 2 * CG_l1 ell m 0 ellp m) * CG_l1 ell (- s - 1) 1 ellp (- s))%R.
Definition ethbar_chi_z (s lo hi : Z) : res (list entry) := Ok (coupled lo hi 0 (ethbar_chi_z_val s)).
Definition eth_chi_pm_val (s sign ellp ell m : Z) : R :=
  (pm_prefac sign * Y_mat_el (sqrt 2) (CG_1l (-1) ell (- s) ellp (- 1 - s)) ellp (m + sign) sign ell m)%R.
Definition eth_chi_plusminus (s sign lo hi : Z) : res (list entry) :=
  if (sign =? 1) || (sign =? -1) then Ok (coupled lo hi sign (eth_chi_pm_val s sign)) else Err ValueError.
Definition ethbar_chi_pm_val (s sign ellp ell m : Z) : R :=
  (pm_prefac sign * Y_mat_el (sqrt 2) (CG_1l 1 ell (- 1 - s) ellp (- s)) ellp (m + sign) sign ell m)%R.
Definition ethbar_chi_plusminus (s sign lo hi : Z) : res (list entry) :=
  if (sign =? 1) || (sign =? -1) then Ok (coupled lo hi sign (ethbar_chi_pm_val s sign)) else Err ValueError.

(** swsh_indices_to_matrix_indices (11-37): rows, columns, values as a list of triples.  `zip( *() )` of an
    empty generator cannot be unpacked into three names (ValueError).  The cache is not modelled: the
    result depends on the arguments only. *)
Definition matrix_indices (lo : Z) (es : list entry) : res (list (Z * Z * C)) :=
  match es with
  | [] => Err ValueError
  | _ => Ok (map (fun e => (LM_index (e_j e) (e_n e) lo, LM_index (e_l e) (e_m e) lo, e_v e)) es)
  end.

(** sparse_expectation_value (40-78), one time.  numba does not check bounds: leaving the array is the
    error of [rd]. *)
Definition sparse_row (abar : list C) (M : list (Z * Z * C)) (b : list C) : res C :=
  for_each M (fun rcv acc =>
    let? x := rd abar (fst (fst rcv)) in
    let? y := rd b (snd (fst rcv)) in
    Ok (acc + x * y * snd rcv)%C) C0.
Fixpoint sparse_expectation (abar : list (list C)) (M : list (Z * Z * C)) (b : list (list C)) : res (list C) :=
  match abar, b with
  | [], _ => Ok []
  | x :: abar', y :: b' =>
      let? v := sparse_row x M y in
      let? vs := sparse_expectation abar' M b' in
      Ok (v :: vs)
  | _ :: _, [] => Err IndexError
  end.

(** * Waveforms *)
Inductive dtype : Type := Th | Thdot | Tother.
Record fwave : Type := mkfw { f_type : dtype; f_spin : Z; f_lo : Z; f_hi : Z; f_t : list R; f_rows : list (list C) }.

(** `A[:, slice(start, stop)]` on the data: WaveformModes.__getitem__ (953-1021), see Modes_Model; arrays
    with a single column are refused by waveform_base.py:917-947. *)
Definition clip_rows (w : fwave) (start stop : Z) : res (list (list C)) :=
  let? (ck, _) := mode_slice (f_lo w) (f_hi w) (MSlice (Some start) (Some stop) None) in
  if 2 <=? (f_hi w + 1) ^ 2 - f_lo w ^ 2 then Ok (map (py_slice (fst ck) (snd ck)) (f_rows w)) else Err ValueError.

Section External.
(** External: intersection of two time arrays (extrapolation.py, see Times_Model), interpolation of rows
    to new times (waveform_base.py:949-967), derivative of the cubic spline (690-691). *)
Variable intersection : list R -> list R -> res (list R).
Variable interpolate : list R -> list (list C) -> list R -> list (list C).
Variable ddot : list R -> list (list C) -> list (list C).
Variable times_eqb : list R -> list R -> bool.

(** matrix_expectation_value (81-179) *)
Definition matrix_expectation (a : fwave) (M : Z -> Z -> res (list entry)) (b : fwave) (allow_LM allow_t : bool)
  : res (list R * list C) :=
  if negb (f_spin a =? f_spin b) then Err ValueError
  else
    let? (start, stop) :=
      if negb (f_lo a =? f_lo b) || negb (f_hi a =? f_hi b) then
        if allow_LM then
          let start := Z.max (f_lo a) (f_lo b) in
          let stop := Z.min (f_hi a) (f_hi b) + 1 in
          if stop <=? start then Err ValueError else Ok (start, stop)
        else Err ValueError
      else Ok (f_lo a, f_hi a + 1) in
    let? t_clip :=
      if times_eqb (f_t a) (f_t b) then Ok None
      else if allow_t then let? t := intersection (f_t a) (f_t b) in Ok (Some t)
      else Err ValueError in
    let? A := clip_rows a start stop in
    let? B := clip_rows b start stop in
    let '(times, A, B) := match t_clip with
                          | None => (f_t a, A, B)
                          | Some t => (t, interpolate (f_t a) A t, interpolate (f_t b) B t)
                          end in
    let? es := M start (stop - 1) in
    let? m := matrix_indices start es in
    let? v := sparse_expectation (map (map Conj) A) m B in
    Ok (times, v).

(** energy_flux (182-210) for a WaveformModes object *)
Definition energy_rows (rows : list (list C)) : list R :=
  map (fun row => (re (csum (fun z => Conj z * z)%C row) / (16 * PI))%R) rows.
Definition energy_flux (w : fwave) : res (list R) :=
  match f_type w with
  | Thdot => Ok (energy_rows (f_rows w))
  | Th => Ok (energy_rows (ddot (f_t w) (f_rows w)))
  | Tother => Err ValueError
  end.

(** hdot = h.copy(); hdot.dataType = hdottype; hdot.data = h.data_dot *)
Definition derivative (w : fwave) : fwave := mkfw Thdot (f_spin w) (f_lo w) (f_hi w) (f_t w) (ddot (f_t w) (f_rows w)).

Definition expect (a : fwave) (M : Z -> Z -> res (list entry)) (b : fwave) : res (list C) :=
  let? tv := matrix_expectation a M b false false in Ok (snd tv).

(** The change from (plus, minus, z) to (x, y, z) and the final factor (336-341, 434-440). *)
Definition cartesian (k : R) (p m z : list C) : list (R * R * R) :=
  map (fun pmz => let '(p, m, z) := pmz in
    ((/ 2 * (re p + re m) / k)%R, (/ 2 * (im p - im m) / k)%R, (re z / k)%R)) (combine (combine p m) z).

(** momentum_flux (303-342) *)
Definition momentum_flux (w : fwave) : res (list (R * R * R)) :=
  let? hdot := match f_type w with Thdot => Ok w | Th => Ok (derivative w) | Tother => Err ValueError end in
  let? p := expect hdot (p_plusminus (-2) 1) hdot in
  let? m := expect hdot (p_plusminus (-2) (-1)) hdot in
  let? z := expect hdot (p_z (-2)) hdot in
  Ok (cartesian (16 * PI) p m z).

(** The choice of hdot in angular_momentum_flux (403-425), boost_flux (603-624), poincare_fluxes (772-792) *)
Definition choose_hdot (h : fwave) (hdot : option fwave) : res fwave :=
  match f_type h with
  | Th => match hdot with
          | None => Ok (derivative h)
          | Some d => match f_type d with Thdot => Ok d | _ => Err ValueError end
          end
  | _ => Err ValueError
  end.

(** angular_momentum_flux (394-441) *)
Definition angular_momentum_flux (h : fwave) (hdot : option fwave) : res (list (R * R * R)) :=
  let? d := choose_hdot h hdot in
  let? p := expect d (j_plusminus 1) h in
  let? m := expect d (j_plusminus (-1)) h in
  let? z := expect d j_z h in
  Ok (cartesian (-16 * PI) p m z).

(** h.eth, h.ethbar (waveform_modes.py:531-572), with the metadata of h kept. *)
Fixpoint map_res {A B} (f : A -> res B) (l : list A) : res (list B) :=
  match l with [] => Ok [] | x :: l' => let? y := f x in let? ys := map_res f l' in Ok (y :: ys) end.
Definition with_eth (o : eth_op) (w : fwave) : res fwave :=
  let? rows := map_res (apply_eth_row [o] (f_spin w) (f_lo w) (f_hi w) conv_np) (f_rows w) in
  Ok (mkfw (f_type w) (f_spin w) (f_lo w) (f_hi w) (f_t w) rows).

(** One component of boost_flux (688-736): the nine expectation values combined, at one time. *)
Definition boost_sum (t : R) (bb ee hd : C) (bb' ee' hd' : C) (dd : C) (ec ce : C) : C :=
  (RtoC (/ 8) * (bb - ee + RtoC 6 * hd + bb' - ee' + RtoC 6 * hd')
   - RtoC (/ 2) * (RtoC t * dd) - RtoC (/ 4) * (ec - ce))%C.
Definition nine (t : list R) (l : list (list C)) : list C :=
  match l with
  | [bb; ee; hd; bb'; ee'; hd'; dd; ec; ce] =>
      map (fun i => boost_sum (nth i t 0%R) (nth i bb C0) (nth i ee C0) (nth i hd C0) (nth i bb' C0) (nth i ee' C0)
                      (nth i hd' C0) (nth i dd C0) (nth i ec C0) (nth i ce C0)) (seq 0 (length bb))
  | _ => []
  end.
(** The expectation values for one direction, from the operators chi (as a function of s), eth chi and
    ethbar chi of that direction. *)
Definition boost_terms (chi : Z -> Z -> Z -> res (list entry)) (ech ce : Z -> Z -> res (list entry))
    (h d eh bh ed bd : fwave) : res (list (list C)) :=
  let? x1 := expect bd (chi (-3)) bh in
  let? x2 := expect ed (chi (-1)) eh in
  let? x3 := expect d (chi (-2)) h in
  let? x4 := expect bh (chi (-3)) bd in
  let? x5 := expect eh (chi (-1)) ed in
  let? x6 := expect h (chi (-2)) d in
  let? x7 := expect d (chi (-2)) d in
  let? x8 := expect ed ech h in
  let? x9 := expect h ce ed in
  Ok [x1; x2; x3; x4; x5; x6; x7; x8; x9].
(** boost_flux (444-747).  The expectation values are evaluated direction by direction here; in the code
    all plus and minus terms come first. *)
Definition boost_flux (h : fwave) (hdot : option fwave) : res (list (R * R * R)) :=
  let? d := choose_hdot h hdot in
  let? eh := with_eth Eth h in
  let? bh := with_eth Ethbar h in
  let? ed := with_eth Eth d in
  let? bd := with_eth Ethbar d in
  let? p := boost_terms (fun s => p_plusminus s 1) (eth_chi_plusminus (-2) 1) (ethbar_chi_plusminus (-2) 1) h d eh bh ed bd in
  let? m := boost_terms (fun s => p_plusminus s (-1)) (eth_chi_plusminus (-2) (-1)) (ethbar_chi_plusminus (-2) (-1)) h d eh bh ed bd in
  let? z := boost_terms p_z (eth_chi_z (-2)) (ethbar_chi_z (-2)) h d eh bh ed bd in
  Ok (cartesian (-32 * PI) (nine (f_t h) p) (nine (f_t h) m) (nine (f_t h) z)).

(** poincare_fluxes (750-797) *)
Definition poincare_fluxes (h : fwave) (hdot : option fwave) :=
  let? d := choose_hdot h hdot in
  let? e := energy_flux d in
  let? p := momentum_flux d in
  let? j := angular_momentum_flux h (Some d) in
  let? b := boost_flux h (Some d) in
  Ok (e, p, j, b).
End External.
