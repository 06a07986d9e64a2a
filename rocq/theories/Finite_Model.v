(** * Reading one waveform at finite radius: /repo/scri/extrapolation.py 247-416

    Numbers are exact reals.  A value that floating-point arithmetic would turn into NaN or an
    infinity (division by zero, root or logarithm outside the domain) is [None]; an infinity that
    would become finite again (1/inf) is not distinguished from NaN. *)
From Coq Require Import Reals ZArith List Bool.
From Verif Require Import Common Cplx Quat Times_Model Tables_Model.
Import ListNotations.
Open Scope R_scope.

Definition odiv (a b : R) : option R := if Req_EM_T b 0 then None else Some (a / b).
Definition osqrt (x : R) : option R := if Rltb x 0 then None else Some (sqrt x).
Definition olog (x : R) : option R := if Rleb x 0 then None else Some (ln x).
Definition obind {A B} (x : option A) (f : A -> option B) : option B :=
  match x with Some a => f a | None => None end.
Definition omap2 {A B D} (f : A -> B -> D) (x : option A) (y : option B) : option D :=
  match x, y with Some a, Some b => Some (f a b) | _, _ => None end.

(** [a[Indices]] *)
Fixpoint take {A} (l : list A) (Ind : list nat) : res (list A) :=
  match Ind with
  | [] => Ok []
  | i :: r => match nth_error l i with
              | None => Err IndexError
              | Some x => let? t := take l r in Ok (x :: t)
              end
  end.

(** Contents of one group of the file: the columns of ArealRadius.dat and AverageLapse.dat, the
    numbers in CoordRadius.dat and InitialAdmEnergy.dat, and the waveform as stored (times, one
    row of modes per time, data type, frame). *)
Record source := mksource {
  s_lapse_t : list R; s_lapse : list R; s_areal : list R; s_coord : R; s_adm : R;
  s_modes_t : list R; s_rows : list (list C); s_type : Z; s_frame : list quat }.

Record finite := mkfinite {
  f_t : list (option R); f_rows : list (list (option C)); f_radii : list R;
  f_type : Z; f_frame : list quat; f_m_is_scaled_out : bool }.

(** What the two readers return: lines 279 and 340 ([Indices] and the waveform, still unfiltered,
    followed by the filtered auxiliary quantities). *)
Record aux := mkaux {
  a_T : list R; a_Ind : list nat; a_radii : list R; a_lapse : list R;
  a_rows : list (list C) }.

Definition MinTimeStep : R := 1 / 1000.

(** Lines 247-279.  [read_from_h5] (SpEC/file_io 274-289) rejects data sets whose times are not all
    records of [index_is_monotonic]. *)
Definition read_nrar (fuel : nat) (s : source) : res aux :=
  let? Ind := monotonic_indices (s_lapse_t s) MinTimeStep fuel in
  let? T := take (s_lapse_t s) Ind in
  let? radii := take (s_areal s) Ind in
  let? lapse := take (s_lapse s) Ind in
  let? mono := index_is_monotonic (s_modes_t s) in
  if forallb (fun b => b) mono then Ok (mkaux T Ind radii lapse (s_rows s)) else Err ValueError.

(** Lines 324-340: the times are those of the waveform.  Decoding of the file (lines 297-323) is
    in Accept_Model and in the codec models. *)
Definition read_rpdmb (fuel : nat) (s : source) : res aux :=
  let? Ind := monotonic_indices (s_modes_t s) MinTimeStep fuel in
  let? T := take (s_modes_t s) Ind in
  let? radii := take (s_areal s) Ind in
  let? lapse := take (s_lapse s) Ind in
  Ok (mkaux T Ind radii lapse (s_rows s)).

(** Line 357: [AverageLapse / sqrt(((-2.0 * InitialAdmEnergy) / Radii) + 1.0)] *)
Definition rate (E N r : R) : option R :=
  obind (odiv (-2 * E) r) (fun x => obind (osqrt (x + 1)) (fun y => odiv N y)).
(** [cumulative_trapezoid(y, x)], with the running sum [acc] *)
Fixpoint cumtrapz (acc : option R) (y : list (option R)) (x : list R) : list (option R) :=
  match y, x with
  | y0 :: ((y1 :: _) as y'), x0 :: ((x1 :: _) as x') =>
      let acc' := omap2 Rplus acc (omap2 (fun a b => (x1 - x0) * (a + b) / 2) y0 y1) in
      acc' :: cumtrapz acc' y' x'
  | _, _ => []
  end.
(** Lines 357-358: [T[1:] = integrate(...) + T[0]] *)
Definition proper_times (E : R) (T lapse radii : list R) : res (list (option R)) :=
  match T with
  | [] => Err ValueError
  | T0 :: _ =>
      let y := map (fun p => rate E (fst p) (snd p)) (combine lapse radii) in
      Ok (Some T0 :: map (fun x => omap2 Rplus x (Some T0)) (cumtrapz (Some 0) y T))
  end.
(** Lines 359-360: [Radii + 2E log(Radii / (2E) - 1)] *)
Definition tortoise (E r : R) : option R :=
  obind (odiv r (2 * E)) (fun x => obind (olog (x - 1)) (fun l => Some (r + 2 * E * l))).

(** Lines 363-385 *)
Definition scale_factors (d : Z) (M : R) : res (R * nat) :=
  if (d =? h)%Z then Ok (1 / M, 1%nat)
  else if (d =? hdot)%Z then Ok (1, 1%nat)
  else if (d =? psi4)%Z then Ok (M, 1%nat)
  else if (d =? psi3)%Z then Ok (1, 2%nat)
  else if (d =? psi2)%Z then Ok (1 / M, 3%nat)
  else if (d =? psi1)%Z then Ok (1 / M ^ 2, 4%nat)
  else if (d =? psi0)%Z then Ok (1 / M ^ 3, 5%nat)
  else Err ValueError.

(** Lines 355-416.  [M] is ChMass, which the caller has checked not to be zero. *)
Definition rescale (s : source) (M : R) (a : aux) : res finite :=
  let? T1 := proper_times (s_adm s) (a_T a) (a_lapse a) (a_radii a) in
  let T2 := map (fun p => omap2 Rminus (fst p) (tortoise (s_adm s) (snd p))) (combine T1 (a_radii a)) in
  let? (unit, e) := scale_factors (s_type s) M in
  let? rows := take (a_rows a) (a_Ind a) in
  let? frame := if (1 <? length (s_frame s))%nat then take (s_frame s) (a_Ind a) else Ok (s_frame s) in
  let ratio := map (fun r => obind (odiv r (s_coord s)) (fun q => Some (q ^ e * unit))) (a_radii a) in
  Ok (mkfinite
        (map (fun t => obind t (fun t => odiv t M)) T2)
        (map (fun p => map (fun c => obind (snd p) (fun f => Some (Cscale f c))) (fst p)) (combine rows ratio))
        (map (fun r => r / M) (a_radii a))
        (s_type s) frame true).

(** Lines 342-416: [rotating] tells whether the file has a group name (line 347). *)
Definition read_finite (fuel : nat) (rotating : bool) (s : source) (M : R) : res finite :=
  let? a := if rotating then read_rpdmb fuel s else read_nrar fuel s in
  rescale s M a.
