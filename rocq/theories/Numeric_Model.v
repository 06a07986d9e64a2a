(** Norms, `max_norm_index`, `truncate` and `inner_product`: /repo/scri/waveform_base.py 19-36 and
    535-575, waveform_modes.py 457-476 and 574-656.  Exact real arithmetic; values that numpy makes
    NaN are [None]. *)
From Coq Require Import Reals ZArith List Lia Lra Bool.
From Verif Require Import Common Cplx Modes_Model Times_Model.
Import ListNotations.
Open Scope R_scope.

(** waveform_base.py 20-25: the loop over columns accumulates re^2 + im^2. *)
Fixpoint row_norm_loop (acc : R) (row : list C) : R :=
  match row with [] => acc | c :: r => row_norm_loop (acc + (re c ^ 2 + im c ^ 2)) r end.
Definition complex_array_norm (data : list (list C)) : list R := map (row_norm_loop 0) data.

(** [np.argmax]: first index of the largest entry; raises on an empty array. *)
Fixpoint argmax_loop (best : nat) (bv : R) (i : nat) (l : list R) : nat :=
  match l with
  | [] => best
  | x :: r => if Rltb bv x then argmax_loop i x (S i) r else argmax_loop best bv (S i) r
  end.
Definition argmax (l : list R) : res nat :=
  match l with [] => Err ValueError | x :: r => Ok (argmax_loop 0 x 1 r) end.

(** waveform_base.py 553-567; [norm(indices=slice(k, None))] is the norm of those rows (535-551). *)
Definition max_norm_index (data : list (list C)) (skip : Z) : res Z :=
  if (skip =? 0)%Z || (skip =? 1)%Z then
    let? k := argmax (complex_array_norm data) in Ok (Z.of_nat k)
  else
    let k0 := (Z.of_nat (length data) / skip)%Z in
    let? k := argmax (complex_array_norm (py_slice (Some k0) None data)) in
    Ok (Z.of_nat k + k0)%Z.

(** [np.floor] *)
Definition floorR (x : R) : Z := Int_part x.
(** [np.round] of a float: nearest integer, ties to the even one. *)
Definition rint (x : R) : Z :=
  let f := floorR x in
  let d := x - IZR f in
  if Rltb d (1/2) then f
  else if Rltb (1/2) d then (f + 1)%Z
  else if Z.even f then f else (f + 1)%Z.
Definition rint_c (z : C) : C := mkC (IZR (rint (re z))) (IZR (rint (im z))).

(** [np.linalg.norm] of one row. *)
Definition row_abs (row : list C) : R := sqrt (rsum norm2 row).

(** waveform_modes.py 469-475 for one row; the result is [None] where the code computes
    [inf * 0] (zero row) or the logarithm of a negative number. *)
Definition absolute_tolerance (tol : R) (row : list C) : R :=
  row_abs row * (tol / sqrt (INR (length row))).
Definition power_of_2 (a : R) : R := powerRZ 2 (floorR (- (ln a / ln 2))).
Definition truncate_row (tol : R) (row : list C) : option (list C) :=
  let a := absolute_tolerance tol row in
  if Rltb 0 a then
    let p := power_of_2 a in
    Some (map (fun z => Cscale (/ p) (rint_c (Cscale p z))) row)
  else None.
(** Lines 468-476. *)
Definition truncate (tol : R) (data : list (list C)) : list (option (list C)) :=
  if Req_EM_T tol 0 then map Some data else map (truncate_row tol) data.

Section Inner.
  Variable Q : Type.
  (** External: [quaternion.calculus.spline_definite_integral], cubic-spline interpolation of the
      data onto new times (waveform_base.py 949-967), [extrapolation.intersection]. *)
  Variable sdi : list C -> list R -> R -> R -> C.
  Variable interp : list R -> list (list C) -> list R -> list (list C).
  Variable intersect : list R -> list R -> res (list R).

  Fixpoint list_eqb (a b : list R) : bool :=
    match a, b with
    | [], [] => true
    | x :: a', y :: b' => (if Req_EM_T x y then true else false) && list_eqb a' b'
    | _, _ => false
    end.

  (** [np.sum(np.conj(A.data) * B.data, axis=1)], one row each. *)
  Definition integrand_row (ra rb : list C) : C :=
    csum (fun p => (Conj (fst p) * snd p)%C) (combine ra rb).

  Definition interpolate (w : wf R Q C) (ts : list R) : wf R Q C :=
    mkwf ts (wframe w) (interp (wt w) (wdata w) ts) (wlmin w) (wlmax w) (wLM w).

  Definition first_or (o : option R) (l : list R) : res R :=
    match o with Some x => Ok x | None => match l with [] => Err IndexError | x :: _ => Ok x end end.
  Definition last_or (o : option R) (l : list R) : res R :=
    match o with Some x => Ok x | None => match l with [] => Err IndexError | x :: _ => Ok (last l x) end end.

  (** waveform_modes.py 574-656.  [nA], [nB]: number of data columns. *)
  Definition inner_product (sA sB : Z) (nA nB : Z) (A B : wf R Q C) (t1 t2 : option R)
             (allow_LM_differ allow_times_differ : bool) : res C :=
    if negb (sA =? sB)%Z then Err ValueError
    else
      let? LM_clip :=
        (if negb (wlmin A =? wlmin B)%Z || negb (wlmax A =? wlmax B)%Z then
           if allow_LM_differ then
             let start := Z.max (wlmin A) (wlmin B) in
             let stop := (Z.min (wlmax A) (wlmax B) + 1)%Z in
             if (stop <=? start)%Z then Err ValueError else Ok (Some (MSlice (Some start) (Some stop) None))
           else Err ValueError
         else Ok None) in
      let? t_clip :=
        (if negb (list_eqb (wt A) (wt B)) then
           if allow_times_differ then rmap Some (intersect (wt A) (wt B)) else Err ValueError
         else Ok None) in
      let times := wt A in
      let? (A, B) :=
        match LM_clip with
        | Some k => let? A' := getitem_pair nA A (None, None) k in
                    let? B' := getitem_pair nB B (None, None) k in Ok (A', B')
        | None => Ok (A, B)
        end in
      let '(times, A, B) :=
        match t_clip with
        | Some ts => (ts, interpolate A ts, interpolate B ts)
        | None => (times, A, B)
        end in
      let? t1 := first_or t1 times in
      let? t2 := last_or t2 times in
      Ok (sdi (map (fun p => integrand_row (fst p) (snd p)) (combine (wdata A) (wdata B))) times t1 t2).
End Inner.
