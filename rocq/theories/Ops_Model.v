(** Angular-momentum expectation values of mode data (/repo/scri/mode_calculations.py).  The inner loops
    over time act on each time sample separately, so the functions below work on one row of `data`; a
    whole array is a [map] over rows.  The jitted accumulators are written as functions of the axis. *)
From Coq Require Import Reals ZArith List Bool.
From Verif Require Import Common Cplx Modes_Model Modal_Model.
Import ListNotations.
Open Scope Z_scope.

(** spherical_functions.ladder_operator_coefficient: sqrt(ell*(ell+1) - m*(m+1)). *)
Definition ladder (L M : Z) : R := sqrt (IZR (L * (L + 1) - M * (M + 1))).

Inductive axis := X | Y | Z3.
Definition axis_eqb (a b : axis) : bool :=
  match a, b with X, X => true | Y, Y => true | Z3, Z3 => true | _, _ => false end.
(** `acc[a] += v` and `acc[a, b] += v` *)
Definition bump1 {T} (add : T -> T -> T) (acc : axis -> T) (a : axis) (v : T) : axis -> T :=
  fun a' => if axis_eqb a' a then add (acc a') v else acc a'.
Definition bump2 {T} (add : T -> T -> T) (acc : axis -> axis -> T) (a b : axis) (v : T) : axis -> axis -> T :=
  fun a' b' => if axis_eqb a' a && axis_eqb b' b then add (acc a' b') v else acc a' b'.

(** `np.conjugate(d1[dst]) * d2[src] * k if guard else 0.0+0.0j` *)
Definition term (guard : bool) (d1 d2 : list C) (dst src : Z) (k : R) : res C :=
  if guard then let? a := rd d1 dst in let? b := rd d2 src in Ok (Cscale k (Conj a * b)%C)
  else Ok C0.
(** `for i_mode in range(lm.shape[0]): L, M = lm[i_mode]` *)
Definition modes_loop (lo hi : Z) : list (Z * (Z * Z)) :=
  combine (zrange 0 (Z.of_nat (length (LM_range lo hi)))) (LM_range lo hi).

(** _LVector (60-89) *)
Definition LVector (lo hi : Z) (d1 d2 : list C) : res (axis -> C) :=
  for_each (modes_loop lo hi) (fun ilm acc =>
    let '(i, (L, M)) := ilm in
    let? Lp := term (M + 1 <=? L) d1 d2 (i + 1) i (ladder L M) in
    let? Lm := term (- L <=? M - 1) d1 d2 (i - 1) i (ladder L (- M)) in
    let? Lz := term true d1 d2 i i (IZR M) in
    let acc := bump1 Cadd acc X (Cscale (/2) (Lp + Lm)%C) in
    let acc := bump1 Cadd acc Y (Cscale (-/2) (Ci * (Lp - Lm)))%C in
    Ok (bump1 Cadd acc Z3 Lz)) (fun _ => C0).

(** _LdtVector (14-43) *)
Definition LdtVector (lo hi : Z) (data datadot : list C) : res (axis -> R) :=
  for_each (modes_loop lo hi) (fun ilm acc =>
    let '(i, (L, M)) := ilm in
    let? Lp := term (M + 1 <=? L) data datadot (i + 1) i (ladder L M) in
    let? Lm := term (- L <=? M - 1) data datadot (i - 1) i (ladder L (- M)) in
    let? Lz := term true data datadot i i (IZR M) in
    let acc := bump1 Rplus acc X (/2 * (im Lp + im Lm))%R in
    let acc := bump1 Rplus acc Y (-/2 * (re Lp - re Lm))%R in
    Ok (bump1 Rplus acc Z3 (im Lz))) (fun _ => 0%R).

(** The nine products of (125-164) resp. (228-267), common to the next two functions. *)
Record products := mkprod { LpLp : C; LpLm : C; LmLp : C; LmLm : C; LpLz : C; LzLp : C; LmLz : C; LzLm : C; LzLz : C }.
Definition LL_products (d1 d2 : list C) (i L M : Z) : res products :=
  let? pp := term (M + 2 <=? L) d1 d2 (i + 2) i (ladder L (M + 1) * ladder L M)%R in
  let? pm := term (- L <=? M - 1) d1 d2 i i (ladder L (M - 1) * ladder L (- M))%R in
  let? mp := term (M + 1 <=? L) d1 d2 i i (ladder L (- (M + 1)) * ladder L M)%R in
  let? mm := term (- L <=? M - 2) d1 d2 (i - 2) i (ladder L (- (M - 1)) * ladder L (- M))%R in
  let? pz := term (M + 1 <=? L) d1 d2 (i + 1) i (ladder L M * IZR M)%R in
  let? zp := term (M + 1 <=? L) d1 d2 (i + 1) i (IZR (M + 1) * ladder L M)%R in
  let? mz := term (- L <=? M - 1) d1 d2 (i - 1) i (ladder L (- M) * IZR M)%R in
  let? zm := term (- L <=? M - 1) d1 d2 (i - 1) i (IZR (M - 1) * ladder L (- M))%R in
  let? zz := term true d1 d2 i i (IZR (M ^ 2)) in
  Ok (mkprod pp pm mp mm pz zp mz zm zz).

(** _LLComparisonMatrix (106-192); the sixth statement (177) does write to [1, 1]. *)
Definition LLComparisonMatrix (lo hi : Z) (d1 d2 : list C) : res (axis -> axis -> C) :=
  for_each (modes_loop lo hi) (fun ilm acc =>
    let '(i, (L, M)) := ilm in
    let? p := LL_products d1 d2 i L M in
    let acc := bump2 Cadd acc X X (Cscale (/4) (LpLp p + LmLm p + LmLp p + LpLm p)%C) in
    let acc := bump2 Cadd acc X Y (Cscale (-/4) (Ci * (LpLp p - LmLm p + LmLp p - LpLm p))%C) in
    let acc := bump2 Cadd acc X Z3 (Cscale (/2) (LpLz p + LmLz p)%C) in
    let acc := bump2 Cadd acc Y X (Cscale (-/4) (Ci * (LpLp p - LmLp p + LpLm p - LmLm p))%C) in
    let acc := bump2 Cadd acc Y Y (Cscale (-/4) (LpLp p - LmLp p - LpLm p + LmLm p)%C) in
    let acc := bump2 Cadd acc Y Y (Cscale (-/2) (Ci * (LpLz p - LmLz p))%C) in
    let acc := bump2 Cadd acc Z3 X (Cscale (/2) (LzLp p + LzLm p)%C) in
    let acc := bump2 Cadd acc Z3 Y (Cscale (-/2) (Ci * (LzLp p - LzLm p))%C) in
    Ok (bump2 Cadd acc Z3 Z3 (LzLz p))) (fun _ _ => C0).

(** _LLMatrix (209-295) *)
Definition LLMatrix (lo hi : Z) (d : list C) : res (axis -> axis -> R) :=
  for_each (modes_loop lo hi) (fun ilm acc =>
    let '(i, (L, M)) := ilm in
    let? p := LL_products d d i L M in
    let LxLx := Cscale (/4) (LpLp p + LmLm p + LmLp p + LpLm p)%C in
    let LxLy := Cscale (-/4) (Ci * (LpLp p - LmLm p + LmLp p - LpLm p))%C in
    let LxLz := Cscale (/2) (LpLz p + LmLz p)%C in
    let LyLx := Cscale (-/4) (Ci * (LpLp p - LmLp p + LpLm p - LmLm p))%C in
    let LyLy := Cscale (-/4) (LpLp p - LmLp p - LpLm p + LmLm p)%C in
    let LyLz := Cscale (-/2) (Ci * (LpLz p - LmLz p))%C in
    let LzLx := Cscale (/2) (LzLp p + LzLm p)%C in
    let LzLy := Cscale (-/2) (Ci * (LzLp p - LzLm p))%C in
    let acc := bump2 Rplus acc X X (re LxLx) in
    let acc := bump2 Rplus acc X Y (re (LxLy + LyLx)%C / 2)%R in
    let acc := bump2 Rplus acc X Z3 (re (LxLz + LzLx)%C / 2)%R in
    let acc := bump2 Rplus acc Y X (re (LyLx + LxLy)%C / 2)%R in
    let acc := bump2 Rplus acc Y Y (re LyLy) in
    let acc := bump2 Rplus acc Y Z3 (re (LyLz + LzLy)%C / 2)%R in
    let acc := bump2 Rplus acc Z3 X (re (LzLx + LxLz)%C / 2)%R in
    let acc := bump2 Rplus acc Z3 Y (re (LzLy + LyLz)%C / 2)%R in
    Ok (bump2 Rplus acc Z3 Z3 (re (LzLz p)))) (fun _ _ => 0%R).

(** _LLDominantEigenvector (316-363).  Vectors are triples; a time index outside the array is an
    IndexError (the jitted code does not check).  Negative wrap-around of `i_index` is not modelled. *)
Definition vec := (R * R * R)%type.
Definition vdot (a b : vec) : R := let '(x, y, z) := a in let '(u, v, w) := b in (x * u + y * v + z * w)%R.
Definition vneg (a : vec) : vec := let '(x, y, z) := a in (- x, - y, - z)%R.
Definition vdivide (a : vec) (k : R) : vec := let '(x, y, z) := a in (x / k, y / k, z / k)%R.
Definition vsub (a b : vec) : vec := let '(x, y, z) := a in let '(u, v, w) := b in (x - u, y - v, z - w)%R.
Definition Rltb (x y : R) : bool := if Rlt_dec x y then true else false.
Definition Reqb (x y : R) : bool := if Req_EM_T x y then true else false.
Definition vrd (l : list vec) (i : Z) : res vec :=
  if i <? 0 then Err IndexError
  else match nth_error l (Z.to_nat i) with Some v => Ok v | None => Err IndexError end.
Definition vwr (l : list vec) (i : Z) (v : vec) : res (list vec) :=
  if i <? 0 then Err IndexError
  else match upd l (Z.to_nat i) v with Some r => Ok r | None => Err IndexError end.
(** `if LastNorm != 0.0 and LastNorm != 1.0: dpa[j] /= LastNorm` *)
Definition normalize_at (j : Z) (last : R) (dpa : list vec) : res (list vec) :=
  if negb (Reqb last 0) && negb (Reqb last 1)
  then let? v := vrd dpa j in vwr dpa j (vdivide v last)
  else Ok dpa.
(** Body of either loop; [d] is -1 or 1, the state is (dpa, LastNorm). *)
Definition dominant_step (d i : Z) (st : list vec * R) : res (list vec * R) :=
  let '(dpa, last) := st in
  let? a := vrd dpa i in
  let? b := vrd dpa (i - d) in
  let nrm := vdot a a in
  let dn := vdot (vsub a b) (vsub a b) in
  let? dpa1 := (if Rltb nrm dn then vwr dpa i (vneg a) else Ok dpa) in
  let? dpa2 := normalize_at (i - d) last dpa1 in
  Ok (dpa2, sqrt nrm).
Definition dominant (dpa : list vec) (rough : vec) (idx : Z) : res (list vec) :=
  let n := Z.of_nat (length dpa) in
  let? a := vrd dpa idx in
  let? dpa := (if Rltb (vdot rough a) 0 then vwr dpa idx (vneg a) else Ok dpa) in
  let? a := vrd dpa idx in
  let? (dpa, last) := for_each (rev (zrange 0 idx)) (dominant_step (-1)) (dpa, sqrt (vdot a a)) in
  let? dpa := normalize_at 0 last dpa in
  let? a := vrd dpa idx in
  let? (dpa, last) := for_each (zrange (idx + 1) n) (dominant_step 1) (dpa, sqrt (vdot a a)) in
  normalize_at (n - 1) last dpa.
