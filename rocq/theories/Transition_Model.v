(** Smooth transition functions: /repo/scri/utilities.py 8-191.  Exact reals.  The index loops have no
    bounds check in the code (they are compiled by numba); reading past the end is [Err OutOfBounds].
    The current index [i] is represented by the not yet visited suffix of the array. *)
From Coq Require Import Reals ZArith List Lia Lra Bool.
From Verif Require Import Common Times_Model.
Import ListNotations.
Open Scope R_scope.

(** Line 8: [np.finfo(float).maxexp * np.log(2) * 0.99] *)
Definition maxexp : R := 1024 * ln 2 * (99 / 100).

(** [while p(x[i]): i += 1] *)
Fixpoint skip_while (p : R -> bool) (l : list R) : res (nat * list R) :=
  match l with
  | [] => Err OutOfBounds
  | a :: r => if p a then rmap (fun q => (S (fst q), snd q)) (skip_while p r) else Ok (0%nat, l)
  end.
(** [while p(x[i]): out[i] = f(x[i]); i += 1] *)
Fixpoint run_while (p : R -> bool) (f : R -> R) (l : list R) : res (list R * list R) :=
  match l with
  | [] => Err OutOfBounds
  | a :: r => if p a then rmap (fun q => (f a :: fst q, snd q)) (run_while p f r) else Ok ([], l)
  end.

(** Lines 21-27: the value written inside the transition region. *)
Definition exponent_at (x0 x1 xi : R) : R :=
  let tau := (xi - x0) / (x1 - x0) in 1 / tau - 1 / (1 - tau).
Definition trans_val (x0 x1 y0 ydiff xi : R) : R :=
  let exponent := exponent_at x0 x1 xi in
  if Rleb maxexp exponent then y0 else y0 + ydiff / (1 + exp exponent).

(** Lines 12-30. *)
Definition transition_function (x : list R) (x0 x1 y0 y1 : R) : res (list R * nat * nat) :=
  let ydiff := y1 - y0 in
  let? (i0, r) := skip_while (fun v => Rleb v x0) x in
  let? (mid, r') := run_while (fun v => Rltb v x1) (trans_val x0 x1 y0 ydiff) r in
  let i1 := (i0 + length mid)%nat in
  Ok (repeat y0 i0 ++ mid ++ repeat y1 (length r'), i0, i1).

(** Lines 85-100. *)
Definition trans_deriv (x0 x1 ydiff xi : R) : R :=
  let tau := (xi - x0) / (x1 - x0) in
  let exponent := exponent_at x0 x1 xi in
  if Rleb maxexp exponent then 0
  else
    let exponential := exp (1 / tau - 1 / (1 - tau)) in
    - ydiff * exponential * (- 1 / tau ^ 2 - 1 / (1 - tau) ^ 2) * (1 / (x1 - x0)) / (1 + exponential) ^ 2.

(** Lines 61-102. *)
Definition transition_function_derivative (x : list R) (x0 x1 y0 y1 : R) : res (list R) :=
  let ydiff := y1 - y0 in
  let? (i0, r) := skip_while (fun v => Rleb v x0) x in
  let? (mid, r') := run_while (fun v => Rltb v x1) (trans_deriv x0 x1 ydiff) r in
  Ok (repeat 0 i0 ++ mid ++ repeat 0 (length r')).

(** Lines 105-159. *)
Definition bump_function (x : list R) (x0 x1 x2 x3 y0 y12 y3 : R) : res (list R) :=
  let ydiff01 := y12 - y0 in
  let ydiff23 := y3 - y12 in
  let? (i0, r0) := skip_while (fun v => Rleb v x0) x in
  let? (m1, r1) := run_while (fun v => Rltb v x1) (trans_val x0 x1 y0 ydiff01) r0 in
  let? (k2, r2) := skip_while (fun v => Rleb v x2) r1 in
  let? (m3, r3) := run_while (fun v => Rltb v x3) (trans_val x2 x3 y12 ydiff23) r2 in
  Ok (repeat y0 i0 ++ m1 ++ repeat y12 k2 ++ m3 ++ repeat y3 (length r3)).

Definition map2 {A B D} (f : A -> B -> D) (a : list A) (b : list B) : list D :=
  map (fun p => f (fst p) (snd p)) (combine a b).

Section ToConstant.
  (** [quaternion.indefinite_integral(f, t)]: one value per sample. *)
  Variable indefinite_integral : list R -> list R -> list R.

  (** Lines 162-191. *)
  Definition transition_to_constant (f t : list R) (t1 t2 : R) : res (list R) :=
    let? (tr, i1, i2) := transition_function t t1 t2 1 0 in
    let? td := transition_function_derivative t t1 t2 1 0 in
    let g := map2 Rmult f tr in
    let seg {A} (l : list A) := firstn (i2 - i1) (skipn i1 l) in
    let g := firstn i1 g
             ++ map2 Rminus (seg g) (indefinite_integral (map2 Rmult (seg f) (seg td)) (seg t))
             ++ skipn i2 g in
    (* f_transitioned[i2:] = f_transitioned[i2 - 1]; index -1 is the last entry *)
    let c := match i2 with O => last g 0 | S k => nth k g 0 end in
    Ok (firstn i2 g ++ repeat c (length g - i2)).
End ToConstant.

(** * The same two formulas with the overflow of double precision numbers: magnitudes from 2^1024 on
    become infinite, infinity over infinity is not a number.  Values below that are exact, signed zeros
    are not distinguished, and the exponent itself is exact (it is below [maxexp] where it is used). *)
Inductive fl : Type := FF (x : R) | FInf (negative : bool) | FNaN.
Definition zerob (x : R) : bool := if Req_EM_T x 0 then true else false.
Definition fl_of (x : R) : fl :=
  if Rleb (powerRZ 2 1024) x then FInf false else if Rleb x (- powerRZ 2 1024) then FInf true else FF x.
Definition fl_add (a b : fl) : fl :=
  match a, b with
  | FF x, FF y => fl_of (x + y)
  | FNaN, _ | _, FNaN => FNaN
  | FInf s, FInf s' => if Bool.eqb s s' then FInf s else FNaN
  | FInf s, FF _ | FF _, FInf s => FInf s
  end.
Definition fl_mul (a b : fl) : fl :=
  match a, b with
  | FF x, FF y => fl_of (x * y)
  | FNaN, _ | _, FNaN => FNaN
  | FInf s, FInf s' => FInf (xorb s s')
  | FInf s, FF x | FF x, FInf s => if zerob x then FNaN else FInf (xorb s (Rltb x 0))
  end.
Definition fl_div (a b : fl) : fl :=
  match a, b with
  | FF x, FF y => if zerob y then FNaN else fl_of (x / y)
  | FNaN, _ | _, FNaN => FNaN
  | FInf _, FInf _ => FNaN
  | FF _, FInf _ => FF 0
  | FInf s, FF y => FInf (xorb s (Rltb y 0))
  end.
Definition fl_exp (x : R) : fl := fl_of (exp x).

(** Lines 21-27. *)
Definition trans_val_fl (x0 x1 y0 ydiff xi : R) : fl :=
  let exponent := exponent_at x0 x1 xi in
  if Rleb maxexp exponent then FF y0
  else fl_add (FF y0) (fl_div (FF ydiff) (fl_add (FF 1) (fl_exp exponent))).
(** Lines 88-100, the products taken from left to right as Python does. *)
Definition trans_deriv_fl (x0 x1 ydiff xi : R) : fl :=
  let tau := (xi - x0) / (x1 - x0) in
  let exponent := exponent_at x0 x1 xi in
  if Rleb maxexp exponent then FF 0
  else
    let exponential := fl_exp (1 / tau - 1 / (1 - tau)) in
    let below := fl_add (FF 1) exponential in
    fl_div (fl_mul (fl_mul (fl_mul (FF (- ydiff)) exponential) (FF (- 1 / tau ^ 2 - 1 / (1 - tau) ^ 2)))
                   (FF (1 / (x1 - x0))))
           (fl_mul below below).
