(** * 64-bit floating-point words

    The words stored by corotating_paired_xor.py 104-111 ([view(np.uint64)]) are IEEE 754 binary64
    encodings: sign bit, 11 exponent bits, 52 fraction bits. *)
From Coq Require Import ZArith Reals.
From Verif Require Import Numeric_Model Validity_Model Times_Model.
Open Scope Z_scope.

(** The number meant by a word in [0, 2^64). *)
Definition unbits (z : Z) : num :=
  let s := if 2 ^ 63 <=? z then -1 else 1 in
  let e := (z / 2 ^ 52) mod 2 ^ 11 in
  let f := z mod 2 ^ 52 in
  if e =? 2047 then if f =? 0 then (if 2 ^ 63 <=? z then NInf else PInf) else NaN
  else if e =? 0 then Fin (IZR (s * f) * powerRZ 2 (-1074))
  else Fin (IZR (s * (2 ^ 52 + f)) * powerRZ 2 (e - 1075)).

(** The word of a number; for reals that are not representable the fraction is cut off.  Zero is
    positive zero. *)
Definition magnitude_bits (x : R) : Z :=
  let E := Z.max (floorR (ln x / ln 2)) (-1022) in
  (E + 1022) * 2 ^ 52 + floorR (x / powerRZ 2 (E - 52)).
Definition bits (x : num) : Z :=
  match x with
  | Fin x => if Req_EM_T x 0 then 0
             else if Rltb x 0 then 2 ^ 63 + magnitude_bits (- x) else magnitude_bits x
  | PInf => 2047 * 2 ^ 52
  | NInf => 2 ^ 63 + 2047 * 2 ^ 52
  | NaN => 2047 * 2 ^ 52 + 2 ^ 51
  end.
