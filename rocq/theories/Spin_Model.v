(** Lorentz transformations as spin matrices and the BMS group: /repo/scri/bms_transformations.py:10-592.

    Exact arithmetic.  External pieces: numpy's svd is a parameter of the model (its defining properties are assumed
    where it is used); scipy's logm is replaced by the closed form of the principal logarithm of a matrix of
    determinant one and real trace >= -2, the only matrices it is applied to here; the projection of a function on
    the sphere onto the modes with ell <= ell_max ([map2salm], 177) is a parameter. *)
From Coq Require Import ZArith Reals List Bool.
From Verif Require Import Common Cplx Quat Times_Model Kwargs_Model Transform_Model.
Import ListNotations.
Open Scope R_scope.

(** ** 2 by 2 complex matrices (numpy) *)
Record mat : Type := mkm { m00 : C; m01 : C; m10 : C; m11 : C }.
Definition mone : mat := mkm C1 C0 C0 C1.
Definition mmul (a b : mat) : mat :=
  (mkm (m00 a * m00 b + m01 a * m10 b) (m00 a * m01 b + m01 a * m11 b)
       (m10 a * m00 b + m11 a * m10 b) (m10 a * m01 b + m11 a * m11 b))%C.
Definition mdag (a : mat) : mat := mkm (Conj (m00 a)) (Conj (m10 a)) (Conj (m01 a)) (Conj (m11 a)).
Definition mdet (a : mat) : C := (m00 a * m11 a - m01 a * m10 a)%C.
Definition mscale (s : C) (a : mat) : mat := (mkm (s * m00 a) (s * m01 a) (s * m10 a) (s * m11 a))%C.
Definition msub (a b : mat) : mat := (mkm (m00 a - m00 b) (m01 a - m01 b) (m10 a - m10 b) (m11 a - m11 b))%C.
Definition minv (a : mat) : mat := mscale (Cinv (mdet a)) (mkm (m11 a) (- m01 a)%C (- m10 a)%C (m00 a)).
Definition mdiag (s : R * R) : mat := mkm (RtoC (fst s)) C0 C0 (RtoC (snd s)).

(** ** fourvec_to_spin_matrix, 10-24; the first component may be imaginary *)
Definition ccos (z : C) : C := mkC (cos (re z) * cosh (im z)) (- (sin (re z) * sinh (im z))).
Definition csin (z : C) : C := mkC (sin (re z) * cosh (im z)) (cos (re z) * sinh (im z)).
Definition fourvec_to_spin_matrix (psi : C) (n : vec3) : mat :=
  let '(x, y, z) := n in
  let h := Cscale (/ 2) psi in
  (mkm (ccos h + Ci * RtoC z * csin h) ((RtoC (- y) + Ci * RtoC x) * csin h)
       ((RtoC y + Ci * RtoC x) * csin h) (ccos h - Ci * RtoC z * csin h))%C.

(** ** Components of a transformation and their order *)
Inductive comp : Type := CS | CR | CB.        (* "supertranslation", "frame_rotation", "boost_velocity" *)
Definition comp_eqb (a b : comp) : bool := match a, b with CS, CS | CR, CR | CB, CB => true | _, _ => false end.
Fixpoint order_eqb (a b : list comp) : bool :=
  match a, b with [], [] => true | x :: a, y :: b => comp_eqb x y && order_eqb a b | _, _ => false end.
Definition inb (c : comp) (l : list comp) : bool := existsb (comp_eqb c) l.
(** list.index *)
Fixpoint index (c : comp) (l : list comp) : option nat :=
  match l with
  | [] => None
  | x :: l => if comp_eqb c x then Some 0%nat else option_map S (index c l)
  end.
(** [del l[l.index(c)]]: only the first occurrence. *)
Fixpoint remove1 (c : comp) (l : list comp) : list comp :=
  match l with [] => [] | x :: l => if comp_eqb c x then l else x :: remove1 c l end.
Definition complete (cs order : list comp) : list comp :=
  fold_left (fun o c => if inb c o then o else o ++ [c]) cs order.

(** ** LorentzTransformation, 183-199 *)
Record lorentz := mkl { l_rot : quat; l_boost : vec3; l_order : list comp; l_ell : Z }.
Definition mklorentz (q : quat) (v : vec3) (order : list comp) (ell : Z) : lorentz :=
  mkl q v (complete [CR; CB] (if inb CS order then remove1 CS order else order)) ell.

(** numpy arctan2 for a non-negative first argument. *)
Definition arctan2_pos (y x : R) : R := if Req_EM_T (x * x + y * y) 0 then 0 else acos (x / sqrt (x * x + y * y)).
Definition rotation_spin_matrix (q : quat) : mat :=
  let n := norm3 (qvec q) in
  let psi := 2 * arctan2_pos n (qw q) in
  let hat := if Req_EM_T psi 0 then (0, 0, 0) else scalev (/ n) (qvec q) in
  fourvec_to_spin_matrix (RtoC psi) hat.
Definition boost_spin_matrix (v : vec3) : mat :=
  let chi := (Ci * RtoC (atanh (norm3 v)))%C in
  let hat := if Req_EM_T (atanh (norm3 v)) 0 then (0, 0, 0) else scalev (/ norm3 v) v in
  fourvec_to_spin_matrix chi hat.
(** 27-56.  [None] of [index] cannot occur for an order completed by the constructor; python would raise ValueError. *)
Definition rot_first (order : list comp) : res bool :=
  match index CR order, index CB order with
  | Some i, Some j => Ok (Nat.ltb i j)
  | _, _ => Err ValueError
  end.
Definition Lorentz_to_spin_matrix (L : lorentz) : res mat :=
  let R := rotation_spin_matrix (l_rot L) in
  let B := boost_spin_matrix (l_boost L) in
  let? rf := rot_first (l_order L) in
  Ok (if rf then mmul B R else mmul R B).

(** Principal logarithm of a matrix of determinant one and real trace 2c: with c = cosh s (s > 0) or c = cos s
    (0 < s < pi) it is (s / sinh s) (A - c) resp. (s / sin s) (A - c); at c = 1 it is A - 1 and log(-1) = i pi. *)
Definition logm (A : mat) : mat :=
  let c := (re (m00 A) + re (m11 A)) / 2 in
  let rest := msub A (mscale (RtoC c) mone) in
  if Rltb 1 c then
    let s := ln (c + sqrt (c * c - 1)) in mscale (RtoC (s / sqrt (c * c - 1))) rest
  else if Req_EM_T c 1 then rest
  else if Rltb (-1) c then let s := acos c in mscale (RtoC (s / sin s)) rest
  else mscale (Ci * RtoC PI)%C mone.

(** 59-107, with [is_rotation] given (the only way it is called). *)
Definition nvec_re (L : mat) : vec3 :=
  (im (Cscale (/ 2) (m10 L + m01 L)%C), re (Cscale (/ 2) (m10 L - m01 L)%C), im (Cscale (/ 2) (m00 L - m11 L)%C)).
Definition nvec_im (L : mat) : vec3 :=
  (- re (Cscale (/ 2) (m10 L + m01 L)%C), im (Cscale (/ 2) (m10 L - m01 L)%C), - re (Cscale (/ 2) (m00 L - m11 L)%C)).
Definition unit_or_z (n : vec3) : vec3 := if Req_EM_T (2 * norm3 n) 0 then (0, 0, 1) else scalev (/ norm3 n) n.
Definition pure_to_rotation (A : mat) : quat :=
  let n := nvec_re (logm A) in
  let psi := 2 * norm3 n in
  let '(x, y, z) := scalev (sin (psi / 2)) (unit_or_z n) in mkq (cos (psi / 2)) x y z.
Definition pure_to_boost (A : mat) : vec3 :=
  let n := nvec_im (logm A) in
  let psi := 2 * norm3 n in
  scalev (tanh psi) (unit_or_z n).

(** Four-vectors (t, x); a boost by v, as used on the boosted grid (see C55 for the code's own formula). *)
Definition vec4 : Type := (R * vec3)%type.
Definition plus3 (u v : vec3) : vec3 := let '(a, b, c) := u in let '(x, y, z) := v in (a + x, b + y, c + z).
Definition boost4 (v : vec3) (l : vec4) : vec4 :=
  let '(t, x) := l in
  (gamma v * (t + dotv v x),
   plus3 x (scalev (gamma v * t + gamma v * gamma v / (1 + gamma v) * dotv v x) v)).
Definition rotate3 (q : quat) (n : vec3) : vec3 :=
  let '(x, y, z) := n in qvec (qmul (qmul q (mkq 0 x y z)) (qconj q)).

(** A supertranslation: the real function on the sphere and the ell_max of the array of modes storing it. *)
Record supertr := mks { s_fn : vec3 -> R; s_ell : Z }.
Definition szero (ell : Z) : supertr := mks (fun _ => 0) ell.

(** BMSTransformation, 269-290: [np.pad] with a negative width raises ValueError. *)
Record bmst := mkb { b_sup : supertr; b_rot : quat; b_boost : vec3; b_order : list comp; b_ell : Z }.
Definition mkbms (S : supertr) (q : quat) (v : vec3) (order : list comp) (ell : Z) : res bmst :=
  if (s_ell S <=? ell)%Z then Ok (mkb (mks (s_fn S) ell) q v (complete [CS; CR; CB] order) ell) else Err ValueError.

Definition SRB := [CS; CR; CB].
Definition RSB := [CR; CS; CB].
Definition RBS := [CR; CB; CS].
Definition SBR := [CS; CB; CR].
Definition BSR := [CB; CS; CR].
Definition BRS := [CB; CR; CS].

Section Bms.
  Variable svd : mat -> mat * (R * R) * mat.
  Variable proj : Z -> (vec3 -> R) -> vec3 -> R.

  (** 110-148.  The LorentzTransformation made here gets the default ell_max, 12. *)
  Definition small (z : C) : bool := Rleb (norm2 z) ((/ 10 ^ 8) * (/ 10 ^ 8)).
  Definition spin_matrix_to_Lorentz (A : mat) (output_order : list comp) : lorentz :=
    if small (m00 A) && small (m01 A) && small (m10 A) && small (m11 A)
    then mklorentz q1 (0, 0, 0) [CR; CB] 12
    else
      let '(u, s, vh) := svd A in
      let rf := match index CR output_order, index CB output_order with
                | Some i, Some j => Nat.ltb i j
                | Some _, None => true
                | None, _ => false
                end in
      let U := mmul u vh in
      let P := if rf then mmul (mmul u (mdiag s)) (mdag u) else mmul (mmul (mdag vh) (mdiag s)) vh in
      mklorentz (pure_to_rotation U) (pure_to_boost P) output_order 12.

  (** LorentzTransformation.reorder, 221-232 *)
  Definition l_reorder (L : lorentz) (output_order : list comp) : res lorentz :=
    if negb (inb CR output_order && inb CB output_order) then Err ValueError
    else if order_eqb (l_order L) output_order then Ok L
    else let? A := Lorentz_to_spin_matrix L in Ok (spin_matrix_to_Lorentz A output_order).
  (** LorentzTransformation.inverse, 234-242 *)
  Definition l_inverse (L : lorentz) (output_order : list comp) : res lorentz :=
    let? A := Lorentz_to_spin_matrix L in Ok (spin_matrix_to_Lorentz (minv A) output_order).
  (** LorentzTransformation.__mul__, 249-266 *)
  Definition l_mul (L1 L2 : lorentz) : res lorentz :=
    let? A1 := Lorentz_to_spin_matrix L1 in
    let? A2 := Lorentz_to_spin_matrix L2 in
    Ok (spin_matrix_to_Lorentz (mmul A2 A1) [CR; CB]).

  (** transform_supertranslation, 151-180, with the exact boosted grid (no thresholds): at the direction [n] of the
      grid, the rotor of the boosted grid points along r and k r = boost of the rotated n. *)
  Definition transform_supertranslation (S : supertr) (L : lorentz) : res supertr :=
    let? Li := l_inverse L [CR; CB] in
    Ok (mks (proj (l_ell L) (fun n =>
               let '(k, x) := boost4 (l_boost Li) (1, rotate3 (l_rot Li) n) in k * s_fn S (scalev (/ k) x)))
            (l_ell L)).

  (** BMSTransformation.reorder, 309-499 *)
  Definition to_normal (b : bmst) : res bmst :=
    let q := b_rot b in let v := b_boost b in let S := b_sup b in let o := b_order b in let e := b_ell b in
    if order_eqb o SRB then mkbms S q v o e
    else if order_eqb o RSB then
      let? S' := transform_supertranslation S (mklorentz q (0, 0, 0) o e) in mkbms S' q v SRB e
    else if order_eqb o RBS then
      let? S' := transform_supertranslation S (mklorentz q v o e) in mkbms S' q v SRB e
    else if order_eqb o SBR then
      let? L := l_reorder (mklorentz q v o e) SRB in mkbms S (l_rot L) (l_boost L) SRB e
    else if order_eqb o BSR then
      let? L := l_reorder (mklorentz q v o e) SRB in
      let? S' := transform_supertranslation S (mklorentz q1 v o e) in mkbms S' (l_rot L) (l_boost L) SRB e
    else if order_eqb o BRS then
      let? L := l_reorder (mklorentz q v o e) SRB in
      let? S' := transform_supertranslation S L in mkbms S' (l_rot L) (l_boost L) SRB e
    else Err UnboundLocalError.
  Definition from_normal (b : bmst) (out : list comp) : res bmst :=
    let q := b_rot b in let v := b_boost b in let S := b_sup b in let o := b_order b in let e := b_ell b in
    if order_eqb out SRB then mkbms S q v o e
    else if order_eqb out RSB then
      let? Li := l_inverse (mklorentz q (0, 0, 0) o e) (rev (l_order (mklorentz q (0, 0, 0) o e))) in
      let? S' := transform_supertranslation S Li in mkbms S' q v out e
    else if order_eqb out RBS then
      let? Li := l_inverse (mklorentz q v o e) (rev (l_order (mklorentz q v o e))) in
      let? S' := transform_supertranslation S Li in mkbms S' q v out e
    else if order_eqb out SBR then
      let? L := l_reorder (mklorentz q v o e) out in mkbms S (l_rot L) (l_boost L) out e
    else if order_eqb out BSR then
      let? L := l_reorder (mklorentz q v o e) out in
      let B := mklorentz q1 (l_boost L) (l_order L) (l_ell L) in
      let? Li := l_inverse B (rev (l_order B)) in
      let? S' := transform_supertranslation S Li in mkbms S' (l_rot L) (l_boost L) out e
    else if order_eqb out BRS then
      let? L := l_reorder (mklorentz q v o e) out in
      let? Li := l_inverse L (rev (l_order L)) in
      let? S' := transform_supertranslation S Li in mkbms S' (l_rot L) (l_boost L) out e
    else Err UnboundLocalError.
  Definition reorder (b : bmst) (out : list comp) : res bmst :=
    if negb (inb CS out && inb CR out && inb CB out) then Err ValueError
    else let? n := to_normal b in from_normal n out.

  (** BMSTransformation.inverse, 501-531; [output_order] None is the default argument. *)
  Definition inverse (b : bmst) (output_order : option (list comp)) : res bmst :=
    let out := match output_order with Some o => o | None => rev (b_order b) end in
    let? n := reorder b SRB in
    let? Li := l_inverse (mklorentz (b_rot n) (b_boost n) [CR; CB] (b_ell n)) (rev [CR; CB]) in
    let? i := mkbms (mks (fun x => - s_fn (b_sup n) x) (s_ell (b_sup n))) (l_rot Li) (l_boost Li) (rev SRB) (b_ell n) in
    if order_eqb (b_order i) out then Ok i else reorder i out.

  (** BMSTransformation.__mul__, 539-592 *)
  Definition bms_mul (b1 b2 : bmst) : res bmst :=
    let e := Z.max (b_ell b1) (b_ell b2) in
    let? n1 := reorder b1 SRB in
    let? n2 := reorder b2 SRB in
    let L1 := mklorentz (b_rot n1) (b_boost n1) (b_order n1) e in
    let L2 := mklorentz (b_rot n2) (b_boost n2) (b_order n2) e in
    let? L := l_mul L1 L2 in
    let? S' := transform_supertranslation (mks (s_fn (b_sup n1)) e) L2 in
    mkbms (mks (fun x => s_fn S' x + s_fn (b_sup n2) x) e) (l_rot L) (l_boost L) SRB e.
End Bms.
