(** Iterative frame fixing: /repo/scri/asymptotic_bondi_data/map_to_superrest_frame.py and map_to_abd_frame.py.

    The loops, their bookkeeping and what is kept of each candidate transformation are modelled line by line.
    The numerical work inside a pass (transforming the data, computing charges, splines, the 2-d alignment) is
    external: it is a parameter of the model, free to raise any exception and to return any error measure,
    including infinities and NaN. *)
From Coq Require Import ZArith Reals List Bool String.
From Verif Require Import Common Cplx Quat Times_Model Kwargs_Model Transform_Model Motion_Model.
Import ListNotations.
Open Scope R_scope.

(** ** IEEE values up to rounding: the error measures can be inf or nan *)
Inductive xf : Type := Fin (r : R) | PInf | NInf | NaN.
(** Python [<] on floats. *)
Definition xlt (a b : xf) : bool :=
  match a, b with
  | NaN, _ | _, NaN => false
  | Fin x, Fin y => Rltb x y
  | NInf, NInf => false
  | NInf, _ => true
  | _, NInf => false
  | PInf, _ => false
  | _, PInf => true
  end.
Definition xadd (a b : xf) : xf :=
  match a, b with
  | NaN, _ | _, NaN => NaN
  | PInf, NInf | NInf, PInf => NaN
  | PInf, _ | _, PInf => PInf
  | NInf, _ | _, NInf => NInf
  | Fin x, Fin y => Fin (x + y)
  end.
Definition xdiv3 (a : xf) : xf := match a with Fin x => Fin (x / 3) | _ => a end.
(** Python's builtin [min] of a list: keeps the first of the values no later one is smaller than. *)
Fixpoint xmin1 (cur : xf) (l : list xf) : xf :=
  match l with [] => cur | y :: l => xmin1 (if xlt y cur then y else cur) l end.
Definition pymin (l : list xf) : res xf := match l with [] => Err ValueError | x :: l => Ok (xmin1 x l) end.

(** ** The inner solvers
    (supertranslation 260-306, centre of mass 370-396, rotation 498-525 and 530-555): the same loop with different
    bodies.  [body itr st] is one pass: it gets the iteration number because the bodies branch on [itr == 0], and
    returns the new state and the new rel_err.  [cand] is what is remembered as the best so far. *)
Section Solver.
  Variable St X : Type.
  Variable body : nat -> St -> res (St * xf).
  Variable cand : St -> X.
  (** [n] is N_itr_max - itr. *)
  Fixpoint solve (n itr : nat) (tol rel_err : xf) (rel_errs : list xf) (st : St) (best : X) : res (X * list xf) :=
    match n with
    | O => Ok (best, rel_errs)
    | S n =>
      if xlt rel_err tol then Ok (best, rel_errs)
      else
        let? (st', e) := body itr st in
        let? m := pymin rel_errs in
        solve n (S itr) tol e (rel_errs ++ [e]) st' (if xlt e m then cand st' else best)
    end.
  Definition run (N_itr_max : Z) (tol : xf) (st : St) (best : X) : res (X * list xf) :=
    solve (Z.to_nat N_itr_max) 0 tol PInf [PInf] st best.
End Solver.

(** Parameters of a BMSTransformation in its normal order (bms_transformations.py:269-290). *)
Record bms := mkbms { sup : list C; rot : quat; boost : vec3 }.
Definition zeros (l : list C) : list C := map (fun _ => C0) l.
(** BMSTransformation(): 169 zero modes, no rotation, no boost. *)
Definition identity : bms := mkbms (repeat C0 169) q1 (0, 0, 0).

Section Inner.
  (** [(a * b).reorder(normal order)], bms_transformations.py:309-592 *)
  Variable compose : bms -> bms -> res bms.

  (** *** Supertranslation, 228-324.  [G] is a function on the grid (alpha_Grid), [M] a mode array. *)
  Variables G M : Type.
  Variable zeroG : G.
  Variable addG : G -> G -> G.
  Variable moreschi : G -> res M.             (* compute_Moreschi_supermomentum(PsiM, alpha, ell_max) *)
  Variable massK : M -> res (G * G).            (* compute_bondi_rest_mass_and_conformal_factor *)
  Variable perturb : M -> G -> G -> res G.      (* compute_alpha_perturbation *)
  Variable target : option (G -> res G).        (* minus the target supermomentum interpolated at times alpha *)
  Variable error : M -> G -> xf.                (* 294-298; the second argument is only used with a target *)
  Variable modes_of : G -> list C.              (* map2salm *)
  (** 275-283, 291-300.  The target is interpolated at [prev], the alpha of the previous pass. *)
  Definition mass_for (p : M) (prev : G) : res (G * G) :=
    let? (m, k) := massK p in
    match target with None => Ok (m, k) | Some f => let? m' := f prev in Ok (m', k) end.
  Record sstate := mkss { ss_alpha : G; ss_psi : option M; ss_mk : option (G * G) }.
  Definition super_body (itr : nat) (st : sstate) : res (sstate * xf) :=
    let prev := ss_alpha st in
    let? (psi, mk) :=
      match itr with
      | O => let? p := moreschi prev in let? mk := mass_for p prev in Ok (p, mk)
      | S _ => match ss_psi st, ss_mk st with Some p, Some mk => Ok (p, mk) | _, _ => Err UnboundLocalError end
      end in
    let? d := perturb psi (fst mk) (snd mk) in
    let alpha := addG prev d in
    let? psi' := moreschi alpha in
    let? mk' := mass_for psi' prev in
    Ok (mkss alpha (Some psi') (Some mk'), error psi' (fst mk')).
  (** 321-324: supertranslation[0:4] = 0; the rest of the BMSTransformation is the default. *)
  Definition drop_translation (l : list C) : list C := zeros (firstn 4 l) ++ skipn 4 l.
  Definition supertranslation_solver (N_itr_max : Z) (tol : xf) : res (bms * list xf) :=
    let? (alpha, errs) := run sstate G super_body ss_alpha N_itr_max tol (mkss zeroG None None) zeroG in
    Ok (mkbms (drop_translation (modes_of alpha)) q1 (0, 0, 0), errs).

  (** *** Centre of mass, 352-404.  [D] is the data, [fit] is transformation_from_CoM_charge of it. *)
  Variable D : Type.
  Variable data : D.
  Variable transform : bms -> res D.          (* abd.transform(...) of the original data *)
  Variable fit : D -> res bms.
  Variable com_error : D -> xf.
  (** 377-380: keep translation and boost. *)
  Definition com_strip (b : bms) : bms := mkbms (firstn 4 (sup b) ++ zeros (skipn 4 (sup b))) q1 (boost b).
  Definition com_body (itr : nat) (st : bms * D) : res ((bms * D) * xf) :=
    let '(b, d) := st in
    let d := match itr with O => data | S _ => d end in
    let? new := fit d in
    let? c := compose new b in
    let b' := com_strip c in
    let? d' := transform b' in
    Ok ((b', d'), com_error d').
  Definition com_solver (N_itr_max : Z) (tol : xf) : res (bms * list xf) :=
    run (bms * D) bms com_body fst N_itr_max tol (identity, data) identity.

  (** *** Rotation, 439-567, both branches (they differ in [align] and [rot_error]). *)
  Variable align : D -> res bms.
  Variable rot_error : D -> xf.
  Definition rot_strip (b : bms) : bms := mkbms (zeros (sup b)) (rot b) (0, 0, 0).
  Definition rot_body (itr : nat) (st : bms * D) : res ((bms * D) * xf) :=
    let '(b, d) := st in
    let d := match itr with O => data | S _ => d end in
    let? new := align d in
    let? c := compose new b in
    let b' := rot_strip c in
    let? d' := transform (mkbms (repeat C0 169) (rot b') (0, 0, 0)) in
    Ok ((b', d'), rot_error d').
  Definition rot_solver (N_itr_max : Z) (tol : xf) : res (bms * list xf) :=
    run (bms * D) bms rot_body fst N_itr_max tol (identity, data) identity.
End Inner.

(** ** map_to_superrest_frame, 686-907 *)
(** rel_err is first a list of three infinities, later a tuple of three numbers or the number align2d returns. *)
Inductive relerr : Type := Init | Triple (a b c : xf) | Scalar (e : xf).
Definition mean (r : relerr) : xf :=
  match r with Init => PInf | Scalar e => e | Triple a b c => xdiv3 (xadd (xadd a b) c) end.
Record tols := mktols { tol_com : xf; tol_rot : xf; tol_sup : xf }.
(** 803-810 *)
Definition converged (t : tols) (r : relerr) : bool :=
  match r with
  | Triple a b c => xlt a (tol_com t) && xlt b (tol_rot t) && xlt c (tol_sup t)
  | _ => false
  end.

Section Outer.
  (** A transformation [T] with its product; [solver name b]: the transformation found for the data mapped by [b]
      (one of the three inner solvers); [align2d]: error and transformation of the time/phase alignment. *)
  Variable T : Type.
  Variable compose : T -> T -> res T.
  Variable inverse : T -> res T.
  Variable solver : string -> T -> res T.
  Variable has_target : bool.               (* target_strain is not None *)
  Variable align2d : T -> res (xf * T).
  Variable charges : T -> res (xf * xf * xf).       (* rel_err_for_abd_in_superrest *)

  Record ostate := mkos { o_bms : T; o_new : option T; o_err : relerr }.
  (** One round of the inner [for transformation in order] loop, 818-869.  A name that matches none of the
      branches leaves the variable new_transformation as it is. *)
  Definition apply_one (st : ostate) (name : string) : res ostate :=
    let? (new, err) :=
      (if (String.eqb name "supertranslation" || String.eqb name "rotation" || String.eqb name "CoM_transformation")%bool
       then let? n := solver name (o_bms st) in Ok (Some n, o_err st)
       else if String.eqb name "time_phase" then
         if has_target then let? (e, n) := align2d (o_bms st) in Ok (Some n, Scalar e) else Ok (o_new st, o_err st)
       else Ok (o_new st, o_err st)) in
    match new with
    | None => Err UnboundLocalError
    | Some n => let? b := compose n (o_bms st) in Ok (mkos b new err)
    end.
  Fixpoint apply_all (st : ostate) (order : list string) : res ostate :=
    match order with [] => Ok st | n :: r => let? st' := apply_one st n in apply_all st' r end.
  (** 871-875; order[-1] of an empty order is only looked at when there is a target strain. *)
  Definition final_error (order : list string) (st : ostate) : res relerr :=
    let? keep :=
      (if has_target then
         match rev order with [] => Err IndexError | n :: _ => Ok (String.eqb n "time_phase") end
       else Ok false) in
    if keep then Ok (o_err st) else let? (a, b, c) := charges (o_bms st) in Ok (Triple a b c).
  Definition pass (order : list string) (st : ostate) : res ostate :=
    let? st' := apply_all st order in
    let? e := final_error order st' in
    Ok (mkos (o_bms st') (o_new st') e).
  (** 802-883.  [best] is the unset-or-set pair best_BMS_transformation, best_rel_err. *)
  Fixpoint outer (n : nat) (t : tols) (order : list string) (rel_errs : list relerr) (st : ostate)
           (best : option (T * relerr)) : res (option (T * relerr) * list relerr) :=
    match n with
    | O => Ok (best, rel_errs)
    | S n =>
      if converged t (o_err st) then Ok (best, rel_errs)
      else
        let? st' := pass order st in
        let? m := pymin (map mean rel_errs) in
        outer n t order (rel_errs ++ [o_err st']) st'
              (if xlt (mean (o_err st')) m then Some (o_bms st', o_err st') else best)
    end.
  (** 789-907.  [tt0] is the time translation to t_0, [one] the identity; the result is the transformation the
      data is finally transformed by and the error reported. *)
  Definition map_to_superrest (N_superrest : Z) (t : tols) (order : list string) (tt0 one : T) : res (T * relerr) :=
    let? b0 := compose tt0 one in
    let? (best, _) := outer (Z.to_nat N_superrest) t order [Init] (mkos b0 None Init) None in
    match best with
    | None => Err UnboundLocalError
    | Some (b, e) => let? i := inverse tt0 in let? r := compose i b in Ok (r, e)
    end.

  (** ** map_to_abd_frame.py:188-300.  [round]: one pass of lines 189-277 and its rel_err. *)
  Variable round : T -> res (T * xf).
  Fixpoint abd_loop (n : nat) (rel_errs : list xf) (b : T) (best : option (T * xf)) : res (option (T * xf)) :=
    match n with
    | O => Ok best
    | S n =>
      let? (b', e) := round b in
      let? m := pymin rel_errs in
      abd_loop n (rel_errs ++ [e]) b' (if xlt e m then Some (b', e) else best)
    end.
  Definition map_to_abd (N_abd : Z) (b0 : T) : res (T * xf) :=
    let? best := abd_loop (Z.to_nat N_abd) [PInf] b0 None in
    match best with None => Err UnboundLocalError | Some r => Ok r end.
End Outer.

(** ** rotation_from_spin_charge, 407-419 *)
Definition spin_rotor (c : vec3) : quat :=
  let '(x, y, z) := c in
  let chi_f := qnormalized (mkq 0 x y z) in
  qnormalized (qsub q1 (qmul chi_f qk)).
Definition rotation_from_spin_charge (chi : list vec3) (t : list R) : res quat :=
  let? i := argmin (map Rabs t) in
  match nth_error chi i with None => Err IndexError | Some c => Ok (spin_rotor c) end.
