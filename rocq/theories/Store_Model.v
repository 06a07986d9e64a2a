(** Objects that hold Bondi data and share arrays: asymptotic_bondi_data/__init__.py, the time setter of
    modes_time_series.py, and map_to_superrest_frame.py:time_translation.  Arrays live at addresses; an
    object holds addresses.  Numbers are exact. *)
From Coq Require Import Reals ZArith List Bool Arith.
From Verif Require Import Common Cplx Quat.
Import ListNotations.
Open Scope Z_scope.

Definition table : Type := list (list C).
(** Time arrays and tables of modes; addresses from [h_next] on are unused. *)
Record heap : Type := mkh { h_time : nat -> list R; h_tab : nat -> table; h_next : nat }.
Definition put_time (H : heap) (a : nat) (t : list R) : heap :=
  mkh (fun x => if Nat.eqb x a then t else h_time H x) (h_tab H) (h_next H).
Definition put_tab (H : heap) (a : nat) (t : table) : heap :=
  mkh (h_time H) (fun x => if Nat.eqb x a then t else h_tab H x) (h_next H).
Definition new_time (H : heap) (t : list R) : heap * nat :=
  let H' := put_time H (h_next H) t in (mkh (h_time H') (h_tab H') (S (h_next H)), h_next H).
Definition new_tab (H : heap) (t : table) : heap * nat :=
  let H' := put_tab H (h_next H) t in (mkh (h_time H') (h_tab H') (S (h_next H)), h_next H).
Fixpoint new_tabs (H : heap) (ts : list table) : heap * list nat :=
  match ts with
  | [] => (H, [])
  | t :: ts' => let '(H1, a) := new_tab H t in let '(H2, l) := new_tabs H1 ts' in (H2, a :: l)
  end.
Fixpoint new_times (H : heap) (ts : list (list R)) : heap * list nat :=
  match ts with
  | [] => (H, [])
  | t :: ts' => let '(H1, a) := new_time H t in let '(H2, l) := new_times H1 ts' in (H2, a :: l)
  end.

(** A ModesTimeSeries: the table it views and its time array (modes_time_series.py:14-18: "this class merely
    keeps a reference to the original time array"). *)
Record mts : Type := mkmts { m_tab : nat; m_time : nat; m_spin : Z }.
(** AsymptoticBondiData: _time, the six parts of _raw_data, the six fields, frame, frameType, ell_max. *)
Record abd : Type := mkabd { a_time : nat; a_raw : list nat; a_fields : list mts; a_frame : list quat; a_ftype : Z; a_ell : Z }.

(** spin weights of psi0..psi4, sigma (70-75) *)
Definition spins : list Z := [2; 1; 0; -1; -2; 2].
Definition Inertial : Z := 1.
(** np.zeros((n_times, LM_total_size(0, ell_max))) *)
Definition zeros (n : nat) (ell : Z) : table := repeat (repeat C0 (Z.to_nat ((ell + 1) ^ 2))) n.

(** __init__ (36-75) for a one-dimensional array of floats *)
Definition construct (H : heap) (time : list R) (ell ftype : Z) : heap * abd :=
  let '(H1, ta) := new_time H time in
  let '(H2, raw) := new_tabs H1 (repeat (zeros (length time) ell) 6) in
  (H2, mkabd ta raw (map (fun rs => mkmts (fst rs) ta (snd rs)) (combine raw spins)) [] ftype ell).

(** time getter and setter (77-84): in place, numpy refuses another length.  (Broadcasting of a single value is
    not modelled: `abd.t -= t_0` first computes the whole array.) *)
Definition get_time (H : heap) (o : abd) : list R := h_time H (a_time o).
Definition set_time (H : heap) (o : abd) (t : list R) : res heap :=
  if Nat.eqb (length t) (length (get_time H o)) then Ok (put_time H (a_time o) t) else Err ValueError.
(** field getters and setters (105-176): `self._psi4[:] = psi4prm`, tables of the same shape (broadcasting not
    modelled) *)
Definition field (o : abd) (k : nat) : res mts := match nth_error (a_fields o) k with Some f => Ok f | None => Err AttributeError end.
Definition shape (t : table) : list nat := map (@length C) t.
Definition set_field (H : heap) (o : abd) (k : nat) (t : table) : res heap :=
  let? f := field o k in
  if list_eq_dec Nat.eq_dec (shape t) (shape (h_tab H (m_tab f))) then Ok (put_tab H (m_tab f) t) else Err ValueError.
Definition get_field (H : heap) (o : abd) (k : nat) : res table := let? f := field o k in Ok (h_tab H (m_tab f)).
Definition field_time (H : heap) (o : abd) (k : nat) : res (list R) := let? f := field o k in Ok (h_time H (m_time f)).
(** modes_time_series.py:59-62: the setter of the field's own time *)
Definition set_field_time (H : heap) (o : abd) (k : nat) (t : list R) : res heap :=
  let? f := field o k in
  if Nat.eqb (length t) (length (h_time H (m_time f))) then Ok (put_time H (m_time f) t) else Err ValueError.

Section Copy.
(** External: numpy's __deepcopy__ of an array subclass copies the table; the metadata dictionary, which holds
    the time array, is handed over by __array_finalize__.  [shared]: the new dictionary refers to the same time
    array (a shallow copy of the dictionary); otherwise to a copy of its own. *)
Variable shared : bool.

(** copy (178-184): every attribute is deep-copied, one after the other; views become separate arrays. *)
Definition copy (H : heap) (o : abd) : heap * abd :=
  let '(H1, ta) := new_time H (get_time H o) in
  let '(H2, raw) := new_tabs H1 (map (h_tab H) (a_raw o)) in
  let '(H3, tabs) := new_tabs H2 (map (fun f => h_tab H (m_tab f)) (a_fields o)) in
  let '(H4, tms) := if shared then (H3, map m_time (a_fields o)) else new_times H3 (map (fun f => h_time H (m_time f)) (a_fields o)) in
  (H4, mkabd ta raw (map (fun x => mkmts (fst (fst x)) (snd (fst x)) (m_spin (snd x))) (combine (combine tabs tms) (a_fields o)))
             (a_frame o) (a_ftype o) (a_ell o)).
End Copy.

(** Assigning all six fields in turn *)
Fixpoint set_fields (H : heap) (o : abd) (ks : list nat) (src : nat -> res table) : res heap :=
  match ks with
  | [] => Ok H
  | k :: ks' => let? t := src k in let? H' := set_field H o k t in set_fields H' o ks' src
  end.
(** time_translation (map_to_superrest_frame.py:568-586): new object, fields assigned (sigma, psi4, ..., psi0),
    then `abd_prime.t -= t_0` *)
Definition time_translation (H : heap) (o : abd) (t0 : R) : res (heap * abd) :=
  let '(H1, o') := construct H (get_time H o) (a_ell o) Inertial in
  let? H2 := set_fields H1 o' [5; 4; 3; 2; 1; 0]%nat (fun k => get_field H o k) in
  let? H3 := set_time H2 o' (map (fun t => t - t0)%R (get_time H2 o')) in
  Ok (H3, o').

Section Interpolate.
(** External: cubic spline through a table at given times (ModesTimeSeries.interpolate, 72-98), quaternion.squad *)
Variable spline : list R -> table -> list R -> table.
Variable squad : list quat -> list R -> list R -> list quat.
(** interpolate (186-201).  Each field is interpolated from its own time array. *)
Definition interpolate (H : heap) (o : abd) (new : list R) : res (heap * abd) :=
  let '(H1, o') := construct H new (a_ell o) Inertial in
  let? H2 := set_fields H1 o' [5; 4; 3; 2; 1; 0]%nat
       (fun k => let? d := get_field H o k in let? t := field_time H o k in Ok (spline t d new)) in
  let frame := if Nat.eqb (length (a_frame o)) (length (get_time H o)) then squad (a_frame o) (get_time H o) new else [] in
  Ok (H2, mkabd (a_time o') (a_raw o') (a_fields o') frame (a_ftype o) (a_ell o')).
End Interpolate.

(** * Programs *)
(** What a user can do with a collection of objects, numbered in order of creation. *)
Inductive cmd : Type :=
| New (time : list R) (ell ftype : Z)
| Copy (i : nat)
| Translate (i : nat) (t0 : R)
| SetTime (i : nat) (t : list R)
| SetField (i k : nat) (t : table)
| SetFieldTime (i k : nat) (t : list R).
Record world : Type := mkw { w_heap : heap; w_objs : list abd }.
Definition obj (w : world) (i : nat) : res abd := match nth_error (w_objs w) i with Some o => Ok o | None => Err NameError end.
Definition step (shared : bool) (w : world) (c : cmd) : res world :=
  let H := w_heap w in
  let add (x : heap * abd) := mkw (fst x) (w_objs w ++ [snd x]) in
  match c with
  | New t ell ft => Ok (add (construct H t ell ft))
  | Copy i => let? o := obj w i in Ok (add (copy shared H o))
  | Translate i t0 => let? o := obj w i in let? x := time_translation H o t0 in Ok (add x)
  | SetTime i t => let? o := obj w i in let? H' := set_time H o t in Ok (mkw H' (w_objs w))
  | SetField i k t => let? o := obj w i in let? H' := set_field H o k t in Ok (mkw H' (w_objs w))
  | SetFieldTime i k t => let? o := obj w i in let? H' := set_field_time H o k t in Ok (mkw H' (w_objs w))
  end.
(** A command that raises leaves everything as it was. *)
Definition exec (shared : bool) (w : world) (c : cmd) : world := match step shared w c with Ok w' => w' | Err _ => w end.
Definition empty : world := mkw (mkh (fun _ => []) (fun _ => []) 0) [].
Definition run (shared : bool) (cs : list cmd) : world := fold_left (exec shared) cs empty.
