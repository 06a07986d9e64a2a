(** * Comparison of waveforms: compare, _allclose, and copies made by pickling

    Source: /repo/scri/waveform_base.py 577-684 (compare), 764-795 (__getstate__, __setstate__), 216-220
    (numbering of objects), 849-913 (_allclose).  Waveforms have as many columns as their range of ell
    says.  Warnings and histories are not modelled. *)
From Coq Require Import String Ascii ZArith Reals List Bool.
From Verif Require Import Common Cplx Quat Times_Model Modes_Model H5_Model.
Import ListNotations.
Open Scope R_scope.

Record cwave := mkcw { c_t : list R; c_frame : list quat; c_data : list (list C); c_min : Z; c_max : Z;
  c_ftype : Z; c_dtype : Z; c_r : bool; c_m : bool }.
Definition n_modes (w : cwave) : nat := length (LM_range (c_min w) (c_max w)).
Definition column (w : cwave) (j : nat) : list C := map (fun r => nth j r C0) (c_data w).
(** [w.data[:, j]] for any integer [j]. *)
Definition py_column (w : cwave) (j : Z) : res (list C) :=
  let n := Z.of_nat (n_modes w) in
  if (0 <=? j)%Z && (j <? n)%Z then Ok (column w (Z.to_nat j))
  else if (- n <=? j)%Z && (j <? 0)%Z then Ok (column w (Z.to_nat (n + j)))
  else Err IndexError.
Fixpoint map_ok {A B} (f : A -> res B) (l : list A) : res (list B) :=
  match l with [] => Ok [] | a :: t => let? b := f a in let? r := map_ok f t in Ok (b :: r) end.
(** Rows from columns. *)
Definition rows_of (n : nat) (cols : list (list C)) : list (list C) :=
  map (fun i => map (fun c => nth i c C0) cols) (seq 0 n).
(** [quaternion.rotor_chordal_distance] *)
Definition chordal (p q : quat) : R := qabs (qsub p q).

Section Compare.
  (** External: [quaternion.squad], [CubicSpline(t, y)(x)], [mean_rotor_in_chordal_metric]. *)
  Variable squad : list quat -> list R -> list R -> list quat.
  Variable spline : list R -> list R -> R -> R.
  Variable mean : list quat -> list R -> quat.

  (** Lines 630-656.  [np.quaternion.squad] and [np.quaternions] do not exist. *)
  Definition compare_frame (b a : cwave) (times : list R) : res (list quat) :=
    let na := length (c_frame a) in
    let nb := length (c_frame b) in
    if (1 <? na)%nat && (1 <? nb)%nat then
      Ok (map (fun p => qmul (fst p) (qinv (snd p)))
            (combine (squad (c_frame a) (c_t a) times) (squad (c_frame b) (c_t b) times)))
    else if (na =? 1)%nat && (1 <? nb)%nat then Err AttributeError
    else if (1 <? na)%nat && (nb =? 1)%nat then Err AttributeError
    else if (na =? 1)%nat && (nb =? 1)%nat then Err AttributeError
    else if (na =? 0)%nat && (nb =? 1)%nat then Err AttributeError
    else if (na =? 1)%nat && (nb =? 1)%nat then Ok (firstn 1 (c_frame a))
    else Ok [].
  (** Lines 658-668. *)
  Definition compare_sign (frame : list quat) (times : list R) : list quat :=
    if (length frame =? length times)%nat then
      if Rltb (chordal (mean frame times) (qopp q1)) (chordal (mean frame times) q1) then map qopp frame else frame
    else match frame with
         | [q] => if Rltb (chordal q (qopp q1)) (chordal q q1) then [qopp q] else [q]
         | _ => frame
         end.
  Definition spline_c (t : list R) (y : list C) (x : R) : C :=
    mkC (spline t (map re y) x) (spline t (map im y) x).
  (** Lines 671-682; [index] is [LM_index] (waveform_modes.py 437), without a check of the range. *)
  Definition compare_column (b a : cwave) (times : list R) (j : nat) (lm : Z * Z) : res (list C) :=
    let? yb := py_column b (LM_index (fst lm) (snd lm) (c_min b)) in
    Ok (map (fun x => Csub (spline_c (c_t a) (column a j) x) (spline_c (c_t b) yb x)) times).
  Definition compare_data (b a : cwave) (times : list R) : res (list (list C)) :=
    let? cols := map_ok (fun p => compare_column b a times (fst p) (snd p))
                   (combine (seq 0 (n_modes a)) (LM_range (c_min a) (c_max a))) in
    Ok (rows_of (length times) cols).
  (** [b.compare(a, min_time_step, min_time)], lines 577-684.  The last two arguments are not used. *)
  Definition compare (fuel : nat) (b a : cwave) (min_time_step min_time : R) : res cwave :=
    if negb (n_modes b =? n_modes a)%nat then Err PlainException
    else
      let? times := intersection (c_t b) (c_t a) fuel None None None in
      let? frame := compare_frame b a times in
      let frame := compare_sign frame times in
      let? data := compare_data b a times in
      Ok (mkcw times frame data (c_min b) (c_max b) (c_ftype b) (c_dtype b) (c_r b) (c_m b)).
End Compare.

(** ** _allclose *)
(** Arrays of any shape; entries are complex, real arrays and the components of rotors embed. *)
Record ndarr := mknd { nd_shape : list nat; nd_at : list nat -> C }.
Inductive value :=
| VArr (a : ndarr)
| VOther (x : Z).
(** Attributes in the order of creation; the type of the object; its history and version history. *)
Record pyobj := mkpy { p_type : string; p_attrs : list (string * value); p_history : list string; p_versions : list (string * string) }.

(** Shapes of numpy's broadcasting, on reversed shapes. *)
Fixpoint bshape (a b : list nat) : option (list nat) :=
  match a, b with
  | [], s => Some s
  | s, [] => Some s
  | x :: a', y :: b' =>
      match bshape a' b' with
      | None => None
      | Some r => if (x =? y)%nat then Some (x :: r)
                  else if (x =? 1)%nat then Some (y :: r) else if (y =? 1)%nat then Some (x :: r) else None
      end
  end.
(** Reversed index into an array of the (reversed) shape [s] for the (reversed) index [i] of the result. *)
Fixpoint bindex (s i : list nat) : list nat :=
  match s, i with
  | x :: s', k :: i' => (if (x =? 1)%nat then 0%nat else k) :: bindex s' i'
  | _, _ => []
  end.
(** All (reversed) indices of a (reversed) shape. *)
Fixpoint all_indices (s : list nat) : list (list nat) :=
  match s with
  | [] => [[]]
  | n :: r => flat_map (fun i => map (fun k => k :: i) (seq 0 n)) (all_indices r)
  end.
Definition Cabs' (c : C) : R := sqrt (re c * re c + im c * im c).
(** [np.isclose] of finite numbers. *)
Definition close (rtol atol : R) (x y : C) : bool := Rleb (Cabs' (Csub x y)) (atol + rtol * Cabs' y).
(** [np.allclose(a, b, rtol, atol)] *)
Definition np_allclose (a b : ndarr) (rtol atol : R) : res bool :=
  match bshape (rev (nd_shape a)) (rev (nd_shape b)) with
  | None => Err ValueError
  | Some s => Ok (forallb (fun i => close rtol atol (nd_at a (rev (bindex (rev (nd_shape a)) i)))
                                                    (nd_at b (rev (bindex (rev (nd_shape b)) i)))) (all_indices s))
  end.
Fixpoint attr (k : string) (l : list (string * value)) : option value :=
  match l with [] => None | (n, v) :: r => if String.eqb n k then Some v else attr k r end.
Definition mem (k : string) (l : list string) : bool := existsb (String.eqb k) l.
Fixpoint strs_eqb (a b : list string) : bool :=
  match a, b with [], [] => true | x :: a', y :: b' => String.eqb x y && strs_eqb a' b' | _, _ => false end.
Fixpoint pairs_eqb (a b : list (string * string)) : bool :=
  match a, b with
  | [], [] => true
  | (x, x') :: a', (y, y') :: b' => String.eqb x y && String.eqb x' y' && pairs_eqb a' b'
  | _, _ => false
  end.
(** One attribute, lines 883-910: is it found equal? *)
Definition attr_equal (self other : pyobj) (rtol atol : R) (beginnings : bool) (exceptions : list string)
    (kv : string * value) : res bool :=
  let (key, val) := kv in
  if ends_with "__num" key || mem key exceptions then Ok true
  else if String.eqb key "history" then
    Ok (negb beginnings ||
        let n := Nat.min (length (p_history self)) (length (p_history other)) in
        strs_eqb (firstn n (p_history self)) (firstn n (p_history other)))
  else if String.eqb key "version_hist" then Ok (pairs_eqb (p_versions self) (p_versions other))
  else match attr key (p_attrs other) with
       | None => Err KeyError
       | Some v =>
           match val, v with
           | VArr a, VArr b => np_allclose a b rtol atol
           | VArr a, VOther y => np_allclose a (mknd [] (fun _ => RtoC (IZR y))) rtol atol
           | VOther x, VOther y => Ok (Z.eqb x y)
           | VOther x, VArr b =>
               (* truth value of an array: only with a single element *)
               if (fold_right Nat.mul 1 (nd_shape b) =? 1)%nat
               then Ok (close 0 0 (RtoC (IZR x)) (nd_at b (map (fun _ => 0%nat) (nd_shape b)))) else Err ValueError
           end
       end.
(** The loop, lines 882-912. *)
Fixpoint attrs_loop (self other : pyobj) (report_all : bool) (rtol atol : R) (beginnings : bool)
    (exceptions : list string) (todo : list (string * value)) (equality : bool) : res bool :=
  match todo with
  | [] => Ok equality
  | kv :: r =>
      let skip := ends_with "__num" (fst kv) || mem (fst kv) exceptions in
      let? e := attr_equal self other rtol atol beginnings exceptions kv in
      let equality := equality && e in
      if negb skip && negb report_all && negb equality then Ok false
      else attrs_loop self other report_all rtol atol beginnings exceptions r equality
  end.
Definition allclose (self other : pyobj) (report_all : bool) (rtol atol : R) (beginnings : bool)
    (exceptions : list string) : res bool :=
  let equality := String.eqb (p_type self) (p_type other) in
  if negb report_all && negb equality then Ok false
  else attrs_loop self other report_all rtol atol beginnings exceptions (p_attrs self) equality.

(** ** Numbers of objects, lines 216-220 and 764-795 *)
(** [counter] is the class attribute; objects carry their number.  [construct] takes the current value and
    increments it; unpickling (and the standard [copy] module) reads the class attribute only. *)
Inductive creation := Construct | Unpickle.
Fixpoint numbers (counter : Z) (l : list creation) : list Z :=
  match l with
  | [] => []
  | Construct :: r => counter :: numbers (counter + 1) r
  | Unpickle :: r => counter :: numbers counter r
  end.
