(** `ensure_validity` of the three waveform classes, the `is_valid` property, and the `alter`
    repairs: /repo/scri/waveform_base.py 65-81, 272-428; waveform_modes.py 264-343;
    waveform_grid.py 196-264.

    Simplifications: history/warning text is not modelled here (see Objects_Model.v); a numpy array
    is its type, shape and flattened values; [quaternion.as_quat_array] and [np.diff] of a
    non-vector are section variables. *)
From Coq Require Import Reals ZArith List Lia Lra Bool Arith.
From Verif Require Import Common Modes_Model Times_Model.
Import ListNotations.

(** IEEE numbers as far as finiteness and differences are concerned. *)
Inductive num : Type := Fin (x : R) | PInf | NInf | NaN.
Definition isfinite (x : num) : bool := match x with Fin _ => true | _ => false end.
(** [b - a > 0.0] *)
Definition diff_pos (a b : num) : bool :=
  match a, b with
  | Fin x, Fin y => Rltb x y
  | Fin _, PInf => true
  | NInf, Fin _ => true
  | NInf, PInf => true
  | _, _ => false
  end.
Fixpoint all_diff_pos (l : list num) : bool :=
  match l with
  | a :: (b :: _) as r => diff_pos a b && all_diff_pos r
  | _ => true
  end.

Inductive dtype : Type := DFloat | DComplex | DQuat | DOther.
Definition dtype_eqb (a b : dtype) : bool :=
  match a, b with
  | DFloat, DFloat | DComplex, DComplex | DQuat, DQuat | DOther, DOther => true
  | _, _ => false
  end.
Record arr := mkarr { dt : dtype; shape : list nat; vals : list num }.
Definition size (a : arr) : nat := length (vals a).
Definition ndim (a : arr) : nat := length (shape a).
(** An attribute holding an array, None, or something without array attributes. *)
Inductive attr : Type := ANone | ANot | Arr (a : arr).
Definition is_ndarray (x : attr) : bool := match x with Arr _ => true | _ => false end.
Definition as_arr (x : attr) : res arr := match x with Arr a => Ok a | _ => Err AttributeError end.
Definition shape_at (a : arr) (i : nat) : res nat :=
  match nth_error (shape a) i with Some n => Ok n | None => Err IndexError end.

(** `history`: a list of strings, a single string, or something else. [HList n]: n entries. *)
Inductive hist : Type := HList (n : nat) (first_is_str : bool) | HStr (len : nat) | HOther.
(** An integer attribute or something else, with the outcome of [in range]. *)
Inductive pyint : Type := PyInt (z : Z) | PyOther (member : bool).
Definition is_integral (p : pyint) : bool := match p with PyInt _ => true | _ => false end.
Definition in_range (n : Z) (p : pyint) : bool :=
  match p with PyInt z => (0 <=? z)%Z && (z <? n)%Z | PyOther b => b end.

Record wave := mkwave {
  w_t : attr; w_frame : attr; w_data : attr; w_hist : hist;
  w_ftype : pyint; w_dtype : pyint; w_rbool : bool; w_mbool : bool; w_numint : bool }.
Definition set_t (w : wave) (x : attr) : wave :=
  mkwave x (w_frame w) (w_data w) (w_hist w) (w_ftype w) (w_dtype w) (w_rbool w) (w_mbool w) (w_numint w).
Definition set_frame (w : wave) (x : attr) : wave :=
  mkwave (w_t w) x (w_data w) (w_hist w) (w_ftype w) (w_dtype w) (w_rbool w) (w_mbool w) (w_numint w).
Definition set_hist (w : wave) (x : hist) : wave :=
  mkwave (w_t w) (w_frame w) (w_data w) x (w_ftype w) (w_dtype w) (w_rbool w) (w_mbool w) (w_numint w).

Section Checks.
  (** [quaternion.as_quat_array], [None] when it raises AssertionError or ValueError. *)
  Variable as_quat_array : arr -> option attr.
  (** [np.all(np.diff(t) > 0.0)] and the [max] in the message, for arrays that are not vectors. *)
  Variable diff_nd : arr -> res bool.
  Variables alter assertions : bool.

  (** waveform_base.py 65-81: the two versions of [test]; [n] counts the collected errors. *)
  Definition test (n : nat) (val : bool) : res nat :=
    if assertions then (if val then Ok n else Err AssertionError)
    else (if val then Ok n else Ok (S n)).

  (** Lines 315-317: a 2-d single column of times is flattened. *)
  Definition alter_t (a : arr) : arr :=
    if alter && (Nat.eqb (ndim a) 2) && (match nth_error (shape a) 1 with Some 1%nat => true | _ => false end)
    then mkarr (dt a) (firstn 1 (shape a)) (vals a) else a.

  (** Lines 323-329. *)
  Definition times_increasing (a : arr) : res bool :=
    if (size a <=? 1)%nat then Ok true
    else if Nat.eqb (ndim a) 1 then Ok (all_diff_pos (vals a)) else diff_nd a.

  (** Lines 332-348: frame None becomes an empty quaternion array; floats are reinterpreted. *)
  Definition alter_frame_none (x : attr) : attr :=
    match x with ANone => if alter then Arr (mkarr DQuat [0%nat] []) else x | _ => x end.
  Definition alter_frame_float (x : attr) (a : arr) : attr :=
    if alter && dtype_eqb (dt a) DFloat then match as_quat_array a with Some y => y | None => x end else x.

  (** Lines 374-379. *)
  Definition alter_hist (h : hist) : hist :=
    if alter then
      match h with
      | HList 0 _ => HList 1 true
      | HStr 0 => HList 1 true
      | HStr _ => HList 1 true      (* split gives at least one piece, a string *)
      | _ => h
      end
    else h.
  (** [self.history[0]] and whether it is a string (lines 385-389). *)
  Definition hist_first (h : hist) : res bool :=
    match h with
    | HList 0 _ => Err IndexError
    | HList _ b => Ok b
    | HStr 0 => Err IndexError
    | HStr _ => Ok true
    | HOther => Err TypeError
    end.
  Definition is_list (h : hist) : bool := match h with HList _ _ => true | _ => false end.

  (** WaveformBase.ensure_validity, lines 272-424. *)
  Definition base_ensure_validity (w : wave) : res (bool * wave) :=
    let n := 0%nat in
    let? n := test n (is_ndarray (w_t w)) in
    let? t := as_arr (w_t w) in
    let? n := test n (dtype_eqb (dt t) DFloat) in
    let t := alter_t t in
    let w := set_t w (Arr t) in
    let? n := test n (Nat.eqb (size t) 0 || Nat.eqb (ndim t) 1) in
    let? inc := times_increasing t in
    let? n := test n inc in
    let? n := test n (forallb isfinite (vals t)) in
    let w := set_frame w (alter_frame_none (w_frame w)) in
    let? n := test n (is_ndarray (w_frame w)) in
    let? f := as_arr (w_frame w) in
    let w := set_frame w (alter_frame_float (w_frame w) f) in
    let? f := as_arr (w_frame w) in
    let? n := test n (dtype_eqb (dt f) DQuat) in
    let? n := test n ((size f <=? 1)%nat || Nat.eqb (size f) (size t)) in
    let? n := test n (forallb isfinite (vals f)) in
    let? n := test n (is_ndarray (w_data w)) in
    let? d := as_arr (w_data w) in
    let? n := test n (1 <=? ndim d)%nat in
    let? d0 := shape_at d 0 in
    let? t0 := shape_at t 0 in
    let? n := test n (Nat.eqb d0 t0) in
    let? n := test n (forallb isfinite (vals d)) in
    let w := set_hist w (alter_hist (w_hist w)) in
    let? n := test n (is_list (w_hist w)) in
    let? b := hist_first (w_hist w) in
    let? n := test n b in
    let? n := test n (is_integral (w_ftype w)) in
    let? n := test n (in_range 5 (w_ftype w)) in
    let? n := test n (is_integral (w_dtype w)) in
    let? n := test n (in_range 11 (w_dtype w)) in
    let? n := test n (w_rbool w) in
    let? n := test n (w_mbool w) in
    let? n := test n (w_numint w) in
    Ok (Nat.eqb n 0, w).

  (** WaveformModes adds `ell_min`, `ell_max`, `LM`; [ints]: both are Integral. *)
  Record modes := mkmodes { m_base : wave; m_ints : bool * bool; m_lmin : Z; m_lmax : Z; m_LM : list (Z * Z) }.

  (** [np.array_equal] of two lists of index pairs. *)
  Fixpoint LM_eqb (a b : list (Z * Z)) : bool :=
    match a, b with
    | [], [] => true
    | (x, y) :: a', (u, v) :: b' => (x =? u)%Z && (y =? v)%Z && LM_eqb a' b'
    | _, _ => false
    end.

  (** waveform_modes.py 264-343.  The result of the base-class check (line 338) is discarded. *)
  Definition modes_ensure_validity (w : modes) : res (bool * modes) :=
    let n := 0%nat in
    let? n := test n (fst (m_ints w)) in
    let? n := test n (snd (m_ints w)) in
    let? n := test n (0 <=? m_lmin w)%Z in
    let? n := test n (m_lmin w - 1 <=? m_lmax w)%Z in
    let rng := LM_range (m_lmin w) (m_lmax w) in
    let w := if alter && negb (LM_eqb (m_LM w) rng)
             then mkmodes (m_base w) (m_ints w) (m_lmin w) (m_lmax w) rng else w in
    let? n := test n (LM_eqb (m_LM w) rng) in
    let? d := as_arr (w_data (m_base w)) in
    let? n := test n (dtype_eqb (dt d) DComplex) in
    let? n := test n (2 <=? ndim d)%nat in
    let? d1 := shape_at d 1 in
    let? n := test n (Nat.eqb d1 (length (m_LM w))) in
    if negb (Nat.eqb n 0) then Ok (false, w)
    else
      let? (_, b) := base_ensure_validity (m_base w) in
      Ok (true, mkmodes b (m_ints w) (m_lmin w) (m_lmax w) (m_LM w)).

  (** waveform_grid.py 196-264. *)
  Record grid := mkgrid { g_base : wave; g_ints : bool * bool; g_ntheta : Z; g_nphi : Z }.
  Definition grid_ensure_validity (w : grid) : res (bool * grid) :=
    let n := 0%nat in
    let? n := test n (fst (g_ints w)) in
    let? n := test n (snd (g_ints w)) in
    let? n := test n (0 <=? g_ntheta w)%Z in
    let? n := test n (0 <=? g_nphi w)%Z in
    let? d := as_arr (w_data (g_base w)) in
    let? n := test n (dtype_eqb (dt d) DComplex) in
    let? n := test n (2 <=? ndim d)%nat in
    let? d1 := shape_at d 1 in
    let? n := test n (Z.eqb (Z.of_nat d1) (g_ntheta w * g_nphi w)) in
    if negb (Nat.eqb n 0) then Ok (false, w)
    else
      let? (_, b) := base_ensure_validity (g_base w) in
      Ok (true, mkgrid b (g_ints w) (g_ntheta w) (g_nphi w)).
End Checks.

(** waveform_base.py 426-428. *)
Definition base_is_valid q d w := base_ensure_validity q d false false w.
Definition modes_is_valid q d w := modes_ensure_validity q d false false w.
