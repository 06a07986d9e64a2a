(** Functions on arrays of times: /repo/scri/SpEC/file_io/__init__.py (50-79) and
    /repo/scri/extrapolation.py (26-123).  Times are exact reals (no rounding). *)
From Coq Require Import Reals List Lia Lra Bool Arith.
From Verif Require Import Common.
Import ListNotations.
Open Scope R_scope.

Definition Rltb (x y : R) : bool := if Rlt_dec x y then true else false.
Definition Rleb (x y : R) : bool := if Rle_dec x y then true else false.

(** * SpEC/file_io: index_is_monotonic, lines 50-71 *)
(** Loop of lines 56-60 (increasing branch). *)
Fixpoint mono_up (max_value : R) (ys : list R) : list bool :=
  match ys with
  | [] => []
  | y :: t => if Rleb y max_value then false :: mono_up max_value t else true :: mono_up y t
  end.
(** Loop of lines 63-67 (decreasing branch). *)
Fixpoint mono_down (min_value : R) (ys : list R) : list bool :=
  match ys with
  | [] => []
  | y :: t => if Rleb min_value y then false :: mono_down min_value t else true :: mono_down y t
  end.
(** [y[-1]] and [y[0]] fail on an empty array. *)
Definition index_is_monotonic (y : list R) : res (list bool) :=
  match y with
  | [] => Err IndexError
  | y0 :: t =>
      let direction := last y 0 - y0 in
      Ok (true :: (if Rltb 0 direction then mono_up y0 t else mono_down y0 t))
  end.

(** Boolean-mask indexing [a[mask]]. *)
Fixpoint mask_select {A} (m : list bool) (l : list A) : list A :=
  match m, l with
  | b :: m', x :: l' => if b then x :: mask_select m' l' else mask_select m' l'
  | _, _ => []
  end.
(** Lines 73-75. *)
Definition spec_monotonic_indices (y : list R) : res (list nat) :=
  rmap (fun m => mask_select m (seq 0 (length y))) (index_is_monotonic y).
(** Lines 78-79: [y[monotonic_indices(y)]]. *)
Definition monotonize (y : list R) : res (list R) :=
  rmap (map (fun i => nth i y 0)) (spec_monotonic_indices y).

(** * extrapolation.monotonic_indices, lines 26-43 *)
Section Extrap.
  Variable T : list R.
  Variable step : R.   (* MinTimeStep *)
  Definition tt (k : nat) : R := nth k T 0.

  (** Inner loop, lines 35-37: first position [j] with not (T[Ind[j]] + step < ti). *)
  Fixpoint find_j (Ind : list nat) (ti : R) : option nat :=
    match Ind with
    | [] => None
    | k :: rest => if Rltb (tt k + step) ti then option_map S (find_j rest ti) else Some 0%nat
    end.

  (** [delete(Ind, range(j, i))], line 39. *)
  Definition del (Ind : list nat) (j i : nat) : list nat := firstn j Ind ++ skipn i Ind.

  (** [Ind[i - 1]] with Python wrap-around for [i = 0]. *)
  Definition prev (Ind : list nat) (i : nat) : nat :=
    match i with O => nth (length Ind - 1) Ind 0%nat | S i' => nth i' Ind 0%nat end.

  (** One iteration of the outer loop, lines 33-42; [i = j - 1; i += 1] leaves [i = j]. *)
  Definition mi_step (Ind : list nat) (i : nat) : option (list nat * nat) :=
    if Rleb (tt (nth i Ind 0%nat)) (tt (prev Ind i) + step) then
      match find_j Ind (tt (nth i Ind 0%nat)) with
      | Some j => Some (del Ind j i, j)
      | None => None
      end
    else Some (Ind, S i).

  Fixpoint mi_loop (fuel : nat) (Ind : list nat) (i : nat) : res (list nat) :=
    if Nat.ltb i (length Ind) then
      match fuel with
      | O => Err OutOfFuel
      | S f => match mi_step Ind i with
               | Some (Ind', i') => mi_loop f Ind' i'
               | None => Err IndexError
               end
      end
    else Ok Ind.

  (** Lines 30-43; the result for a given number of allowed iterations. *)
  Definition monotonic_indices (fuel : nat) : res (list nat) := mi_loop fuel (seq 0 (length T)) 1.
End Extrap.

(** * intersection, lines 46-123 *)
Section Intersection.
  Variables t1 t2 : list R.

  (** [while t[I] > t1[I1] and I1 < size1: I1 += 1] (lines 108-109): the element is read before
      the bound is tested, so running off the end is an IndexError. *)
  Fixpoint advance (l : list R) (x : R) (i : nat) (fuel : nat) : res nat :=
    match nth_error l i with
    | None => Err IndexError
    | Some y =>
        if Rltb y x && Nat.ltb i (length l) then
          match fuel with O => Err OutOfFuel | S f => advance l x (S i) f end
        else Ok i
    end.

  (** Lines 103-109 / 111-117.  [I1 = 0] when [x] is outside the range of [l]. *)
  Definition adjust (l : list R) (lo hi : R) (x : R) (i : nat) : res nat :=
    if Rltb x lo || Rltb hi x then Ok 0%nat
    else advance l x (Nat.max i 1) (length l).

  (** [l[i] - l[i-1]] with wrap-around of index -1 when [i = 0] (numpy). *)
  Definition diff_at (l : list R) (i : nat) : res R :=
    match nth_error l i, nth_error l (match i with O => length l - 1 | S i' => i' end) with
    | Some a, Some b => Ok (a - b)
    | _, _ => Err IndexError
    end.

  (** Main loop, lines 101-122.  [acc] holds [t[0..I-1]] reversed, [x = t[I]]; [cap] is the size of
      the buffer, writing [t[I+1]] beyond it is an IndexError. *)
  Fixpoint inter_loop (fuel : nat) (cap : nat) (min1 max1 min2 max2 maxt min_step : R)
      (acc : list R) (x : R) (I1 I2 : nat) : res (list R) :=
    if Rltb x maxt then
      match fuel with
      | O => Err OutOfFuel
      | S f =>
          let? I1' := adjust t1 min1 max1 x I1 in
          let? I2' := adjust t2 min2 max2 x I2 in
          let? d1 := diff_at t1 I1' in
          let? d2 := diff_at t2 I2' in
          let x' := x + Rmax (Rmin d1 d2) min_step in
          if Nat.ltb (S (length acc)) cap then
            if Rltb maxt x' then Ok (rev (x :: acc))
            else inter_loop f cap min1 max1 min2 max2 maxt min_step (x :: acc) x' I1' I2'
          else Err IndexError
      end
    else Ok (rev acc).

  Fixpoint diffs (l : list R) : list R :=
    match l with a :: ((b :: _) as t) => (b - a) :: diffs t | _ => [] end.
  (** [np.min] of an empty array raises ValueError. *)
  Definition np_min (l : list R) : res R :=
    match l with [] => Err ValueError | a :: t => Ok (fold_left Rmin t a) end.

  Definition intersection (fuel : nat) (min_step min_time max_time : option R) : res (list R) :=
    match t1, t2 with
    | [], _ => Err ValueError
    | _, [] => Err ValueError
    | min1 :: _, min2 :: _ =>
        let mint := match min_time with None => Rmax min1 min2 | Some m => Rmax (Rmax min1 min2) m end in
        let max1 := last t1 0 in
        let max2 := last t2 0 in
        let maxt := match max_time with None => Rmin max1 max2 | Some m => Rmin (Rmin max1 max2) m end in
        if Rltb max1 mint || Rltb max2 mint then Err ValueError
        else if Rltb maxt min1 || Rltb maxt min2 then Err ValueError
        else
          let? ms := match min_step with
                     | Some s => Ok s
                     | None => let? a := np_min (diffs t1) in let? b := np_min (diffs t2) in Ok (Rmin a b)
                     end in
          inter_loop fuel (length t1 + length t2) min1 max1 min2 max2 maxt ms [] mint 0 0
    end.
End Intersection.
