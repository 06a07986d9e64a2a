(** * Reading waveforms in LVC format: LVC/file_io.py 10-54

    HDF5 is a list of named members; splines stored in a group have [X], [Y] and [deg].  Of the text accepted by
    Python's [int] only signs and digits are modelled (no spaces or underscores). *)
From Coq Require Import String Ascii ZArith Reals List Bool.
From Verif Require Import Common Cplx Times_Model Modes_Model H5_Model.
Import ListNotations.
Open Scope R_scope.

Inductive lnode :=
| LTimes (t : list R)
| LSpline (X Y : list R) (deg : Z)
| LAux (history : option string)
| LOther.
Definition lfile := list (string * lnode).
Record lwave := mklw { l_t : list R; l_data : list (list C); l_min : Z; l_max : Z; l_frame : Z; l_type : Z;
  l_r : bool; l_m : bool; l_hist : list string }.

(** The part of the text that [.] of a regular expression can match. *)
Fixpoint first_line (s : string) : string :=
  match s with
  | EmptyString => EmptyString
  | String c r => if Ascii.eqb c newline then EmptyString else String c (first_line r)
  end.
(** Line 16: the pattern "phase_l", anything, "_m", anything, matched at the beginning; the first group is greedy. *)
Definition phase_match (s : string) : option (string * string) :=
  match strip "phase_l" s with Some r => rcut "_m" (first_line r) | None => None end.
(** Lines 21-23. *)
Fixpoint ell_m (names : list string) : res (list (Z * Z)) :=
  match names with
  | [] => Ok []
  | n :: r => match phase_match n with
              | None => ell_m r
              | Some (a, b) => let? l := py_int a in let? m := py_int b in let? rest := ell_m r in Ok ((l, m) :: rest)
              end
  end.
(** Lines 24-25: [np.min], [np.max]; without a match the array has no second axis. *)
Definition ell_range (l : list (Z * Z)) : res (Z * Z) :=
  match l with
  | [] => Err IndexError
  | (e, _) :: r => Ok (fold_left (fun a p => Z.min a (fst p)) r e, fold_left (fun a p => Z.max a (fst p)) r e)
  end.
Definition get_times (f : lfile) : res (list R) :=
  match assoc "NRtimes"%string f with Some (LTimes t) => Ok t | Some _ => Err TypeError | None => Err KeyError end.
Definition amp_name (l m : Z) : string := ("amp_l" ++ dec l ++ "_m" ++ dec m)%string.
Definition phase_name (l m : Z) : string := ("phase_l" ++ dec l ++ "_m" ++ dec m)%string.
(** [LM_total_size], as documented. *)
Definition total_size (a b : Z) : Z := (b * (b + 2) - a ^ 2 + 1)%Z.
(** [data[:, j] = column] *)
Fixpoint set_at {A} (k : nat) (x : A) (l : list A) : list A :=
  match l, k with [], _ => [] | _ :: r, O => x :: r | y :: r, S k' => y :: set_at k' x r end.
Definition set_column (cols : list (list C)) (j : Z) (c : list C) : res (list (list C)) :=
  let n := Z.of_nat (length cols) in
  if (0 <=? j)%Z && (j <? n)%Z then Ok (set_at (Z.to_nat j) c cols)
  else if (- n <=? j)%Z && (j <? 0)%Z then Ok (set_at (Z.to_nat (n + j)) c cols)
  else Err IndexError.
Definition polar (p : R * R) : C := mkC (fst p * cos (snd p)) (fst p * sin (snd p)).
(** [text.replace("\n", "\n### ")], line 38. *)
Fixpoint comment_lines (s : string) : string :=
  match s with
  | EmptyString => EmptyString
  | String c r => if Ascii.eqb c newline then String c ("### " ++ comment_lines r)%string else String c (comment_lines r)
  end.
Definition history_of (f : lfile) : list string :=
  match assoc "auxiliary-info"%string f with
  | Some (LAux (Some s)) => lines ("### " ++ comment_lines s)
  | _ => [""%string]
  end.
Fixpoint rising (l : list R) : bool :=
  match l with a :: ((b :: _) as t) => Rltb a b && rising t | _ => true end.

Section Read.
  (** External: [InterpolatedUnivariateSpline(X, Y, k)(t)]; uninitialised memory of [np.empty]; what the
      constructor adds to the history. *)
  Variable spline : list R -> list R -> Z -> list R -> res (list R).
  Variable junk : nat -> nat -> C.
  Variable added : list string.

  Definition get_spline (f : lfile) (n : string) (t : list R) : res (list R) :=
    match assoc n f with Some (LSpline X Y k) => spline X Y k t | _ => Err KeyError end.
  (** Lines 27-35. *)
  Fixpoint fill_columns (f : lfile) (t : list R) (ell_min : Z) (todo : list (Z * Z)) (cols : list (list C))
    : res (list (list C)) :=
    match todo with
    | [] => Ok cols
    | (l, m) :: rest =>
        let? a := get_spline f (amp_name l m) t in
        let? p := get_spline f (phase_name l m) t in
        let? cols := set_column cols (LM_index l m ell_min) (map polar (combine a p)) in
        fill_columns f t ell_min rest cols
    end.
  Definition read_lvc (f : lfile) : res lwave :=
    let? t := get_times f in
    let? lm := ell_m (map fst f) in
    let? range := ell_range lm in
    let (a, b) := range in
    if (total_size a b <? 0)%Z then Err ValueError
    else
      let cols := map (fun j => map (fun i => junk i j) (seq 0 (length t))) (seq 0 (Z.to_nat (total_size a b))) in
      let? cols := fill_columns f t a (LM_range a b) cols in
      (* waveform_base.py 278-411: tests made when the object is constructed *)
      if (0 <=? a)%Z && rising t then
        Ok (mklw t (map (fun i => map (fun c => nth i c C0) cols) (seq 0 (length t))) a b 1 7 true true
              (history_of f ++ added)%list)
      else Err AssertionError.
End Read.
