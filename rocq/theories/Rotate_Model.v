(** Rotation of the decomposition basis (/repo/scri/rotations.py): the two numba kernels with their index
    arithmetic and workspaces, rotate_decomposition_basis with its argument handling and frame bookkeeping,
    rotate_physical_system and to_inertial_frame. *)
From Coq Require Import Reals ZArith List Bool Lia.
From Verif Require Import Common Cplx Quat Modes_Model Modal_Model.
Import ListNotations.
Open Scope Z_scope.

(** External sf._linear_matrix_offset(ell, ell_min): position of the (2 ell + 1)^2 entries of degree ell in
    a flat array holding the matrices of degrees ell_min, ell_min+1, ... *)
Definition matrix_offset (ell ell_min : Z) : Z :=
  ell * (2 * ell - 1) * (2 * ell + 1) / 3 - ell_min * (2 * ell_min - 1) * (2 * ell_min + 1) / 3.
(** External sf.WignerD._total_size_D_matrices(ell_min, ell_max), used at rotations.py:298. *)
Definition matrix_total (ell_min ell_max : Z) : Z := matrix_offset (ell_max + 1) ell_min.

(** `a[i] += v` *)
Definition add_to (a : list C) (i : Z) (v : C) : res (list C) :=
  let? x := rd a i in wr a i (x + v)%C.

(** _rotate_decomposition_basis_by_constant (346-367), the body of the loop over times and, inside it, of
    the loop over ell.  numba does not check bounds: an out-of-bounds access is the error [IndexError]
    of [rd]/[wr].  The state is (data[i_t], tmp). *)
Definition constant_ell (ell_min ell : Z) (D : list C) (st : list C * list C) : res (list C * list C) :=
  let i_data := ell ^ 2 - ell_min ^ 2 in
  let i_D := matrix_offset ell ell_min in
  let n := 2 * ell + 1 in
  let? t0 := for_each (zrange 0 n) (fun i_m tmp => wr tmp i_m C0) (snd st) in
  let? t1 := for_each (zrange 0 n) (fun i_mp tmp =>
               for_each (zrange 0 n) (fun i_m tmp' =>
                 let? d := rd (fst st) (i_data + i_mp) in
                 let? w := rd D (i_D + n * i_mp + i_m) in
                 add_to tmp' i_m (d * w)%C) tmp) t0 in
  let? row := for_each (zrange 0 n) (fun i_m row => let? v := rd t1 i_m in wr row (i_data + i_m) v) (fst st) in
  Ok (row, t1).
Definition constant_time (ell_min ell_max : Z) (D : list C) (st : list C * list C) : res (list C * list C) :=
  for_each (zrange ell_min (ell_max + 1)) (fun ell st => constant_ell ell_min ell D st) st.
(** The loop over times; [tmp] is carried from one time to the next. *)
Fixpoint by_constant (ell_min ell_max : Z) (D : list C) (rows : list (list C)) (tmp : list C)
  : res (list (list C)) :=
  match rows with
  | [] => Ok []
  | row :: rows' =>
      let? st := constant_time ell_min ell_max D (row, tmp) in
      let? out := by_constant ell_min ell_max D rows' (snd st) in
      Ok (fst st :: out)
  end.

(** _rotate_decomposition_basis_by_series (370-392).  The state is (data[i_t], D): the sums overwrite the
    first row of the matrix of degree ell. *)
Definition series_ell (ell_min ell : Z) (st : list C * list C) : res (list C * list C) :=
  let i_data := ell ^ 2 - ell_min ^ 2 in
  let i_D := matrix_offset ell ell_min in
  let n := 2 * ell + 1 in
  let? D1 := for_each (zrange 0 n) (fun i_m D =>
               let? s := for_each (zrange 0 n) (fun i_mp acc =>
                           let? d := rd (fst st) (i_data + i_mp) in
                           let? w := rd D (i_D + i_m + n * i_mp) in
                           Ok (acc + d * w)%C) C0 in
               wr D (i_D + i_m) s) (snd st) in
  let? row := for_each (zrange 0 n) (fun i_m row =>
               let? v := rd D1 (i_D + i_m) in wr row (i_data + i_m) v) (fst st) in
  Ok (row, D1).
Definition series_time (ell_min ell_max : Z) (st : list C * list C) : res (list C * list C) :=
  for_each (zrange ell_min (ell_max + 1)) (fun ell st => series_ell ell_min ell st) st.

(** Frames: the array W.frame, of one dimension, or of two after line 317. *)
Inductive frame_t : Type := F1 (l : list quat) | F2 (l : list (list quat)).
(** The argument R_basis: a quaternion, a list, a one-dimensional array, an array of two dimensions (its
    rows), or anything else (for example a tuple). *)
Inductive rotors : Type :=
| RQuat (q : quat) | RList (l : list quat) | RArr1 (l : list quat) | RArr2 (l : list (list quat)) | ROther.
Inductive ftype : Type := UnknownFrame | InertialFrame | CoprecessingFrame | CoorbitalFrame | CorotatingFrame.
(** The parts of a waveform involved. *)
Record rwave : Type := mkrw { rw_lo : Z; rw_hi : Z; rw_data : list (list C); rw_frame : frame_t; rw_type : ftype }.

Section External.
(** External sf._Wigner_D_matrices(R.a, R.b, ell_min, ell_max, D): fills the array D. *)
Variable wigner : quat -> Z -> Z -> list C.
(** What np.empty finds in memory, for the workspace `tmp` of a given length (323). *)
Variable garbage : Z -> list C.

Fixpoint by_series (ell_min ell_max : Z) (rows : list (list C)) (Rs : list quat) : res (list (list C)) :=
  match rows, Rs with
  | [], _ => Ok []
  | row :: rows', q :: Rs' =>
      let? st := series_time ell_min ell_max (row, wigner q ell_min ell_max) in
      let? out := by_series ell_min ell_max rows' Rs' in
      Ok (fst st :: out)
  | _ :: _, [] => Err IndexError
  end.

(** `frame * Rs` for one-dimensional arrays of the same length *)
Definition frame_times (f : list quat) (Rs : list quat) : res (list quat) :=
  if Nat.eqb (length f) (length Rs) then Ok (map (fun p => qmul (fst p) (snd p)) (combine f Rs)) else Err ValueError.

(** Lines 308-321: the series kernel and the update of the frame.  In the two-dimensional case
    `W.frame * R_basis` broadcasts, an (n, 1) frame giving an (n, n) one. *)
Definition rotate_series (W : rwave) (Rs : list quat) : res rwave :=
  if negb (Nat.eqb (length (rw_data W)) (length Rs)) then Err ValueError
  else
    let? data := by_series (rw_lo W) (rw_hi W) (rw_data W) Rs in
    let? fr :=
      match rw_frame W with
      | F1 [] => Ok (F1 Rs)
      | F1 [f] => Ok (F2 (map (fun r => [qmul f r]) Rs))
      | F1 f => let? f' := frame_times f Rs in Ok (F1 f')
      | F2 f => Ok (F2 (map (fun row => match row with [x] => map (qmul x) Rs | _ => map (fun p => qmul (fst p) (snd p)) (combine row Rs) end) f))
      end in
    Ok (mkrw (rw_lo W) (rw_hi W) data fr (rw_type W)).

(** Lines 326-335: one rotor for all times. *)
Definition rotate_constant (W : rwave) (q : quat) : res rwave :=
  let? data := by_constant (rw_lo W) (rw_hi W) (wigner q (rw_lo W) (rw_hi W)) (rw_data W)
                 (garbage (2 * rw_hi W + 1)) in
  let fr := match rw_frame W with
            | F1 [] => F1 [q]
            | F1 f => F1 (map (fun r => qmul r q) f)
            | F2 f => F2 (map (map (fun r => qmul r q)) f)
            end in
  Ok (mkrw (rw_lo W) (rw_hi W) data fr (rw_type W)).

(** rotate_decomposition_basis (284-343), without the history.  Lists and arrays of length 1 are replaced
    by their element (300-301); for a two-dimensional array that element is an array again.  Line 305
    formats one argument into the field {1}, which raises IndexError.  Anything that is neither list,
    array nor quaternion is skipped. *)
Definition rotate_basis (W : rwave) (r : rotors) : res rwave :=
  match r with
  | RQuat q => rotate_constant W q
  | RList [q] | RArr1 [q] => rotate_constant W q
  | RList l | RArr1 l => rotate_series W l
  | RArr2 [l] => rotate_series W l
  | RArr2 _ => Err IndexError
  | ROther => Ok W
  end.

(** `~R`, elementwise on arrays; not defined for lists. *)
Definition conj_rotors (r : rotors) : res rotors :=
  match r with
  | RQuat q => Ok (RQuat (qconj q))
  | RArr1 l => Ok (RArr1 (map qconj l))
  | RArr2 l => Ok (RArr2 (map (map qconj) l))
  | RList _ | ROther => Err TypeError
  end.
Definition frame_rotors (f : frame_t) : rotors := match f with F1 l => RArr1 l | F2 l => RArr2 l end.

(** rotate_physical_system (268-281) *)
Definition rotate_physical (W : rwave) (r : rotors) : res rwave :=
  let? r' := conj_rotors r in rotate_basis W r'.

(** to_inertial_frame (106-111) *)
Definition to_inertial (W : rwave) : res rwave :=
  let? r := conj_rotors (frame_rotors (rw_frame W)) in
  let? W1 := rotate_basis W r in
  Ok (mkrw (rw_lo W1) (rw_hi W1) (rw_data W1) (rw_frame W1) InertialFrame).

(** to_corotating_frame (50-101) and to_coprecessing_frame (14-47), given the rotors computed from the
    waveform (by integrating its angular velocity, or from the eigenvector of <LL>; not modelled here). *)
Definition to_frame (W : rwave) (Rs : list quat) (ft : ftype) : res rwave :=
  let? W1 := rotate_basis W (RArr1 Rs) in
  Ok (mkrw (rw_lo W1) (rw_hi W1) (rw_data W1) (rw_frame W1) ft).
End External.
