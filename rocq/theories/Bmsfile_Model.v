(** BMSTransformation as an object: construction, copy, comparison and files: /repo/scri/bms_transformations.py 183-203, 243-246,
    269-308, 533-537, 594-631.  Keywords that are not known are ignored by the code and not modelled. *)
From Coq Require Import String ZArith Reals List Bool.
From Verif Require Import Common Cplx Quat Times_Model Kwargs_Model Spin_Model.
Import ListNotations.
Open Scope R_scope.

(** The attributes of the object *)
Record bobj := mkobj { o_sup : list C; o_rot : quat; o_boost : vec3; o_order : list comp; o_ell : Z }.
(** [np.pad(a, (0, n - a.size))], 281: a negative width raises ValueError. *)
Definition pad_to (n : Z) (a : list C) : res (list C) :=
  if (n <? Z.of_nat (length a))%Z then Err ValueError else Ok (a ++ repeat C0 (Z.to_nat (n - Z.of_nat (length a)))).
(** [__init__], 270-286 *)
Definition construct (ell : Z) (k : kwargs) (order : list comp) : res bobj :=
  let? p := abd_process ell k in
  let? s := pad_to ((ell + 1) * (ell + 1)) (p_super p) in
  Ok (mkobj s (p_rotation p) (p_boost p) (Spin_Model.complete [CS; CR; CB] order) ell).
(** The components of the rotor and of the velocity as arrays *)
Definition quat_list (q : quat) : list R := [qw q; qx q; qy q; qz q].
Definition vec_list (v : vec3) : list R := let '(x, y, z) := v in [x; y; z].
(** Arguments made of the attributes, 300-307 and 621-627 *)
Definition attributes (s : list C) (q v : list R) : kwargs := mkkw (Some s) None None None None None (Some q) (Some v).
Definition copy (x : bobj) : res bobj := construct (o_ell x) (attributes (o_sup x) (quat_list (o_rot x)) (vec_list (o_boost x))) (o_order x).

(** ** Files, 594-631 *)
Record stored := mkst { st_sup : list C; st_rot : list R; st_boost : list R; st_order : list comp; st_ell : Z }.
(** A file: the data sets at its top (name "") and in groups.  Groups within groups, and groups named like a data set, are not modelled. *)
Definition h5 : Type := list (string * stored).
Fixpoint find_group (f : h5) (g : string) : option stored := match f with [] => None | (n, s) :: f' => if (n =? g)%string then Some s else find_group f' g end.
Inductive mode := Mw | Ma | Mrplus | Mx.
(** [h5py.File(name, mode)] for writing; [None] is a file that does not exist. *)
Definition open_file (fs : option h5) (m : mode) : res h5 :=
  match m, fs with
  | Mw, _ => Ok []
  | Ma, None => Ok []
  | Ma, Some f => Ok f
  | Mrplus, Some f => Ok f
  | Mrplus, None => Err OSError
  | Mx, None => Ok []
  | Mx, Some _ => Err OSError
  end.
(** 594-607; existing groups and data sets raise ValueError. *)
Definition to_file (x : bobj) (fs : option h5) (m : mode) (group : option string) : res h5 :=
  let? f := open_file fs m in
  let g := match group with Some g => g | None => ""%string end in
  match find_group f g with
  | Some _ => Err ValueError
  | None => Ok (f ++ [(g, mkst (o_sup x) (quat_list (o_rot x)) (vec_list (o_boost x)) (o_order x) (o_ell x))])
  end.
(** 609-631: missing groups raise KeyError; without the data sets the loop over the order raises TypeError. *)
Definition from_file (fs : option h5) (group : option string) : res bobj :=
  match fs with
  | None => Err OSError
  | Some f =>
    match find_group f (match group with Some g => g | None => ""%string end) with
    | None => match group with Some _ => Err KeyError | None => Err TypeError end
    | Some s => construct (st_ell s) (attributes (st_sup s) (st_rot s) (st_boost s)) (st_order s)
    end
  end.

(** ** Comparison, 243-246 and 533-537 *)
(** [np.allclose(a, b)] with the default tolerances; arrays of different lengths raise unless one has length one. *)
Definition close1 (a b : C) : bool := Rleb (Cmod (a - b)%C) (/ 10 ^ 8 + / 10 ^ 5 * Cmod b).
Definition allclose (a b : list C) : res bool :=
  if (length a =? length b)%nat then Ok (forallb (fun p => close1 (fst p) (snd p)) (combine a b))
  else match a, b with
  | [x], _ => Ok (forallb (close1 x) b)
  | _, [y] => Ok (forallb (fun x => close1 x y) a)
  | _, _ => Err ValueError
  end.
Definition lorentz_is_close_to (q : quat) (v : vec3) (q' : quat) (v' : vec3) : res bool :=
  let? a := allclose (map RtoC (quat_list q)) (map RtoC (quat_list q')) in
  let? b := allclose (map RtoC (vec_list v)) (map RtoC (vec_list v')) in
  Ok (a && b)%bool.
Definition is_close_to (x y : bobj) : res bool :=
  let? a := lorentz_is_close_to (o_rot x) (o_boost x) (o_rot y) (o_boost y) in
  let? b := allclose (o_sup x) (o_sup y) in
  Ok (a && b)%bool.
