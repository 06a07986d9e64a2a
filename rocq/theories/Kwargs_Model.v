(** Arguments of BMS transformations: /repo/scri/asymptotic_bondi_data/transformations.py:8-97
    ([_process_transformation_kwargs], used by AsymptoticBondiData.transform) and
    /repo/scri/waveform_grid.py:20-122 ([process_transformation_kwargs], used by WaveformGrid.from_modes). *)
From Coq Require Import ZArith Reals List Bool.
From Verif Require Import Common Cplx Modes_Model Times_Model Quat.
Import ListNotations.
Open Scope R_scope.

(** External [spherical_functions]: mode weights of a constant and of the function v.n, and back. *)
Definition constant_as_ell_0_mode (c : R) : C := RtoC (c * sqrt (4 * PI)).
Definition constant_from_ell_0_mode (m : C) : C := Cscale (/ sqrt (4 * PI)) m.
Definition vec3 : Type := (R * R * R)%type.
Definition vector_as_ell_1_modes (v : vec3) : list C :=
  let '(x, y, z) := v in
  let f := sqrt (2 * PI / 3) in
  [Cscale f (mkC x y); Cscale f (mkC (z * sqrt 2) 0); Cscale f (mkC (- x) y)].
Definition vector_from_ell_1_modes (m : list C) : C * C * C :=
  let f := / (2 * sqrt (2 * PI / 3)) in
  let a := nth 0 m C0 in let b := nth 1 m C0 in let c := nth 2 m C0 in
  (Cscale f (a - c)%C, Cscale f (- Ci * (a + c))%C, Cscale f (Cscale (sqrt 2) b)).
Definition vneg (v : vec3) : vec3 := let '(x, y, z) := v in (- x, - y, - z).

(** The keyword arguments.  [time_translation] is a float or some other Python object ([None] inside). *)
Record kwargs := mkkw {
  k_super : option (list C);
  k_spacetime : option (list R);
  k_space : option (list R);
  k_time : option (option R);
  k_output_ell_max : option Z;
  k_working_ell_max : option Z;
  k_rotation : option (list R);
  k_boost : option (list R) }.

(** Padding with zeros to size 4 (transformations.py:22-25, waveform_grid.py:32-35). *)
Definition pad4 (a : list C) : list C := if (length a <=? 4)%nat then a ++ repeat C0 (4 - length a) else a.
(** [int(np.sqrt(len(a))) - 1] (transformations.py:27, waveform_grid.py:37); the float square root of an
    array length is taken as exact. *)
Definition ell_max_of (a : list C) : Z := (Z.sqrt (Z.of_nat (length a)) - 1)%Z.
Definition complete (a : list C) : bool := ((ell_max_of a + 1) ^ 2 =? Z.of_nat (length a))%Z.

Definition pos (l m : Z) : nat := Z.to_nat (LM_index l m 0).
Definition get (a : list C) (i : nat) : res C := match nth_error a i with Some v => Ok v | None => Err IndexError end.
Definition put (a : list C) (i : nat) (v : C) : res (list C) := match upd a i v with Some a' => Ok a' | None => Err IndexError end.

(** The pairs visited by the two nested loops (transformations.py:36-37, waveform_grid.py:46-47). *)
Definition nonneg_modes (ell_max : Z) : list (Z * Z) :=
  flat_map (fun l => map (fun m => (l, m)) (zrange 0 (l + 1))) (zrange 0 (ell_max + 1)).

(** transformations.py:38-43: one iteration of the reality loop. *)
Definition impose_step (a : list C) (lm : Z * Z) : res (list C) :=
  let '(l, m) := lm in
  let? p := get a (pos l m) in
  let? q := get a (pos l (- m)) in
  let? a := put a (pos l m) (Cscale (/ 2) (p + Cscale (sgn m) (Conj q))%C) in
  let? p' := get a (pos l m) in
  put a (pos l (- m)) (Cscale (sgn m) (Conj p')).
Fixpoint fold_res {A B} (f : A -> B -> res A) (l : list B) (a : A) : res A :=
  match l with [] => Ok a | x :: l' => let? a := f a x in fold_res f l' a end.
Definition impose_reality (a : list C) : res (list C) := fold_res impose_step (nonneg_modes (ell_max_of a)) a.

(** waveform_grid.py:48-57: one iteration of the reality check, abs(z) being the modulus. *)
Definition Cmod (z : C) : R := sqrt (norm2 z).
Definition check_step (a : list C) (lm : Z * Z) : res (list C) :=
  let '(l, m) := lm in
  let? p := get a (pos l m) in
  let? q := get a (pos l (- m)) in
  if Rltb (3 / 10 ^ 16 + 1 / 10 ^ 15 * Cmod q) (Cmod (p - Cscale (sgn m) (Conj q))%C) then Err ValueError else Ok a.
Definition check_reality (a : list C) : res (list C) := fold_res check_step (nonneg_modes (ell_max_of a)) a.

(** transformations.py:12-43 / waveform_grid.py:22-57; [reality] is the loop of the respective function. *)
Definition read_super (reality : list C -> res (list C)) (o : option (list C)) : res (list C) :=
  match o with
  | None => Ok (repeat C0 4)
  | Some a => let a := pad4 a in if complete a then reality a else Err ValueError
  end.

Definition vec3_of (l : list R) : option vec3 := match l with [x; y; z] => Some (x, y, z) | _ => None end.

(** State of the two arrays: supertranslation and spacetime_translation = (t, x). *)
Definition arrays : Type := (list C * (R * vec3))%type.

(** Writing modes 1..3: [supertranslation[1:4] = v] for a list of three values. *)
Definition put3 (a : list C) (v : list C) : res (list C) :=
  let? a := put a 1 (nth 0 v C0) in let? a := put a 2 (nth 1 v C0) in put a 3 (nth 2 v C0).

(** transformations.py:45-72 (the same text at waveform_grid.py:58-85): later keywords override earlier ones. *)
Definition override (k : kwargs) (a : list C) : res arrays :=
  let? a0 := get a 0 in let? a1 := get a 1 in let? a2 := get a 2 in let? a3 := get a 3 in
  let '(vx, vy, vz) := vector_from_ell_1_modes [a1; a2; a3] in
  let s := (re (constant_from_ell_0_mode a0), vneg (re vx, re vy, re vz)) in
  let? (a, s) :=
    match k_spacetime k with
    | None => Ok (a, s)
    | Some [t; x; y; z] =>
        let? a := put a 0 (constant_as_ell_0_mode t) in
        let? a := put3 a (vector_as_ell_1_modes (vneg (x, y, z))) in
        Ok (a, (t, (x, y, z)))
    | Some _ => Err TypeError
    end in
  let? (a, s) :=
    match k_space k with
    | None => Ok (a, s)
    | Some v => match vec3_of v with
        | Some v => let? a := put3 a (vector_as_ell_1_modes (vneg v)) in Ok (a, (fst s, v))
        | None => Err TypeError
        end
    end in
  match k_time k with
  | None => Ok (a, s)
  | Some (Some t) => let? a := put a 0 (constant_as_ell_0_mode t) in Ok (a, (t, snd s))
  | Some None => Err TypeError
  end.

(** [np.quaternion( *array )]: the constructor takes 1 (scalar), 3 (vector) or 4 components; no argument gives zero. *)
Definition quat_of (l : list R) : option quat :=
  match l with
  | [] => Some q0 | [w] => Some (mkq w 0 0 0) | [x; y; z] => Some (mkq 0 x y z) | [w; x; y; z] => Some (mkq w x y z)
  | _ => None
  end.
(** transformations.py:83-86, waveform_grid.py:113-116. *)
Definition read_rotation (o : option (list R)) : res quat :=
  match quat_of (match o with None => [1; 0; 0; 0] | Some l => l end) with
  | None => Err TypeError
  | Some q => if Rltb (qabs q) (3 / 10 ^ 16) then Err ValueError else Ok (qnormalized q)
  end.
(** transformations.py:89-95, waveform_grid.py:119-125. *)
Definition norm3 (v : vec3) : R := let '(x, y, z) := v in sqrt (x * x + y * y + z * z).
Definition read_boost (o : option (list R)) : res vec3 :=
  match vec3_of (match o with None => [0; 0; 0] | Some l => l end) with
  | Some v => if Rleb 1 (norm3 v) then Err ValueError else Ok v
  | None => Err ValueError
  end.

Definition dflt {A} (d : A) (o : option A) : A := match o with Some x => x | None => d end.

Record processed := mkproc {
  p_rotation : quat; p_boost : vec3; p_super : list C; p_working : Z; p_output : Z }.

(** transformations.py:8-97.  Keywords that are not listed are dropped silently. *)
Definition abd_process (input_ell_max : Z) (k : kwargs) : res processed :=
  let? a := read_super impose_reality (k_super k) in
  let ell_s := match k_super k with None => 1%Z | Some _ => ell_max_of a end in
  let? (a, _) := override k a in
  let output := dflt input_ell_max (k_output_ell_max k) in
  let working := dflt (2 * input_ell_max + ell_s)%Z (k_working_ell_max k) in
  if (working <? input_ell_max)%Z then Err ValueError
  else
    let? q := read_rotation (k_rotation k) in
    let? v := read_boost (k_boost k) in
    Ok (mkproc q v a working output).

(** waveform_grid.py:20-125: grid sizes [n_theta] and [n_phi] instead of the two ell values; the rotor grid
    that follows is in Grid_Model.  Warnings are not modelled. *)
Record gridprocessed := mkgproc { gp_super : list C; gp_ell_super : Z; gp_ell_max : Z; gp_theta : Z; gp_phi : Z; gp_rotation : quat; gp_boost : vec3 }.
Definition grid_process (w_ell_max : Z) (n_theta n_phi : option Z) (k : kwargs) : res gridprocessed :=
  let? a := read_super check_reality (k_super k) in
  let ell_s := match k_super k with None => 1%Z | Some _ => ell_max_of a end in
  let? (a, _) := override k a in
  let ell_max := (w_ell_max + ell_s)%Z in
  let nt := dflt (2 * ell_max + 1)%Z n_theta in
  let np := dflt (2 * ell_max + 1)%Z n_phi in
  if (nt <? 2 * w_ell_max + 1)%Z then Err ValueError
  else if (np <? 2 * w_ell_max + 1)%Z then Err ValueError
  else
    let? q := read_rotation (k_rotation k) in
    let? v := read_boost (k_boost k) in
    Ok (mkgproc a ell_s ell_max nt np q v).
