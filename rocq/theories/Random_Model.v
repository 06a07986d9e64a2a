(** * Random sample waveforms: /repo/scri/sample_waveforms.py
    random_waveform (104-146) and random_waveform_proportional_to_time (149-192).

    numpy's global generator is a state from which numbers are drawn one after the other; np.random.uniform(a, b) is a + (b - a) u for a
    number u drawn from [0, 1).  [modes_constructor] is that of [Sample_Model].  Warnings, the constructor statement and the history are not
    modelled, nor are the frames that consist of nan: those of four random numbers that all vanish, and those of a constant rotation when
    the first and the last time agree. *)
From Coq Require Import String Reals ZArith List Bool.
From Verif Require Import Common Cplx Quat Modes_Model Times_Model Tables_Model Kwargs_Model Transform_Model Rotate_Model Sphere_Model Pipeline_Model Sample_Model.
Import ListNotations.
Open Scope R_scope.

(** Keyword arguments read by the two functions, None where absent; all others are reported as unused. *)
Record rargs : Type := mkra {
  ra_begin : option R; ra_end : option R; ra_n : option Z; ra_uniform : option bool; ra_t : option (list R); ra_rotating : option bool }.
(** np.linspace(a, b, num=n) *)
Definition linspace (a b : R) (n : Z) : res (list R) :=
  if (n <? 0)%Z then Err ValueError
  else Ok (map (fun i => a + INR i * ((b - a) / (IZR n - 1))) (seq 0 (Z.to_nat n))).
(** np.sort *)
Fixpoint insert (x : R) (l : list R) : list R :=
  match l with [] => [x] | y :: r => if Rleb x y then x :: l else y :: insert x r end.
Definition sort (l : list R) : list R := fold_right insert [] l.

Local Open Scope string_scope.
Local Open Scope R_scope.
Section Generator.
(** External: the states of the generator, np.random.seed, one uniform number from [0, 1) and one normal number, each with the next state;
    [hash] is Python's hash of strings, which is fixed for one process only. *)
Variable state : Type.
Variable seed : Z -> state.
Variable draw : state -> R * state.
Variable normal : state -> R * state.
Variable hash : string -> Z.

Fixpoint draws (d : state -> R * state) (n : nat) (g : state) : list R * state :=
  match n with
  | O => ([], g)
  | S n => let (x, g) := d g in let (l, g) := draws d n g in (x :: l, g)
  end.
(** np.random.uniform(a, b, size=n) *)
Definition uniform (a b : R) (n : nat) (g : state) : list R * state :=
  let (l, g) := draws draw n g in (map (fun u => a + (b - a) * u) l, g).
(** A number drawn for the real and one for the imaginary part: .view(complex) *)
Fixpoint complex_draws (n : nat) (g : state) : list C * state :=
  match n with
  | O => ([], g)
  | S n => let (x, g) := normal g in let (y, g) := normal g in let (l, g) := complex_draws n g in (mkC x y :: l, g)
  end.
(** 136-138: np.random.normal(size=(n, m, 2)) *)
Fixpoint complex_rows (n m : nat) (g : state) : list (list C) * state :=
  match n with
  | O => ([], g)
  | S n => let (r, g) := complex_draws m g in let (l, g) := complex_rows n m g in (r :: l, g)
  end.

(** 121-127, 166-172: np.linspace is evaluated even where its value is not used. *)
Definition random_times (a : rargs) (g : state) : res (list R * state) :=
  let b := dflt (-10) (ra_begin a) in
  let e := dflt 100 (ra_end a) in
  let n := dflt 1101%Z (ra_n a) in
  if dflt false (ra_uniform a) then
    let? t := linspace b e n in Ok (dflt t (ra_t a), g)
  else if (n <? 0)%Z then Err ValueError
  else let (t, g) := uniform b e (Z.to_nat n) g in Ok (sort t, g).
(** 141: np.quaternion of four numbers from [-1, 1), normalized *)
Definition random_rotor (g : state) : quat * state :=
  let (l, g) := uniform (-1) 1 4 g in (qnormalized (mkq (nth 0 l 0) (nth 1 l 0) (nth 2 l 0) (nth 3 l 0)), g).
Fixpoint random_rotors (n : nat) (g : state) : list quat * state :=
  match n with
  | O => ([], g)
  | S n => let (q, g) := random_rotor g in let (l, g) := random_rotors n g in (q :: l, g)
  end.
(** 142-146, 188-192 with data drawn when [modes_constructor] asks for them *)
Definition construct (rows : list R -> nat -> state -> list (list C) * state) (frame : option (list quat)) (t : list R) (g : state) : res (pwave * state) :=
  let k := mkmc (Some t) frame (match frame with Some _ => Some CorotatingFrame | None => None end) None None None None in
  let? w := modes_constructor (fun t LM => Ok (fst (rows t (length LM) g))) k in
  Ok (w, snd (rows t (length (LM_range (pw_lo w) (pw_hi w))) g)).

(** 120, 165: the generator is seeded anew; np.random.seed raises ValueError unless the argument fits into 32 bits. *)
Definition reseed (name : string) : res state :=
  let s := (hash name mod 4294967294)%Z in
  if ((0 <=? s) && (s <? 2 ^ 32))%Z then Ok (seed s) else Err ValueError.
(** 104-146; [k] are further keyword arguments, not passed on *)
Definition random_waveform (a : rargs) (k : mckw) (g : state) : res (pwave * state) :=
  let? g := reseed "random_waveform" in
  let? (t, g) := random_times a g in
  let rows := fun (t : list R) m g => complex_rows (length t) m g in
  if dflt true (ra_rotating a) then
    let (frame, g) := random_rotors (length t) g in construct rows (Some frame) t g
  else construct rows None t g.
(** 181-182: np.outer *)
Definition outer (t : list R) (m : nat) (g : state) : list (list C) * state :=
  let (c, g) := complex_draws m g in (map (fun x => map (Cscale x) c) t, g).
(** 185 *)
Definition random_axis (g : state) : quat * state :=
  let (l, g) := uniform (-1) 1 3 g in (qnormalized (mkq 0 (nth 0 l 0) (nth 1 l 0) (nth 2 l 0)), g).
(** 149-192 *)
Definition random_waveform_proportional_to_time (a : rargs) (k : mckw) (g : state) : res (pwave * state) :=
  let? g := reseed "random_waveform_proportional_to_time" in
  let? (t, g) := random_times a g in
  if dflt true (ra_rotating a) then
    let (axis, g) := random_axis g in
    match t with
    | [] => Err IndexError
    | t0 :: _ =>
        let omega := 2 * PI * 4 / (last t 0 - t0) in
        construct outer (Some (map (fun x => qexp_vec (qvec (qscale (omega * x / 2) axis))) t)) t g
    end
  else construct outer None t g.
End Generator.
