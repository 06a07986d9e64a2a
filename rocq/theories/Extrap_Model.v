(** Extrapolation of finite-radius data: /repo/scri/extrapolation.py, _Extrapolate (1239-1443) and the
    bookkeeping of RunExtrapolation and its status functions (1079-1236). *)
From Coq Require Import String Ascii Reals ZArith List Bool.
From Verif Require Import Common Cplx.
Import ListNotations.
Open Scope R_scope.

(** * _Extrapolate *)
(** One finite-radius waveform: [n_times] rows of [n_modes] complex numbers (with the mode count, which
    numpy keeps also for zero rows), and its data type code. *)
Record frw := mkfrw { f_modes : nat; f_data : list (list C) }.
Definition n_times (w : frw) : nat := length (f_data w).

Definition zmax (l : list Z) : option Z :=
  match l with [] => None | a :: r => Some (fold_left Z.max r a) end.
Definition zmin (l : list Z) : option Z :=
  match l with [] => None | a :: r => Some (fold_left Z.min r a) end.

Section Extrapolate.
  (** [numpy.polynomial.polynomial.polyfit(x, y, N)] applied to one column y: the N+1 coefficients, lowest
      order first. *)
  Variable polyfit : list R -> list C -> nat -> list C.

  (** Lines 1261-1318: the size checks. *)
  Definition checks (W : list frw) (Radii : list (list R)) (Orders : list Z) (Omegas : option (list R)) : res (Z * Z) :=
    match zmax Orders, zmin Orders, W with
    | Some MaxN, Some MinN, w0 :: rest =>
        let n := Z.of_nat (length W) in
        if (n <? Z.abs MinN)%Z then Err ValueError
        else if ((0 <? MaxN) && (n <=? MaxN))%Z%bool then Err ValueError
        else if negb (length Radii =? length W)%nat then Err ValueError
        else if match Omegas with Some ((_ :: _) as om) => negb (length om =? n_times w0)%nat | _ => false end then Err ValueError
        else if forallb (fun p => (n_times (fst p) =? n_times w0)%nat && (f_modes (fst p) =? f_modes w0)%nat
                                  && (length (snd p) =? n_times w0)%nat) (tl (combine W Radii))
        then Ok (MaxN, MinN) else Err ValueError
    | None, _, _ | _, None, _ => Err ValueError          (* max([]) *)
    | _, _, [] => Err IndexError                          (* FiniteRadiusWaveforms[0] *)
    end.

  (** Column [m] of row [i_t] of every waveform: [data[:, i_t, m]]. *)
  Definition samples (W : list frw) (i_t m : nat) : list C :=
    map (fun w => nth m (nth i_t (f_data w) []) C0) W.

  (** Lines 1359-1403 (no Omegas, no excluded radii): one output row. *)
  Definition extrapolate_row (W : list frw) (Radii : list (list R)) (N : nat) (i_t : nat) : list C :=
    let x := map (fun r => 1 / nth i_t r 0) Radii in
    map (fun m => nth 0 (polyfit x (samples W i_t m) N) C0) (seq 0 (match W with [] => 0%nat | w :: _ => f_modes w end)).

  (** Lines 1239-1443.  [exclude] is [DataType in [psi1, psi0] and bool(NoiseFloor)].  The result is the data of
      each output waveform.  Negative orders copy a finite-radius waveform (negative indices count from the end).
      Radii[0] is not checked (the loop at 1293 starts at 1), so reading it may raise. *)
  Definition Extrapolate (W : list frw) (Radii : list (list R)) (Orders : list Z)
      (Omegas : option (list R)) (exclude : bool) : res (list (list (list C))) :=
    let? (MaxN, MinN) := checks W Radii Orders Omegas in
    let n := Z.of_nat (length W) in
    let T := match W with [] => 0%nat | w :: _ => n_times w end in
    let M := match W with [] => 0%nat | w :: _ => f_modes w end in
    let copy N := f_data (nth (Z.to_nat (n + N)) W (mkfrw 0 [])) in
    if (MaxN <? 0)%Z then Ok (map copy Orders)
    else
      let useOmegas := match Omegas with Some (_ :: _) => true | _ => false end in
      if useOmegas
      then (* 1411: LM is a property holding an array, which is called *)
        if ((0 <? T) && (0 <? M))%nat%bool then Err TypeError
        else Ok (map (fun N => if (N <? 0)%Z then copy N else repeat [] T) Orders)
      else if (negb (T =? 0)%nat && (length (nth 0 Radii []) <? T)%nat)%bool then Err IndexError
      else if (exclude && (0 <? T)%nat)%bool then Err NameError (* 1380: Re is not defined *)
      else Ok (map (fun N => if (N <? 0)%Z then copy N
                             else map (extrapolate_row W Radii (Z.to_nat N)) (seq 0 T)) Orders).
End Extrapolate.

(** * Marker files *)
(** The three marker files of one (directory, data file) pair, and whether the script exists. *)
Record markers := mkmk { started : bool; errorm : bool; finished : bool }.

(** Lines 1079-1136: the status functions, for one pair. *)
Definition is_unstarted (m : markers) : bool := negb (started m).
Definition is_unfinished (m : markers) : bool := started m && negb (errorm m) && negb (finished m).
Definition is_errored (m : markers) : bool := errorm m.
(** Lines 1090-1105: rerun because the data are newer; times of the finished marker, metadata and data. *)
Definition is_newer (m : markers) (t_finished t_metadata t_data : R) : bool :=
  finished m && ((if Rlt_dec t_finished t_data then true else false) || (if Rlt_dec t_finished t_metadata then true else false)).

(** What happens after the script has been written (lines 1195-1234). *)
Inductive outcome :=
| ReturnZero            (* child returned 0, marker written, message printed *)
| ReturnNonzero         (* child returned an error code *)
| RaisedBefore          (* chdir, print or call raised (also Ctrl-C) *)
| RaisedAfterFinished.  (* the print after writing .finished raised *)

(** Lines 1180-1234 as a list of atomic changes of the marker files, in order. *)
Inductive action := TouchStarted | RemoveError | RemoveFinished | WriteScript | RunChild | WriteError | WriteFinished.
Definition act (a : action) (m : markers) : markers :=
  match a with
  | TouchStarted => mkmk true (errorm m) (finished m)
  | RemoveError => mkmk (started m) false (finished m)
  | RemoveFinished => mkmk (started m) (errorm m) false
  | WriteScript | RunChild => m
  | WriteError => mkmk (started m) true (finished m)
  | WriteFinished => mkmk (started m) (errorm m) true
  end.
Definition actions (m : markers) (o : outcome) : list action :=
  [TouchStarted]
  ++ (if errorm m then [RemoveError] else [])
  ++ (if finished m then [RemoveFinished] else [])
  ++ [WriteScript; RunChild]
  ++ match o with
     | ReturnZero => [WriteFinished]
     | ReturnNonzero => [WriteError]
     | RaisedBefore => [WriteError]
     | RaisedAfterFinished => [WriteFinished; WriteError]
     end.
Definition run_actions (l : list action) (m : markers) : markers := fold_left (fun m a => act a m) l m.
Definition run (m : markers) (o : outcome) : markers := run_actions (actions m o) m.
(** Markers left when the process dies after [k] of the steps. *)
Definition crash (m : markers) (o : outcome) (k : nat) : markers := run_actions (firstn k (actions m o)) m.
(** Lines 1222, 1236: the returned value is the child's code, but 0 when an exception was caught. *)
Definition return_code (o : outcome) (child : Z) : Z :=
  match o with ReturnNonzero => child | _ => 0%Z end.

(** Lines 1190-1208: name of the script written, and the command run.  [.format] applies only to the second
    of the two concatenated strings. *)
Open Scope string_scope.
Definition script_name (stem : string) : string := "Extrapolate_" ++ stem ++ ".py".
Definition command (stem : string) : string :=
  "set -o pipefail; python Extrapolate_{0}.py 2>&1 | " ++ ("tee Extrapolate_" ++ stem ++ ".log").
(** The command intended (both strings formatted). *)
Definition intended_command (stem : string) : string :=
  "set -o pipefail; python " ++ script_name stem ++ " 2>&1 | tee Extrapolate_" ++ stem ++ ".log".
