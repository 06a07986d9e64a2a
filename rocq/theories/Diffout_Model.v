(** * The files written by extrapolate: removal of an old file, one file for each order, and the differences of successive orders
    /repo/scri/extrapolation.py 661-664, 788-794 and 812-908.

    [write_to_h5] and the files are those of [H5_Model].  Directories as such, plots, printing, and the rotation of the waveforms before they
    are written (815-829) are not modelled. *)
From Coq Require Import String Ascii ZArith List Bool.
From Verif Require Import Common Tables_Model H5_Model.
Import ListNotations.
Open Scope string_scope.

(** 663-664 *)
Definition directory (dir : string) : string := if is_empty dir then dir else if ends_with "/" dir then dir else dir ++ "/".
(** os.remove *)
Definition delete (file : string) (d : fs) : fs := filter (fun p => negb (String.eqb (fst p) file)) d.
(** 788-794; os.remove is only called for a file that exists. *)
Definition remove_old (ExtrapolatedFiles : string) (nrar : bool) (d : fs) : fs :=
  if negb (ends_with ".dat" ExtrapolatedFiles) && nrar then
    match cut ".h5/" ExtrapolatedFiles with
    | Some (before, _) => if is_empty before then d else delete (before ++ ".h5") d
    | None => d
    end
  else d.

Section Files.
Variable show : hwave -> string.
(** b.compare(a), waveform_base.py 577-684 ([Compare_Model]), as a waveform that can be written *)
Variable compare : hwave -> hwave -> res hwave.
(** str.format(N=...), str.format(N=..., Nm1=...) *)
Variable format : string -> Z -> string.
Variable format2 : string -> Z -> Z -> string.

(** 836-861, 894-907: waveforms have no method Output *)
Definition write_one (d : fs) (w : hwave) (file mode : string) (nrar : bool) : res fs :=
  if ends_with ".dat" file then Err AttributeError else write_to_h5 show d w file mode [] nrar.
(** 812-861; [l] are the orders with their waveforms *)
Fixpoint write_orders (name : Z -> string) (nrar : bool) (d : fs) (i : nat) (l : list (Z * hwave)) : res fs :=
  match l with
  | [] => Ok d
  | (N, w) :: r => let? d := write_one d w (name N) (if (i =? 0)%nat then "w" else "a") nrar in write_orders name nrar d (S i) r
  end.
(** 884-907 for the indices [is] *)
Fixpoint write_differences (name : Z -> Z -> string) (nrar : bool) (l : list (Z * hwave)) (d : fs) (is : list nat) : res fs :=
  match is with
  | [] => Ok d
  | O :: r => write_differences name nrar l d r
  | S j as i :: r =>
      match nth_error l i, nth_error l j with
      | Some (N, w), Some (M, v) =>
          let? c := compare w v in
          let? d := write_one d c (name N M) "w" nrar in
          write_differences name nrar l d r
      | _, _ => Err IndexError
      end
  end.
(** 788-908 *)
Definition output_stage (OutputDirectory ExtrapolatedFiles DifferenceFiles : string) (nrar : bool) (l : list (Z * hwave)) (d : fs) : res fs :=
  let dir := directory OutputDirectory in
  let d := remove_old ExtrapolatedFiles nrar d in
  if is_empty dir then Ok d else
  let? d := write_orders (fun N => dir ++ format ExtrapolatedFiles N) nrar d 0 l in
  if is_empty DifferenceFiles then Ok d else
  write_differences (fun N M => dir ++ format2 DifferenceFiles N M) nrar l d (rev (seq 0 (length l))).
End Files.
