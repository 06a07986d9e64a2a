(** * What the functions that save waveforms return; the RPXMB format

    Source: /repo/scri/SpEC/file_io/corotating_paired_xor.py 84-94, 104-105, 162 (the object returned by
    [save]) and rotating_paired_xor_multishuffle_bzip2.py 11-64 ([save], [load]).  The functions of the sxs
    package that encode and decode files are parameters. *)
From Coq Require Import String ZArith Reals List Bool.
From Verif Require Import Common Cplx Quat Times_Model Modes_Model Tables_Model Validity_Model H5_Model Double_Model Paired_Model Sxs_Model.
Import ListNotations.

(** ** corotating_paired_xor.save: the returned object.
    Lines 104-105 write the arrays of [w], viewed as words, and line 162 returns [w]: its times and modes are
    the numbers whose words are in the file. *)
Definition returned_times (f : pfile) : list num := map unbits (p_time f).
Definition returned_modes (f : pfile) : list (list (num * num)) := map (fun r => unpair (map unbits r)) (p_modes f).

(** ** rotating_paired_xor_multishuffle_bzip2.py *)
Section Rpxmb.
  (** State of the disk, what [sxs.rpxmb.save] returns, JSON data, logarithms of frames, other keywords. *)
  Variables disk out json log kw : Type.
  (** Keywords of [save], line 11. *)
  Record soptions := mksoptions {
    o_name : option string; o_mode : string; o_tol : R; o_log : option log; o_widths : list Z }.
  (** Keywords of [load], line 28. *)
  Record loptions := mkloptions { l_ignore : bool; l_md5 : bool; l_inertial : bool; l_others : list kw }.
  Variable default_widths : list Z.
  Definition save_defaults : soptions := mksoptions None "w" (1 / 10 ^ 10)%R None default_widths.
  Definition load_defaults : loptions := mkloptions false true false [].

  (** [sxs.rpxmb.save] and [sxs.rpxmb.load]; the latter's object has attributes [json_data] and [log_frame]. *)
  Variable sxs_save : meta -> soptions -> disk -> res out * disk.
  Variable sxs_load : string -> loptions -> disk -> res (meta * json * log).
  (** See [Sxs_Model.from_sxs]. *)
  Variable bare : bool.
  Variable added : list string.
  Variable fresh : nat.

  (** Lines 18-25 *)
  Definition save_rpxmb (w : swave) (o : soptions) (d : disk) : res out * disk :=
    match to_sxs w with
    | Err e => (Err e, d)
    | Ok m => sxs_save m o d
    end.

  (** A waveform with the attributes set in lines 58-59, and the two kinds of result (61-64). *)
  Record rwave := mkrwave { r_wave : swave; r_json : json; r_log : log }.
  Inductive result := Alone (w : rwave) | Pair (w : rwave) (l : log).
  (** Lines 50-64 *)
  Definition load_rpxmb (file : string) (o : loptions) (d : disk) (st : store) : res (result * store) :=
    let? (m, j, l) := sxs_load file o d in
    let? (w, st) := from_sxs bare added fresh m st in
    let w := mkrwave w j l in
    Ok (if l_inertial o then Alone w else Pair w (r_log w), st).
End Rpxmb.
