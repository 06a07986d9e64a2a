(** * Files of corotating waveforms: corotating_paired_xor.save and load

    Source: scri/SpEC/file_io/corotating_paired_xor.py 16-162 ([save]) and 165-258 ([load]).
    Compression, file names, printing, and the JSON entries that [load] does not use (spin weight,
    versions, boost, translation) are not modelled.  The sign of zero is not modelled, so that the
    additions of 0.0 (lines 85-87) do nothing. *)
From Coq Require Import String ZArith Reals List Bool.
From Verif Require Import Common Cplx Quat Times_Model Modes_Model Modal_Model Tables_Model Numeric_Model Codec_Model Validity_Model H5_Model Double_Model.
Import ListNotations.

Definition vec3 : Type := (R * R * R)%type.

(** A file: attribute "sxs_format", data sets "time", "modes" (with "ell_min", "ell_max") and
    "log_frame", as unsigned 64-bit words. *)
Record pfile := mkpfile {
  p_format : string; p_time : list Z; p_modes : list (list Z); p_ell_min : Z; p_ell_max : Z; p_log : option (list (list Z)) }.
(** The accompanying JSON file. *)
Record pjson := mkpjson {
  j_format : string; j_type : string; j_size : Z; j_n_times : Z; j_sums : list (string * Z) }.

(** The in-place loops of utilities.py 213-216 and 227-230 act on each column separately. *)
Definition col (j : nat) (rows : list (list Z)) : list Z := map (fun r => nth j r 0%Z) rows.
Definition on_columns (f : list Z -> res (list Z)) (n : nat) (rows : list (list Z)) : res (list (list Z)) :=
  let? cols := map_res (fun j => f (col j rows)) (seq 0 n) in
  Ok (map (fun i => map (fun c => nth i c 0%Z) cols) (seq 0 (length rows))).

(** A 64-bit word as little-endian 16-bit words, for the checksum (utilities.py 253). *)
Definition words16 (z : Z) : list Z :=
  [z mod 2 ^ 16; (z / 2 ^ 16) mod 2 ^ 16; (z / 2 ^ 32) mod 2 ^ 16; (z / 2 ^ 48) mod 2 ^ 16]%Z.
Definition checksum (words : list Z) : res Z := fletcher32 (flat_map words16 words).

(** [DataNames.index(s)] *)
Fixpoint index_of (s : string) (l : list string) (i : Z) : res Z :=
  match l with
  | [] => Err ValueError
  | x :: r => if String.eqb x s then Ok i else index_of s r (i + 1)%Z
  end.

Section Paired.
  (** Vector part of [np.log] of a rotor, and [np.exp] of a vector. *)
  Variable qlog : quat -> vec3.
  Variable qexp : vec3 -> quat.
  (** [w.to_corotating_frame(...)] with the options of lines 52-63, and its logarithm. *)
  Variable to_corotating : hwave -> res (hwave * list vec3).
  (** [os.stat(h5_path).st_size] *)
  Variable size_of : pfile -> Z.
  Variable as_quat_array : arr -> option attr.
  Variable diff_nd : arr -> res bool.

  Definition vec_words (v : option vec3) : list Z :=
    match v with
    | Some v => [bits (Fin (fst (fst v))); bits (Fin (snd (fst v))); bits (Fin (snd v))]
    | None => repeat (bits NaN) 3
    end.
  Definition modes_words (n : nat) (row : option (list C)) : list Z :=
    match row with
    | Some r => flat_map (fun c => [bits (Fin (re c)); bits (Fin (im c))]) r
    | None => repeat (bits NaN) (2 * n)
    end.

  (** Lines 79-82: rounding of log(frame).  A negative integer power of the integer 2 raises ValueError;
      2^63 and higher powers overflow to -2^63 and to 0, and 0/0 is not a number ([None]). *)
  Definition round_vec (p : R) (v : vec3) : vec3 :=
    ((IZR (rint (fst (fst v) * p)) / p)%R, (IZR (rint (snd (fst v) * p)) / p)%R, (IZR (rint (snd v * p)) / p)%R).
  Definition log_power (tol : R) : res (option R) :=
    if Rltb 0 tol then
      let k := (- floorR (ln (tol / 10) / ln 2))%Z in
      if (k <? 0)%Z then Err ValueError
      else if (k <? 63)%Z then Ok (Some (powerRZ 2 k))
      else if (k =? 63)%Z then Ok (Some (- powerRZ 2 63)%R)
      else Ok None
    else Err ValueError.
  Definition round_log (p : option R) (v : vec3) : option vec3 :=
    match p with Some p => Some (round_vec p v) | None => None end.

  (** Lines 100-113: writing the data sets.  The chunk shape (n_times, 1) may not exceed the shape of
      the array. *)
  Definition write_sets (w : hwave) (time : list Z) (modes : list (list Z)) (log : list (list Z)) : res pfile :=
    if Nat.eqb (length (w_times w)) 0 then Err ValueError
    else
      match log with
      | [] => Ok (mkpfile "corotating_paired_xor" time modes (w_ell_min w) (w_ell_max w) None)
      | _ => if (length log <? length (w_times w))%nat then Err ValueError
             else Ok (mkpfile "corotating_paired_xor" time modes (w_ell_min w) (w_ell_max w) (Some log))
      end.
  (** Lines 115-149 *)
  Definition describe (w : hwave) (f : pfile) : res pjson :=
    let? ct := checksum (p_time f) in
    let? cm := checksum (concat (p_modes f)) in
    let? cl := match p_log f with None => Ok [] | Some l => rmap (fun c => [("log_frame"%string, c)]) (checksum (concat l)) end in
    let? name := data_name (w_dataType w) in
    Ok (mkpjson "corotating_paired_xor" name (size_of f) (Z.of_nat (length (w_times w)))
          (("time"%string, ct) :: ("modes"%string, cm) :: cl)).

  Definition save (w : hwave) (tol : R) (log_frame : option (list vec3)) : res (pfile * pjson) :=
    if Req_EM_T tol 0 then
      (* lines 44-45 *)
      let log := map (fun q => Some (qlog q)) (w_quats w) in
      let? f := write_sets w (map (fun x => bits (Fin x)) (w_times w)) (map (fun r => modes_words (w_n_modes w) (Some r)) (w_rows w))
                  (map vec_words log) in
      let? j := describe w f in Ok (f, j)
    else
      (* lines 47-94 *)
      let? (w, log_frame) :=
        if (w_frameType w =? 1)%Z then let? (w', l) := to_corotating w in Ok (w', Some l) else Ok (w, log_frame) in
      if negb (w_frameType w =? 4)%Z then Err ValueError
      else
        let? paired := map_res (to_pairs (w_ell_min w) (w_ell_max w)) (w_rows w) in
        let rows := truncate tol paired in
        let? log := match log_frame with
                    | Some l => Ok (map Some l)
                    | None => let? p := log_power tol in Ok (map (fun q => round_log p (qlog q)) (w_quats w))
                    end in
        let? time := xor_timeseries (map (fun x => bits (Fin x)) (w_times w)) in
        let? modes := on_columns xor_timeseries (2 * w_n_modes w) (map (modes_words (w_n_modes w)) rows) in
        let? logw := on_columns xor_timeseries 3 (map vec_words log) in
        let? f := write_sets w time modes logw in
        let? j := describe w f in Ok (f, j).

  (** ** Loading *)
  Fixpoint unpair (l : list num) : list (num * num) :=
    match l with a :: b :: r => (a, b) :: unpair r | _ => [] end.
  Definition fin (x : num) : R := match x with Fin r => r | _ => 0%R end.
  Definition fin_c (p : num * num) : C := mkC (fin (fst p)) (fin (snd p)).
  Definition fin_vec (l : list num) : vec3 := (fin (nth 0 l NaN), fin (nth 1 l NaN), fin (nth 2 l NaN)).

  (** Lines 173-177 *)
  Definition invalid (ignore : bool) : res unit := if ignore then Ok Datatypes.tt else Err ValueError.
  Definition check (ignore ok : bool) : res unit := if ok then Ok Datatypes.tt else invalid ignore.
  Definition dataset (f : pfile) (n : string) : res (list Z) :=
    if String.eqb n "time" then Ok (p_time f)
    else if String.eqb n "modes" then Ok (concat (p_modes f))
    else if String.eqb n "log_frame" then match p_log f with Some l => Ok (concat l) | None => Err KeyError end
    else Err KeyError.
  (** Lines 224-227 *)
  Fixpoint check_sums (ignore : bool) (f : pfile) (sums : list (string * Z)) : res unit :=
    match sums with
    | [] => Ok Datatypes.tt
    | (n, c) :: r =>
        let? d := dataset f n in
        let? c' := checksum d in
        let? _ := check ignore (c =? c')%Z in
        check_sums ignore f r
    end.
  Definition row_width (f : pfile) : nat := match p_modes f with r :: _ => length r | [] => 0 end.

  (** Lines 244-254: the constructor validates with assertions. *)
  Definition loaded (t : list num) (rows : list (list (num * num))) (ncol : nat) (logs : list (list num)) (lo hi : Z) : modes :=
    mkmodes
      (mkwave (Arr (mkarr DFloat [length t] t))
              (Arr (mkarr DQuat [length logs] (map (fun l => if forallb isfinite l then Fin 0 else NaN) logs)))
              (Arr (mkarr DComplex [length rows; ncol] (flat_map (fun p => [fst p; snd p]) (concat rows))))
              (HList 1 true) (PyInt 4) (PyInt 0) true true true)
      (true, true) lo hi (LM_range lo hi).

  Definition load (ignore : bool) (f : pfile) (json : option pjson) : res hwave :=
    let? dt := match json with
               | None => let? _ := invalid ignore in Ok None
               | Some j =>
                   let? d := index_of (j_type j) DataNames 0 in
                   let? _ := check ignore (String.eqb (j_format j) "corotating_paired_xor") in
                   let? _ := check ignore (j_size j =? size_of f)%Z in
                   Ok (Some d)
               end in
    if negb (String.eqb (p_format f) "corotating_paired_xor") then Err ValueError
    else
      let? _ := check ignore ((match json with Some j => j_n_times j | None => 0%Z end) =? Z.of_nat (length (p_time f)))%Z in
      let? _ := match json with Some j => check_sums ignore f (j_sums j) | None => Ok Datatypes.tt end in
      let? time := xor_timeseries_reverse (p_time f) in
      let? modes := on_columns xor_timeseries_reverse (row_width f) (p_modes f) in
      let? logw := on_columns xor_timeseries_reverse 3 (match p_log f with Some l => l | None => [] end) in
      let t := map unbits time in
      let rows := map (fun r => unpair (map unbits r)) modes in
      let logs := map (map unbits) logw in
      let? d := match dt with Some d => Ok d | None => Err UnboundLocalError end in
      let? _ := modes_ensure_validity as_quat_array diff_nd true true
                  (loaded t rows (row_width f / 2) logs (p_ell_min f) (p_ell_max f)) in
      let? out := map_res (fun r => from_pairs (p_ell_min f) (p_ell_max f) (map fin_c r)) rows in
      Ok (mkhwave (map fin t) out (row_width f / 2) (p_ell_min f) (p_ell_max f) d 4 true true
            (map (fun l => qexp (fin_vec l)) logs) [] [] None None).
End Paired.
