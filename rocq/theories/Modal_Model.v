(** Operations on mode data of WaveformModes (/repo/scri/waveform_modes.py): conjugate pairs, parity
    conjugates, spin raising and lowering, norms.  Numbers are exact reals/complexes; numpy's
    vectorisation over time is a [map] over rows, each row holding the modes of one time in the order of
    [LM_range]. *)
From Coq Require Import Reals ZArith List Bool Lia.
From Verif Require Import Common Cplx Modes_Model.
Import ListNotations.
Open Scope Z_scope.

(** [row[i]] and [row[i] = v].  Negative (wrapping) indices are not used by the code modelled here and
    are treated as errors. *)
Definition rd (row : list C) (i : Z) : res C :=
  if i <? 0 then Err IndexError
  else match nth_error row (Z.to_nat i) with Some v => Ok v | None => Err IndexError end.
Definition wr (row : list C) (i : Z) (v : C) : res (list C) :=
  if i <? 0 then Err IndexError
  else match upd row (Z.to_nat i) v with Some r => Ok r | None => Err IndexError end.

(** A [for] loop whose body may raise. *)
Fixpoint for_each {A S} (ks : list A) (body : A -> S -> res S) (s : S) : res S :=
  match ks with
  | [] => Ok s
  | k :: ks' => let? s' := body k s in for_each ks' body s'
  end.

(** [row[idx]] and [row[idx] = vals] with lists of indices. *)
Fixpoint take (row : list C) (idx : list Z) : res (list C) :=
  match idx with
  | [] => Ok []
  | i :: idx' => let? v := rd row i in let? vs := take row idx' in Ok (v :: vs)
  end.
Definition assign (row : list C) (idx : list Z) (vals : list C) : res (list C) :=
  for_each (combine idx vals) (fun iv r => wr r (fst iv) (snd iv)) row.

(** The pairs (ell, m) visited by `for ell in range(ell_min, ell_max+1): for m in range(1, ell+1)`. *)
Definition pair_keys (lo hi : Z) : list (Z * Z) :=
  flat_map (fun ell => map (fun m => (ell, m)) (zrange 1 (ell + 1))) (zrange lo (hi + 1)).

Definition inv_sqrt2 : R := (/ sqrt 2)%R.

(** convert_to_conjugate_pairs (658-685), one time sample. *)
Definition to_pairs (lo hi : Z) (row : list C) : res (list C) :=
  for_each (pair_keys lo hi) (fun k r =>
    let ip := LM_index (fst k) (snd k) lo in
    let im := LM_index (fst k) (- snd k) lo in
    let? p := rd r ip in
    let? q := rd r im in
    let? r1 := wr r ip (Cscale inv_sqrt2 (p + Conj q)%C) in
    wr r1 im (Cscale inv_sqrt2 (p - Conj q)%C)) row.

(** convert_from_conjugate_pairs (687-703) *)
Definition from_pairs (lo hi : Z) (row : list C) : res (list C) :=
  for_each (pair_keys lo hi) (fun k r =>
    let ip := LM_index (fst k) (snd k) lo in
    let im := LM_index (fst k) (- snd k) lo in
    let? p := rd r ip in
    let? q := rd r im in
    let? r1 := wr r ip (Cscale inv_sqrt2 (p + q)%C) in
    wr r1 im (Cscale inv_sqrt2 (Conj (p - q)%C))) row.

Definition ms_of (ell : Z) : list Z := zrange (- ell) (ell + 1).
Definition lm_indices (lo ell : Z) (keep : Z -> bool) : list Z :=
  map (fun m => LM_index ell m lo) (filter keep (ms_of ell)).

(** The two fancy assignments `W.data[:, lm_indices] = ±np.conjugate(self.data[:, ...])`. *)
Definition put_conj (neg : bool) (self : list C) (dst src : list Z) (w : list C) : res (list C) :=
  let? vs := take self src in
  assign w dst (map (fun v => if neg then (- Conj v)%C else Conj v) vs).

(** x_parity_conjugate (724-745): [junk] is the uninitialised array of `np.empty_like`. *)
Definition x_conj_row (lo hi : Z) (self junk : list C) : res (list C) :=
  for_each (zrange lo (hi + 1)) (fun ell w =>
    let ev := lm_indices lo ell (fun m => m mod 2 =? 0) in
    let? w1 := put_conj false self ev ev w in
    let od := lm_indices lo ell (fun m => negb (m mod 2 =? 0)) in
    put_conj true self od od w1) junk.
(** y_parity_conjugate (780-795) *)
Definition y_conj_row (self : list C) : list C := map Conj self.
(** z_parity_conjugate (831-854) *)
Definition z_conj_row (s lo hi : Z) (self junk : list C) : res (list C) :=
  for_each (zrange lo (hi + 1)) (fun ell w =>
    let al := lm_indices lo ell (fun _ => true) in
    if (ell + s) mod 2 =? 0 then put_conj false self al (rev al) w
    else put_conj true self al (rev al) w) junk.
(** parity_conjugate (890-911) *)
Definition p_conj_row (s lo hi : Z) (self junk : list C) : res (list C) :=
  for_each (zrange lo (hi + 1)) (fun ell w =>
    let ev := lm_indices lo ell (fun m => (ell + s + m) mod 2 =? 0) in
    let? w1 := put_conj false self ev (rev ev) w in
    let od := lm_indices lo ell (fun m => negb ((ell + s + m) mod 2 =? 0)) in
    put_conj true self od (rev od) w1) junk.

Inductive parity_kind := PX | PY | PZ | PAll.
Definition conj_row (k : parity_kind) (s lo hi : Z) (self junk : list C) : res (list C) :=
  match k with
  | PX => x_conj_row lo hi self junk
  | PY => Ok (y_conj_row self)
  | PZ => z_conj_row s lo hi self junk
  | PAll => p_conj_row s lo hi self junk
  end.
(** `0.5 * (self.data ± W.data)` *)
Definition half_sum (a b : list C) : list C := map (fun p => Cscale (/2) (fst p + snd p)%C) (combine a b).
Definition half_diff (a b : list C) : list C := map (fun p => Cscale (/2) (fst p - snd p)%C) (combine a b).

(** A waveform for these operations: spin weight ([None] for UnknownDataType), ell range, rows. *)
Record wave := mkwave { w_spin : option Z; w_lo : Z; w_hi : Z; w_rows : list (list C) }.
Definition n_modes (w : wave) : Z := Z.of_nat (length (LM_range (w_lo w) (w_hi w))).

Fixpoint map_res {A B} (f : A -> res B) (l : list A) : res (list B) :=
  match l with [] => Ok [] | x :: l' => let? y := f x in let? ys := map_res f l' in Ok (y :: ys) end.

(** The whole method: type test, `self[:, :0]` (which needs at least two columns, waveform_base.py 922),
    then the row operation.  [junk] gives the uninitialised rows.  The frame and history are not part of
    this record. *)
Definition parity_conj (k : parity_kind) (junk : nat -> list C) (w : wave) : res wave :=
  match w_spin w with
  | None => Err ValueError
  | Some s =>
      if n_modes w <? 2 then Err ValueError
      else let? rows := map_res (fun ir => conj_row k s (w_lo w) (w_hi w) (snd ir) (junk (fst ir)))
                          (combine (seq 0 (length (w_rows w))) (w_rows w)) in
           Ok (mkwave (w_spin w) (w_lo w) (w_hi w) rows)
  end.
(** *_parity_symmetric_part and *_parity_antisymmetric_part (747-767 and analogues). *)
Definition parity_sym (k : parity_kind) (junk : nat -> list C) (w : wave) : res wave :=
  let? c := parity_conj k junk w in
  Ok (mkwave (w_spin w) (w_lo w) (w_hi w) (map (fun p => half_sum (fst p) (snd p)) (combine (w_rows w) (w_rows c)))).
Definition parity_anti (k : parity_kind) (junk : nat -> list C) (w : wave) : res wave :=
  let? c := parity_conj k junk w in
  Ok (mkwave (w_spin w) (w_lo w) (w_hi w) (map (fun p => half_diff (fst p) (snd p)) (combine (w_rows w) (w_rows c)))).

(** norm (waveform_base.py 535-551), default arguments: sum of squared moduli at each time. *)
Definition row_norm (row : list C) : R := fold_right (fun a acc => (norm2 a + acc)%R) 0%R row.
Definition norm_of (w : wave) : list R := map row_norm (w_rows w).
(** *_parity_violation_normalized (774-777 and analogues).  Division by a zero norm is NaN in numpy; in
    the model it is an arbitrary real, so statements about it assume a nonzero norm. *)
Definition violation_normalized (k : parity_kind) (junk : nat -> list C) (w : wave) : res (list R) :=
  let? a := parity_anti k junk w in
  Ok (map (fun p => sqrt (fst p / snd p)%R) (combine (norm_of a) (norm_of w))).

(** ladder_factor (478-529).  Elements of [operations] after looking them up in op_dict; [OpBad] is an
    element outside the dictionary.  [conv] is the factor of eth_convention, [None] if unknown. *)
Inductive eth_op := Eth | Ethbar | OpBad.
Definition op_sign (o : eth_op) : Z := match o with Eth => 1 | Ethbar => -1 | OpBad => 0 end.
Definition conv_np : option R := Some 1%R.
Definition conv_ghp : option R := Some (/ 2)%R.

Definition ladder_step (ell : Z) (conv : R) (st : R * R * Z) (o : eth_op) : R * R * Z :=
  let '(ladder, sign, s) := st in
  let sg := op_sign o in
  ((ladder * (if Z.abs s <=? ell then IZR (ell - s * sg) * (IZR (ell + s * sg) + 1) else 0) * conv)%R,
   (sign * IZR sg)%R, s + sg).
Definition is_bad (o : eth_op) : bool := match o with OpBad => true | _ => false end.
Definition ladder_factor (ops : list eth_op) (s ell : Z) (conv : option R) : res R :=
  if existsb is_bad ops then Err ValueError
  else match conv with
       | None => Err ValueError
       | Some c =>
           let '(ladder, sign, _) := fold_left (ladder_step ell c) (rev ops) (1%R, 1%R, s) in
           Ok (sign * sqrt ladder)%R
       end.

(** apply_eth (531-572), one row: multiply the modes of each ell by its factor. *)
Definition scale_at (k : R) (i : Z) (row : list C) : res (list C) :=
  let? v := rd row i in wr row i (Cscale k v).
Definition apply_eth_row (ops : list eth_op) (s lo hi : Z) (conv : option R) (row : list C) : res (list C) :=
  for_each (zrange lo (hi + 1)) (fun ell r =>
    let? k := ladder_factor ops s ell conv in
    for_each (lm_indices lo ell (fun _ => true)) (fun i r' => scale_at k i r') r) row.
