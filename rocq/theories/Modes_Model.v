(** Mode bookkeeping of WaveformModes: /repo/scri/waveform_modes.py and
    /repo/scri/waveform_base.py (indexing and slicing only). *)
From Coq Require Import ZArith List Lia Bool.
From Verif Require Import Common.
Import ListNotations.
Open Scope Z_scope.

(** [sf.LM_range(ell_min, ell_max)] as documented at waveform_modes.py:412-414:
    [[ell,m] for ell in range(ell_min, ell_max+1) for m in range(-ell, ell+1)]. *)
Definition LM_range (ell_min ell_max : Z) : list (Z * Z) :=
  flat_map (fun ell => map (fun m => (ell, m)) (zrange (- ell) (ell + 1)))
           (zrange ell_min (ell_max + 1)).

(** [sf.LM_index(ell, m, ell_min)], used by waveform_modes.py:437 ([WaveformModes.index]). *)
Definition LM_index (ell m ell_min : Z) : Z := ell * (ell + 1) - ell_min ^ 2 + m.

(** waveform_modes.py:439-455 ([WaveformModes.indices]); the dtype/shape check is left out
    because the argument is already a list of integer pairs. *)
Definition indices (ell_min : Z) (ell_m : list (Z * Z)) : list Z :=
  map (fun lm => fst lm * (fst lm + 1) - ell_min ^ 2 + snd lm) ell_m.

(** Second component of a 2-tuple key. [step]: [None] or an integer. *)
Inductive mode_key : Type :=
| MInt (ell : Z)
| MSlice (start stop step : option Z).

(** Python truthiness of an optional int: [None] and [0] are false. *)
Definition falsy (o : option Z) : bool :=
  match o with None => true | Some z => z =? 0 end.

(** The numpy slice and new ell range computed by waveform_modes.py:966-1006.
    [slice(0)] (line 987) is [(None, Some 0)]. *)
Definition mode_slice (ell_min ell_max : Z) (k : mode_key)
  : res ((option Z * option Z) * (Z * Z)) :=
  match k with
  | MInt ell =>
      if (ell <? ell_min) || (ell_max <? ell) then Err ValueError
      else Ok ((Some (ell ^ 2 - ell_min ^ 2), Some (ell * (ell + 2) + 1 - ell_min ^ 2)), (ell, ell))
  | MSlice start stop step =>
      if negb (falsy step) && negb (match step with Some s => s =? 1 | None => false end)
      then Err ValueError
      else if falsy start && (match stop with Some z => z =? 0 | None => false end)
      then Ok ((None, Some 0), (0, -1))
      else
        let new_min := if falsy start then ell_min else match start with Some s => s | None => 0 end in
        let new_max := if falsy stop then ell_max else match stop with Some s => s - 1 | None => 0 end in
        if (new_min <? ell_min) || (ell_max <? new_max) then Err ValueError
        else Ok ((Some (new_min ^ 2 - ell_min ^ 2), Some (new_max * (new_max + 2) + 1 - ell_min ^ 2)),
                 (new_min, new_max))
  end.

Section Waveform.
  (** Times, rotors and mode values are opaque: slicing never inspects them. *)
  Variables T Q C : Type.

  (** The fields that slicing touches.  [lm] is the private [__LM] member. *)
  Record wf : Type := mkwf {
    wt : list T; wframe : list Q; wdata : list (list C);
    wlmin : Z; wlmax : Z; wLM : list (Z * Z)
  }.

  (** First component of the key: a slice of times.  Integer time keys (which make [data] 1-d) are not modelled. *)
  Definition time_key : Type := (option Z * option Z)%type.
  Definition sl {A} (k : option Z * option Z) (l : list A) : list A := py_slice (fst k) (snd k) l.

  (** [n_data_sets], waveform_base.py:431-433, for 2-d data; an array without rows keeps
      its column count in numpy, which is why the count is passed along explicitly. *)
  (** waveform_base.py:917-947 for a pair key; the condition is [2 <= len(key) <= n_data_sets]. *)
  Definition base_getitem_pair (n_data_sets : Z) (w : wf) (tk : time_key) (ck : option Z * option Z)
    : res wf :=
    if (2 <=? n_data_sets)
    then Ok {| wt := sl tk (wt w); wframe := sl tk (wframe w);
               wdata := map (sl ck) (sl tk (wdata w));
               wlmin := wlmin w; wlmax := wlmax w; wLM := wLM w |}
    else Err ValueError.

  (** waveform_base.py:935-940 for a plain time slice. *)
  Definition base_getitem_slice (w : wf) (tk : time_key) : wf :=
    {| wt := sl tk (wt w); wframe := sl tk (wframe w); wdata := sl tk (wdata w);
       wlmin := wlmin w; wlmax := wlmax w; wLM := wLM w |}.

  (** [ells] setter, waveform_modes.py:389-402 (the mismatch only produces a warning). *)
  Definition set_ells (w : wf) (a b : Z) : wf :=
    {| wt := wt w; wframe := wframe w; wdata := wdata w;
       wlmin := a; wlmax := b; wLM := LM_range a b |}.

  (** waveform_modes.py:953-1021 for key = (time slice, mode key). *)
  Definition getitem_pair (n_data_sets : Z) (w : wf) (tk : time_key) (mk : mode_key) : res wf :=
    let? (ck, (a, b)) := mode_slice (wlmin w) (wlmax w) mk in
    let? w' := base_getitem_pair n_data_sets w tk ck in
    Ok (set_ells w' a b).

  (** waveform_modes.py:1009-1013 for key = time slice. *)
  Definition getitem_slice (w : wf) (tk : time_key) : wf :=
    let w' := base_getitem_slice w tk in set_ells w' (wlmin w) (wlmax w).
End Waveform.
Arguments mkwf {T Q C}.
Arguments wt {T Q C}. Arguments wframe {T Q C}. Arguments wdata {T Q C}.
Arguments wlmin {T Q C}. Arguments wlmax {T Q C}. Arguments wLM {T Q C}.
Arguments getitem_pair {T Q C}. Arguments getitem_slice {T Q C}.
Arguments set_ells {T Q C}.
