(** Bit-level codecs of /repo/scri/utilities.py: xor_timeseries, xor_timeseries_reverse,
    fletcher32 and multishuffle.  Words are non-negative [Z]; machine truncation is explicit. *)
From Coq Require Import ZArith List Lia Bool.
From Verif Require Import Common.
Import ListNotations.
Open Scope Z_scope.

(** * xor_timeseries (utilities.py:194-216)
    One column of [u = c.view(np.uint64)]; columns do not interact.
    [for i in range(n-1, 0, -1): u[i] = u[i-1] ^ u[i]]; the loop counter is the first argument. *)
Fixpoint xor_loop (i : nat) (u : list Z) : res (list Z) :=
  match i with
  | O => Ok u
  | S i' =>
      match nth_error u i', nth_error u i with
      | Some p, Some c =>
          match upd u i (Z.lxor p c) with
          | Some u' => xor_loop i' u'
          | None => Err OutOfBounds
          end
      | _, _ => Err OutOfBounds
      end
  end.
Definition xor_timeseries (u : list Z) : res (list Z) := xor_loop (length u - 1) u.

(** * xor_timeseries_reverse (utilities.py:219-230)
    [for i in range(1, n): u[i] = u[i-1] ^ u[i]]; first argument = remaining iterations. *)
Fixpoint xor_rev_loop (k : nat) (i : nat) (u : list Z) : res (list Z) :=
  match k with
  | O => Ok u
  | S k' =>
      match nth_error u (i - 1), nth_error u i with
      | Some p, Some c =>
          match upd u i (Z.lxor p c) with
          | Some u' => xor_rev_loop k' (S i) u'
          | None => Err OutOfBounds
          end
      | _, _ => Err OutOfBounds
      end
  end.
Definition xor_timeseries_reverse (u : list Z) : res (list Z) :=
  xor_rev_loop (length u - 1) 1 u.

(** * fletcher32 (utilities.py:233-267)
    [data] is the flat array viewed as uint16; accumulators are uint32 (the additions wrap
    modulo 2^32 in the model, as they would in a 32-bit register). *)
Definition w32 (x : Z) : Z := x mod 2 ^ 32.

(** Inner loop, lines 261-264: consumes the words of one block. *)
Fixpoint fl_block (block : list Z) (c0 c1 : Z) : Z * Z :=
  match block with
  | [] => (c0, c1)
  | x :: t => let c0' := w32 (c0 + x) in let c1' := w32 (c1 + c0') in fl_block t c0' c1'
  end.

(** Outer while loop, lines 259-266; [fuel] bounds the number of blocks. *)
Fixpoint fl_loop (fuel : nat) (block_size : nat) (data : list Z) (c0 c1 : Z) : res (Z * Z) :=
  match data with
  | [] => Ok (c0, c1)
  | _ =>
      match fuel with
      | O => Err OutOfFuel
      | S f =>
          let '(c0', c1') := fl_block (firstn block_size data) c0 c1 in
          fl_loop f block_size (skipn block_size data) (c0' mod 65535) (c1' mod 65535)
      end
  end.

(** Line 267: [c1 << 16 | c0] in uint32. *)
Definition fletcher32 (data : list Z) : res Z :=
  rmap (fun c => w32 (Z.lor (Z.shiftl (snd c) 16) (fst c)))
       (fl_loop (length data) 360 data 0 0).

(** * multishuffle (utilities.py:270-407)
    [ws] is [reversed_shuffle_widths]; [bw] the bit width.  Array stores truncate to [bw] bits;
    intermediate values are computed without truncation, which agrees with numba's 64-bit
    arithmetic because every intermediate is truncated to [bw <= 64] low bits (by a store or a
    mask).  [b_array_bit] is an unbounded integer (numba unifies it to uint64). *)
Definition mask_of (bw w : Z) : Z := (2 ^ w - 1) mod 2 ^ bw.

(** [b[i] += v] with bounds check and truncation to [bw] bits. *)
Definition add_at (bw : Z) (b : list Z) (i : Z) (v : Z) : option (list Z) :=
  if i <? 0 then None else
  match nth_error b (Z.to_nat i) with
  | Some old => upd b (Z.to_nat i) ((old + v) mod 2 ^ bw)
  | None => None
  end.

(** Loop body, lines 365-372, over the elements of [a] for one width. *)
Fixpoint shuf_inner (bw w shift : Z) (a : list Z) (b : list Z) (bit : Z) : option (list Z * Z) :=
  match a with
  | [] => Some (b, bit)
  | x :: a' =>
      let idx := bit / bw in
      let e := bit mod bw in
      let masked := Z.land (Z.shiftr x shift) (mask_of bw w) in
      match add_at bw b idx (Z.shiftl masked e) with
      | None => None
      | Some b1 =>
          if bw <? e + w then
            match add_at bw b1 (idx + 1) (Z.shiftr masked (bw - e)) with
            | None => None
            | Some b2 => shuf_inner bw w shift a' b2 (bit + w)
            end
          else shuf_inner bw w shift a' b1 (bit + w)
      end
  end.

(** Outer loop, lines 361-372; [shift] is [np.sum(reversed_shuffle_widths[:i])]. *)
Fixpoint shuf_outer (bw : Z) (ws : list Z) (shift : Z) (a b : list Z) (bit : Z) : option (list Z) :=
  match ws with
  | [] => Some b
  | w :: ws' =>
      match shuf_inner bw w shift a b bit with
      | None => None
      | Some (b', bit') => shuf_outer bw ws' (shift + w) a b' bit'
      end
  end.

Definition sum_widths (ws : list Z) : Z := fold_right Z.add 0 ws.
Definition valid_bw (bw : Z) : bool := (bw =? 8) || (bw =? 16) || (bw =? 32) || (bw =? 64).

(** Lines 341-343 and 351-373.  [shuffle_widths] is in the caller's order. *)
Definition shuffle (shuffle_widths : list Z) (a : list Z) : res (list Z) :=
  let bw := sum_widths shuffle_widths in
  if negb (valid_bw bw) then Err ValueError else
  match shuf_outer bw (rev shuffle_widths) 0 a (repeat 0 (length a)) 0 with
  | Some b => Ok b
  | None => Err OutOfBounds
  end.

(** Lines 395-404 over the elements of [a] for one width; [a] is traversed and rebuilt. *)
Fixpoint unshuf_inner (bw w shift : Z) (b : list Z) (a : list Z) (bit : Z) : option (list Z * Z) :=
  match a with
  | [] => Some ([], bit)
  | x :: a' =>
      let idx := bit / bw in
      let e := bit mod bw in
      match nth_error b (Z.to_nat idx) with
      | None => None
      | Some bi =>
          let masked := Z.land (Z.shiftr bi e) (mask_of bw w) in
          let x1 := (x + Z.shiftl masked shift) mod 2 ^ bw in
          let rest x2 :=
            match unshuf_inner bw w shift b a' (bit + w) with
            | None => None
            | Some (t, bit') => Some (x2 :: t, bit')
            end in
          if bw <? e + w then
            match nth_error b (Z.to_nat (idx + 1)) with
            | None => None
            | Some bn =>
                rest ((x1 + Z.shiftl (Z.land (Z.shiftl bn (bw - e)) (mask_of bw w)) shift) mod 2 ^ bw)
            end
          else rest x1
      end
  end.

Fixpoint unshuf_outer (bw : Z) (ws : list Z) (shift : Z) (b a : list Z) (bit : Z) : option (list Z) :=
  match ws with
  | [] => Some a
  | w :: ws' =>
      match unshuf_inner bw w shift b a bit with
      | None => None
      | Some (a', bit') => unshuf_outer bw ws' (shift + w) b a' bit'
      end
  end.

(** Lines 341-343 and 381-405. *)
Definition unshuffle (shuffle_widths : list Z) (b : list Z) : res (list Z) :=
  let bw := sum_widths shuffle_widths in
  if negb (valid_bw bw) then Err ValueError else
  match unshuf_outer bw (rev shuffle_widths) 0 b (repeat 0 (length b)) 0 with
  | Some a => Ok a
  | None => Err OutOfBounds
  end.
