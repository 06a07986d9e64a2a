(** Waveform objects as mutable Python objects: history lists, history depth, and the data buffer
    behind each object.  Models the `waveform_alterations` decorator (/repo/scri/waveform_base.py
    38-62), `_append_history` (706-729), the constructor (177-270), copying (797-847), slicing
    (916-947 and waveform_modes.py 954-1021), and the history/aliasing effects of the in-place
    methods.  Exceptions keep the heap as it was at the point of the exception.

    Simplifications: history entries contain no newline; an entry is (number of "# " prefixes, text);
    numerical contents are rows of an abstract type, slices of which are views of a buffer; outcomes
    of numerical validity checks are parameters. *)
From Coq Require Import List Arith Lia Bool String ZArith.
From Verif Require Import Common.
Import ListNotations.
Open Scope nat_scope.

Inductive text : Type :=
| TBlank                                          (* "" *)
| TLine (what : string) (about : list nat).       (* e.g. "W_3 = W_1.copy()" *)

(** An entry of `history`: prefix count and text. *)
Definition entry : Type := (Z * text)%type.

Section Objects.
Variable row : Type.

Record obj := mkobj { o_hist : nat; o_depth : Z; o_buf : nat; o_off : nat; o_len : nat }.
Record heap := mkheap {
  lists : nat -> list entry; nlists : nat;
  bufs : nat -> list row; nbufs : nat;
  objs : nat -> obj; nobjs : nat }.

Definition fupd {A} (f : nat -> A) (k : nat) (v : A) : nat -> A := fun x => if Nat.eqb x k then v else f x.

Definition M (A : Type) : Type := heap -> res A * heap.
Definition ret {A} (a : A) : M A := fun h => (Ok a, h).
Definition raise {A} (e : exn) : M A := fun h => (Err e, h).
Definition bind {A B} (m : M A) (k : A -> M B) : M B :=
  fun h => match m h with (Ok a, h') => k a h' | (Err e, h') => (Err e, h') end.
Notation "x <- m ;; k" := (bind m (fun x => k)) (at level 61, m at next level, right associativity).
Notation "m ;;; k" := (bind m (fun _ => k)) (at level 61, right associativity).

Definition set_list (l : nat) (v : list entry) : M unit :=
  fun h => (Ok tt, mkheap (fupd (lists h) l v) (nlists h) (bufs h) (nbufs h) (objs h) (nobjs h)).
Definition set_obj (o : nat) (v : obj) : M unit :=
  fun h => (Ok tt, mkheap (lists h) (nlists h) (bufs h) (nbufs h) (fupd (objs h) o v) (nobjs h)).
Definition set_buf (b : nat) (v : list row) : M unit :=
  fun h => (Ok tt, mkheap (lists h) (nlists h) (fupd (bufs h) b v) (nbufs h) (objs h) (nobjs h)).
Definition get_obj (o : nat) : M obj := fun h => (Ok (objs h o), h).
Definition get_list (l : nat) : M (list entry) := fun h => (Ok (lists h l), h).
Definition get_buf (b : nat) : M (list row) := fun h => (Ok (bufs h b), h).
Definition alloc_list (v : list entry) : M nat :=
  fun h => (Ok (nlists h), mkheap (fupd (lists h) (nlists h) v) (S (nlists h)) (bufs h) (nbufs h) (objs h) (nobjs h)).
Definition alloc_buf (v : list row) : M nat :=
  fun h => (Ok (nbufs h), mkheap (lists h) (nlists h) (fupd (bufs h) (nbufs h) v) (S (nbufs h)) (objs h) (nobjs h)).
Definition alloc_obj (v : obj) : M nat :=
  fun h => (Ok (nobjs h), mkheap (lists h) (nlists h) (bufs h) (nbufs h) (fupd (objs h) (nobjs h) v) (S (nobjs h))).

Definition with_depth (x : obj) (d : Z) : obj := mkobj (o_hist x) d (o_buf x) (o_off x) (o_len x).
Definition with_hist (x : obj) (l : nat) : obj := mkobj l (o_depth x) (o_buf x) (o_off x) (o_len x).
Definition with_data (x : obj) (b off len : nat) : obj := mkobj (o_hist x) (o_depth x) b off len.

Definition set_depth (o : nat) (d : Z) : M unit := x <- get_obj o ;; set_obj o (with_depth x d).
(** [self.__history_depth__ -= 1] *)
Definition dec_depth (o : nat) : M unit := x <- get_obj o ;; set_obj o (with_depth x (o_depth x - 1)).

(** `_append_history(hist, additional_depth)`: [self.history += [...]], in place on the list object. *)
Definition append_history (o : nat) (lines : list text) (extra : Z) : M unit :=
  x <- get_obj o ;; l <- get_list (o_hist x) ;;
  set_list (o_hist x) (l ++ map (fun s => (o_depth x + extra, s)%Z) lines).

(** The decorator: no try/finally, so an exception skips the restoration. *)
Definition decorated {A} (o : nat) (body : M A) : M A :=
  x <- get_obj o ;;
  (if Z.eqb (o_depth x) 0 then append_history o [TBlank] 0 else ret tt) ;;;
  set_depth o (o_depth x + 1) ;;;
  r <- body ;;
  set_depth o (o_depth x) ;;;
  ret r.

(** WaveformBase.ensure_validity (272-424): [pass] tells whether all numerical tests hold. *)
Definition ensure_validity_base (o : nat) (pass assertions : bool) : M bool :=
  decorated o (
    if pass then dec_depth o ;;; append_history o [TLine "WaveformBase.ensure_validity" [o]] 0 ;;; ret true
    else if assertions then raise AssertionError else ret false).

(** WaveformModes.ensure_validity (waveform_modes.py 264-343): the base result is discarded (338). *)
Definition ensure_validity_modes (o : nat) (pass_modes pass_base assertions : bool) : M bool :=
  decorated o (
    if pass_modes then
      ensure_validity_base o pass_base assertions ;;;
      dec_depth o ;;; append_history o [TLine "WaveformModes.ensure_validity" [o]] 0 ;;; ret true
    else if assertions then raise AssertionError else ret false).

(** `is_valid` (426-428). *)
Definition is_valid (o : nat) (pass_modes pass_base : bool) : M bool :=
  ensure_validity_modes o pass_modes pass_base false.

Definition info_lines : list text :=
  [TLine "hostname" []; TLine "cwd" []; TLine "datetime" []; TLine "version_info" []].

(** Constructor with keyword arguments (229-270): the list object passed as `history` is kept by
    reference. *)
Definition construct (stmt : string) (hist : nat) (buf off len : nat) (valid : bool) : M nat :=
  w <- alloc_obj (mkobj hist 0 buf off len) ;;
  append_history w [TLine stmt [w]] 0 ;;;
  set_depth w 1 ;;;
  ensure_validity_modes w valid valid true ;;;
  set_depth w 0 ;;;
  append_history w info_lines 1 ;;;
  ret w.

(** `type(self)()`: no arguments, fresh empty history and data. *)
Definition construct_empty : M nat :=
  l <- alloc_list [] ;; b <- alloc_buf [] ;; construct "Waveform(**{})" l b 0 0 true.

(** Copy constructor `WaveformModes(other)` (248-260). *)
Definition construct_copy (other : nat) (valid : bool) : M nat :=
  x <- get_obj other ;; hl <- get_list (o_hist x) ;; bl <- get_buf (o_buf x) ;;
  l <- alloc_list hl ;;
  b <- alloc_buf (firstn (o_len x) (skipn (o_off x) bl)) ;;
  w <- alloc_obj (mkobj l 0 b 0 (o_len x)) ;;
  append_history w [TBlank; TLine "Waveform(other)" [w; other]] 0 ;;;
  set_depth w 1 ;;;
  ensure_validity_modes w valid valid true ;;;
  set_depth w 0 ;;;
  append_history w info_lines 1 ;;;
  ret w.

(** copy (809-823): a deep copy of the whole dictionary, including the (raised) depth. *)
Definition copy (self : nat) : M nat :=
  decorated self (
    w <- construct_empty ;;
    x <- get_obj self ;; hl <- get_list (o_hist x) ;; bl <- get_buf (o_buf x) ;;
    l <- alloc_list hl ;; b <- alloc_buf (firstn (o_len x) (skipn (o_off x) bl)) ;;
    set_obj w (mkobj l (o_depth x) b 0 (o_len x)) ;;;
    dec_depth w ;;;
    append_history w [TLine "copy" [w; self]] 0 ;;;
    ret w).

(** deepcopy (797-807) *)
Definition deepcopy (self : nat) : M nat :=
  decorated self (
    w <- copy self ;; dec_depth w ;;; append_history w [TLine "deepcopy" [w; self]] 0 ;;; ret w).

(** WaveformBase.copy_without_data (825-847): t, frame and data stay the empty ones of the new object. *)
Definition copy_without_data_base (self : nat) : M nat :=
  decorated self (
    w <- construct_empty ;;
    x <- get_obj self ;; hl <- get_list (o_hist x) ;;
    l <- alloc_list hl ;;
    y <- get_obj w ;;
    set_obj w (mkobj l (o_depth x) (o_buf y) (o_off y) (o_len y)) ;;;
    dec_depth w ;;;
    append_history w [TLine "copy_without_data" [w; self]] 0 ;;;
    ret w).

(** WaveformModes.copy_without_data (waveform_modes.py 945-951) *)
Definition copy_without_data (self : nat) : M nat :=
  decorated self (
    w <- copy_without_data_base self ;; dec_depth w ;;;
    append_history w [TLine "copy_without_data" [w; self]] 0 ;;; ret w).

(** WaveformBase.__getitem__ (916-947): numpy basic slicing returns a view of the same buffer. *)
Definition getitem_base (self a n : nat) : M nat :=
  decorated self (
    w <- copy_without_data_base self ;;
    x <- get_obj self ;; y <- get_obj w ;;
    set_obj w (with_data y (o_buf x) (o_off x + a) (Nat.min n (o_len x - a))) ;;;
    dec_depth w ;;; append_history w [TLine "getitem" [w; self]] 0 ;;; ret w).

(** [W.history.pop()] *)
Definition pop_history (o : nat) : M unit :=
  x <- get_obj o ;; l <- get_list (o_hist x) ;; set_list (o_hist x) (removelast l).

(** WaveformModes.__getitem__ (waveform_modes.py 953-1021), row slice; [ok] is whether the requested
    ell range is accepted. *)
Definition getitem (self a n : nat) (ok : bool) : M nat :=
  decorated self (
    if ok then
      w <- getitem_base self a n ;; pop_history w ;;; dec_depth w ;;;
      append_history w [TLine "getitem" [w; self]] 0 ;;; ret w
    else raise ValueError).

(** Methods that build a new object from copy_without_data and freshly computed arrays:
    interpolate (949-966), SI_units (968-1044). *)
Definition rebuild (name : string) (self : nat) (rows : list row) : M nat :=
  decorated self (
    w <- copy_without_data_base self ;;
    b <- alloc_buf rows ;; y <- get_obj w ;;
    set_obj w (with_data y b 0 (List.length rows)) ;;;
    dec_depth w ;;; append_history w [TLine name [w; self]] 0 ;;; ret w).

(** Parity conjugates (waveform_modes.py 724-745 and analogues). *)
Definition parity_conjugate (self : nat) (f : row -> row) (ok : bool) : M nat :=
  decorated self (
    if ok then
      w <- getitem self 0 0 true ;;
      x <- get_obj self ;; bl <- get_buf (o_buf x) ;;
      b <- alloc_buf (map f (firstn (o_len x) (skipn (o_off x) bl))) ;;
      y <- get_obj w ;; set_obj w (with_data y b 0 (o_len x)) ;;;
      dec_depth w ;;; append_history w [TLine "parity_conjugate" [w; self]] 0 ;;; ret w
    else raise ValueError).

(** Parity-(anti)symmetric parts (747-767 and analogues). *)
Definition parity_part (self : nat) (f : row -> row) (g : row -> row -> row) (ok : bool) : M nat :=
  decorated self (
    w <- parity_conjugate self f ok ;;
    x <- get_obj self ;; bl <- get_buf (o_buf x) ;;
    y <- get_obj w ;; cl <- get_buf (o_buf y) ;;
    b <- alloc_buf (map (fun p => g (fst p) (snd p)) (combine (firstn (o_len x) (skipn (o_off x) bl)) (firstn (o_len y) (skipn (o_off y) cl)))) ;;
    set_obj w (with_data y b 0 (o_len x)) ;;;
    dec_depth w ;;; append_history w [TLine "parity_part" [w; self]] 0 ;;; ret w).

(** Updating the rows visible through the object, in place in the shared buffer. *)
Definition inplace (o : nat) (f : row -> row) : M unit :=
  x <- get_obj o ;; bl <- get_buf (o_buf x) ;;
  set_buf (o_buf x)
    (firstn (o_off x) bl ++ map f (firstn (o_len x) (skipn (o_off x) bl)) ++ skipn (o_off x + o_len x) bl).

(** truncate (457-476), convert_to/from_conjugate_pairs (658-703): in place, and the entry is appended
    without lowering the depth first. *)
Definition inplace_method (name : string) (self : nat) (f : row -> row) : M nat :=
  decorated self (inplace self f ;;; append_history self [TLine name [self]] 0 ;;; ret self).

(** rotate_decomposition_basis (rotations.py 284-343); [ok] is the dimension test. *)
Definition rotate_decomposition_basis (self : nat) (f : row -> row) (ok : bool) : M nat :=
  decorated self (
    if ok then
      inplace self f ;;; dec_depth self ;;;
      append_history self [TLine "rotate_decomposition_basis" [self]] 0 ;;; ret self
    else raise ValueError).

(** to_coprecessing_frame (15-48), to_corotating_frame (51-103), to_inertial_frame (106-111),
    rotate_physical_system (268-281): no lowering of the depth. *)
Definition rotate_by (name : string) (self : nat) (f : row -> row) (ok : bool) : M nat :=
  decorated self (
    rotate_decomposition_basis self f ok ;;;
    append_history self [TLine name [self]] 0 ;;; ret self).

(** align_decomposition_frame_to_modes (227-265): records first, then rotates. *)
Definition align_frame (self : nat) (f : row -> row) (ok : bool) : M nat :=
  decorated self (
    append_history self [TLine "align_decomposition_frame_to_modes" [self]] 0 ;;;
    rotate_decomposition_basis self f ok).

(** WaveformGrid.from_modes (598-608) / to_modes (317-328): not decorated, fresh data, and the history
    list object of the input is handed to the constructor. *)
Definition grid_conversion (name : string) (self : nat) (rows : list row) (valid : bool) : M nat :=
  x <- get_obj self ;; b <- alloc_buf rows ;;
  construct name (o_hist x) b 0 (List.length rows) valid.

(** Top-level operations of a user program. *)
Inductive op :=
| OpCopy (o : nat) | OpDeepcopy (o : nat) | OpCopyWithoutData (o : nat)
| OpSlice (o a n : nat) (ok : bool)
| OpRebuild (name : string) (o : nat) (rows : list row)
| OpParity (o : nat) (f : row -> row) (ok : bool)
| OpParityPart (o : nat) (f : row -> row) (g : row -> row -> row) (ok : bool)
| OpInplace (name : string) (o : nat) (f : row -> row)
| OpRotate (o : nat) (f : row -> row) (ok : bool)
| OpRotateBy (name : string) (o : nat) (f : row -> row) (ok : bool)
| OpAlign (o : nat) (f : row -> row) (ok : bool)
| OpCopyConstruct (o : nat) (valid : bool)
| OpGridConversion (name : string) (o : nat) (rows : list row) (valid : bool)
| OpIsValid (o : nat) (pm pb : bool).

Definition subject (p : op) : nat :=
  match p with
  | OpCopy o | OpDeepcopy o | OpCopyWithoutData o | OpSlice o _ _ _ | OpRebuild _ o _ | OpParity o _ _
  | OpParityPart o _ _ _ | OpInplace _ o _ | OpRotate o _ _ | OpRotateBy _ o _ _ | OpAlign o _ _
  | OpCopyConstruct o _ | OpGridConversion _ o _ _ | OpIsValid o _ _ => o
  end.

(** Each operation returns the object to be used afterwards. *)
Definition run_op (p : op) : M nat :=
  match p with
  | OpCopy o => copy o
  | OpDeepcopy o => deepcopy o
  | OpCopyWithoutData o => copy_without_data o
  | OpSlice o a n ok => getitem o a n ok
  | OpRebuild name o rows => rebuild name o rows
  | OpParity o f ok => parity_conjugate o f ok
  | OpParityPart o f g ok => parity_part o f g ok
  | OpInplace name o f => inplace_method name o f
  | OpRotate o f ok => rotate_decomposition_basis o f ok
  | OpRotateBy name o f ok => rotate_by name o f ok
  | OpAlign o f ok => align_frame o f ok
  | OpCopyConstruct o v => construct_copy o v
  | OpGridConversion name o rows v => grid_conversion name o rows v
  | OpIsValid o pm pb => is_valid o pm pb ;;; ret o
  end.

(** A user program: a sequence of operations; with [catch = true] an exception is caught by the user
    and the program goes on. *)
Fixpoint run_ops (catch : bool) (ps : list op) (h : heap) : res unit * heap :=
  match ps with
  | [] => (Ok tt, h)
  | p :: ps' =>
      match run_op p h with
      | (Ok _, h') => run_ops catch ps' h'
      | (Err e, h') => if catch then run_ops catch ps' h' else (Err e, h')
      end
  end.
End Objects.

Arguments ret {row} {A}.
Arguments raise {row} {A}.
Arguments bind {row} {A} {B}.
Arguments set_list {row}.
Arguments set_obj {row}.
Arguments set_buf {row}.
Arguments get_obj {row}.
Arguments get_list {row}.
Arguments get_buf {row}.
Arguments alloc_list {row}.
Arguments alloc_buf {row}.
Arguments alloc_obj {row}.
Arguments set_depth {row}.
Arguments dec_depth {row}.
Arguments append_history {row}.
Arguments decorated {row} {A}.
Arguments ensure_validity_base {row}.
Arguments ensure_validity_modes {row}.
Arguments is_valid {row}.
Arguments construct {row}.
Arguments construct_empty {row}.
Arguments construct_copy {row}.
Arguments copy {row}.
Arguments deepcopy {row}.
Arguments copy_without_data_base {row}.
Arguments copy_without_data {row}.
Arguments getitem_base {row}.
Arguments pop_history {row}.
Arguments getitem {row}.
Arguments rebuild {row}.
Arguments parity_conjugate {row}.
Arguments parity_part {row}.
Arguments inplace {row}.
Arguments inplace_method {row}.
Arguments rotate_decomposition_basis {row}.
Arguments rotate_by {row}.
Arguments align_frame {row}.
Arguments grid_conversion {row}.
Arguments subject {row}.
Arguments run_op {row}.
Arguments run_ops {row}.
Arguments lists {row}.
Arguments nlists {row}.
Arguments bufs {row}.
Arguments nbufs {row}.
Arguments objs {row}.
Arguments nobjs {row}.
Arguments mkheap {row}.
Arguments OpCopy {row}.
Arguments OpDeepcopy {row}.
Arguments OpCopyWithoutData {row}.
Arguments OpSlice {row}.
Arguments OpRebuild {row}.
Arguments OpParity {row}.
Arguments OpParityPart {row}.
Arguments OpInplace {row}.
Arguments OpRotate {row}.
Arguments OpRotateBy {row}.
Arguments OpAlign {row}.
Arguments OpCopyConstruct {row}.
Arguments OpGridConversion {row}.
Arguments OpIsValid {row}.
