(** * Parity operations on whole waveforms: modes and frames (/repo/scri/waveform_modes.py 722-945)

    The modes are those of Modal_Model; here the frame goes along.  The functions np.x_parity_conjugate,
    np.x_parity_symmetric_part, ... belong to the external quaternion package; they act on the components of
    each quaternion of an array. *)
From Coq Require Import Reals ZArith List Bool.
From Verif Require Import Common Cplx Quat Modes_Model Modal_Model Rotate_Model.
Import ListNotations.
Open Scope R_scope.

(** External: np.{x,y,z}_parity_conjugate, np.parity_conjugate on a quaternion. *)
Definition fconj (k : parity_kind) (q : quat) : quat :=
  match k with
  | PX => mkq (qw q) (qx q) (- qy q) (- qz q)
  | PY => mkq (qw q) (- qx q) (qy q) (- qz q)
  | PZ => mkq (qw q) (- qx q) (- qy q) (qz q)
  | PAll => q
  end.
(** External: np.{x,y,z}_parity_symmetric_part, np.parity_symmetric_part *)
Definition fsym (k : parity_kind) (q : quat) : quat :=
  match k with
  | PX => mkq (qw q) (qx q) 0 0
  | PY => mkq (qw q) 0 (qy q) 0
  | PZ => mkq (qw q) 0 0 (qz q)
  | PAll => q
  end.
(** External: np.{x,y,z}_parity_antisymmetric_part, np.parity_antisymmetric_part *)
Definition fanti (k : parity_kind) (q : quat) : quat :=
  match k with
  | PX => mkq 0 0 (qy q) (qz q)
  | PY => mkq 0 (qx q) 0 (qz q)
  | PZ => mkq 0 (qx q) (qy q) 0
  | PAll => q0
  end.
(** An elementwise function on the array `frame` *)
Definition on_frame (f : quat -> quat) (fr : frame_t) : frame_t :=
  match fr with F1 l => F1 (map f l) | F2 l => F2 (map (map f) l) end.

(** A waveform: its spin weight ([None] for UnknownDataType), modes, frame and frame type. *)
Record pwave : Type := mkpw { pw_spin : option Z; pw_wave : rwave }.
Definition modes_of (P : pwave) : wave := mkwave (pw_spin P) (rw_lo (pw_wave P)) (rw_hi (pw_wave P)) (rw_data (pw_wave P)).
Definition with_parts (P : pwave) (w : wave) (fr : frame_t) : pwave :=
  mkpw (pw_spin P) (mkrw (w_lo w) (w_hi w) (w_rows w) fr (rw_type (pw_wave P))).
(** {x,y,z}_parity_conjugate, parity_conjugate (724-745, 779-795, 830-854, 889-911); [junk] as in Modal_Model. *)
Definition conjugate (k : parity_kind) (junk : nat -> list C) (P : pwave) : res pwave :=
  let? w := parity_conj k junk (modes_of P) in Ok (with_parts P w (on_frame (fconj k) (rw_frame (pw_wave P)))).
(** *_parity_symmetric_part (747-756 and analogues) *)
Definition symmetric_part (k : parity_kind) (junk : nat -> list C) (P : pwave) : res pwave :=
  let? w := parity_sym k junk (modes_of P) in Ok (with_parts P w (on_frame (fsym k) (rw_frame (pw_wave P)))).
(** *_parity_antisymmetric_part (758-767 and analogues) *)
Definition antisymmetric_part (k : parity_kind) (junk : nat -> list C) (P : pwave) : res pwave :=
  let? w := parity_anti k junk (modes_of P) in Ok (with_parts P w (on_frame (fanti k) (rw_frame (pw_wave P)))).
(** *_parity_violation_normalized (774-777 and analogues) *)
Definition violation (k : parity_kind) (junk : nat -> list C) (P : pwave) : res (list R) :=
  let? a := antisymmetric_part k junk P in
  Ok (map (fun p => sqrt (fst p / snd p)) (combine (norm_of (modes_of a)) (norm_of (modes_of P)))).

Section External.
Variable wigner : quat -> Z -> Z -> list C.
Variable garbage : Z -> list C.
(** rotate_decomposition_basis and to_inertial_frame (Rotate_Model) leave the spin weight alone. *)
Definition rotate_wave (P : pwave) (r : rotors) : res pwave :=
  let? W := rotate_basis wigner garbage (pw_wave P) r in Ok (mkpw (pw_spin P) W).
Definition inertial_wave (P : pwave) : res pwave :=
  let? W := to_inertial wigner garbage (pw_wave P) in Ok (mkpw (pw_spin P) W).
End External.
