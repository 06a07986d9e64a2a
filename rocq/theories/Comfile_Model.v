(** * Removing the average motion of the centre of mass from waveform files
    /repo/scri/SpEC/com_motion.py: estimate_avg_com_motion as a whole (123-300), remove_avg_com_motion (302-530);
    /repo/scri/SpEC/remove_avg_com_from_catalog.py: run_in (9-35); /repo/scri/SpEC/find_com_in_catalog.py: run_in (19-33)
    and the header (45).

    Files in NRAR format are those of H5_Model, the trajectories and the fit of one component those of Motion_Model, the
    transformation that of Pipeline_Model.  Plots, printing and warnings are not modelled; the other attributes a waveform may
    carry (extrapolate_coord_radii, json_data) neither.  Strings are sequences of bytes, so that ignoring case means ignoring
    it for the letters of ASCII. *)
From Coq Require Import String Ascii ZArith Reals List Bool.
From Verif Require Import Common Cplx Quat Modes_Model Times_Model Tables_Model Motion_Model Kwargs_Model Rotate_Model Pipeline_Model Validity_Model H5_Model.
Import ListNotations.
Open Scope string_scope.

(** ** Strings *)
(** s.replace(p, q) and re.sub(p, q, s, flags=re.I): every occurrence from the left, not overlapping; [at_start] tells whether
    the text of [n] > 0 characters to be replaced is at the beginning. *)
Fixpoint substitute (at_start : string -> bool) (n : nat) (q : string) (skip : nat) (s : string) : string :=
  match s with
  | EmptyString => EmptyString
  | String c s' =>
      match skip with
      | S k => substitute at_start n q k s'
      | O => if at_start s then q ++ substitute at_start n q (n - 1) s' else String c (substitute at_start n q 0 s')
      end
  end.
Definition starts (p s : string) : bool := match strip p s with Some _ => true | None => false end.
Definition replace_all (p q s : string) : string := substitute (starts p) (String.length p) q 0 s.
Definition remove_ci (p s : string) : string := substitute (fun t => starts (lower p) (lower t)) (String.length p) "" 0 s.
(** s.replace(p, q, 1) *)
Definition replace_one (p q s : string) : string := match H5_Model.cut p s with Some (a, b) => a ++ q ++ b | None => s end.
(** re.search of the names in line 446: the leftmost match, and of the alternatives the first *)
Definition known_names : list string := ["r2News"; "rhOverM"; "rMPsi4"; "r2Psi3"; "r3Psi2OverM"; "r4Psi1OverM2"; "r5Psi0OverM3"].
Fixpoint first_name (s : string) : option string :=
  match find (fun n => starts n s) known_names with
  | Some n => Some n
  | None => match s with EmptyString => None | String _ s' => first_name s' end
  end.
(** Line 445 *)
Definition file_prefix : list string := ["rMPsi4"; "r2Psi3"; "r3Psi2OverM"; "r4Psi1OverM2"].

(** ** Waveforms of files and waveforms to be transformed *)
(** scri/__init__.py: FrameType *)
Definition frame_kind (z : Z) : ftype :=
  if (z =? 1)%Z then InertialFrame else if (z =? 2)%Z then CoprecessingFrame else if (z =? 3)%Z then CoorbitalFrame
  else if (z =? 4)%Z then CorotatingFrame else UnknownFrame.
Definition frame_code (f : ftype) : Z :=
  match f with UnknownFrame => 0 | InertialFrame => 1 | CoprecessingFrame => 2 | CoorbitalFrame => 3 | CorotatingFrame => 4 end%Z.
Definition as_pwave (w : hwave) : pwave :=
  mkpw (w_times w) (w_rows w) (w_ell_min w) (w_ell_max w) (w_quats w) (frame_kind (w_frameType w)) (w_dataType w) (w_r w).
(** The waveform made at the end of the transformation (waveform_grid.py 318-328) has no version history and no record of an earlier
    correction; [history] is what it writes into its history. *)
Definition as_hwave (p : pwave) (m : bool) (history : list string) : hwave :=
  mkhwave (pw_t p) (pw_data p) (length (LM_range (pw_lo p) (pw_hi p))) (pw_lo p) (pw_hi p) (pw_dataType p) (frame_code (pw_frameType p)) (pw_r p) m []
    history [] None None.

(** What the caller passes as w_m *)
Inductive given : Type :=
  | Nothing
  | Wave (w : hwave) (masses : option (R * R))   (* the reference masses in its metadata, if any *)
  | OtherObject.                                  (* anything without the attributes of a waveform *)

Section External.
(** os.path.abspath; scipy's simps and spline; spinsfast.map2salm *)
Variable abspath : string -> string.
Variable simps : list R -> list R -> R.
Variable spline : list R -> list R -> res (R -> R).
Variable map2salm : Z -> Z -> list C -> Z -> Z -> list C.
(** The externals of H5_Model, and the history of a transformed waveform *)
Variable show : hwave -> string.
Variable born : string -> list string.
Variable listing : list string -> list string.
Variable from_history : string -> string -> option (list R).
Variable as_quat_array : arr -> option attr.
Variable diff_nd : arr -> res bool.
Variable noted : hwave -> list string.
(** Files that are only read: trajectories of black holes and neutron stars, masses in the metadata of a directory *)
Variable horizons_in : string -> option horizons.
Variable matter_in : string -> option matter.
Variable masses_in : string -> option (R * R).
(** sxs.rpxmb, with the conversion to the inertial frame that follows loading (376, 456-457) *)
Variable load_inertial : fs -> string -> res hwave.
Variable save_rpxmb : fs -> hwave -> string -> res fs.

Definition read (d : fs) (name : string) : res hwave :=
  read_from_h5 born listing from_history as_quat_array diff_nd d name (mkkwargs None None None None).

(** The file of the horizons is opened unless there are two neutron stars, or none that can be found (com_motion, 52-112). *)
Definition needs_horizons (mat : option matter) : bool :=
  match mat with
  | None => true
  | Some mt => match ns1 mt, ns2 mt with Some _, None => true | _, _ => false end
  end.
(** estimate_avg_com_motion, 189-207, 231-234, 297-300, without acceleration: the files are opened by com_motion, the three
    components are treated alike. *)
Definition estimate_avg (path_horizons : string) (path_matter : option string) (skip_b skip_e : R) (m_A m_B : option R) :
  res (vec3 * vec3 * R * R) :=
  let? mat := match path_matter with
              | None => Ok None
              | Some p => match matter_in p with Some x => Ok (Some x) | None => Err OSError end
              end in
  let? hor := if needs_horizons mat then match horizons_in path_horizons with Some x => Ok x | None => Err OSError end
              else Ok (mkhor [] [] [] [] []) in
  let? (t, com) := com_motion hor mat m_A m_B in
  let component k := estimate simps t (map (fun row => nth k row 0%R) com) skip_b skip_e false in
  let? (x1, v1, _, ti, tf) := component 0%nat in
  let? (x2, v2, _, _, _) := component 1%nat in
  let? (x3, v3, _, _, _) := component 2%nat in
  Ok ((x1, x2, x3), (v1, v2, v3), ti, tf).

Definition vlist (v : vec3) : list R := let '(x, y, z) := v in [x; y; z].
Inductive format : Type := NRAR | RPXMB | OtherFormat.
(** file_format.lower() *)
Definition format_of (s : string) : format :=
  let l := lower s in
  if String.eqb l "nrar" then NRAR else if String.eqb l "rpxmb" || String.eqb l "rpxm" then RPXMB else OtherFormat.

(** Lines 440-463: the Weyl scalars of higher index, from files whose names differ in the first name that is recognized.
    FileNotFoundError is an OSError. *)
Fixpoint companions (d : fs) (fmt : format) (path : string) (is : list nat) (aux : nat -> option pwave) : res (nat -> option pwave) :=
  match is with
  | [] => Ok aux
  | i :: is' =>
      match first_name path with
      | None => Err AttributeError
      | Some name =>
          match nth_error file_prefix i with
          | None => Err IndexError
          | Some prefix =>
              let aux_path := replace_all name prefix path in
              match fmt with
              | OtherFormat => companions d fmt path is' aux
              | _ => let? x := (match fmt with NRAR => read d aux_path | _ => load_inertial d aux_path end) in
                     companions d fmt path is' (fun DT => if (DT =? 5 - i)%nat then Some (as_pwave x) else aux DT)
              end
          end
      end
  end.
(** 5 - w_m.dataType, with nothing for strain, news and psi4 *)
Definition wanted (dataType : Z) : list nat :=
  if (dataType =? h)%Z || (dataType =? hdot)%Z || (dataType =? psi4)%Z then [] else seq 0 (Z.to_nat (5 - dataType)).

(** Lines 468-473 *)
Definition new_path (desc path : string) : string := remove_ci (desc ++ "_") (replace_one ".h5" "_CoM.h5" path).
Definition translation_and_boost (x v : vec3) : Kwargs_Model.kwargs := mkkw None None (Some (vlist x)) None None None None (Some (vlist v)).

Definition remove_avg_com_motion (d : fs) (arg : given) (path : string) (path_horizons : option string) (skip_b skip_e : R) (mode : string)
  (path_matter : option string) (m_A m_B : option R) (file_format : string) (write : bool) : res (hwave * fs) :=
  let? (f, _) := match H5_Model.cut ".h5" path with Some (a, b) => Ok (a ++ ".h5", b) | None => Err IndexError end in
  let directory := dirname (abspath f) in
  let fmt := format_of file_format in
  let? arg :=
    match arg, fmt with
    | Nothing, NRAR => let? w := read d path in Ok (Wave w (masses_in (dirname (fst (read_target path)))))
    | Nothing, RPXMB => let? w := load_inertial d path in Ok (Wave w None)
    | Nothing, OtherFormat => Err ValueError
    | g, _ => Ok g
    end in
  let path_horizons := match path_horizons with Some p => p | None => path_join directory "Horizons.h5" end in
  let? (path_matter, m_A, m_B) :=
    match path_matter with
    | Some p => Ok (Some p, m_A, m_B)
    | None =>
        let p := path_join directory "Matter.h5" in
        match matter_in p with
        | None => Ok (None, m_A, m_B)
        | Some _ =>
            match m_A, m_B with
            | Some _, Some _ => Ok (Some p, m_A, m_B)
            | _, _ =>
                match arg with
                | Wave _ (Some (a, b)) => Ok (Some p, Some (dflt a m_A), Some (dflt b m_B))
                | _ => Err AttributeError
                end
            end
        end
    end in
  let? (x_0, v_0, _, _) := estimate_avg path_horizons path_matter skip_b skip_e m_A m_B in
  match arg with
  | Wave w _ =>
      let? aux := companions d fmt path (wanted (w_dataType w)) (fun _ => None) in
      let? p := Pipeline_Model.transform spline map2salm (as_pwave w) None None None (translation_and_boost x_0 v_0) aux in
      let w' := as_hwave p (w_m w) (noted w) in
      let done := mkhwave (w_times w') (w_rows w') (w_n_modes w') (w_ell_min w') (w_ell_max w') (w_dataType w') (w_frameType w') (w_r w') (w_m w')
                    (w_quats w') (w_history w') (w_versions w) (Some (vlist x_0)) (Some (vlist v_0)) in
      match write, fmt with
      | true, NRAR =>
          let? desc := descriptor_string (w_dataType w') (w_r w') (w_m w') in
          let? d' := write_to_h5 show d w' (new_path desc path) mode
                       [("space_translation", AVec (vlist x_0)); ("boost_velocity", AVec (vlist v_0))] true in
          Ok (done, d')
      | true, RPXMB => let? d' := save_rpxmb d done (replace_one ".h5" "_CoM.h5" path) in Ok (done, d')
      | _, _ => Ok (done, d)
      end
  | _ => Err AttributeError
  end.

(** ** remove_avg_com_from_catalog.py, run_in (9-35)
    The name of the file and group is the first positional argument of remove_avg_com_motion, which is w_m; all other
    arguments have their default values.  Plots are made before anything is written, and need a waveform, too. *)
Definition default_path : string := "rhOverM_Asymptotic_GeometricUnits.h5/Extrapolated_N2.dir".
Definition racm (d : fs) (mode : string) : res (hwave * fs) :=
  remove_avg_com_motion d OtherObject default_path None (1 / 100) (10 / 100) mode None None None "NRAR" true.
Definition after (d : fs) (r : res (hwave * fs)) : fs := match r with Ok (_, d') => d' | Err _ => d end.
Definition run_in (d : fs) (filename : string) : fs :=
  match assoc (replace_all ".h5" "_CoM.h5" filename) d with
  | Some _ => d
  | None =>
      match racm d "w" with
      | Err _ => d
      | Ok (_, d1) => let d2 := after d1 (racm d1 "a") in let d3 := after d2 (racm d2 "a") in after d3 (racm d3 "a")
      end
  end.

(** ** find_com_in_catalog.py *)
(** float(s) *)
Variable py_float : string -> res R.
Inductive cell : Type := CText (s : string) | CNum (x : R).
(** Line 45 *)
Definition csv_header : list string := ["dirname"; "Lev"; "x0"; "y0"; "z0"; "vx0"; "vy0"; "vz0"; "t0"; "tf"].
(** str.split(p) *)
Fixpoint split_on (fuel : nat) (p s : string) : list string :=
  match fuel with
  | O => [s]
  | S k => match H5_Model.cut p s with Some (a, b) => a :: split_on k p b | None => [s] end
  end.
(** Lines 22-28: the row added for one file, or nothing *)
Definition csv_row (filename : string) : res (list cell) :=
  let? hor := match horizons_in filename with Some x => Ok x | None => Err OSError end in
  let? tf := match rev (h_t hor) with x :: _ => Ok x | [] => Err IndexError end in
  let? (x, v, t_i, t_f) := estimate_avg filename None (1 / 100) (10 / 100) None None in
  match split_on (String.length filename) "Lev" (dirname filename) with
  | [dir; lev] => let? l := py_float lev in
      Ok ([CText dir; CNum l] ++ map CNum (vlist x ++ vlist v ++ [t_i; t_f]) ++ [CNum tf])%list
  | _ => Err ValueError
  end.
Definition csv (files : list string) : list (list cell) :=
  flat_map (fun f => match csv_row f with Ok r => [r] | Err _ => [] end) files.
End External.
