(** * A fake file of finite-radius data: /repo/scri/sample_waveforms.py 596-755, create_fake_finite_radius_strain_h5file

    Numbers are exact reals; radii, time step and lapse are taken to be nonzero where they are divided by. Encoding of the version
    history (684-698), legends and the formatting of radii into group names (680, different for different integers) are not modelled. *)
From Coq Require Import Reals ZArith List Bool.
From Verif Require Import Common Cplx Quat Times_Model Tables_Model Kwargs_Model Transform_Model Pipeline_Model Finite_Model Sample_Model.
Import ListNotations.
Open Scope R_scope.

(** np.linspace(a, b, n) *)
Definition linspace (a b : R) (n : Z) : res (list R) :=
  if (n <? 0)%Z then Err ValueError else Ok (map (fun i => a + INR i * ((b - a) / IZR (n - 1))) (seq 0 (Z.to_nat n))).
(** astype(int), int(): towards zero *)
Definition truncated (x : R) : Z := if Rltb x 0 then (- Int_part (- x))%Z else Int_part x.
(** np.exp(1j * x) for real x *)
Definition phase (x : R) : C := mkC (cos x) (sin x).
(** l[::n] *)
Fixpoint every_from {A} (n k : nat) (l : list A) : list A :=
  match l with [] => [] | x :: l' => match k with O => x :: every_from n (n - 1) l' | S k' => every_from n k' l' end end.
Definition every {A} (n : Z) (l : list A) : res (list A) := if (n =? 0)%Z then Err ValueError else Ok (every_from (Z.to_nat n) 0 l).

(** Arguments, those of fake_precessing_waveform that are only passed on left out *)
Record fkargs : Type := mkfk {
  fk_subleading : Z; fk_amp : R; fk_t0 : R; fk_t1 : R; fk_dt : R; fk_rmin : R; fk_rmax : R; fk_n : Z; fk_ell_max : Z;
  fk_energy : R; fk_lapse : R; fk_diff : R; fk_mass_ratio : R }.
(** Data sets of one group: the radius of its name, the times of CoordRadius.dat, ArealRadius.dat, AverageLapse.dat and of the modes,
    constant values, the times of InitialAdmEnergy.dat, and the modes in the order (2,-2), (2,-1), ... *)
Record fkgroup : Type := mkfg {
  fg_times : list R; fg_coord : R; fg_areal : R; fg_lapse : R; fg_energy_times : list R; fg_energy : R; fg_modes : list (list C) }.
(** The file: its groups, each with its data once they have been written *)
Definition fkfile : Type := list (Z * option fkgroup).

Section External.
(** CubicSpline, of real data *)
Variable spline : list R -> list R -> res (R -> R).
(** fake_precessing_waveform(t_0, t_1, dt, ell_max, mass_ratio, ...): times and columns of modes *)
Variable fake : R -> R -> R -> Z -> option R -> res (list R * list (list C)).

(** 679 *)
Definition coord_radii (a : fkargs) : res (list Z) :=
  let? x := linspace (1 / fk_rmin a) (1 / fk_rmax a) (fk_n a) in Ok (map (fun y => truncated (1 / y)) x).
(** 680-682: h5py refuses a name that exists. What has been created, and whether all could be *)
Fixpoint create_groups (done : list Z) (rs : list Z) : list Z * bool :=
  match rs with
  | [] => (done, true)
  | r :: rs' => if existsb (Z.eqb r) done then (done, false) else create_groups (done ++ [r]) rs'
  end.
(** 740-742: [new_data] is a view of a column of h0.data, and h0.abs is computed from the present contents of h0.data *)
Definition add_term (a : fkargs) (rad : R) (n_times : nat) (t : list R) (col : list C) (n : Z) : list C :=
  map (fun p => (snd p + Cscale (fk_amp a * / rad ^ Z.to_nat n * Cmod (snd p)) (phase (IZR n * 50 * PI / INR n_times * fst p)))%C) (combine t col).
Definition add_terms (a : fkargs) (rad : R) (n_times : nat) (t : list R) (col : list C) : list C :=
  fold_left (fun col n => add_term a rad n_times t col n) (zrange 1 (fk_subleading a + 1)) col.
(** 734-736; a value that is not a number makes CubicSpline raise ValueError (743) *)
Definition simulation_time (E N rad : R) (t : list R) : res (list R) :=
  match obind (tortoise E rad) (fun rs => obind (odiv (2 * E) rad) (fun x => obind (osqrt (1 - x)) (fun y => Some (rs, y)))) with
  | None => Err ValueError
  | Some (rs, y) => Ok (map (fun u => (u + rs) * y / N) t)
  end.
(** 743-745 *)
Definition sampled (T all : list R) (col : list C) : res (list C) :=
  let? fr := spline T (map re col) in
  let? fi := spline T (map im col) in
  Ok (map (fun x => ((if Rltb x (nth 0 T 0) || Rltb (last T 0) x then C0 else mkC (fr x) (fi x)) + Cscale (1 / 10 ^ 14 * x) (mkC 1 1))%C) all).
(** 709-755 for one radius: the group, and what has become of h0.data *)
Definition one_radius (a : fkargs) (t all : list R) (cols : list (list C)) (r : Z) : res (fkgroup * list (list C)) :=
  let? seg := every (truncated (INR (length all) / 20)) t in
  let rad := IZR r + fk_diff a in
  let cols := map (add_terms a rad (length t) t) cols in
  let? T := simulation_time (fk_energy a) (fk_lapse a) rad t in
  let? modes := each (sampled T all) cols in
  Ok (mkfg all (IZR r) rad (fk_lapse a) seg (fk_energy a) modes, cols).
Fixpoint all_radii (a : fkargs) (t all : list R) (cols : list (list C)) (rs : list Z) : fkfile * res unit :=
  match rs with
  | [] => ([], Ok Datatypes.tt)
  | r :: rs' =>
      match one_radius a t all cols r with
      | Err e => (map (fun r => (r, None)) rs, Err e)
      | Ok (g, cols) => let (f, o) := all_radii a t all cols rs' in ((r, Some g) :: f, o)
      end
  end.
(** 676-755: the file at the path before and after, and how the call ends. The waveform is made without the mass ratio (701-703). *)
Definition create_fake (a : fkargs) (old : option fkfile) : option fkfile * res unit :=
  match old with
  | Some f => (Some f, Err OSError)
  | None =>
      match coord_radii a with
      | Err e => (Some [], Err e)
      | Ok rs =>
          let (made, ok) := create_groups [] rs in
          let bare := map (fun r => (r, None)) made in
          if ok then
            match fake (fk_t0 a) (fk_t1 a) (fk_dt a) (fk_ell_max a) None with
            | Err e => (Some bare, Err e)
            | Ok (t, cols) =>
                match linspace 0 (fk_t1 a + fk_rmax a) (truncated (INR (length t) + fk_rmax a / fk_dt a)) with
                | Err e => (Some bare, Err e)
                | Ok all => let (f, o) := all_radii a t all cols rs in (Some f, o)
                end
            end
          else (Some bare, Err ValueError)
      end
  end.
End External.
