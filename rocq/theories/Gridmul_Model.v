(** * Products of mode series on the grid
    /repo/scri/modes_time_series.py: ModesTimeSeries.grid_multiply (142-202).

    Data are two-dimensional.  Keywords other than the two are taken out of kwargs by nobody and have no effect; they are left out. *)
From Coq Require Import Reals ZArith List Bool.
From Verif Require Import Common Cplx Modes_Model Times_Model Pipeline_Model Zturn_Model.
Import ListNotations.
Open Scope R_scope.

(** 173: self.n_times != mts.n_times or not np.equal(self.t, mts.t).all() *)
Fixpoint same_times (t u : list R) : bool :=
  match t, u with
  | [], [] => true
  | x :: t', y :: u' => Rleb x y && Rleb y x && same_times t' u'
  | _, _ => false
  end.

Section External.
(** spinsfast.salm2map of one row of modes: spin weight, lmax, Ntheta, Nphi *)
Variable salm2map : list C -> Z -> Z -> Z -> Z -> res (list C).
(** spinsfast.map2salm of an n_theta x n_phi array of values, with spin weight and largest degree *)
Variable map2salm : Z -> Z -> list C -> Z -> Z -> list C.

(** 169-202 *)
Definition grid_product (a b : mts) (output working : option Z) : res mts :=
  let out := match output with Some l => l | None => mt_hi a end in
  let w := match working with Some l => l | None => (mt_hi a + mt_hi b)%Z end in
  let n := (2 * w + 1)%Z in
  if negb (same_times (mt_t a) (mt_t b)) then Err ValueError else
  let? ga := each (fun row => salm2map row (mt_s a) (mt_hi a) n n) (mt_data a) in
  let? gb := each (fun row => salm2map row (mt_s b) (mt_hi b) n n) (mt_data b) in
  let s := (mt_s a + mt_s b)%Z in
  let rows := map (fun xy => map2salm n n (map (fun p => (fst p * snd p)%C) (combine (fst xy) (snd xy))) s w) (combine ga gb) in
  let? cut := each (fun row => from_ell_min 0 out (firstn (Z.to_nat (LM_index out out 0 + 1)) row)) rows in
  Ok (mkmts (mt_t a) s out cut).
End External.
