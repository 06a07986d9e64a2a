(** Time-axis transform (/repo/scri/plotting.py) and centre-of-mass motion (/repo/scri/SpEC/com_motion.py 19-236).
    Exact reals; arrays as lists. *)
From Coq Require Import Reals ZArith List Bool.
From Verif Require Import Common Times_Model.
Import ListNotations.
Open Scope R_scope.

(** * plotting.py *)
(** [np.piecewise(a, conds, funcs)] for one sample, as many functions as conditions: the output starts
    as 0 and each condition that holds overwrites it in turn. *)
Definition piecewise (a : R) (l : list (bool * (R -> R))) : R :=
  fold_left (fun (out : R) (p : bool * (R -> R)) => if fst p then snd p a else out) l 0.

(** Lines 64-74: WaveformTimeTransform.transform_non_affine *)
Definition time_transform (s t_merger t_ringdown a : R) : R :=
  piecewise a
    [ (Rltb a t_merger, fun x => x);
      (Rleb t_merger a && Rltb a t_ringdown, fun x => t_merger + s * (x - t_merger));
      (Rleb t_ringdown a, fun x => (s - 1) * (t_ringdown - t_merger) + x) ].

(** Lines 96-112: InvertedWaveformTimeTransform.transform_non_affine *)
Definition inverse_transform (s t_merger t_ringdown a : R) : R :=
  piecewise a
    [ (Rltb a t_merger, fun x => x);
      (Rleb ((1 - s) * t_merger + s * t_merger) a && Rltb a ((1 - s) * t_merger + s * t_ringdown),
        fun x => (x - (1 - s) * t_merger) / s);
      (Rleb (s * t_ringdown - (s - 1) * t_merger) a, fun x => x - (s - 1) * (t_ringdown - t_merger)) ].

(** Lines 18-20: default of merger_stretch. *)
Definition default_stretch (t_initial t_merger t_ringdown t_final : R) : R :=
  (75 / 100) * (t_final - t_initial) / (t_ringdown - t_merger).

(** * com_motion, lines 19-120 *)
(** Contents of Horizons.h5: the time column and mass column of the A data, the positions, and the same for B. *)
Record horizons := mkhor { h_t : list R; h_mA : list R; h_xA : list (list R); h_mB : list R; h_xB : list (list R) }.
(** Contents of Matter.h5: times and positions of star 1 and star 2, if present. *)
Record matter := mkmat { ns1 : option (list R * list (list R)); ns2 : option (list R * list (list R)) }.

(** Binary operation on 1-d arrays with numpy broadcasting of length-one arrays. *)
Definition bcast {A B D} (f : A -> B -> D) (a : list A) (b : list B) : res (list D) :=
  if (length a =? length b)%nat then Ok (map (fun p => f (fst p) (snd p)) (combine a b))
  else match a, b with
       | [x], _ => Ok (map (f x) b)
       | _, [y] => Ok (map (fun x => f x y) a)
       | _, _ => Err ValueError
       end.

(** [((m_A[:, np.newaxis] * x_A) + (m_B[:, np.newaxis] * x_B)) / m[:, np.newaxis]] with [m = m_A + m_B];
    the positions are rows of three numbers. *)
Definition row_scale (m : R) (x : list R) : list R := map (Rmult m) x.
Definition row_add (x y : list R) : list R := map (fun p => fst p + snd p) (combine x y).
Definition row_div (x : list R) (m : R) : list R := map (fun v => v / m) x.
Definition weighted_mean (mA mB : list R) (xA xB : list (list R)) : res (list R * list (list R)) :=
  let? m := bcast Rplus mA mB in
  let? a := bcast row_scale mA xA in
  let? b := bcast row_scale mB xB in
  let? s := bcast row_add a b in
  let? c := bcast row_div s m in
  Ok (m, c).

Definition list_Reqb (a b : list R) : bool :=
  if list_eq_dec Req_EM_T a b then true else false.

(** Lines 52-120.  [m_A], [m_B] are optional floats; in the two-black-hole branch they are overwritten by
    the file's masses. *)
Definition com_motion (hor : horizons) (mat : option matter) (m_A m_B : option R) : res (list R * list (list R)) :=
  match mat with
  | None =>
      let? (_, c) := weighted_mean (h_mA hor) (h_mB hor) (h_xA hor) (h_xB hor) in
      Ok (h_t hor, c)
  | Some mt =>
      let? (t, mA, mB, xA, xB) :=
        match ns1 mt, ns2 mt with
        | Some (t1, x1), Some (t2, x2) =>
            if negb (list_Reqb t1 t2) then Err ValueError
            else match m_A, m_B with
                 | Some a, Some b => Ok (t1, [a], [b], x1, x2)
                 | _, _ => Err ValueError
                 end
        | Some (t1, x1), None =>
            let mA := match m_A with None => h_mA hor | Some a => [a] end in
            let t := h_t hor in
            let n := length t1 in
            let? (t, mA, xA) :=
              if (length t <? n)%nat then Err ValueError
              else if (n <? length t)%nat
                then Ok (firstn n t, if (length mA =? length t)%nat then firstn n mA else mA, firstn n (h_xA hor))
                else Ok (t, mA, h_xA hor) in
            if negb (list_Reqb t t1) then Err ValueError
            else match m_B with
                 | Some b => Ok (t, mA, [b], xA, x1)
                 | None => Err ValueError
                 end
        | None, _ => Err KeyError (* raise Exception("Cannot find expected keys") *)
        end in
      let? (m, c) := weighted_mean mA mB xA xB in
      let? t := bcast Rdiv t m in
      let? c := bcast row_div c m in
      Ok (t, c)
  end.

(** * estimate_avg_com_motion, lines 195-236 (one component; the three are treated alike) *)
(** np.argmin: first index of the smallest entry ([None] for the empty array). *)
Fixpoint argmin_from (best : R) (ib i : nat) (l : list R) : nat :=
  match l with
  | [] => ib
  | a :: r => if Rltb a best then argmin_from a i (S i) r else argmin_from best ib (S i) r
  end.
Definition argmin (l : list R) : res nat :=
  match l with [] => Err ValueError | a :: r => Ok (argmin_from a 0 1 r) end.

(** Lines 232-235: the closed form without acceleration. *)
Definition fit2 (ti tf C0 C1 : R) : R * R :=
  (2 * (C0 * (2 * tf ^ 3 - 2 * ti ^ 3) + C1 * (- 3 * tf ^ 2 + 3 * ti ^ 2)) / (tf - ti) ^ 4,
   6 * (C0 * (- tf - ti) + 2 * C1) / (tf - ti) ^ 3).
(** Lines 209-231: with acceleration. *)
Definition fit3 (ti tf C0 C1 C2 : R) : R * R * R :=
  (3 * (C0 * (3 * tf ^ 4 + 12 * tf ^ 3 * ti + 30 * tf ^ 2 * ti ^ 2 + 12 * tf * ti ^ 3 + 3 * ti ^ 4)
        - 12 * C1 * (tf + ti) * (tf ^ 2 + 3 * tf * ti + ti ^ 2)
        + C2 * (10 * tf ^ 2 + 40 * tf * ti + 10 * ti ^ 2)) / (tf - ti) ^ 5,
   12 * (- 3 * C0 * (tf + ti) * (tf ^ 2 + 3 * tf * ti + ti ^ 2)
         + C1 * (16 * tf ^ 2 + 28 * tf * ti + 16 * ti ^ 2)
         + C2 * (- 15 * tf - 15 * ti)) / (tf - ti) ^ 5,
   60 * (C0 * (tf ^ 2 + 4 * tf * ti + ti ^ 2) + C1 * (- 6 * tf - 6 * ti) + 6 * C2) / (tf - ti) ^ 5).

Section Estimate.
  (** [scipy.integrate.simps(y, t)] *)
  Variable simps : list R -> list R -> R.
  Definition segment {A} (i j : nat) (l : list A) : list A := firstn (S j - i) (skipn i l).

  Definition estimate (t com : list R) (skip_b skip_e : R) (accel : bool) : res (R * R * R * R * R) :=
    match t with
    | [] => Err IndexError
    | t0 :: _ =>
        let tl := last t t0 in
        let ti := t0 + (tl - t0) * skip_b in
        let tf := tl - (tl - t0) * skip_e in
        let? ii := argmin (map (fun s => Rabs (s - ti)) t) in
        let? jf := argmin (map (fun s => Rabs (s - tf)) t) in
        let seg := segment ii jf in
        let mom k := map (fun p => fst p ^ k * snd p) (combine t com) in
        let C0 := simps (seg com) (seg t) in
        let C1 := simps (seg (mom 1%nat)) (seg t) in
        if accel
        then let C2 := simps (seg (mom 2%nat)) (seg t) in
             let '(x, v, a) := fit3 ti tf C0 C1 C2 in Ok (x, v, a, ti, tf)
        else let '(x, v) := fit2 ti tf C0 C1 in Ok (x, v, 0, ti, tf)
    end.
End Estimate.
