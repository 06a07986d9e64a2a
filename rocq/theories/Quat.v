(** Quaternions over the reals, as provided by the external [quaternion] package (numpy-quaternion): components
    (w, x, y, z), Hamilton product, conjugate, [abs] = Euclidean norm, [normalized] = q / abs(q),
    [inverse] = conj(q) / norm2(q).  No code of /repo is modelled in this file. *)
From Coq Require Import Reals Lra.
From Coq Require Import R_sqrt.
Open Scope R_scope.

Record quat : Type := mkq { qw : R; qx : R; qy : R; qz : R }.
Definition q0 : quat := mkq 0 0 0 0.
Definition q1 : quat := mkq 1 0 0 0.
Definition qi : quat := mkq 0 1 0 0.
Definition qj : quat := mkq 0 0 1 0.
Definition qk : quat := mkq 0 0 0 1.
Definition qadd (p q : quat) : quat := mkq (qw p + qw q) (qx p + qx q) (qy p + qy q) (qz p + qz q).
Definition qsub (p q : quat) : quat := mkq (qw p - qw q) (qx p - qx q) (qy p - qy q) (qz p - qz q).
Definition qopp (p : quat) : quat := mkq (- qw p) (- qx p) (- qy p) (- qz p).
Definition qscale (a : R) (p : quat) : quat := mkq (a * qw p) (a * qx p) (a * qy p) (a * qz p).
Definition qmul (p q : quat) : quat :=
  mkq (qw p * qw q - qx p * qx q - qy p * qy q - qz p * qz q)
      (qw p * qx q + qx p * qw q + qy p * qz q - qz p * qy q)
      (qw p * qy q - qx p * qz q + qy p * qw q + qz p * qx q)
      (qw p * qz q + qx p * qy q - qy p * qx q + qz p * qw q).
Definition qconj (p : quat) : quat := mkq (qw p) (- qx p) (- qy p) (- qz p).
Definition qnorm2 (p : quat) : R := qw p * qw p + qx p * qx p + qy p * qy p + qz p * qz p.
Definition qabs (p : quat) : R := sqrt (qnorm2 p).
Definition qnormalized (p : quat) : quat := qscale (/ qabs p) p.
Definition qinv (p : quat) : quat := qscale (/ qnorm2 p) (qconj p).

Lemma quat_eq : forall p q, qw p = qw q -> qx p = qx q -> qy p = qy q -> qz p = qz q -> p = q.
Proof. intros [] []; cbn; intros; subst; reflexivity. Qed.
Ltac qx := apply quat_eq; cbn; try ring; try (field; auto; fail); try lra.

Lemma qmul_assoc : forall p q r, qmul p (qmul q r) = qmul (qmul p q) r.
Proof. intros [] [] []. qx. Qed.
Lemma qmul_1_l : forall p, qmul q1 p = p.
Proof. intros []. qx. Qed.
Lemma qmul_1_r : forall p, qmul p q1 = p.
Proof. intros []. qx. Qed.
Lemma qnorm2_mul : forall p q, qnorm2 (qmul p q) = qnorm2 p * qnorm2 q.
Proof. intros [] []. unfold qnorm2; cbn. ring. Qed.
Lemma qnorm2_conj : forall p, qnorm2 (qconj p) = qnorm2 p.
Proof. intros []. unfold qnorm2; cbn. ring. Qed.
Lemma qnorm2_scale : forall a p, qnorm2 (qscale a p) = a * a * qnorm2 p.
Proof. intros a []. unfold qnorm2; cbn. ring. Qed.
Lemma qnorm2_nonneg : forall p, 0 <= qnorm2 p.
Proof. intros []. unfold qnorm2; cbn. nra. Qed.
Lemma qnorm2_zero : forall p, qnorm2 p = 0 -> p = q0.
Proof. intros [w x y z]. unfold qnorm2; cbn. intros H. apply quat_eq; cbn; nra. Qed.
Lemma qnorm2_pos : forall p, p <> q0 -> 0 < qnorm2 p.
Proof.
  intros p H. destruct (Rle_lt_or_eq_dec 0 (qnorm2 p) (qnorm2_nonneg p)) as [L|E]; [exact L|].
  exfalso. apply H. apply qnorm2_zero. symmetry. exact E.
Qed.
Lemma qconj_mul : forall p q, qconj (qmul p q) = qmul (qconj q) (qconj p).
Proof. intros [] []. qx. Qed.
Lemma qconj_involutive : forall p, qconj (qconj p) = p.
Proof. intros []. qx. Qed.
Lemma qmul_conj_r : forall p, qmul p (qconj p) = qscale (qnorm2 p) q1.
Proof. intros []. unfold qnorm2. qx. Qed.
Lemma qmul_conj_l : forall p, qmul (qconj p) p = qscale (qnorm2 p) q1.
Proof. intros []. unfold qnorm2. qx. Qed.
Lemma qmul_scale_l : forall a p q, qmul (qscale a p) q = qscale a (qmul p q).
Proof. intros a [] []. qx. Qed.
Lemma qmul_scale_r : forall a p q, qmul p (qscale a q) = qscale a (qmul p q).
Proof. intros a [] []. qx. Qed.
Lemma qscale_scale : forall a b p, qscale a (qscale b p) = qscale (a * b) p.
Proof. intros a b []. qx. Qed.
Lemma qscale_1 : forall p, qscale 1 p = p.
Proof. intros []. qx. Qed.
Lemma qmul_inv_r : forall p, p <> q0 -> qmul p (qinv p) = q1.
Proof.
  intros p H. unfold qinv. rewrite qmul_scale_r, qmul_conj_r, qscale_scale.
  assert (P := qnorm2_pos p H). rewrite Rinv_l by lra. apply qscale_1.
Qed.
Lemma qmul_inv_l : forall p, p <> q0 -> qmul (qinv p) p = q1.
Proof.
  intros p H. unfold qinv. rewrite qmul_scale_l, qmul_conj_l, qscale_scale.
  assert (P := qnorm2_pos p H). rewrite Rinv_l by lra. apply qscale_1.
Qed.
Lemma unit_neq0 : forall p, qnorm2 p = 1 -> p <> q0.
Proof. intros p H E. subst. unfold qnorm2 in H; cbn in H. lra. Qed.
Lemma qinv_unit : forall p, qnorm2 p = 1 -> qinv p = qconj p.
Proof. intros p H. unfold qinv. rewrite H, Rinv_1. apply qscale_1. Qed.
Lemma qnormalized_unit : forall p, p <> q0 -> qnorm2 (qnormalized p) = 1.
Proof.
  intros p H. unfold qnormalized. rewrite qnorm2_scale. assert (P := qnorm2_pos p H).
  assert (S : qabs p * qabs p = qnorm2 p) by (apply sqrt_sqrt; lra).
  assert (Q : 0 < qabs p) by (apply sqrt_lt_R0; exact P).
  rewrite <- S. field. lra.
Qed.
Lemma qnormalized_id : forall p, qnorm2 p = 1 -> qnormalized p = p.
Proof. intros p H. unfold qnormalized, qabs. rewrite H, sqrt_1, Rinv_1. apply qscale_1. Qed.
Lemma qmul_cancel_l : forall p q r, p <> q0 -> qmul p q = qmul p r -> q = r.
Proof.
  intros p q r H E. apply (f_equal (qmul (qinv p))) in E. rewrite !qmul_assoc, !qmul_inv_l, !qmul_1_l in E by exact H. exact E.
Qed.
Lemma qinv_mul : forall p q, p <> q0 -> q <> q0 -> qinv (qmul p q) = qmul (qinv q) (qinv p).
Proof.
  intros p q Hp Hq. unfold qinv. rewrite qconj_mul, qnorm2_mul, qmul_scale_l, qmul_scale_r, qscale_scale.
  f_equal. assert (P := qnorm2_pos p Hp). assert (Q := qnorm2_pos q Hq). field. lra.
Qed.
Lemma qmul_neq0 : forall p q, p <> q0 -> q <> q0 -> qmul p q <> q0.
Proof.
  intros p q Hp Hq E. assert (P := qnorm2_pos p Hp). assert (Q := qnorm2_pos q Hq).
  assert (N := qnorm2_mul p q). rewrite E in N. unfold q0, qnorm2 at 1 in N. cbn in N. nra.
Qed.
