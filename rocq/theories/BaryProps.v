(** Property C16: barycentric.py. *)
From Coq Require Import List ZArith Reals Lia Lra Arith.
From Verif Require Import PyBase PolyModel PolySpec PolyProofs PolyProofs2 PolyProofs4 LegendreProofs
  BaryModel BarySpec BaryProofs.
Import ListNotations.
Open Scope R_scope.

(** Evaluation at a point. *)
Definition at_ (p : poly RS) (z : pt) : R := peval RS p (fst z) (snd z).

Lemma at_one h zm z zp w : h <> 0 -> bary_sig h zm z zp -> at_ (bary_one h zm z zp) w = bary_exact h zm z zp (fst w) (snd w).
Proof. intros. unfold at_. rewrite peval_value. apply bary_one_exact; assumption. Qed.

(** Counterclockwise triangle with sides of length at least 1e-12 whose coefficients are all
    kept: nodal values and partition of unity, exactly. *)
Theorem C16_nodal z0 z1 z2 : 0 < cross3 z0 z1 z2 ->
  tol <= pdist z0 z2 -> tol <= pdist z1 z0 -> tol <= pdist z2 z1 ->
  bary_sig (cross3 z0 z1 z2) z2 z0 z1 -> bary_sig (cross3 z0 z1 z2) z0 z1 z2 -> bary_sig (cross3 z0 z1 z2) z1 z2 z0 ->
  exists l0 l1 l2, barycentric_coordinates z0 z1 z2 = Ok (l0, l1, l2) /\
    (at_ l0 z0 = 1 /\ at_ l0 z1 = 0 /\ at_ l0 z2 = 0) /\
    (at_ l1 z0 = 0 /\ at_ l1 z1 = 1 /\ at_ l1 z2 = 0) /\
    (at_ l2 z0 = 0 /\ at_ l2 z1 = 0 /\ at_ l2 z2 = 1) /\
    forall z, at_ l0 z + at_ l1 z + at_ l2 z = 1.
Proof.
  intros Hc D0 D1 D2 S0 S1 S2.
  assert (Hh : Rabs (cross3 z0 z1 z2) = cross3 z0 z1 z2) by (apply Rabs_right; lra).
  assert (Hn : cross3 z0 z1 z2 <> 0) by lra.
  do 3 eexists. split; [rewrite bary_ok by assumption; rewrite Hh; reflexivity|].
  pose proof (bary_exact_nodes z0 z1 z2 Hc) as N0.
  pose proof (bary_exact_nodes z1 z2 z0) as N1. rewrite cross3_rot in N1. specialize (N1 Hc).
  pose proof (bary_exact_nodes z2 z0 z1) as N2. rewrite <- (cross3_rot z2 z0 z1) in N2. specialize (N2 Hc).
  cbn zeta in N0, N1, N2. rewrite Hh in N0, N1, N2.
  rewrite !at_one by assumption. split; [tauto|]. split; [tauto|]. split; [tauto|].
  intros z. rewrite !at_one by assumption. pose proof (bary_exact_sum z0 z1 z2 (fst z) (snd z) Hc) as E.
  cbn zeta in E. rewrite Hh in E. exact E.
Qed.
Print Assumptions C16_nodal.

Lemma abs3 u0 u1 u2 v0 v1 v2 e0 e1 e2 : v0 + v1 + v2 = 1 -> Rabs (u0 - v0) <= e0 -> Rabs (u1 - v1) <= e1 ->
  Rabs (u2 - v2) <= e2 -> Rabs (u0 + u1 + u2 - 1) <= e0 + e1 + e2.
Proof.
  intros. replace (u0 + u1 + u2 - 1) with ((u0 - v0) + (u1 - v1) + (u2 - v2)) by lra.
  pose proof (Rabs_triang ((u0 - v0) + (u1 - v1)) (u2 - v2)). pose proof (Rabs_triang (u0 - v0) (u1 - v1)). lra.
Qed.

(** Without conditions on the coefficients the values are off by at most [bary_err]. *)
Theorem C16_nodal_error z0 z1 z2 : 0 < cross3 z0 z1 z2 ->
  tol <= pdist z0 z2 -> tol <= pdist z1 z0 -> tol <= pdist z2 z1 ->
  let h := cross3 z0 z1 z2 in
  let err a b z := bary_err h (fst a - fst b) (snd a - snd b) (fst z) (snd z) in
  exists l0 l1 l2, barycentric_coordinates z0 z1 z2 = Ok (l0, l1, l2) /\
    (Rabs (at_ l0 z0 - 1) <= err z2 z1 z0 /\ Rabs (at_ l0 z1) <= err z2 z1 z1 /\ Rabs (at_ l0 z2) <= err z2 z1 z2) /\
    (Rabs (at_ l1 z0) <= err z0 z2 z0 /\ Rabs (at_ l1 z1 - 1) <= err z0 z2 z1 /\ Rabs (at_ l1 z2) <= err z0 z2 z2) /\
    (Rabs (at_ l2 z0) <= err z1 z0 z0 /\ Rabs (at_ l2 z1) <= err z1 z0 z1 /\ Rabs (at_ l2 z2 - 1) <= err z1 z0 z2) /\
    forall z, Rabs (at_ l0 z + at_ l1 z + at_ l2 z - 1) <= err z2 z1 z + err z0 z2 z + err z1 z0 z.
Proof.
  intros Hc D0 D1 D2 h err.
  assert (Hh : Rabs (cross3 z0 z1 z2) = h) by (unfold h; apply Rabs_right; lra).
  assert (Hn : h <> 0) by (unfold h; lra).
  do 3 eexists. split; [rewrite bary_ok by assumption; rewrite Hh; reflexivity|].
  pose proof (bary_exact_nodes z0 z1 z2 Hc) as N0.
  pose proof (bary_exact_nodes z1 z2 z0) as N1. rewrite cross3_rot in N1. specialize (N1 Hc).
  pose proof (bary_exact_nodes z2 z0 z1) as N2. rewrite <- (cross3_rot z2 z0 z1) in N2. specialize (N2 Hc).
  cbn zeta in N0, N1, N2. rewrite Hh in N0, N1, N2.
  assert (E0 : forall z, Rabs (at_ (bary_one h z2 z0 z1) z - bary_exact h z2 z0 z1 (fst z) (snd z)) <= err z2 z1 z)
    by (intros z; unfold at_; rewrite peval_value; apply bary_one_err, Hn).
  assert (E1 : forall z, Rabs (at_ (bary_one h z0 z1 z2) z - bary_exact h z0 z1 z2 (fst z) (snd z)) <= err z0 z2 z)
    by (intros z; unfold at_; rewrite peval_value; apply bary_one_err, Hn).
  assert (E2 : forall z, Rabs (at_ (bary_one h z1 z2 z0) z - bary_exact h z1 z2 z0 (fst z) (snd z)) <= err z1 z0 z)
    by (intros z; unfold at_; rewrite peval_value; apply bary_one_err, Hn).
  destruct N0 as (A0 & A1 & A2), N1 as (B1 & B2 & B0), N2 as (C2 & C0 & C1).
  split; [pose proof (E0 z0) as X; pose proof (E0 z1) as Y; pose proof (E0 z2) as Z;
          rewrite A0 in X; rewrite A1 in Y; rewrite A2 in Z; rewrite Rminus_0_r in Y, Z; tauto|].
  split; [pose proof (E1 z0) as X; pose proof (E1 z1) as Y; pose proof (E1 z2) as Z;
          rewrite B0 in X; rewrite B1 in Y; rewrite B2 in Z; rewrite Rminus_0_r in X, Z; tauto|].
  split; [pose proof (E2 z0) as X; pose proof (E2 z1) as Y; pose proof (E2 z2) as Z;
          rewrite C0 in X; rewrite C1 in Y; rewrite C2 in Z; rewrite Rminus_0_r in X, Y; tauto|].
  intros z. pose proof (bary_exact_sum z0 z1 z2 (fst z) (snd z) Hc) as E. cbn zeta in E. rewrite Hh in E.
  exact (abs3 _ _ _ _ _ _ _ _ _ E (E0 z) (E1 z) (E2 z)).
Qed.
Print Assumptions C16_nodal_error.

(** For a clockwise triangle the functions are wrong: 2 at each of the other two vertices. *)
Theorem C16_clockwise_refuted z0 z1 z2 : cross3 z0 z1 z2 < 0 ->
  tol <= pdist z0 z2 -> tol <= pdist z1 z0 -> tol <= pdist z2 z1 ->
  bary_sig (- cross3 z0 z1 z2) z2 z0 z1 ->
  exists l0 l1 l2, barycentric_coordinates z0 z1 z2 = Ok (l0, l1, l2) /\ at_ l0 z1 = 2 /\ at_ l0 z2 = 2.
Proof.
  intros Hc D0 D1 D2 S0.
  assert (Hh : Rabs (cross3 z0 z1 z2) = - cross3 z0 z1 z2) by (apply Rabs_left; lra).
  assert (Hn : - cross3 z0 z1 z2 <> 0) by lra.
  do 3 eexists. split; [rewrite bary_ok by assumption; rewrite Hh; reflexivity|].
  rewrite !at_one by assumption. unfold bary_exact, cross3 in *. destruct z0, z1, z2; cbn in *. split; field; lra.
Qed.
Print Assumptions C16_clockwise_refuted.

Ltac do_sig := first [left; cbn; lra | right; cbn; unfold tol; rewrite Rabs_right by lra; lra
                     | right; cbn; unfold tol; rewrite Rabs_left by lra; lra].
Ltac do_bary_sig := unfold bary_sig; repeat split; do_sig.
Lemma tol_dist z w : 1 <= (fst z - fst w) * (fst z - fst w) + (snd z - snd w) * (snd z - snd w) -> tol <= pdist z w.
Proof. intros H. unfold pdist. apply Rle_trans with 1; [unfold tol; lra|]. rewrite <- sqrt_1. apply sqrt_le_1_alt, H. Qed.

Theorem C16_clockwise_witness_refuted : exists l0 l1 l2,
  barycentric_coordinates (0, 0) (0, 1) (1, 0) = Ok (l0, l1, l2) /\ at_ l0 (0, 1) = 2.
Proof.
  destruct (C16_clockwise_refuted (0, 0) (0, 1) (1, 0)) as (l0 & l1 & l2 & E & V & _).
  - unfold cross3; cbn; lra.
  - apply tol_dist; cbn; lra.
  - apply tol_dist; cbn; lra.
  - apply tol_dist; cbn; lra.
  - unfold cross3; cbn. replace (- ((0 - 0) * (0 - 0) - (1 - 0) * (1 - 0))) with 1 by ring. do_bary_sig.
  - exists l0, l1, l2. split; assumption.
Qed.
Print Assumptions C16_clockwise_witness_refuted.

(** Coincident vertices are rejected; collinear distinct vertices are not, although their
    altitude h is 0 and the code divides by it. *)
Theorem C16_degenerate z0 z1 z2 : pdist z0 z2 < tol \/ pdist z1 z0 < tol \/ pdist z2 z1 < tol ->
  barycentric_coordinates z0 z1 z2 = Err DegenerateTriangleError.
Proof. exact (bary_degenerate z0 z1 z2). Qed.
Print Assumptions C16_degenerate.

Theorem C16_collinear_rejected_refuted :
  heron (pdist (0, 0) (2, 0)) (pdist (1, 0) (0, 0)) (pdist (2, 0) (1, 0)) = 0 /\
  exists r, barycentric_coordinates (0, 0) (1, 0) (2, 0) = Ok r.
Proof.
  split.
  - rewrite heron_cross. unfold cross3; cbn. replace (_ - _) with 0 by ring. apply Rabs_R0.
  - eexists. apply bary_ok; apply tol_dist; cbn; lra.
Qed.
Print Assumptions C16_collinear_rejected_refuted.

(** The functions of an edge with endpoints z0, z1 at distance at least 1e-12. *)
Theorem C16_edge z0 z1 : tol <= pdist z1 z0 ->
  let z2 := edge_apex z0 z1 in let h := cross3 z0 z1 z2 in
  bary_sig h z2 z0 z1 -> bary_sig h z0 z1 z2 -> bary_sig h z1 z2 z0 ->
  exists l0 l1 l2, barycentric_coordinates_edge z0 z1 = Ok (l0, l1, l2) /\
    at_ l0 z0 = 1 /\ at_ l0 z1 = 0 /\ at_ l1 z0 = 0 /\ at_ l1 z1 = 1 /\ at_ l2 z0 = 0 /\ at_ l2 z1 = 0.
Proof.
  intros D z2 h S0 S1 S2. destruct (apex_dist z0 z1) as [D1 D2]. destruct (bary_edge_ok z0 z1 D) as [Hh _].
  destruct (C16_nodal z0 z1 z2 Hh) as (l0 & l1 & l2 & E & A & B & C & _); try assumption.
  - unfold z2. rewrite D1. exact D.
  - unfold z2. rewrite D2. exact D.
  - exists l0, l1, l2. split; [exact E|]. tauto.
Qed.
Print Assumptions C16_edge.

Theorem C16_edge_error z0 z1 : tol <= pdist z1 z0 ->
  let z2 := edge_apex z0 z1 in let h := cross3 z0 z1 z2 in
  let err a b z := bary_err h (fst a - fst b) (snd a - snd b) (fst z) (snd z) in
  exists l0 l1 l2, barycentric_coordinates_edge z0 z1 = Ok (l0, l1, l2) /\
    Rabs (at_ l0 z0 - 1) <= err z2 z1 z0 /\ Rabs (at_ l0 z1) <= err z2 z1 z1 /\
    Rabs (at_ l1 z0) <= err z0 z2 z0 /\ Rabs (at_ l1 z1 - 1) <= err z0 z2 z1 /\
    Rabs (at_ l2 z0) <= err z1 z0 z0 /\ Rabs (at_ l2 z1) <= err z1 z0 z1.
Proof.
  intros D z2 h err. destruct (apex_dist z0 z1) as [D1 D2]. destruct (bary_edge_ok z0 z1 D) as [Hh _].
  destruct (C16_nodal_error z0 z1 z2 Hh) as (l0 & l1 & l2 & E & A & B & C & _).
  - unfold z2. rewrite D1. exact D.
  - exact D.
  - unfold z2. rewrite D2. exact D.
  - exists l0, l1, l2. split; [exact E|]. fold h in A, B, C. fold err in A, B, C. tauto.
Qed.
Print Assumptions C16_edge_error.

(** The triangle (1,1), (3,1), (1,2). *)
Example C16_example : exists l0 l1 l2, barycentric_coordinates (1, 1) (3, 1) (1, 2) = Ok (l0, l1, l2) /\
  at_ l1 (3, 1) = 1 /\ at_ l1 (1, 2) = 0 /\ at_ l0 (2, 3) + at_ l1 (2, 3) + at_ l2 (2, 3) = 1.
Proof.
  assert (Hc : cross3 (1, 1) (3, 1) (1, 2) = 2) by (unfold cross3; cbn; ring).
  destruct (C16_nodal (1, 1) (3, 1) (1, 2)) as (l0 & l1 & l2 & E & _ & B & _ & S); rewrite ?Hc; try lra;
    try (apply tol_dist; cbn; lra); try do_bary_sig.
  exists l0, l1, l2. split; [exact E|]. split; [tauto|]. split; [tauto|apply S].
Qed.

Example C16_edge_example : exists l0 l1 l2, barycentric_coordinates_edge (0, 0) (4, 3) = Ok (l0, l1, l2) /\
  Rabs (at_ l0 (0, 0) - 1) <= 2 / 1000000000.
Proof.
  assert (S3 : 0 < sqrt 3) by (apply sqrt_lt_R0; lra).
  assert (S4 : sqrt 3 * sqrt 3 = 3) by (apply sqrt_sqrt; lra).
  destruct (C16_edge_error (0, 0) (4, 3)) as (l0 & l1 & l2 & E & B & _); [apply tol_dist; cbn; lra|].
  exists l0, l1, l2. split; [exact E|]. eapply Rle_trans; [exact B|].
  rewrite apex_cross, pdist_sq. cbn. unfold bary_err. rewrite Rabs_R0.
  assert (H3 : 1 <= sqrt 3) by nra. assert (H4 : sqrt 3 <= 2) by nra.
  replace (1 / 2 * (4 + 0) - sqrt 3 / 2 * (3 - 0) - 4) with (-2 - 3 / 2 * sqrt 3) by field.
  replace (1 / 2 * (3 + 0) - sqrt 3 / 2 * - (4 - 0) - 3) with (2 * sqrt 3 - 3 / 2) by field.
  rewrite (Rabs_left (-2 - 3 / 2 * sqrt 3)) by lra. rewrite (Rabs_right (2 * sqrt 3 - 3 / 2)) by lra.
  rewrite (Rabs_right (sqrt 3 / 2 * _)) by nra.
  assert (I : / (sqrt 3 / 2 * ((4 - 0) * (4 - 0) + (3 - 0) * (3 - 0))) <= / 12) by (apply Rinv_le_contravar; lra).
  assert (I2 : 0 < / (sqrt 3 / 2 * ((4 - 0) * (4 - 0) + (3 - 0) * (3 - 0)))) by (apply Rinv_0_lt_compat; lra).
  unfold Rdiv at 2. unfold tol. nra.
Qed.
