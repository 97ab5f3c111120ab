(** Vertices: C60. *)
From Coq Require Import List ZArith Reals Lra Psatz.
From Verif Require Import PyBase PolyModel PolySpec PolyProofs BaryModel BarySpec BaryProofs VertModel.
Import ListNotations.
Open Scope R_scope.

(** Arithmetic acts on coordinates; results carry the default index -1. *)
Theorem C60_arithmetic v w c :
  vadd v (VVert w) = Ok (Vert (vx v + vx w) (vy v + vy w) (-1)) /\
  vsub v (VVert w) = Ok (Vert (vx v - vx w) (vy v - vy w) (-1)) /\
  vmul v (VNum c) = Ok (Vert (c * vx v) (c * vy v) (-1)) /\
  vmul v (VVert w) = Ok (Vert (vx v * vx w) (vy v * vy w) (-1)) /\
  (c <> 0 -> vdiv v (VNum c) = Ok (Vert (vx v / c) (vy v / c) (-1))) /\
  (vx w <> 0 -> vy w <> 0 -> vdiv v (VVert w) = Ok (Vert (vx v / vx w) (vy v / vy w) (-1))).
Proof.
  unfold vadd, vsub, vmul, vdiv, mkvert. rewrite (Rmult_comm c), (Rmult_comm c). repeat split.
  - intros H. destruct (Req_EM_T c 0); [contradiction|reflexivity].
  - intros Hx Hy. destruct (Req_EM_T (vx w) 0); [contradiction|]. destruct (Req_EM_T (vy w) 0); [contradiction|reflexivity].
Qed.
Print Assumptions C60_arithmetic.

(** Division undoes multiplication; addition and subtraction cancel. *)
Theorem C60_inverse v w c :
  (c <> 0 -> exists u u', vmul v (VNum c) = Ok u /\ vdiv u (VNum c) = Ok u' /\ coord u' = coord v) /\
  (exists u u', vadd v (VVert w) = Ok u /\ vsub u (VVert w) = Ok u' /\ coord u' = coord v).
Proof.
  split.
  - intros H. do 2 eexists. split; [reflexivity|]. cbn. destruct (Req_EM_T c 0); [contradiction|]. split; [reflexivity|]. unfold coord; cbn. f_equal; field; exact H.
  - do 2 eexists. split; [reflexivity|]. split; [reflexivity|]. unfold coord; cbn. f_equal; ring.
Qed.

(** Rejections: division by zero (either coordinate of a vertex divisor), other types. *)
Theorem C60_rejected v w c :
  vdiv v (VNum 0) = Err ZeroDivisionError /\ (vx w = 0 \/ vy w = 0 -> vdiv v (VVert w) = Err ZeroDivisionError) /\
  vadd v VOther = Err TypeError /\ vsub v VOther = Err TypeError /\ vmul v VOther = Err TypeError /\ vdiv v VOther = Err TypeError /\
  vadd v (VNum c) = Err TypeError /\ vsub v (VNum c) = Err TypeError.
Proof.
  repeat split; unfold vdiv.
  - destruct (Req_EM_T 0 0); [reflexivity|contradiction].
  - intros [E|E]; rewrite E; destruct (Req_EM_T 0 0); try contradiction; [reflexivity|]. destruct (Req_EM_T (vx w) 0); reflexivity.
Qed.
Print Assumptions C60_rejected.

Lemma vnorm_pdist v w : vnorm (mkvert (vx v - vx w) (vy v - vy w)) = pdist (coord v) (coord w).
Proof. unfold vnorm, pdist, mkvert, coord. cbn [vx vy fst snd]. f_equal; ring. Qed.

(** Equality means distance below 1e-12; it is reflexive and symmetric, ignores the index, and
    equal coordinates give equal vertices. *)
Theorem C60_equality_partial v w :
  (veqb v (VVert w) = true <-> sqrt ((vx v - vx w) ^ 2 + (vy v - vy w) ^ 2) < 1 / 1000000000000) /\
  veqb v (VVert v) = true /\ veqb v (VVert w) = veqb w (VVert v) /\
  (coord v = coord w -> veqb v (VVert w) = true).
Proof.
  assert (E : forall v w, veqb v (VVert w) = true <-> sqrt ((vx v - vx w) ^ 2 + (vy v - vy w) ^ 2) < 1 / 1000000000000).
  { intros a b. unfold veqb, vnorm, mkvert, Rltb. cbn [vx vy]. destruct (Rlt_dec _ _); split; try congruence; try lra; auto. }
  assert (Z : forall v w, coord v = coord w -> veqb v (VVert w) = true).
  { intros a b H. injection H as H1 H2. apply E. rewrite H1, H2. replace ((vx b - vx b) ^ 2 + (vy b - vy b) ^ 2) with 0 by ring. rewrite sqrt_0. lra. }
  split; [apply E|]. split; [apply Z; reflexivity|]. split; [|apply Z].
  unfold veqb, vnorm, mkvert. cbn [vx vy]. replace ((vx v - vx w) ^ 2 + (vy v - vy w) ^ 2) with ((vx w - vx v) ^ 2 + (vy w - vy v) ^ 2) by ring. reflexivity.
Qed.
Print Assumptions C60_equality_partial.

(** Equality is not transitive: (0,0), (6e-13,0), (1.2e-12,0). *)
Theorem C60_transitive_refuted : exists u v w,
  veqb u (VVert v) = true /\ veqb v (VVert w) = true /\ veqb u (VVert w) = false.
Proof.
  exists (mkvert 0 0), (mkvert (6 / 10000000000000) 0), (mkvert (12 / 10000000000000) 0).
  assert (N : forall a, 0 <= a -> vnorm (mkvert (- a) 0) = a).
  { intros a Ha. unfold vnorm, mkvert. cbn [vx vy]. replace ((- a) ^ 2 + 0 ^ 2) with (a * a) by ring. apply sqrt_square, Ha. }
  unfold veqb. cbn [vx vy mkvert].
  replace (0 - 6 / 10000000000000) with (- (6 / 10000000000000)) by lra. replace (0 - 12 / 10000000000000) with (- (12 / 10000000000000)) by lra.
  replace (6 / 10000000000000 - 12 / 10000000000000) with (- (6 / 10000000000000)) by lra. replace (0 - 0) with 0 by ring.
  rewrite !N by lra. unfold Rltb. repeat split; destruct (Rlt_dec _ _); try reflexivity; lra.
Qed.
Print Assumptions C60_transitive_refuted.

(** What does hold instead: two links give a distance below twice the tolerance. *)
Lemma pdist_triangle p q r : pdist p r <= pdist p q + pdist q r.
Proof. exact (triangle (fst p) (snd p) (fst r) (snd r) (fst q) (snd q)). Qed.

Theorem C60_chain u v w : veqb u (VVert v) = true -> veqb v (VVert w) = true -> pdist (coord u) (coord w) < 2 / 1000000000000.
Proof.
  unfold veqb. rewrite !vnorm_pdist. unfold Rltb. do 2 (destruct (Rlt_dec _ _); [|discriminate]). intros _ _.
  pose proof (pdist_triangle (coord u) (coord v) (coord w)). lra.
Qed.
Print Assumptions C60_chain.

Example C60_example : vdiv (Vert 3 4 7) (VNum 2) = Ok (Vert (3 / 2) (4 / 2) (-1)) /\ vnorm (Vert 3 4 7) = 5.
Proof.
  split; [apply C60_arithmetic; [exact (Vert 1 1 0)|lra]|]. unfold vnorm. cbn [vx vy]. replace (3 ^ 2 + 4 ^ 2) with (5 * 5) by ring. apply sqrt_square. lra.
Qed.
