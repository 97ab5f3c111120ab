(** More on the library meshes (C69) and on bilinear forms without their constants (C80) *)
From Coq Require Import List ZArith Reals Lia Lra Bool String.
From Verif Require Import PyBase PolyModel BaryModel QuadModel VertModel CurveModel EdgeModel CellModel ContourModel MeshModel LibModel LibSpec LibProofs LibProofs2 LibProofs3 LibProps SetterModel SetterProps2.
Import List ListNotations.
Open Scope R_scope.

(** Every edge has a cell of the mesh on its left, and on its right another one or none, which is written -1. *)
Definition sides (cells : Z) (e : edge) : Prop := (0 <= e_pos e < cells)%Z /\ (e_neg e = (-1)%Z \/ (0 <= e_neg e < cells)%Z) /\ e_neg e <> e_pos e.
Definition sides_b (n : Z) (k : call) : bool := andb (andb (Z.leb 0 (l_pos k)) (Z.ltb (l_pos k) n)) (andb (orb (Z.eqb (l_neg k) (-1)) (andb (Z.leb 0 (l_neg k)) (Z.ltb (l_neg k) n))) (negb (Z.eqb (l_neg k) (l_pos k)))).
Lemma sided vs ks n : apart_by (1 / 25) (List.length vs) (numbered vs) -> forallb (call_fits (List.length vs)) ks = true -> forallb call_embedded ks = true -> forallb (sides_b n) ks = true ->
  exists H m, mesh_builder vs (edge_calls ks) = Ok (H, m) /\ List.length H = List.length ks /\ Forall (sides n) H.
Proof.
  intros A F E S. assert (D : TOL <= 1 / 25) by (unfold TOL; lra). destruct (builder_ok vs ks (1 / 25) D A F E) as (H & m & EQ & HH & _). exists H, m. split; [exact EQ|]. split; [rewrite HH, map_length, seq_length; reflexivity|].
  rewrite HH. apply Forall_forall. intros e I. apply in_map_iff in I. destruct I as (i & <- & I). apply in_seq in I. destruct (nth_error ks i) as [k|] eqn:Ek; [|apply nth_error_None in Ek; lia]. rewrite (at_call_nth _ _ _ _ Ek). rewrite forallb_forall in S. specialize (S k (nth_error_In _ _ Ek)). unfold sides_b in S. rewrite !andb_true_iff, orb_true_iff, andb_true_iff, negb_true_iff, Z.eqb_eq, Z.eqb_neq, !Z.leb_le, !Z.ltb_lt in S. unfold sides. cbn [with_idx made_edge e_pos e_neg]. tauto.
Qed.
Theorem C69_sides : (exists H m, square_circular_hole = Ok (H, m) /\ List.length H = 5%nat /\ Forall (sides 2) H) /\
  (exists H m, pacman = Ok (H, m) /\ List.length H = 23%nat /\ Forall (sides 11) H) /\
  exists H m, pacman_subdiv = Ok (H, m) /\ List.length H = 25%nat /\ Forall (sides 11) H.
Proof. split; [exact (sided square_verts square_calls 2 square_apart eq_refl eq_refl eq_refl)|]. split; [exact (sided pacman_verts pacman_calls 11 pacman_apart eq_refl eq_refl eq_refl)|exact (sided subdiv_verts subdiv_calls 11 subdiv_apart eq_refl eq_refl eq_refl)]. Qed.
Print Assumptions C69_sides.

(** A form whose constants were not set cannot be evaluated. *)
Theorem C80_missing o h1 l2 : (getattr o "diffusion_constant" = None -> eval_with o h1 l2 = Err AttributeError) /\
  (forall d a, getattr o "diffusion_constant" = Some d -> times d h1 = Ok a -> getattr o "reaction_constant" = None -> eval_with o h1 l2 = Err AttributeError).
Proof. unfold eval_with, attr_of. split; [intros ->; reflexivity|]. intros d a -> E ->. cbn [bind]. rewrite E. reflexivity. Qed.
Print Assumptions C80_missing.
Example C80_missing_example : eval_with [] 1 1 = Err AttributeError /\ eval_with [("diffusion_constant"%string, OInt 2)] 1 1 = Err AttributeError.
Proof. split; [apply C80_missing; reflexivity|]. eapply C80_missing; reflexivity. Qed.
