(** C25: the sampled points of an edge. *)
From Coq Require Import List ZArith Reals Lia Lra.
From Verif Require Import PyBase BaryModel VertModel EdgeModel EdgeSpec EdgeProps.
Import ListNotations.
Open Scope R_scope.

(** With the endpoint, the positions of all samples in their order; without it, all but the last. *)
Theorem C25_sampled_points e : e_param e = true -> e_smp e <> [] -> exists ps z, get_sampled_points true e = Ok ps /\ get_sampled_points false e = Ok (ps ++ [z]) /\
  List.length (ps ++ [z]) = List.length (e_smp e) /\ forall i s, nth_error (e_smp e) i = Some s -> nth_error (ps ++ [z]) i = Some (sx s).
Proof.
  intros P N. destruct (exists_last N) as (l & s & E). unfold get_sampled_points. rewrite P, E, removelast_last, map_app. cbn [map]. exists (map sx l), (sx s). split; [reflexivity|]. split; [reflexivity|]. split; [rewrite !app_length, map_length; reflexivity|]. intros i t Ht. change [sx s] with (map sx [s]). rewrite <- map_app, nth_error_map, Ht. reflexivity.
Qed.
Print Assumptions C25_sampled_points.
Theorem C25_sampled_refused e b : e_param e = false -> get_sampled_points b e = Err NotParameterizedError.
Proof. intros P. unfold get_sampled_points. rewrite P. reflexivity. Qed.
Print Assumptions C25_sampled_refused.
Example C25_sampled_example : exists e ps z, parameterize dict4 (line_edge (mkvert 0 0) (mkvert 3 4)) = Ok e /\ get_sampled_points true e = Ok ps /\ List.length ps = 8%nat /\ get_sampled_points false e = Ok (ps ++ [z]).
Proof.
  destruct C25_example as (_ & F & e & E & L & _). pose proof (line_param (mkvert 0 0) (mkvert 3 4) [SJoin (mkvert 0 0) (mkvert 3 4)] F) as E'. cbv zeta in E'. assert (P : e_param e = true). { change (parameterize dict4 (line_edge (mkvert 0 0) (mkvert 3 4)) = Ok e) in E. assert (Q : Ok e = _) by (etransitivity; [symmetry; exact E|exact E']). injection Q as ->. reflexivity. }
  destruct (C25_sampled_points e P) as (ps & z & E1 & E2 & Ls & _); [intros Q; rewrite Q in L; discriminate|]. exists e, ps, z. split; [exact E|]. split; [exact E1|]. split; [rewrite app_length, L in Ls; cbn in Ls; lia|exact E2].
Qed.
