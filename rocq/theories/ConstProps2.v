(** C86, a second solver: the case of a board. *)
From Coq Require Import List ZArith Reals Lia Lra Bool String Permutation.
From Verif Require Import PyBase PolyModel PolySpec BaryModel QuadModel VertModel EdgeModel ContourModel CellModel MeshModel MeshProofs MeshProps TraceModel LocalModel NystromModel EdgeSpaceModel GlobModel SolverModel LocSpaceModel LocSpaceProps4 AsmModel AsmProofs3 DeparamProps PegSpec PegProofs PegProps PegProps2 BoardProofs BoardProps2 AgainProofs AgainProofs2 AgainProps ConstProps.
From Verif Require ConvProofs5 BoardProofs3.
Import List ListNotations.
Open Scope R_scope.

(** The board of C84_example, first with the form (1, 1), then on the same edges and the same space with the form (2, -3) *)
Example C86_second_example low_rank : exists qd H0 H m H1 p all H2 v H3 v', get_quad_dict (PInt 16) 7 = Ok qd /\ pegboard (2, 3)%Z (1 / 4) = Ok (H, m) /\ mk_mesh H0 (seq 0 (List.length H0)) = Ok (H, m) /\ mk_gfs low_rank qd H m (PInt 2) = Ok (H1, p, all) /\
  Forall new_edge (map deparameterize H1) /\ Forall (eq []) (p_dofs p) /\
  run_solver ConvProofs5.within low_rank (fun _ b _ => Ok b) (fun l => l) qd (BForm 1 1 [rmon 1 0 0; rmon 1 1 0]) H1 p all true true = Ok (H2, v) /\
  run_solver ConvProofs5.within low_rank (fun _ b _ => Ok b) (fun l => l) qd (BForm 2 (-3) [rmon 1 0 0; rmon 1 1 0]) H2 (v_space v) all true true = Ok (H3, v') /\
  forall i j, ~ boundary_row (v_space v) i -> glob_mat v' i j = 2 * stiff_mat v i j - 3 * mass_mat v i j.
Proof.
  destruct (C82_example low_rank) as (qd & H0 & H & m & H2 & v & _ & _ & Q & E & MK & Es & _). destruct (pegboard_ok 2 3 (1 / 4)) as (H' & m' & E' & _ & _ & _ & MK'); [lia|lia|]. cbn [Z.of_nat Pos.of_succ_nat Pos.succ] in E'. rewrite E in E'. apply Ok_inj in E'. injection E' as -> ->.
  pose proof (mesh_new _ _ _ _ (board_new 2 3 (1 / 4) ltac:(lia)) MK') as NH. assert (D : map deparameterize H = H) by (rewrite <- (map_id H) at 2; apply map_ext_in; intros e Ie; apply new_bare; rewrite Forall_forall in NH; apply NH, Ie).
  unfold script in Es. rewrite MK in Es. cbn [bind] in Es. destruct (mk_gfs low_rank qd H m (PInt 2)) as [[[H1 p] all]|] eqn:G; [|discriminate]. cbn [bind] in Es.
  assert (K : H1 = H /\ Forall (eq []) (p_dofs p)).
  { unfold mk_gfs, build_edge_spaces in G. cbn [set_deg as_int bind Z.ltb Z.compare Pos.compare Pos.compare_cont] in G. destruct (fold_res _ _ _) as [[H3 all']|] eqn:F; [|discriminate]. cbn [bind] in G. destruct (mk_space m (PInt 2) _) as [p'|] eqn:Sp; [|discriminate]. cbn [bind] in G. apply Ok_inj in G. injection G as -> -> ->. split; [exact (proj1 (spaces_new low_rank (PInt 16) 7 qd (m_edges m) (PInt 2) Q H [] H3 all' NH F))|]. unfold mk_space in Sp. cbn [set_deg as_int bind Z.ltb Z.compare Pos.compare Pos.compare_cont] in Sp. apply Ok_inj in Sp. subst p'. cbn [p_dofs]. apply Forall_forall. intros x I. apply repeat_spec in I. congruence. }
  destruct K as (-> & Fr). assert (ND : Forall new_edge (map deparameterize H)) by (rewrite D; exact NH).
  destruct (C86_second _ _ _ _ _ (BForm 1 1 [rmon 1 0 0; rmon 1 1 0]) (BForm 2 (-3) [rmon 1 0 0; rmon 1 1 0]) _ _ _ _ _ _ _ _ _ Q ND Fr eq_refl Es) as (H3 & v' & E3 & _ & M).
  exists qd, H0, H, m, H, p, all, H2, v, H3, v'. do 8 (split; [assumption|]). intros i j Nb. destruct (M i j) as (_ & _ & _ & A). rewrite (A Nb). cbn [bf_diffusion bf_reaction]. ring.
Qed.
