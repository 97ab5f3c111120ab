(** C82: the script "make a mesh, make the global function space, assemble the system" ends on every mesh whose cells can be
    sampled in distinct points. *)
From Coq Require Import List ZArith Reals Lia Lra Bool String Permutation.
From Verif Require Import PyBase PolyModel PolySpec PolyProofs BaryModel QuadModel VertModel EdgeModel EdgeSpec ContourModel CellModel CellSpec CellProofs MeshModel MeshSpec MeshProofs MeshProps LocalModel LocalSpec NystromModel NystromSpec EdgeSpaceModel GlobModel GlobSpec GlobProofs GlobProps SolverModel SolverSpec SolverProofs SolverProps LocSpaceModel LocSpaceSpec LocSpaceProofs2 LocSpaceProps4 AsmModel AsmSpec AsmProofs AsmProofs2 AsmProofs3 AsmProps AsmProps2 AsmProps3 BoardProofs.
Import List ListNotations.
Open Scope R_scope.

Lemma derefs_all H ids : (forall i, In i ids -> (i < List.length H)%nat) -> exists es, map_res (deref H) ids = Ok es.
Proof. intros L. apply map_res_each. intros i Ii. unfold deref. destruct (nth_error H i) as [e|] eqn:E; [eauto|]. apply nth_error_None in E. specialize (L i Ii). lia. Qed.
Lemma in_derefs H ids es : map_res (deref H) ids = Ok es -> forall e, In e es -> exists i, In i ids /\ nth_error H i = Some e.
Proof.
  intros D. apply map_res_F2 in D. intros e Ie. induction D as [|j y l l' Ey D IH]; [destruct Ie|]. destruct Ie as [->|Ie].
  - exists j. split; [left; reflexivity|]. unfold deref in Ey. destruct (nth_error H j); [apply Ok_inj in Ey; congruence|discriminate].
  - destruct (IH Ie) as (i & Ii & Ei). exists i. split; [right; exact Ii|exact Ei].
Qed.

(** Let every edge have samples and, unless it is a loop, ends with indices and at least the tolerance apart; let every cell be
    constructible, parameterizable whatever samples its edges have, and its samples distinct. Then the script ends, with the number
    of unknowns of the global function space. The solver of linear systems may return anything of the right size,
    and values and gradients inside the cells may be asked for or not. *)
Theorem C82_total contains low_rank gmres set_iter qd B n p H0 is d interior gradient H m : solves_sizes gmres -> (forall l, Permutation (set_iter l) l) -> canonical (bf_rhs B) -> get_quad_dict (PInt n) p = Ok qd -> (n <= 10000000)%Z -> (1 <= d)%Z ->
  Forall new_edge H0 -> is <> [] -> mk_mesh H0 is = Ok (H, m) ->
  (forall i e, In i is -> nth_error H i = Some e -> (exists e1, parameterize qd e = Ok e1) /\ (e_loop e = false -> (0 <= vidx (e_anchor e))%Z /\ (0 <= vidx (e_endpnt e))%Z /\ tol <= pdist (coord (e_endpnt e)) (coord (e_anchor e)))) ->
  ((2 <= d)%Z \/ exists i e, In i is /\ nth_error H i = Some e /\ e_loop e = false) ->
  (forall z, In z (m_cells m) -> exists c, get_cell H m z = Ok c /\ (forall X, map deparameterize X = H -> exists X' c', param_cell contains qd false X c = Ok (X', c')) /\ spread qd H c) ->
  exists H2 v edges all, script contains low_rank gmres set_iter qd B H0 is (PInt d) interior gradient = Ok (H2, v) /\
    map_res (deref H) (m_edges m) = Ok edges /\ mesh_spaces low_rank qd edges (PInt d) = Ok all /\
    v_num v = (m_nverts m + CellModel.zsum (map (fun b => Z.of_nat (List.length (sp_edge b))) all) + m_ncells m * (d * (d - 1) / 2))%Z.
Proof.
  intros G Or Cn Q Hn Hd Nw NE M Ed SF Cl. pose proof (mesh_new _ _ _ _ Nw M) as Nm. destruct (C44_tables _ _ _ _ M) as (_ & _ & Ie & _ & T & _).
  assert (Pl : forall i, In i is -> exists k e0, nth_error H0 i = Some e0 /\ nth_error H i = Some (with_idx e0 (Some (Z.of_nat k)))).
  { intros i Ii. apply Ie, In_nth_error in Ii. destruct Ii as (k & Ek). destruct (T k i Ek) as (e0 & A & _ & C). eauto. }
  destruct (derefs_all H (m_edges m)) as (edges & D1). { intros i Ii. apply Ie in Ii. destruct (Pl i Ii) as (k & e0 & _ & E). apply nth_error_Some. congruence. }
  destruct (gfs_ok low_rank qd n p H m edges d Q Hd Nm D1) as (all & gs & Ms & Gf & Pm & Pd & Pn).
  { intros e Iie. destruct (in_derefs _ _ _ D1 e Iie) as (i & Ii & Ei). apply Ie in Ii. destruct (Pl i Ii) as (k & e0 & _ & E). split; [rewrite E in Ei; injection Ei as <-; discriminate|]. destruct (Ed i e Ii Ei) as (P1 & P2). split; [exact P1|]. intros L. apply P2, L. }
  destruct (C64_total contains low_rank gmres set_iter qd B (PInt n) p H0 is (PInt d) H m H gs all interior gradient Or Cn Q Nw) as (H2 & v & E).
  - intros i e Ii E L. destruct (Pl i Ii) as (k & e0 & E0 & E1). rewrite E in E0. injection E0 as <-. destruct (Ed i _ Ii E1) as (_ & P2). destruct (P2 L) as (A & C & _). split; assumption.
  - exact M.
  - exact Gf.
  - intros X z Dx Iz. destruct (Cl z Iz) as (c & Gc & Pc & Sp). exact (build_ok contains low_rank gmres set_iter qd interior gradient n p H0 is H m edges d all gs X z c G Q Hn Nm M D1 Ms Pm Pd Hd Dx Gc (Pc X Dx) Sp).
  - exact NE.
  - rewrite Pd. destruct SF as [L|(i & e & Ii & Ei & L)]; [left; exact L|right]. destruct (Pl i Ii) as (k & e0 & E0 & E1). rewrite E1 in Ei. injection Ei as <-. exists i, e0. auto.
  - exists H2, v, edges, all. split; [exact E|]. split; [exact D1|]. split; [exact Ms|]. rewrite <- Pn. assert (S : Forall settled H0) by (revert Nw; apply Forall_impl, new_settled).
    destruct (C64_run contains low_rank gmres set_iter qd B (PInt n) p _ _ _ _ _ _ _ Q S E) as (H' & m' & d' & sizes & p' & all' & H1 & fam & M' & _ & Gf' & Ep & _ & _ & Mk). rewrite M in M'. apply Ok_inj in M'. injection M' as -> ->. rewrite Gf in Gf'. apply Ok_inj in Gf'. injection Gf' as -> -> ->. destruct (SolverProps.built _ _ _ _ _ _ _ _ _ _ _ _ _ _ _ M Ep Mk) as (_ & _ & _ & Vn & _). exact Vn.
Qed.
Print Assumptions C82_total.

(** Conversely, if the script ends then every cell of the mesh could be constructed and parameterized. *)
Theorem C82_cells contains low_rank gmres set_iter qd B n p H0 is deg interior gradient H m H2 v : get_quad_dict n p = Ok qd -> Forall new_edge H0 -> mk_mesh H0 is = Ok (H, m) -> script contains low_rank gmres set_iter qd B H0 is deg interior gradient = Ok (H2, v) ->
  forall z, In z (m_cells m) -> exists c X X' c', get_cell H m z = Ok c /\ map deparameterize X = H /\ param_cell contains qd (interior || gradient) X c = Ok (X', c').
Proof.
  intros Q Nw M E z Iz. assert (S : Forall settled H0) by (revert Nw; apply Forall_impl, new_settled). pose proof (mesh_new _ _ _ _ Nw M) as Nm. pose (Inv := fun X : heap => map deparameterize X = H).
  assert (Hb : map deparameterize H = H). { rewrite <- (map_id H) at 2. apply map_ext_in. intros e Ie. apply new_bare. rewrite Forall_forall in Nm. apply Nm, Ie. }
  assert (Keep : forall X p all z i g X' c L, Inv X -> build_local contains low_rank gmres set_iter qd X p all z i g = Ok (X', c, L) -> Inv X').
  { intros X p0 all z0 i g X' c L Ix Eb. destruct (build_inv _ _ _ _ _ _ _ _ _ _ _ _ _ _ Eb) as (c0 & es & sp & X1 & X2 & _). destruct (get_cell_built _ _ _ _ X1) as (ids & Mk & _). unfold Inv in *. rewrite <- Ix. eapply cell_bare; [exact Q|exact (ContourProofs4.built_wf _ _ _ _ _ _ _ Mk)|rewrite Ix; exact Nm|exact X2]. }
  destruct (run_inv contains low_rank gmres set_iter qd B Inv Keep H0 is deg interior gradient H2 v S E) as (H' & m' & d & sizes & p' & all & H1 & fam & M' & Ed & G & Ep & Pm & Pd & C & Mk).
  { intros Hx mx Mx Hy px ax Gx. rewrite M in Mx. apply Ok_inj in Mx. injection Mx as -> ->. unfold mk_gfs in Gx. destruct (set_deg deg) as [d|] eqn:Ed; [|discriminate]. cbn [bind] in Gx. destruct (build_edge_spaces low_rank qd H (m_edges m) (PInt d)) as [[H3 all3]|] eqn:Es; [|discriminate]. cbn [bind] in Gx. destruct (mk_space _ _ _) as [p3|]; [|discriminate]. cbn [bind] in Gx. apply Ok_inj in Gx. injection Gx as -> -> ->. destruct (spaces_new _ _ _ _ _ _ Q _ _ _ _ Nm Es) as (-> & _). exact Hb. }
  rewrite M in M'. apply Ok_inj in M'. injection M' as -> ->. apply In_nth_error in Iz. destruct Iz as (k & Ek). assert (Lk : (k < List.length (m_cells m))%nat) by (apply nth_error_Some; congruence). destruct (C k Lk) as (z' & Ez & Hk & Ik & _ & Eb & _). rewrite Ek in Ez. injection Ez as <-. destruct (build_inv _ _ _ _ _ _ _ _ _ _ _ _ _ _ Eb) as (c & es & sp & X1 & X2 & _). rewrite Pm in X1. rewrite <- get_cell_bare, Ik in X1. exists c, Hk, (cr_heap (fam k)), (cr_cell (fam k)). split; [exact X1|]. split; [exact Ik|exact X2].
Qed.
Print Assumptions C82_cells.
