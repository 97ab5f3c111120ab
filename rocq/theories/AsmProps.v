(** C64: the assembled system of a script is made of the inner products of its own local functions. *)
From Coq Require Import List ZArith Reals Lia Lra Bool String Permutation.
From Verif Require Import PyBase PolyModel PolySpec PolyProofs BaryModel QuadModel VertModel EdgeModel EdgeSpec ContourModel CellModel CellSpec CellProofs CellProps ContourProofs2 ContourProofs3 ContourProofs4 ContourProps CellProps3 MeshModel MeshSpec MeshProofs MeshProps TraceModel IntPolyModel LocalModel LocalSpec LocalProofs LocalProofs2 LocalProofs4 LocalProofs5 LocalProps LocalProps2 NystromModel EdgeSpaceModel GlobModel GlobSpec GlobProofs GlobProps SolverModel SolverSpec SolverProofs SolverProps LocSpaceModel LocSpaceSpec LocSpaceProofs2 LocSpaceProps4 AsmModel AsmSpec AsmProofs AsmProofs2 AsmProofs3.
Import List ListNotations.
Open Scope R_scope.

Section Run.
Variable contains : R -> list pt -> pt -> bool.
Variable low_rank : nat -> matrix -> matrix.
Variable gmres : (list R -> res (list R)) -> list R -> (list R -> res (list R)) -> res (list R).
Variable set_iter : list Z -> list Z.
Local Notation ready := (ContourProps.ready contains).

(** ** The form on one cell *)
(** Evaluating the form on two functions of a space does not fail. It combines the two inner
    products linearly; the right-hand side is the L2 product with the given polynomial. *)
Theorem C64_form H c ess given deg i g L B u v : ready H c -> boundary_edges H c ess -> mk_lspace low_rank gmres set_iter H c given deg i g = Ok L -> In u (get_basis L) -> In v (get_basis L) ->
  exists h l, h1_inner (snd u) (UPois (snd v)) H c = Ok h /\ l2_inner (snd u) (UPois (snd v)) H c = Ok l /\ eval_form B (snd u) (snd v) H c = Ok (bf_diffusion B * h + bf_reaction B * l) /\
  (canonical (bf_rhs B) -> eval_rhs B (snd u) H c = Ok (load_block (concat ess) (bf_rhs B) (snd u) + integrate_poly_over_mesh_cell (pmul RS (lp_form (u_poly (snd u))) (bf_rhs B)) (quadrature (concat ess)))).
Proof.
  intros Rd Be E Iu Iv. destruct (basis_locfun _ _ _ _ _ _ _ _ _ _ E) as (V & _ & F). pose proof (F u Iu) as Fu. pose proof (F v Iv) as Fv.
  destruct (C54_h1_blocks contains _ _ H c ess _ _ Rd Be Fu Fv) as (r & I & E1 & _). destruct (C54_l2_blocks contains _ _ H c ess _ _ Rd Be Fu Fv) as (r' & I' & E2 & _). eexists _, _. split; [exact E1|]. split; [exact E2|]. split.
  - unfold eval_form, eval_h1, eval_l2. rewrite E1, E2. reflexivity.
  - intros C. unfold eval_rhs. destruct (load_ok contains _ H c ess _ _ Rd Be Fu C) as (q & -> & Eq). exact Eq.
Qed.

(** ** The system *)
Variable qd : quad * quad.
Variable B : bform.
(** The cell at position [k] of the mesh, as the run leaves it: sampled, and with a space made from
    the edge spaces of its edges. *)
Definition built_cell (m : mesh) (d : Z) (all : list espace) (interior gradient : bool) (k : nat) (r : cellrun) : Prop :=
  exists z H c es spaces, nth_error (m_cells m) k = Some z /\ get_cell H m z = Ok c /\ param_cell contains qd (orb interior gradient) H c = Ok (cr_heap r, cr_cell r) /\
  kedges (cr_heap r) (cr_cell r) = Ok es /\ cell_spaces all es = Ok spaces /\ mk_lspace low_rank gmres set_iter (cr_heap r) (cr_cell r) (Some spaces) (PInt d) interior gradient = Ok (cr_space r).
Lemma build_inv H p all z i g H' c' L : build_local contains low_rank gmres set_iter qd H p all z i g = Ok (H', c', L) ->
  exists c es spaces, get_cell H (p_mesh p) z = Ok c /\ param_cell contains qd (orb i g) H c = Ok (H', c') /\ kedges H' c' = Ok es /\ cell_spaces all es = Ok spaces /\ mk_lspace low_rank gmres set_iter H' c' (Some spaces) (PInt (p_deg p)) i g = Ok L.
Proof.
  intros E. unfold build_local in E. inv_as E c0 X1. inv_as E Hc X2. destruct Hc as [H1 c1]. inv_as E es X3. inv_as E sp X4. inv_as E L0 X5. apply Ok_inj in E. injection E as -> -> ->. exists c0, es, sp. auto.
Qed.
Lemma get_cell_built H m z c : get_cell H m z = Ok c -> exists ids, mk_cell H z ids (33, 33)%Z (5 / 100) (5 / 100) = Ok c /\ forall i, In i ids -> In i (m_edges m).
Proof.
  unfold get_cell. destruct (zmemb z (m_cells m)); [|discriminate]. destruct (map_res _ (m_edges m)) as [l|] eqn:E; [|discriminate]. cbn [bind]. intros X. eexists. split; [exact X|]. intros i I. apply in_map_iff in I. destruct I as ([j e] & <- & I). apply filter_In in I. destruct I as [I _]. cbn [fst]. clear X. revert l E I. induction (m_edges m) as [|x xs IH]; intros l E I; [apply Ok_inj in E; subst; destruct I|]. cbn [map_res] in E. destruct (deref H x) as [ex|]; [|discriminate]. cbn [bind] in E. destruct (map_res _ xs) as [l'|] eqn:El; [|discriminate]. cbn [bind] in E. apply Ok_inj in E. subst l. destruct I as [I|I]; [injection I as -> ->; left; reflexivity|right; eapply IH; [reflexivity|exact I]].
Qed.
Lemma built_ready n q m d all i g k r : get_quad_dict n q = Ok qd -> built_cell m d all i g k r -> ready (cr_heap r) (cr_cell r).
Proof. intros Q (z & H & c & es & sp & _ & G & P & _). destruct (get_cell_built _ _ _ _ G) as (ids & M & _). unfold ContourProps.ready. do 12 eexists. split; [exact M|]. split; [exact Q|exact P]. Qed.

Lemma run_inv (Inv : heap -> Prop) (Keep : forall H p all z i g H' c L, Inv H -> build_local contains low_rank gmres set_iter qd H p all z i g = Ok (H', c, L) -> Inv H') H0 is deg interior gradient H2 v :
  Forall settled H0 -> script contains low_rank gmres set_iter qd B H0 is deg interior gradient = Ok (H2, v) -> (forall H m, mk_mesh H0 is = Ok (H, m) -> forall H1 p all, mk_gfs low_rank qd H m deg = Ok (H1, p, all) -> Inv H1) ->
  exists H m d sizes p all H1 fam, mk_mesh H0 is = Ok (H, m) /\ deg = PInt d /\ mk_gfs low_rank qd H m deg = Ok (H1, p, all) /\ mk_space m deg sizes = Ok p /\ p_mesh p = m /\ p_deg p = d /\
  (forall k, (k < List.length (m_cells m))%nat -> exists z, nth_error (m_cells m) k = Some z /\ is_run contains low_rank gmres set_iter qd Inv H p all interior gradient (fam k) z) /\
  SolverModel.mk_solver H (run_basis fam) (run_pair h1_inner fam) (run_pair l2_inner fam) (run_load (bf_rhs B) fam) (bf_diffusion B) (bf_reaction B) p interior = Ok v.
Proof.
  intros S E I0. unfold script in E. destruct (mk_mesh H0 is) as [[H m]|] eqn:M; [|discriminate]. cbn [bind] in E. destruct (mk_gfs low_rank qd H m deg) as [[[H1 p] all]|] eqn:G; [|discriminate]. cbn [bind] in E. pose proof (I0 H m eq_refl H1 p all G) as Iv.
  pose proof (mesh_settled _ _ _ _ S M) as Sm. unfold mk_gfs in G. destruct (set_deg deg) as [d|] eqn:Ed; [|discriminate]. cbn [bind] in G. destruct (build_edge_spaces low_rank qd H (m_edges m) (PInt d)) as [[H3 all3]|] eqn:Es; [|discriminate]. cbn [bind] in G. match type of G with bind (mk_space _ _ ?s) _ = _ => set (sizes := s) in G end. destruct (mk_space m (PInt d) sizes) as [p3|] eqn:Ep; [|discriminate]. cbn [bind] in G. apply Ok_inj in G. injection G as -> -> ->.
  pose proof (spaces_stays _ _ _ _ _ _ _ _ Sm Es) as Hs. destruct (mk_space_fields _ _ _ _ Ep) as (d' & Ed' & _ & Pm & Pd & _). injection Ed' as <-. assert (deg = PInt d) by (unfold set_deg in Ed; destruct deg as [d'|]; [|discriminate]; cbn in Ed; destruct (Z.ltb d' 1); [discriminate|apply Ok_inj in Ed; congruence]). subst deg.
  destruct (C44_tables _ _ _ _ M) as (_ & _ & _ & _ & _ & _ & Ic & _ & _ & _ & Nc & _). unfold run_solver in E. cbv zeta in E. rewrite Pm, Nc, Nat2Z.id in E.
  destruct (fold_res _ (seq 0 (List.length (m_cells m))) _) as [[H4 w]|] eqn:Ef; [|discriminate]. cbn [bind] in E. rewrite <- Pm in Ic.
  destruct (run_fold contains low_rank gmres set_iter qd B Inv Keep H H3 p3 all3 interior gradient (Work p3 [] [] (repeat None (List.length (m_cells m)))) Ic Hs Iv eq_refl eq_refl _ _ _ Ef) as (fam & F & C & _ & _ & Pw & _).
  exists H, m, d, sizes, p3, all3, H3, fam. split; [reflexivity|]. split; [reflexivity|]. split. { unfold mk_gfs. rewrite Ed. cbn [bind]. rewrite Es. cbn [bind]. fold sizes. rewrite Ep. reflexivity. } split; [exact Ep|]. split; [exact Pm|]. split; [exact Pd|]. split; [rewrite Pm in C; exact C|].
  unfold SolverModel.mk_solver. cbv zeta. rewrite Pm, Nc, Nat2Z.id. unfold steps in F. rewrite F. cbn [bind]. destruct (impose_bc (w_space w) (w_entries w, w_rhs w)) as [sys|]; [|discriminate]. cbn [bind] in *. destruct (check_indices _ (map fst (snd sys))); [|discriminate]. cbn [bind] in *. destruct (check_indices _ (map t_row (fst sys))); [|discriminate]. cbn [bind] in *. destruct (check_indices _ (map t_col (fst sys))); [|discriminate]. cbn [bind] in *. apply Ok_inj in E. injection E as _ ->. reflexivity.
Qed.

(** A script that ends has sampled every cell of the mesh, and its solver is the one of C48 to C50
    for the values of the inner products of the local functions: nothing is taken as given any
    more. *)
Theorem C64_run n q H0 is deg interior gradient H2 v : get_quad_dict n q = Ok qd -> Forall settled H0 -> script contains low_rank gmres set_iter qd B H0 is deg interior gradient = Ok (H2, v) ->
  exists H m d sizes p all H1 fam, mk_mesh H0 is = Ok (H, m) /\ deg = PInt d /\ mk_gfs low_rank qd H m deg = Ok (H1, p, all) /\ mk_space m deg sizes = Ok p /\
  (forall k, (k < List.length (m_cells m))%nat -> ready (cr_heap (fam k)) (cr_cell (fam k)) /\ built_cell m d all interior gradient k (fam k)) /\
  (forall k a b u w, (k < List.length (m_cells m))%nat -> nth_error (get_basis (cr_space (fam k))) a = Some u -> nth_error (get_basis (cr_space (fam k))) b = Some w ->
    h1_inner (snd u) (UPois (snd w)) (cr_heap (fam k)) (cr_cell (fam k)) = Ok (run_pair h1_inner fam k a b) /\ l2_inner (snd u) (UPois (snd w)) (cr_heap (fam k)) (cr_cell (fam k)) = Ok (run_pair l2_inner fam k a b) /\
    (canonical (bf_rhs B) -> forall es, kedges (cr_heap (fam k)) (cr_cell (fam k)) = Ok es -> run_load (bf_rhs B) fam k a = load_block es (bf_rhs B) (snd u) + integrate_poly_over_mesh_cell (pmul RS (lp_form (u_poly (snd u))) (bf_rhs B)) (quadrature es))) /\
  SolverModel.mk_solver H (run_basis fam) (run_pair h1_inner fam) (run_pair l2_inner fam) (run_load (bf_rhs B) fam) (bf_diffusion B) (bf_reaction B) p interior = Ok v.
Proof.
  intros Q S E. destruct (run_inv (fun _ => True) (fun _ _ _ _ _ _ _ _ _ _ _ => Logic.I) H0 is deg interior gradient H2 v S E (fun _ _ _ _ _ _ _ => Logic.I)) as (H & m & d & sizes & p & all & H1 & fam & M & Ed & G & Ep & Pm & Pd & C & Mk). exists H, m, d, sizes, p, all, H1, fam. repeat (split; [assumption|]).
  assert (Bu : forall k, (k < List.length (m_cells m))%nat -> built_cell m d all interior gradient k (fam k)).
  { intros k Lk. destruct (C k Lk) as (z & Ez & Hk & _ & _ & Eb & _). destruct (build_inv _ _ _ _ _ _ _ _ _ Eb) as (c & es & sp & X1 & X2 & X3 & X4 & X5). rewrite Pm in X1. rewrite Pd in X5. exists z, Hk, c, es, sp. auto 8. }
  split; [intros k Lk; split; [exact (built_ready _ _ _ _ _ _ _ _ _ Q (Bu k Lk))|exact (Bu k Lk)]|]. split; [|exact Mk].
  intros k a b u w Lk Eu Ew. pose proof (built_ready _ _ _ _ _ _ _ _ _ Q (Bu k Lk)) as Rd. destruct (Bu k Lk) as (z & Hk & c & es & sp & _ & _ & _ & Ke & _ & EL). destruct (ready_fresh _ _ _ Rd) as (ess & Fr & _). assert (Be : boundary_edges (cr_heap (fam k)) (cr_cell (fam k)) ess).
  { destruct Fr as [Fr _]. revert Fr. apply F2_imp. intros k0 es0 X. apply X. }
  pose proof (kedges_ok Fr) as Ke'. assert (es = concat ess) by congruence. subst es. clear Ke'.
  destruct (C64_form _ _ _ _ _ _ _ _ B u w Rd Be EL (nth_error_In _ _ Eu) (nth_error_In _ _ Ew)) as (h & l & E1 & E2 & _ & E3). unfold run_pair, run_load. rewrite Eu, Ew, E1, E2. split; [reflexivity|]. split; [reflexivity|]. intros Cr es Ke'. assert (es = concat ess) by congruence. subst es. specialize (E3 Cr). unfold eval_rhs in E3. rewrite E3. reflexivity.
Qed.

(** So the matrices are sums of the inner products over the cells, and the free rows of the system
    are those of the form and of the right-hand side. *)
Theorem C64_system n q H0 is deg interior gradient H2 v : get_quad_dict n q = Ok qd -> Forall settled H0 -> script contains low_rank gmres set_iter qd B H0 is deg interior gradient = Ok (H2, v) ->
  exists H m d p all fam, mk_mesh H0 is = Ok (H, m) /\ (forall k, (k < List.length (m_cells m))%nat -> built_cell m d all interior gradient k (fam k)) /\
  let N := List.length (m_cells m) in let g := indices (run_basis fam) p in
  (forall i j, stiff_mat v i j = assembled N g (upper (run_pair h1_inner fam)) i j) /\ (forall i j, mass_mat v i j = assembled N g (upper (run_pair l2_inner fam)) i j) /\
  (forall i j, ~ boundary_index H p (run_basis fam) i -> glob_mat v i j = bf_diffusion B * stiff_mat v i j + bf_reaction B * mass_mat v i j) /\
  (forall i, ~ boundary_index H p (run_basis fam) i -> glob_rhs v i = assembled_load N g (run_load (bf_rhs B) fam) i).
Proof.
  intros Q S E. destruct (C64_run n q H0 is deg interior gradient H2 v Q S E) as (H & m & d & sizes & p & all & H1 & fam & M & Ed & _ & Ep & C & _ & Mk). exists H, m, d, p, all, fam. split; [exact M|]. split; [intros k Lk; apply C, Lk|].
  destruct (C48_matrices H0 H is m deg sizes p _ _ _ _ _ _ interior v M Ep Mk) as (_ & A1 & A2 & _). pose proof (C48_rows H0 H is m deg sizes p _ _ _ _ _ _ interior v M Ep Mk) as A3. cbv zeta in *. split; [exact A1|]. split; [exact A2|]. split; [intros i j Ni; apply (A3 i Ni)|intros i Ni; apply (A3 i Ni)].
Qed.

(** ** Edges as their constructor makes them *)
Lemma local_facts n q H0 is H m edges d all p X z ci cg X' c' L : get_quad_dict n q = Ok qd -> Forall new_edge H -> mk_mesh H0 is = Ok (H, m) -> map_res (deref H) (m_edges m) = Ok edges -> mesh_spaces low_rank qd edges (PInt d) = Ok all -> p_mesh p = m -> p_deg p = d ->
  map deparameterize X = H -> build_local contains low_rank gmres set_iter qd X p all z ci cg = Ok (X', c', L) -> map deparameterize X' = H /\
    exists es spaces, kedges X' c' = Ok es /\ cell_spaces all es = Ok spaces /\ mk_lspace low_rank gmres set_iter X' c' (Some spaces) (PInt d) ci cg = Ok L /\
    (forall e', In e' es -> exists i o e, e_idx e' = Some (Z.of_nat i) /\ nth_error edges i = Some e /\ resampled qd o e e') /\ Forall2 labelled es spaces /\
    (forall j, In j (m_edges m) -> (exists e, nth_error X j = Some e /\ borders z e) -> In j (cell_edges c')).
Proof.
  intros Q Nm M D1 D2 Pm Pd Ik Eb. destruct (build_inv _ _ _ _ _ _ _ _ _ Eb) as (c & es & sp & X1 & X2 & X3 & X4 & X5). rewrite Pm in X1. rewrite Pd in X5.
  destruct (get_cell_built _ _ _ _ X1) as (ids & Mc & Im). assert (Nk : Forall new_edge (map deparameterize X)) by (rewrite Ik; exact Nm). destruct (cell_bare contains n q qd _ X c _ _ Q (built_wf _ _ _ _ _ _ _ Mc) Nk X2) as [Kb Cb]. split; [rewrite Kb; exact Ik|]. exists es, sp. split; [exact X3|]. split; [exact X4|]. split; [exact X5|].
  assert (Rs : forall e', In e' es -> exists i o e, e_idx e' = Some (Z.of_nat i) /\ nth_error edges i = Some e /\ resampled qd o e e').
  { intros e' Ie. apply map_res_F2 in X3. assert (exists j, In j (cell_edges c') /\ nth_error X' j = Some e') as (j & Ij & Ej).
    { clear -X3 Ie. induction X3 as [|j y l l' Ey X3 IH]; [destruct Ie|]. destruct Ie as [->|Ie]; [exists j; split; [left; reflexivity|]; unfold deref in Ey; destruct (nth_error _ j); [apply Ok_inj in Ey; congruence|discriminate]|destruct (IH Ie) as (j' & J & K); exists j'; split; [right|]; assumption]. }
    destruct (Cb j Ij) as (Ic & o & e & e'' & E0 & E1 & R1). rewrite Ej in E1. injection E1 as <-. rewrite Ik in E0.
    assert (Jm : In j (m_edges m)). { apply Im. destruct (C36_contours _ _ _ _ _ _ _ Mc) as (_ & P & _). eapply Permutation_in; [exact P|exact Ic]. }
    apply In_nth_error in Jm. destruct Jm as (i & Ei). destruct (C44_tables _ _ _ _ M) as (_ & _ & _ & _ & T & _). destruct (T i j Ei) as (e0 & _ & _ & Ex). rewrite E0 in Ex. injection Ex as ->. destruct (map_res_nth _ _ _ D1 i j Ei) as (y & Ey & Ny). unfold deref in Ey. rewrite E0 in Ey. apply Ok_inj in Ey. subst y. exists i, o, (with_idx e0 (Some (Z.of_nat i))). split; [|split; [exact Ny|exact R1]].
    destruct R1 as (e1 & P1 & ->). destruct (same_after o e1) as (Si & _). rewrite Si. assert (Nx : new_edge (with_idx e0 (Some (Z.of_nat i)))) by (rewrite Forall_forall in Nm; apply Nm, (nth_error_In _ _ E0)). pose proof (f_equal e_idx (new_param _ _ _ _ _ Q Nx P1)) as Fi. exact Fi. }
  split; [exact Rs|]. assert (Ne : forall e, In e edges -> new_edge e). { intros e Ie. apply map_res_F2 in D1. rewrite Forall_forall in Nm. apply Nm. clear -D1 Ie. induction D1 as [|j y l l' Ey X3 IH]; [destruct Ie|]. destruct Ie as [->|Ie]; [|exact (IH Ie)]. unfold deref in Ey. destruct (nth_error H j) eqn:En; [|discriminate]. apply Ok_inj in Ey. subst e. exact (nth_error_In _ _ En). }
  split; [exact (proj1 (C59_mesh low_rank n q qd edges (PInt d) all es sp Q Ne D2 X4 Rs))|].
  intros j Ij Bj. assert (Lx : Forall (fun i => (i < List.length X)%nat) (m_edges m)).
  { apply Forall_forall. intros i Ii. apply In_nth_error in Ii. destruct Ii as (k & Ek). destruct (C44_tables _ _ _ _ M) as (_ & _ & _ & _ & T & _). destruct (T k i Ek) as (e0 & _ & _ & Ex). rewrite <- (map_length deparameterize), Ik. apply nth_error_Some. congruence. }
  destruct (C45_get_cell X m z Lx) as [Cn Cy]. destruct (in_dec Z.eq_dec z (m_cells m)) as [Iz|Nz]; [|rewrite (Cn Nz) in X1; discriminate]. destruct (Cy Iz) as (ids' & _ & Bi & _ & Pc). specialize (Pc c X1). assert (Jc : In j (cell_edges c)) by (eapply Permutation_in; [apply Permutation_sym, Pc|apply Bi; auto]).
  destruct (param_cell_ok contains (fun _ _ => True) (fun _ _ _ _ _ _ => Logic.I) qd n q _ X c X' c' Q (built_wf _ _ _ _ _ _ _ Mc) X2) as (ess & ess' & Pr). pose proof (Permutation_map fst (p_edges _ _ _ _ _ _ _ _ _ Pr)) as Pe. rewrite !map_map in Pe. cbn [fst] in Pe. unfold cell_edges in *. apply in_concat in Jc. destruct Jc as (l & Il & Ijl). apply in_concat. exists l. split; [|exact Ijl]. eapply Permutation_in; [apply Permutation_sym, Pe|exact Il].
Qed.
(** The edge spaces and the cells leave everything of such an edge but the samples. So each cell
    samples the edges of the mesh as if it were the first, and its edge spaces are labelled for its
    edges: what C59 says about a space with given edge spaces holds for every cell of the run. *)
Theorem C64_cells n q H0 is deg interior gradient H2 v : get_quad_dict n q = Ok qd -> Forall new_edge H0 -> script contains low_rank gmres set_iter qd B H0 is deg interior gradient = Ok (H2, v) ->
  exists H m d p all edges fam, mk_mesh H0 is = Ok (H, m) /\ mk_gfs low_rank qd H m deg = Ok (H, p, all) /\ map_res (deref H) (m_edges m) = Ok edges /\ mesh_spaces low_rank qd edges (PInt d) = Ok all /\
  SolverModel.mk_solver H (run_basis fam) (run_pair h1_inner fam) (run_pair l2_inner fam) (run_load (bf_rhs B) fam) (bf_diffusion B) (bf_reaction B) p interior = Ok v /\
  forall k, (k < List.length (m_cells m))%nat -> map deparameterize (cr_heap (fam k)) = H /\
    exists es spaces, kedges (cr_heap (fam k)) (cr_cell (fam k)) = Ok es /\ cell_spaces all es = Ok spaces /\ mk_lspace low_rank gmres set_iter (cr_heap (fam k)) (cr_cell (fam k)) (Some spaces) (PInt d) interior gradient = Ok (cr_space (fam k)) /\
    (forall e', In e' es -> exists i o e, e_idx e' = Some (Z.of_nat i) /\ nth_error edges i = Some e /\ resampled qd o e e') /\ Forall2 labelled es spaces.
Proof.
  intros Q Nw E. assert (S : Forall settled H0) by (revert Nw; apply Forall_impl, new_settled).
  destruct (mk_mesh H0 is) as [[H m]|] eqn:M; [|unfold script in E; rewrite M in E; discriminate]. pose proof (mesh_new _ _ _ _ Nw M) as Nm. pose (Inv := fun X : heap => map deparameterize X = H).
  assert (Hb : map deparameterize H = H). { rewrite <- (map_id H) at 2. apply map_ext_in. intros e Ie. apply new_bare. rewrite Forall_forall in Nm. apply Nm, Ie. }
  assert (Keep : forall X p all z i g X' c L, Inv X -> build_local contains low_rank gmres set_iter qd X p all z i g = Ok (X', c, L) -> Inv X').
  { intros X p all z i g X' c L Ix Eb. destruct (build_inv _ _ _ _ _ _ _ _ _ Eb) as (c0 & es & sp & X1 & X2 & _). destruct (get_cell_built _ _ _ _ X1) as (ids & Mk & _). unfold Inv in *. rewrite <- Ix. eapply cell_bare; [exact Q|exact (built_wf _ _ _ _ _ _ _ Mk)|rewrite Ix; exact Nm|exact X2]. }
  assert (Sp : forall H1 p all, mk_gfs low_rank qd H m deg = Ok (H1, p, all) -> H1 = H /\ exists d edges, deg = PInt d /\ map_res (deref H) (m_edges m) = Ok edges /\ mesh_spaces low_rank qd edges (PInt d) = Ok all).
  { intros H1 p all G. unfold mk_gfs in G. destruct (set_deg deg) as [d|] eqn:Ed; [|discriminate]. cbn [bind] in G. destruct (build_edge_spaces low_rank qd H (m_edges m) (PInt d)) as [[H3 all3]|] eqn:Es; [|discriminate]. cbn [bind] in G. destruct (mk_space _ _ _) as [p3|]; [|discriminate]. cbn [bind] in G. apply Ok_inj in G. injection G as -> -> ->. destruct (spaces_new _ _ _ _ _ _ Q _ _ _ _ Nm Es) as (-> & edges & all' & D1 & D2 & ->). cbn [app] in *. split; [reflexivity|]. exists d, edges. split; [|auto]. unfold set_deg in Ed. destruct deg as [d'|]; [|discriminate]. cbn in Ed. destruct (Z.ltb d' 1); [discriminate|apply Ok_inj in Ed; congruence]. }
  destruct (run_inv Inv Keep H0 is deg interior gradient H2 v S E) as (H' & m' & d & sizes & p & all & H1 & fam & M' & Ed & G & Ep & Pm & Pd & C & Mk).
  { intros Hx mx Mx Hy px ax Gx. rewrite M in Mx. apply Ok_inj in Mx. injection Mx as -> ->. destruct (Sp _ _ _ Gx) as (-> & _). exact Hb. }
  rewrite M in M'. apply Ok_inj in M'. injection M' as -> ->. destruct (Sp _ _ _ G) as (-> & d' & edges & Ed' & D1 & D2). assert (d' = d) by congruence. subst d'. exists H, m, d, p, all, edges, fam. split; [reflexivity|]. split; [exact G|]. split; [exact D1|]. split; [exact D2|]. split; [exact Mk|].
  intros k Lk. destruct (C k Lk) as (z & Ez & Hk & Ik & _ & Eb & _ & Ik'). destruct (local_facts n q H0 is H m edges d all p Hk z _ _ _ _ _ Q Nm M D1 D2 Pm Pd Ik Eb) as (_ & es & sp & X3 & X4 & X5 & Rs & Lb & _). split; [exact Ik'|]. exists es, sp. auto.
Qed.
End Run.
Print Assumptions C64_form.
Print Assumptions C64_run.
Print Assumptions C64_system.
Print Assumptions C64_cells.
