(** Lemmas for C82: a script ends on every mesh whose cells can be sampled in distinct points. *)
From Coq Require Import List ZArith Reals Lia Lra Bool String Permutation.
From Verif Require Import PyBase PolyModel PolySpec PolyProofs BaryModel BBoxModel QuadModel QuadProofs QuadProps VertModel EdgeModel EdgeSpec EdgeProofs2 EdgeProps EdgeProps4 ContourModel CellModel CellSpec CellProofs CellProps ContourProofs ContourProofs2 ContourProofs3 InteriorProofs ContourProofs4 ContourProps CellProps2 CellProps3 CellProps5 MeshModel MeshSpec MeshProofs MeshProps TraceModel LocalModel LocalSpec LocalProofs LocalProofs2 LocalProps NystromModel NystromSpec EdgeSpaceModel GlobModel GlobSpec GlobProofs GlobProps SolverModel SolverSpec SolverProofs SolverProps SolverProps2 LocSpaceModel LocSpaceSpec LocSpaceProofs2 LocSpaceProps LocSpaceProps3 LocSpaceProps4 AsmModel AsmSpec AsmProofs AsmProofs2 AsmProofs3 AsmProps AsmProps2 AsmProps3.
From Verif Require ConvProofs5.
Import List ListNotations.
Open Scope R_scope.

(** ** Cells on sampled edges *)
Lemma pairs_bare X ids : map_res (fun i => do e <- deref (map deparameterize X) i; Ok (i, e)) ids = (do l <- map_res (fun i => do e <- deref X i; Ok (i, e)) ids; Ok (map (fun ie : nat * edge => (fst ie, deparameterize (snd ie))) l)).
Proof.
  induction ids as [|i ids IH]; [reflexivity|]. cbn [map_res]. rewrite IH. unfold deref at 1 3. rewrite nth_error_map. destruct (nth_error X i); [|reflexivity]. cbn [option_map bind]. destruct (map_res (fun i => do e <- deref X i; Ok (i, e)) ids); reflexivity.
Qed.
Lemma get_cell_bare X m z : get_cell (map deparameterize X) m z = get_cell X m z.
Proof.
  unfold get_cell. destruct (zmemb z (m_cells m)); [|reflexivity]. rewrite pairs_bare. destruct (map_res _ (m_edges m)) as [l|]; [|reflexivity]. cbn [bind]. rewrite mk_cell_bare. f_equal. induction l as [|[i e] l IH]; [reflexivity|]. cbn [map filter fst snd]. change (e_pos (deparameterize e)) with (e_pos e). change (e_neg (deparameterize e)) with (e_neg e). destruct (_ || _); cbn [map fst]; rewrite IH; reflexivity.
Qed.

(** ** Interior points *)
Lemma clearance_pos l box a b : bounding_box TOL (map fst l) (map snd l) = Ok box -> In a l -> In b l -> a <> b -> 0 < clearance box.
Proof.
  intros E Ia Ib D. destruct l as [|q l]; [destruct Ia|]. cbn [map bounding_box] in E.
  assert (G : forall (g : pt -> R) x, In x (q :: l) -> lmin (g q) (map g l) <= g x <= lmax (g q) (map g l)).
  { intros g x Ix. destruct (lmin_le (map g l) (g q)) as [A B]. destruct (lmax_ge (map g l) (g q)) as [A' B']. rewrite Forall_forall in B, B'. destruct Ix as [<-|Ix]; [auto|]. split; [apply B|apply B']; apply in_map, Ix. }
  pose proof (G fst a Ia). pose proof (G fst b Ib). pose proof (G snd a Ia). pose proof (G snd b Ib). set (x0 := lmin (fst q) _) in *. set (x1 := lmax (fst q) _) in *. set (y0 := lmin (snd q) _) in *. set (y1 := lmax (snd q) _) in *.
  assert (P : 0 < Rmax (x1 - x0) (y1 - y0)).
  { destruct (Req_dec (fst a) (fst b)) as [Ex|Nx]; [|apply Rlt_le_trans with (x1 - x0); [|apply Rmax_l]; destruct (Rdichotomy _ _ Nx); lra]. destruct (Req_dec (snd a) (snd b)) as [Ey|Ny]; [destruct D; destruct a, b; cbn [fst snd] in *; congruence|]. apply Rlt_le_trans with (y1 - y0); [|apply Rmax_r]. destruct (Rdichotomy _ _ Ny); lra. }
  assert (T0 : 0 < TOL) by (unfold TOL; lra). cbv zeta in E.
  assert (K : forall u v w s, 0 < v - u -> 0 < s - w -> 0 < clearance (u, v, w, s)) by (intros; unfold clearance; apply Rmult_lt_0_compat; [lra|apply Rmin_glb_lt; assumption]).
  repeat match type of E with context [Rlt_dec ?u ?v] => destruct (Rlt_dec u v) end; apply Ok_inj in E; subst box; apply K; try lra.
Qed.
Lemma nodup_concat {A} (ls : list (list A)) l : NoDup (concat ls) -> In l ls -> NoDup l.
Proof.
  induction ls as [|x ls IH]; intros N I; [destruct I|]. cbn [concat] in N. destruct I as [->|I]; [|apply IH; [|exact I]; exact (ConvProofs5.NoDup_tail _ _ N)].
  clear -N. induction l as [|a l IH]; [constructor|]. inversion N as [|? ? X Y]; subst. constructor; [intros I; apply X, in_or_app; left; exact I|apply IH, Y].
Qed.
Lemma spots_concat es : map sx (contour_smp es) = concat (map ConvProofs5.spots es).
Proof. unfold contour_smp, ConvProofs5.spots. rewrite concat_map, map_map. reflexivity. Qed.
Lemma centers_exist contains H c ess : ContourProps.ready contains H c -> boundary_edges H c ess -> NoDup (map sx (contour_smp (concat ess))) -> exists xs, centers c xs.
Proof.
  intros Rd B N. destruct (ready_fresh _ _ _ Rd) as (ess' & Fr & IO & _ & NE). assert (ess = ess') by (eapply edges_unique; eassumption). subst ess'. destruct Fr as (Fr & _).
  assert (Ks : Forall (fun k => exists v, k_int k = Some v) (c_comps c)).
  { assert (Nk : Forall (fun es => NoDup (map sx (contour_smp es))) ess). { apply Forall_forall. intros es Ie. rewrite spots_concat in N |- *. revert N. clear -Ie. intros N. assert (X : concat (map ConvProofs5.spots (concat ess)) = concat (map (fun es => concat (map ConvProofs5.spots es)) ess)) by (clear; induction ess as [|a l IH]; [reflexivity|]; cbn [concat map]; rewrite map_app, concat_app, IH; reflexivity). rewrite X in N. apply (nodup_concat _ _ N), (in_map (fun es => concat (map ConvProofs5.spots es))), Ie. }
    clear Rd B N. induction Fr as [|k es ks ess Fk Fr IH]; [constructor|]. inversion IO as [|? ? ? ? [_ I0] IO']; subst. inversion NE as [|? ? NE0 NE']; subst. inversion Nk as [|? ? Nk0 Nk']; subst. constructor; [|apply IH; assumption].
    destruct (find_interior_form contains H k es Fk NE0) as (box & Bx & _). assert (Two : exists a b l, map sx (contour_smp es) = a :: b :: l).
    { destruct es as [|e es]; [congruence|]. destruct Fk as (_ & W & _). inversion W as [|? ? We _]; subst. destruct (open_pos _ We) as (A & L). unfold contour_smp. cbn [map concat]. destruct (open_smp e) as [|s [|s' l]]; cbn in L; try lia. cbn [app map]. eauto. }
    destruct Two as (a & b & l & El). assert (D : a <> b) by (intros ->; rewrite El in Nk0; inversion Nk0 as [|? ? X _]; subst; apply X; left; reflexivity).
    destruct (I0 box Bx) as (p & Ep & _); [|eauto]. apply (clearance_pos (map sx (contour_smp es)) box a b); [rewrite !map_map; exact Bx|rewrite El; left; reflexivity|rewrite El; right; left; reflexivity|exact D]. }
  unfold centers. assert (Kt : Forall (fun k => exists v, k_int k = Some v) (tl (c_comps c))) by (destruct Ks; [constructor|assumption]). clear -Kt. induction Kt as [|k l (v & Ev) Kt (xs & IH)]; [exists []; constructor|]. exists (coord v :: xs). constructor; [eauto|exact IH].
Qed.

(** ** Building a cell *)
(** The open samples of the edges of [c], sampled and turned as in the contours of [c], are all different. *)
Definition spread (qd : quad * quad) (H : heap) (c : cell) : Prop :=
  forall F : nat -> edge, (forall k j i o e, In k (c_comps c) -> nth_error (k_edges k) j = Some i -> nth_error (k_orients k) j = Some o -> nth_error H i = Some e -> resampled qd o e (F i)) ->
  NoDup (concat (map (fun i => ConvProofs5.spots (F i)) (cell_edges c))).
Lemma dict_points n p qd o e e' : get_quad_dict (PInt n) p = Ok qd -> resampled qd o e e' -> e_npts e' = (2 * n + 1)%Z.
Proof.
  intros Q (e1 & P & ->). destruct qd as [a b]. pose proof Q as Q'. unfold get_quad_dict in Q'. destruct (mk_quad "trap" (PInt n) 7) as [qa|] eqn:Ea; [|discriminate]. destruct (mk_quad "kress" (PInt n) p) as [qb|] eqn:Eb; [|discriminate]. cbn [bind] in Q'. apply Ok_inj in Q'. injection Q' as -> ->. rewrite quad_trap in Ea. rewrite quad_kress in Eb. destruct (Z.ltb_spec n 4); [discriminate|]. destruct (Z.ltb_spec p 2); [discriminate|]. cbv zeta in Ea, Eb. apply Ok_inj in Ea, Eb.
  destruct (parameterize_frame _ _ _ _ _ Q P) as (q & Hq & E). assert (Y : Z.of_nat (q_n q) = n) by (unfold EdgeProofs2.pick in Hq; destruct (String.eqb _ _); [apply Ok_inj in Hq; subst; cbn; lia|]; destruct (String.eqb _ _); [|discriminate]; apply Ok_inj in Hq; subst; cbn; lia).
  assert (X : e_npts e1 = (2 * n + 1)%Z) by (rewrite E; rewrite <- Y; clear; unfold after_diary; destruct (last_join _) as [[u v]|]; reflexivity).
  destruct (Z.eqb o (-1)); [|exact X]. unfold reverse_orientation. destruct (e_param e1); exact X.
Qed.
Lemma map_res_each {A B} (f : A -> res B) l : (forall a, In a l -> exists b, f a = Ok b) -> exists l', map_res f l = Ok l'.
Proof. induction l as [|a l IH]; intros Hf; [eexists; reflexivity|]. cbn [map_res]. destruct (Hf a (or_introl eq_refl)) as (b & ->). cbn [bind]. destruct IH as (l' & ->); [intros x Ix; apply Hf; right; exact Ix|]. eexists; reflexivity. Qed.
Lemma perm_concat {A} (a b : list (list A)) : Permutation a b -> Permutation (concat a) (concat b).
Proof. induction 1; cbn [concat]; [reflexivity|apply Permutation_app_head; assumption|rewrite !app_assoc; apply Permutation_app_tail, Permutation_app_comm|etransitivity; eassumption]. Qed.

Section Run.
Variable contains : R -> list pt -> pt -> bool.
Variable low_rank : nat -> matrix -> matrix.
Variable gmres : (list R -> res (list R)) -> list R -> (list R -> res (list R)) -> res (list R).
Variable set_iter : list Z -> list Z.
Variable qd : quad * quad.

Lemma build_ok iv gv n p H0 is H m edges d all gs X z c : solves_sizes gmres -> get_quad_dict (PInt n) p = Ok qd -> (n <= 10000000)%Z -> Forall new_edge H -> mk_mesh H0 is = Ok (H, m) -> map_res (deref H) (m_edges m) = Ok edges -> mesh_spaces low_rank qd edges (PInt d) = Ok all -> p_mesh gs = m -> p_deg gs = d -> (1 <= d)%Z ->
  map deparameterize X = H -> get_cell H m z = Ok c -> (exists X' c', param_cell contains qd false X c = Ok (X', c')) -> spread qd H c -> exists X' c' L, build_local contains low_rank gmres set_iter qd X gs all z iv gv = Ok (X', c', L).
Proof.
  intros G Q Hn Nm M D1 D2 Pm Pd Hd Dx Gc (X' & c'0 & Pc0) Sp. assert (GX : get_cell X m z = Ok c) by (rewrite <- get_cell_bare, Dx; exact Gc). destruct (get_cell_built _ _ _ _ GX) as (ids & Mc & Im). pose proof (built_wf _ _ _ _ _ _ _ Mc) as W.
  assert (PW : exists c', param_cell contains qd (iv || gv) X c = Ok (X', c') /\ (iv || gv = true -> exists ys, c_int c' = Some ys)).
  { destruct (iv || gv) eqn:IG; [|exists c'0; split; [exact Pc0|discriminate]]. destruct (C41_square_total contains X z ids 33 _ _ c (PInt n) p qd X X' c'0 Mc Q Pc0) as (pts & P1). eexists. split; [exact P1|]. intros _. exists pts. reflexivity. }
  destruct PW as (c' & Pc & Iy). clear Pc0.
  unfold build_local. rewrite Pm, Pd, GX. cbn [bind]. rewrite Pc. cbn [bind].
  assert (Rd : ContourProps.ready contains X' c') by (exists X, z, ids, (33, 33)%Z, (5 / 100), (5 / 100), c, (PInt n), p, qd, (iv || gv), X; auto).
  destruct (param_cell_ok contains (fun _ _ => True) (fun _ _ _ _ _ _ => I) qd (PInt n) p (iv || gv) X c X' c' Q W Pc) as (ess0 & ess & Pr). pose proof (p_fresh _ _ _ _ _ _ _ _ _ Pr) as Fr.
  assert (B : boundary_edges X' c' ess). { destruct Fr as (F & _). unfold boundary_edges. clear -F. induction F as [|k es ks ess (R & _) F IH]; constructor; assumption. }
  rewrite (kedges_ok Fr). cbn [bind]. assert (Nk : Forall new_edge (map deparameterize X)) by (rewrite Dx; exact Nm). destruct (cell_bare contains (PInt n) p qd (iv || gv) X c X' c' Q W Nk Pc) as [Kb Cb].
  assert (Rf : refs X' (cell_edges c') (concat ess)). { unfold cell_edges. clear -B. unfold boundary_edges in B. unfold refs. induction B as [|k l ks ls R B IH]; [constructor|]. cbn [map concat]. apply Forall2_app; assumption. }
  assert (Rs : forall e', In e' (concat ess) -> exists i o e, e_idx e' = Some (Z.of_nat i) /\ nth_error edges i = Some e /\ resampled qd o e e').
  { intros e' Ie. assert (exists j, In j (cell_edges c') /\ nth_error X' j = Some e') as (j & Ij & Ej). { clear -Rf Ie. unfold refs in Rf. induction Rf as [|j y l l' Ey X3 IH]; [destruct Ie|]. destruct Ie as [->|Ie]; [exists j; split; [left; reflexivity|exact Ey]|]. destruct (IH Ie) as (j' & J & K); exists j'; split; [right|]; assumption. }
    destruct (Cb j Ij) as (Ic & o & e & e'' & E0 & E1 & R1). rewrite Ej in E1. injection E1 as <-. rewrite Dx in E0.
    assert (Jm : In j (m_edges m)). { apply Im. destruct (C36_contours _ _ _ _ _ _ _ Mc) as (_ & P & _). eapply Permutation_in; [exact P|exact Ic]. }
    apply In_nth_error in Jm. destruct Jm as (i & Ei). destruct (C44_tables _ _ _ _ M) as (_ & _ & _ & _ & T & _). destruct (T i j Ei) as (e0 & _ & _ & Ex). rewrite E0 in Ex. injection Ex as ->. destruct (map_res_nth _ _ _ D1 i j Ei) as (y & Ey & Ny). unfold deref in Ey. rewrite E0 in Ey. apply Ok_inj in Ey. subst y. exists i, o, (with_idx e0 (Some (Z.of_nat i))). split; [|split; [exact Ny|exact R1]].
    destruct R1 as (e1 & P1 & ->). destruct (same_after o e1) as (Si & _). rewrite Si. assert (Nx : new_edge (with_idx e0 (Some (Z.of_nat i)))) by (rewrite Forall_forall in Nm; apply Nm, (nth_error_In _ _ E0)). pose proof (f_equal e_idx (new_param _ _ _ _ _ Q Nx P1)) as Fi. exact Fi. }
  assert (Ne : forall e, In e edges -> new_edge e). { intros e Ie. apply map_res_F2 in D1. rewrite Forall_forall in Nm. apply Nm. clear -D1 Ie. induction D1 as [|j y l l' Ey X3 IH]; [destruct Ie|]. destruct Ie as [->|Ie]; [|exact (IH Ie)]. unfold deref in Ey. destruct (nth_error H j) eqn:En; [|discriminate]. apply Ok_inj in Ey. subst e. exact (nth_error_In _ _ En). }
  assert (Cs : exists spaces, cell_spaces all (concat ess) = Ok spaces).
  { apply map_res_each. intros e' Ie. destruct (Rs e' Ie) as (i & o & e & -> & En & _). pose proof (map_res_length _ _ _ D2) as La. destruct (nth_error all i) as [b|] eqn:Eb; [rewrite (PegProofs.pyget_nat _ _ _ Eb); eauto|]. apply nth_error_None in Eb. assert (i < List.length edges)%nat by (apply nth_error_Some; congruence). lia. }
  destruct Cs as (spaces & Cs). rewrite Cs. cbn [bind].
  destruct (C59_mesh low_rank (PInt n) p qd edges (PInt d) all (concat ess) spaces Q Ne D2 Cs Rs) as [Lb _].
  assert (ND : NoDup (map sx (contour_smp (concat ess)))).
  { rewrite spots_concat. pose (e0 := PegProofs.edge_of 1 1 0 (PegSpec.Hor 0 0)).
    pose (F := fun i => nth i X' e0). assert (EF : concat ess = map F (cell_edges c')). { clear -Rf. unfold refs in Rf. induction Rf as [|i e l l' Ei Rf IH]; [reflexivity|]. cbn [map]. rewrite IH at 1. f_equal. unfold F. symmetry. apply nth_error_nth, Ei. }
    rewrite EF, map_map. assert (PE : Permutation (cell_edges c') (cell_edges c)). { pose proof (Permutation_map fst (p_edges _ _ _ _ _ _ _ _ _ Pr)) as Pe. rewrite !map_map in Pe. cbn [fst] in Pe. exact (perm_concat _ _ Pe). }
    eapply Permutation_NoDup; [|apply (Sp F)].
    - rewrite <- !flat_map_concat_map. apply Permutation_flat_map, Permutation_sym, PE.
    - intros k j i o e Ik Ej Eo Ei. destruct (param_edge contains (PInt n) p qd (iv || gv) X c X' c' k j i o Q W Pc Ik Ej Eo) as (f & f' & E & E' & R1). unfold F. rewrite (nth_error_nth _ _ _ E'). rewrite <- Dx, nth_error_map, E in Ei. injection Ei as <-. destruct R1 as (f1 & P1 & ->). exists f1. split; [rewrite <- param_bare; exact P1|reflexivity]. }
  destruct (centers_exist contains X' c' ess Rd B ND) as (xs & Cx).
  destruct (C59_total low_rank gmres set_iter contains X' c' ess xs (Some spaces) d iv gv G Rd B ND) as (L & EL).
  - intros e Ie. destruct (Rs e Ie) as (i & o & e0 & _ & _ & R1). rewrite (dict_points _ _ _ _ _ _ Q R1). lia.
  - exact Cx.
  - exact Hd.
  - exact Iy.
  - intros l El. injection El as <-. exact Lb.
  - discriminate.
  - rewrite EL. cbn [bind]. eauto.
Qed.

Lemma gfs_ok n p H m edges d : get_quad_dict (PInt n) p = Ok qd -> (1 <= d)%Z -> Forall new_edge H -> map_res (deref H) (m_edges m) = Ok edges ->
  (forall e, In e edges -> e_idx e <> None /\ (exists e1, parameterize qd e = Ok e1) /\ (e_loop e = false -> tol <= pdist (coord (e_endpnt e)) (coord (e_anchor e)))) ->
  exists all gs, mesh_spaces low_rank qd edges (PInt d) = Ok all /\ mk_gfs low_rank qd H m (PInt d) = Ok (H, gs, all) /\ p_mesh gs = m /\ p_deg gs = d /\
    p_num gs = (m_nverts m + CellModel.zsum (map (fun b => Z.of_nat (List.length (sp_edge b))) all) + m_ncells m * (d * (d - 1) / 2))%Z.
Proof.
  intros Q Hd Nm D1 Ed. assert (Ne : forall e, In e edges -> new_edge e). { intros e Ie. apply map_res_F2 in D1. rewrite Forall_forall in Nm. apply Nm. clear -D1 Ie. induction D1 as [|j y l l' Ey X3 IH]; [destruct Ie|]. destruct Ie as [->|Ie]; [|exact (IH Ie)]. unfold deref in Ey. destruct (nth_error H j) eqn:En; [|discriminate]. apply Ok_inj in Ey. subst e. exact (nth_error_In _ _ En). }
  destruct (map_res_each (fun e => do e1 <- parameterize qd e; mk_espace low_rank e1 (PInt d)) edges) as (all & Ms).
  { intros e Ie. destruct (Ed e Ie) as (Ix & (e1 & P1) & Ds). rewrite P1. cbn [bind]. pose proof (new_param _ _ _ _ _ Q (Ne e Ie) P1) as Bare. pose proof (f_equal e_idx Bare) as F1. pose proof (f_equal e_loop Bare) as F2. pose proof (f_equal e_anchor Bare) as F3. pose proof (f_equal e_endpnt Bare) as F4. cbn in F1, F2, F3, F4. destruct (C33_well_sampled _ _ _ _ _ Q P1) as [We _].
    apply espace_total; [exact We|exact Hd|congruence|]. destruct (e_loop e1) eqn:El; [left; reflexivity|right]. exists (coord (e_anchor e1)), (coord (e_endpnt e1)). split; [exact (new_runs _ _ _ _ _ Q (Ne e Ie) P1 El)|]. rewrite F3, F4. apply Ds. congruence. }
  unfold mk_gfs, set_deg. cbn [as_int bind]. destruct (Z.ltb_spec d 1); [lia|]. cbn [bind]. assert (Bs : build_edge_spaces low_rank qd H (m_edges m) (PInt d) = Ok (H, all)) by exact (spaces_make low_rank (PInt n) p qd (PInt d) (m_edges m) Q H [] edges all Nm D1 Ms). rewrite Bs. cbn [bind].
  destruct (mk_space m (PInt d) _) as [gs|] eqn:Ep; [|unfold mk_space, set_deg in Ep; cbn [as_int bind] in Ep; destruct (Z.ltb_spec d 1); [lia|discriminate]]. cbn [bind]. exists all, gs. split; [exact Ms|]. split; [reflexivity|]. destruct (mk_space_fields _ _ _ _ Ep) as (d' & Ed' & Hd' & Pm & Pd & Ps & Pv & Pe & Pb & Pn & _). injection Ed' as <-. split; [exact Pm|]. split; [exact Pd|]. rewrite Pn, Pv, Pe, Pb. unfold GlobSpec.bubbles. reflexivity.
Qed.
End Run.
