(** C64 on a triangle: a script that ends. *)
From Coq Require Import List ZArith Reals Lia Lra Bool String Permutation.
From Verif Require Import PyBase PolyModel PolySpec PolyProofs BaryModel QuadModel VertModel EdgeModel EdgeSpec EdgeProps ContourModel CellModel CellSpec CellProofs ContourProofs ContourProofs2 ContourProofs3 ContourProps CellProps3 MeshModel MeshSpec MeshProofs MeshProps TraceModel LocalModel LocalSpec LocalProofs LocalProofs2 LocalProps NystromModel NystromSpec EdgeSpaceModel GlobModel GlobSpec GlobProofs GlobProps SolverModel SolverSpec SolverProofs SolverProps SolverProps2 LocSpaceModel LocSpaceSpec LocSpaceProofs2 LocSpaceProps LocSpaceProps4 TriCell LocSpaceProps5 AsmModel AsmSpec AsmProofs AsmProofs2 AsmProofs3 AsmProps AsmProps2.
Import List ListNotations.
Open Scope R_scope.

(** A cell is put together from what clearing the samples leaves. *)
Lemma sources_bare (f : Z -> edge -> res vert) os : (forall o e, f o (deparameterize e) = f o e) -> forall es, map_res (fun eo => f (snd eo) (fst eo)) (combine (map deparameterize es) os) = map_res (fun eo => f (snd eo) (fst eo)) (combine es os).
Proof. intros X. induction os as [|o os IH]; intros [|e es]; try reflexivity. cbn [map combine map_res fst snd]. rewrite X, IH. reflexivity. Qed.
Lemma orientations_bare z es : orientations z (map deparameterize es) = orientations z es.
Proof. unfold orientations. induction es as [|e es IH]; [reflexivity|]. cbn [map map_res]. rewrite IH. reflexivity. Qed.
Lemma derefs_bare X ids : map_res (deref (map deparameterize X)) ids = (do es <- map_res (deref X) ids; Ok (map deparameterize es)).
Proof.
  induction ids as [|i ids IH]; [reflexivity|]. cbn [map_res]. rewrite IH. unfold deref at 1 3. rewrite nth_error_map. destruct (nth_error X i); [|reflexivity]. cbn [option_map bind]. destruct (map_res (deref X) ids); reflexivity.
Qed.
Lemma mk_cell_bare X z ids msh rtol atol : mk_cell (map deparameterize X) z ids msh rtol atol = mk_cell X z ids msh rtol atol.
Proof.
  unfold mk_cell. destruct (cell_idx z) as [zi|]; [|reflexivity]. cbn [bind]. rewrite derefs_bare. destruct (map_res (deref X) ids) as [es|]; [|reflexivity]. cbn [bind]. rewrite orientations_bare. destruct (orientations zi es) as [os|]; [|reflexivity]. cbn [bind].
  unfold boundary_components, incidence, incidence_mat. rewrite map_length, !sources_bare by reflexivity. reflexivity.
Qed.
(** Edge spaces are made without touching new edges. *)
Lemma spaces_make low_rank n q qd deg is : get_quad_dict n q = Ok qd -> forall H done es all, Forall new_edge H -> map_res (deref H) is = Ok es -> mesh_spaces low_rank qd es deg = Ok all ->
  fold_res (fun Hl i => do e <- deref (fst Hl) i; do e <- parameterize qd e; do b <- mk_espace low_rank e deg; Ok (hset (fst Hl) i (deparameterize e), snd Hl ++ [b])) is (H, done) = Ok (H, done ++ all).
Proof.
  intros Q. induction is as [|i is IH]; intros H done es all S D Ms.
  - cbn in D. apply Ok_inj in D. subst es. cbn in Ms. apply Ok_inj in Ms. subst all. rewrite app_nil_r. reflexivity.
  - cbn [map_res] in D. destruct (deref H i) as [e|] eqn:Ei; [|discriminate]. cbn [bind] in D. destruct (map_res (deref H) is) as [es'|] eqn:Es; [|discriminate]. cbn [bind] in D. apply Ok_inj in D. subst es. unfold mesh_spaces in Ms. cbn [map_res] in Ms. destruct (parameterize qd e) as [e1|] eqn:E1; [|discriminate]. cbn [bind] in Ms. destruct (mk_espace low_rank e1 deg) as [b|] eqn:Eb; [|discriminate]. cbn [bind] in Ms. destruct (map_res _ es') as [all'|] eqn:Ea; [|discriminate]. cbn [bind] in Ms. apply Ok_inj in Ms. subst all.
    cbn [fold_res fst snd]. rewrite Ei. cbn [bind]. rewrite E1. cbn [bind]. rewrite Eb. cbn [bind].
    assert (Ne : nth_error H i = Some e) by (unfold deref in Ei; destruct (nth_error H i); [apply Ok_inj in Ei; congruence|discriminate]). assert (Nn : new_edge e) by (rewrite Forall_forall in S; apply S, (nth_error_In _ _ Ne)). rewrite (new_param _ _ _ _ _ Q Nn E1), (hset_self _ _ _ Ne). rewrite (IH H (done ++ [b]) es' all' S Es Ea), <- app_assoc. reflexivity.
Qed.

(** The unit triangle as a mesh of one cell *)
Definition tri_mesh : mesh := Mesh [0; 1; 2]%nat 3 [0]%Z 1 [0; 1; 2]%Z 3.
Lemma tri_mesh_ok : mk_mesh (sides 1 0 1 2) [0; 1; 2]%nat = Ok (sides 1 0 1 2, tri_mesh).
Proof. reflexivity. Qed.
Lemma tri_gfs low_rank d : (1 <= d)%Z -> exists all p, mesh_spaces low_rank dict4 (sides 1 0 1 2) (PInt d) = Ok all /\ mk_gfs low_rank dict4 (sides 1 0 1 2) tri_mesh (PInt d) = Ok (sides 1 0 1 2, p, all) /\ p_mesh p = tri_mesh /\ p_deg p = d /\ p_num p = (3 + CellModel.zsum (map (fun b => Z.of_nat (List.length (sp_edge b))) all) + d * (d - 1) / 2)%Z.
Proof.
  intros Hd. destruct (the_mesh_exists low_rank d Hd) as (H & c & e0 & e1 & e2 & spaces & _ & all & Ms & _). assert (Nw : Forall new_edge (sides 1 0 1 2)) by (apply Forall_forall; apply sides_new; lra).
  unfold mk_gfs, set_deg. cbn [as_int bind]. destruct (Z.ltb_spec d 1); [lia|]. cbn [bind]. assert (Bs : build_edge_spaces low_rank dict4 (sides 1 0 1 2) (m_edges tri_mesh) (PInt d) = Ok (sides 1 0 1 2, all)) by exact (spaces_make low_rank (PInt 4) 7 dict4 (PInt d) (m_edges tri_mesh) dict4_ok (sides 1 0 1 2) [] (sides 1 0 1 2) all Nw eq_refl Ms). rewrite Bs. cbn [bind].
  destruct (mk_space tri_mesh (PInt d) _) as [p|] eqn:Ep; [|unfold mk_space, set_deg in Ep; cbn [as_int bind] in Ep; destruct (Z.ltb_spec d 1); [lia|discriminate]]. cbn [bind]. exists all, p. split; [exact Ms|]. split; [reflexivity|]. destruct (mk_space_fields _ _ _ _ Ep) as (d' & Ed' & Hd' & Pm & Pd & Ps & Pv & Pe & Pb & Pn & _). injection Ed' as <-. split; [exact Pm|]. split; [exact Pd|]. rewrite Pn, Pv, Pe, Pb. unfold tri_mesh. cbn [m_nverts m_ncells]. unfold GlobSpec.bubbles. rewrite Z.mul_1_l. reflexivity.
Qed.
Lemma tri_build low_rank gm set_iter d all p : solves_sizes gm -> (1 <= d)%Z -> mesh_spaces low_rank dict4 (sides 1 0 1 2) (PInt d) = Ok all -> p_mesh p = tri_mesh -> p_deg p = d ->
  forall X, map deparameterize X = sides 1 0 1 2 -> exists X' c' L, build_local (in_tri 1) low_rank gm set_iter dict4 X p all 0 false false = Ok (X', c', L).
Proof.
  intros G Hd Ms Pm Pd X Dx. unfold build_local. rewrite Pm, Pd.
  assert (Gc : get_cell X tri_mesh 0 = Ok (tri_cell (33, 33)%Z)).
  { rewrite <- (tri_made 1 0 1 2 ltac:(lra)), <- Dx, mk_cell_bare. replace (1 / 20) with (5 / 100) by lra. destruct X as [|x0 [|x1 [|x2 [|x3 X]]]]; try discriminate Dx. cbn [map sides] in Dx. unfold get_cell, tri_mesh. cbn [m_cells m_edges zmemb existsb Z.eqb orb]. cbn [map_res]. unfold deref. cbn [nth_error bind].
    pose proof (f_equal (fun l => match l with x :: _ => e_pos x | _ => 0%Z end) Dx) as A0. pose proof (f_equal (fun l => match l with _ :: x :: _ => e_neg x | _ => 0%Z end) Dx) as A1. pose proof (f_equal (fun l => match l with _ :: _ :: x :: _ => e_pos x | _ => 0%Z end) Dx) as A2. cbn in A0, A1, A2. cbn [filter snd]. rewrite A0, A1, A2. cbn [Z.eqb]. rewrite !orb_true_r. reflexivity. }
  rewrite Gc. cbn [bind orb].
  destruct (tri_after 1 0 1 2 ltac:(lra) (33, 33)%Z) as (H & c & e0 & e1 & e2 & PC & T & _).
  assert (PX : param_cell (in_tri 1) dict4 false X (tri_cell (33, 33)%Z) = Ok (H, c)).
  { rewrite <- PC. unfold param_cell, param_comps. cbn [tri_cell c_comps fold_res fst snd]. unfold param_contour. replace (param_edges dict4 X tri_contour) with (param_edges dict4 (sides 1 0 1 2) tri_contour); [reflexivity|].
    destruct X as [|x0 [|x1 [|x2 [|x3 X]]]]; try discriminate Dx. rewrite <- Dx. unfold param_edges, tri_contour. cbn [map k_edges k_orients combine fold_res fst snd]. unfold deref. cbn [nth_error bind]. rewrite <- (param_bare dict4 x0). destruct (parameterize dict4 x0) as [a0|]; [|reflexivity]. cbn [bind Z.eqb Pos.eqb]. cbn [hset firstn skipn app nth_error bind]. rewrite <- (param_bare dict4 x2). destruct (parameterize dict4 x2) as [a2|]; [|reflexivity]. cbn [bind hset firstn skipn app nth_error]. rewrite <- (param_bare dict4 x1). destruct (parameterize dict4 x1) as [a1|]; reflexivity. }
  rewrite PX. cbn [bind]. pose proof T as (_ & Be & _ & (_ & _ & _ & I0 & _) & (_ & _ & _ & I1 & _) & (_ & _ & _ & I2 & _)). pose proof (tri_rd 1 0 1 2 H c e0 e1 e2 T) as Rd. destruct (ready_uniform _ _ _ _ Rd Be) as (F & _). rewrite (kedges_ok F). cbn [bind concat app].
  pose proof (map_res_length _ _ _ Ms) as La. destruct all as [|s0 [|s1 [|s2 [|s3 all]]]]; try discriminate La. assert (Cs : cell_spaces [s0; s1; s2] [e0; e2; e1] = Ok [s0; s2; s1]) by (unfold cell_spaces; cbn [map_res]; rewrite I0, I1, I2; reflexivity). rewrite Cs. cbn [bind].
  destruct (the_mesh_ok d low_rank H c e0 e1 e2 [s0; s2; s1]) as [Lb _]. { split; [exact T|]. exists [s0; s1; s2]. split; assumption. }
  destruct (tri_total 1 0 1 2 ltac:(lra) H c e0 e1 e2 T low_rank gm set_iter (Some [s0; s2; s1]) d G Hd) as (L & ->); [intros l El; injection El as <-; exact Lb|]. cbn [bind]. eauto.
Qed.
(** For every degree, every form and every canonical right-hand side the script on this mesh ends. *)
Example C64_example low_rank gm set_iter B d : solves_sizes gm -> (forall l, Permutation (set_iter l) l) -> canonical (bf_rhs B) -> (1 <= d)%Z ->
  exists H2 v all, script (in_tri 1) low_rank gm set_iter dict4 B (sides 1 0 1 2) [0; 1; 2]%nat (PInt d) false false = Ok (H2, v) /\
  mesh_spaces low_rank dict4 (sides 1 0 1 2) (PInt d) = Ok all /\ v_num v = (3 + CellModel.zsum (map (fun b => Z.of_nat (List.length (sp_edge b))) all) + d * (d - 1) / 2)%Z.
Proof.
  intros G Or Cn Hd. destruct (tri_gfs low_rank d Hd) as (all & p & Ms & Gf & Pm & Pd & Pn). assert (Nw : Forall new_edge (sides 1 0 1 2)) by (apply Forall_forall; apply sides_new; lra).
  destruct (C64_total (in_tri 1) low_rank gm set_iter dict4 B (PInt 4) 7 (sides 1 0 1 2) [0; 1; 2]%nat (PInt d) (sides 1 0 1 2) tri_mesh (sides 1 0 1 2) p all false false Or Cn dict4_ok Nw) as (H2 & v & E).
  - intros i e [<-|[<-|[<-|[]]]] E _; injection E as <-; cbn; lia.
  - exact tri_mesh_ok.
  - exact Gf.
  - intros X z Dx [<-|[]]. exact (tri_build low_rank gm set_iter d all p G Hd Ms Pm Pd X Dx).
  - discriminate.
  - right. exists 0%nat. eexists. split; [left; reflexivity|]. split; reflexivity.
  - exists H2, v, all. split; [exact E|]. split; [exact Ms|]. rewrite <- Pn. assert (S : Forall settled (sides 1 0 1 2)) by (revert Nw; apply Forall_impl, new_settled).
    destruct (C64_run (in_tri 1) low_rank gm set_iter dict4 B (PInt 4) 7 _ _ _ _ _ _ _ dict4_ok S E) as (H & m & d' & sizes & p' & all' & H1 & fam & M & _ & Gf' & Ep & _ & _ & Mk). rewrite tri_mesh_ok in M. apply Ok_inj in M. injection M as -> ->. rewrite Gf in Gf'. apply Ok_inj in Gf'. injection Gf' as -> -> ->. destruct (SolverProps.built _ _ _ _ _ _ _ _ _ _ _ _ _ _ _ tri_mesh_ok Ep Mk) as (_ & _ & _ & Vn & _). exact Vn.
Qed.
