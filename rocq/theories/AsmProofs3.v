(** Runs on edges as their constructor makes them: sampling leaves everything but the samples, and
    every cell samples the edges of the mesh afresh. Values of the functions of a space. *)
From Coq Require Import List ZArith Reals Lia Lra Bool String Permutation.
From Verif Require Import PyBase PolyModel PolySpec PolyProofs BaryModel QuadModel VertModel EdgeModel EdgeSpec EdgeProofs EdgeProofs2 ContourModel CellModel CellSpec CellProofs CellProps ContourProofs ContourProofs2 ContourProofs3 ContourProofs4 ContourProps CellProps2 CellProps3 MeshModel MeshSpec MeshProofs MeshProps TraceModel IntPolyModel LocalModel LocalSpec LocalProofs LocalProofs2 LocalProofs3 LocalProofs4 LocalProofs5 NystromModel EdgeSpaceModel GlobModel GlobSpec GlobProofs GlobProps SolverModel SolverProofs LocSpaceModel LocSpaceSpec LocSpaceProofs LocSpaceProofs2 LocSpaceProps4 AsmModel AsmSpec AsmProofs AsmProofs2.
Import List ListNotations.
Open Scope R_scope.

(** ** New edges *)
Lemma new_bare e : new_edge e -> deparameterize e = e.
Proof.
  intros (a & b & p & n & c & qt & i & tb & o & M). unfold mk_edge in M. destruct (check_idx i); [|discriminate]. cbn [bind] in M. destruct (check_t_bounds tb); [|discriminate]. cbn [bind] in M. apply Ok_inj in M. subst e. reflexivity.
Qed.
Lemma new_settled e : new_edge e -> settled e.
Proof.
  intros (a & b & p & n & c & qt & i & tb & o & M). unfold mk_edge in M. destruct (check_idx i); [|discriminate]. cbn [bind] in M. destruct (check_t_bounds tb); [|discriminate]. cbn [bind] in M. apply Ok_inj in M. subst e. intros x y I. cbn [set_cells set_verts e_diary e_anchor e_endpnt] in *. destruct (veqb _ _); destruct I as [I|[]]; [discriminate|]. injection I as <- <-. auto.
Qed.
Lemma new_idx e k : new_edge e -> new_edge (with_idx e (Some (Z.of_nat k))).
Proof.
  intros (a & b & p & n & c & qt & i & tb & o & M). exists a, b, p, n, c, qt, (Some (PInt (Z.of_nat k))), tb, o. unfold mk_edge in *. destruct (check_idx i); [|discriminate]. cbn [bind] in M. cbn [check_idx]. destruct (Z.ltb_spec (Z.of_nat k) 0); [lia|]. cbn [bind]. destruct (check_t_bounds tb); [|discriminate]. cbn [bind] in *. apply Ok_inj in M. subst e. reflexivity.
Qed.
(** Sampling such an edge and clearing it gives the edge. *)
Lemma new_param n q qd e e1 : get_quad_dict n q = Ok qd -> new_edge e -> parameterize qd e = Ok e1 -> deparameterize e1 = e.
Proof.
  intros Q N E. pose proof (new_bare e N) as Bd. destruct (parameterize_frame _ _ _ _ _ Q E) as (q0 & _ & E1). rewrite E1. clear E E1. destruct N as (a & b & p & m & c & qt & i & tb & o & M). unfold mk_edge in M. destruct (check_idx i) as [o0|]; [|discriminate]. cbn [bind] in M. destruct (check_t_bounds tb) as [p0|]; [|discriminate]. cbn [bind] in M. apply Ok_inj in M. subst e.
  clear Bd. generalize (e_smp e1) as l, (2 * Z.of_nat (q_n q0) + 1)%Z as k. clear. intros l k. match goal with |- context [set_cells (set_verts ?x a b) p m] => assert (X : set_cells (set_verts x a b) p m = Edge a b p m c o qt o0 (orb (Z.ltb p 0) (Z.ltb m 0)) (veqb a (VVert b)) false (-1) [] p0 (if veqb a (VVert b) then [STranslate a] else [SJoin a b])) by reflexivity end. rewrite X. clear X.
  cbn [with_param e_anchor e_endpnt e_pos e_neg e_curve e_opts e_qtype e_idx e_bdry e_loop e_param e_npts e_smp e_tb e_diary]. unfold after_diary. cbn [with_smp e_anchor e_endpnt e_pos e_neg e_curve e_opts e_qtype e_idx e_bdry e_loop e_param e_npts e_smp e_tb e_diary].
  destruct (veqb a (VVert b)) eqn:Ev; cbn [last_join]; [reflexivity|]. unfold set_verts. cbv zeta. rewrite Ev. reflexivity.
Qed.
Lemma param_bare qd e : parameterize qd e = parameterize qd (deparameterize e).
Proof. reflexivity. Qed.
Lemma resampled_bare n q qd o e e' : get_quad_dict n q = Ok qd -> new_edge (deparameterize e) -> resampled qd o e e' -> deparameterize e' = deparameterize e /\ resampled qd o (deparameterize e) e'.
Proof.
  intros Q N (e1 & P & ->). rewrite param_bare in P. split; [|exists e1; auto]. rewrite <- (new_param _ _ _ _ _ Q N P). unfold reverse_orientation. destruct (Z.eqb o (-1)); [|reflexivity]. destruct (e_param e1); reflexivity.
Qed.
Lemma mesh_new H is H' m : Forall new_edge H -> mk_mesh H is = Ok (H', m) -> Forall new_edge H'.
Proof.
  intros S M. destruct (C44_tables _ _ _ _ M) as (_ & _ & I & _ & N & O & _). apply Forall_forall. intros e Ie. apply In_nth_error in Ie. destruct Ie as (j & Ej). rewrite Forall_forall in S. destruct (in_dec Nat.eq_dec j is) as [Ij|Nj].
  - apply I, In_nth_error in Ij. destruct Ij as (k & Ek). destruct (N k j Ek) as (e0 & E0 & _ & E1). rewrite Ej in E1. injection E1 as ->. apply new_idx, S, (nth_error_In _ _ E0).
  - rewrite (O j Nj) in Ej. exact (S e (nth_error_In _ _ Ej)).
Qed.

(** ** Heaps *)
Lemma nth_ext_opt {A} (l l' : list A) : (forall i, nth_error l i = nth_error l' i) -> l = l'.
Proof.
  revert l'. induction l as [|x l IH]; intros [|y l'] E; [reflexivity|specialize (E O); discriminate|specialize (E O); discriminate|]. pose proof (E O) as E0. injection E0 as ->. f_equal. apply IH. intros i. exact (E (Datatypes.S i)).
Qed.
Lemma hset_self {A} (l : list A) i x : nth_error l i = Some x -> hset l i x = l.
Proof. revert i. induction l as [|y l IH]; intros [|i] E; try discriminate; cbn in E; [injection E as ->; reflexivity|]. unfold hset in *. cbn [firstn skipn app]. f_equal. apply IH, E. Qed.
(** The edge spaces leave the heap as it was, and are those of the edges. *)
Lemma spaces_new low_rank n q qd is deg : get_quad_dict n q = Ok qd -> forall H done H' l, Forall new_edge H ->
  fold_res (fun Hl i => do e <- deref (fst Hl) i; do e <- parameterize qd e; do b <- mk_espace low_rank e deg; Ok (hset (fst Hl) i (deparameterize e), snd Hl ++ [b])) is (H, done) = Ok (H', l) ->
  H' = H /\ exists es all, map_res (deref H) is = Ok es /\ mesh_spaces low_rank qd es deg = Ok all /\ l = done ++ all.
Proof.
  intros Q. induction is as [|i is IH]; intros H done H' l S E; [cbn in E; apply Ok_inj in E; injection E as -> ->; split; [reflexivity|]; exists [], []; rewrite app_nil_r; auto|]. cbn [fold_res fst snd] in E. destruct (deref H i) as [e|] eqn:Ei; [|discriminate]. cbn [bind] in E. destruct (parameterize qd e) as [e1|] eqn:E1; [|discriminate]. cbn [bind] in E. destruct (mk_espace low_rank e1 deg) as [b|] eqn:Eb; [|discriminate]. cbn [bind] in E.
  assert (Ne : nth_error H i = Some e) by (unfold deref in Ei; destruct (nth_error H i); [apply Ok_inj in Ei; congruence|discriminate]). assert (Nn : new_edge e) by (rewrite Forall_forall in S; apply S, (nth_error_In _ _ Ne)). rewrite (new_param _ _ _ _ _ Q Nn E1), (hset_self _ _ _ Ne) in E. destruct (IH H (done ++ [b]) H' l S E) as (-> & es & all & M1 & M2 & ->). split; [reflexivity|]. exists (e :: es), (b :: all). cbn [map_res]. rewrite Ei. cbn [bind]. rewrite M1. cbn [bind]. split; [reflexivity|]. split; [|rewrite <- app_assoc; reflexivity].
  unfold mesh_spaces in *. cbn [map_res]. rewrite E1. cbn [bind]. rewrite Eb. cbn [bind]. rewrite M2. reflexivity.
Qed.
(** Sampling a cell keeps the cleared heap. *)
Lemma cell_bare contains n q qd w H c H' c' : get_quad_dict n q = Ok qd -> wf_cell c -> Forall new_edge (map deparameterize H) -> param_cell contains qd w H c = Ok (H', c') ->
  map deparameterize H' = map deparameterize H /\ forall j, In j (cell_edges c') -> In j (cell_edges c) /\ exists o e e', nth_error (map deparameterize H) j = Some e /\ nth_error H' j = Some e' /\ resampled qd o e e'.
Proof.
  intros Q W N P. destruct (param_cell_ok contains (fun _ _ => True) (fun _ _ _ _ _ _ => Logic.I) qd n q w H c H' c' Q W P) as (ess & ess' & Pr).
  assert (X : forall j, In j (cell_edges c) -> exists o e e', nth_error H j = Some e /\ nth_error H' j = Some e' /\ deparameterize e' = deparameterize e /\ resampled qd o (deparameterize e) e').
  { intros j Ij. unfold cell_edges in Ij. apply in_concat in Ij. destruct Ij as (l & Il & Ij). apply in_map_iff in Il. destruct Il as (k & <- & Ik). apply In_nth_error in Ij. destruct Ij as (m & Em). pose proof W as (_ & _ & Wc). rewrite Forall_forall in Wc. destruct (Wc k Ik) as (Wk & _). destruct (nth_error (k_orients k) m) as [o|] eqn:Eo; [|apply nth_error_None in Eo; unfold wf_contour in Wk; rewrite <- Wk in Eo; apply nth_error_None in Eo; congruence].
    destruct (param_edge contains n q qd w H c H' c' k m j o Q W P Ik Em Eo) as (e & e' & E & E' & Rs). assert (Nb : new_edge (deparameterize e)) by (rewrite Forall_forall in N; apply N, in_map, (nth_error_In _ _ E)). destruct (resampled_bare _ _ _ _ _ _ Q Nb Rs) as [D R1]. exists o, e, e'. auto. }
  split.
  - apply nth_ext_opt. intros j. rewrite !nth_error_map. destruct (in_dec Nat.eq_dec j (cell_edges c)) as [Ij|Nj]; [|rewrite (p_frame _ _ _ _ _ _ _ _ _ Pr j Nj); reflexivity]. destruct (X j Ij) as (o & e & e' & E & E' & D & _). rewrite E, E'. cbn. rewrite D. reflexivity.
  - intros j Ij. assert (Ic : In j (cell_edges c)).
    { unfold cell_edges in *. pose proof (p_edges _ _ _ _ _ _ _ _ _ Pr) as Pe. apply (Permutation_map fst) in Pe. rewrite !map_map in Pe. cbn [fst] in Pe. apply in_concat in Ij. destruct Ij as (l & Il & Ij). apply in_concat. exists l. split; [|exact Ij]. eapply Permutation_in; [exact Pe|exact Il]. }
    split; [exact Ic|]. destruct (X j Ic) as (o & e & e' & E & E' & _ & R1). exists o, (deparameterize e), e'. rewrite nth_error_map, E. auto.
Qed.

(** ** Functions of a space *)
Lemma basis_locfun low_rank gmres set_iter H c given deg i g L : mk_lspace low_rank gmres set_iter H c given deg i g = Ok L ->
  exists V, NystromModel.mk_solver gmres H c "fft" "jacobi" = Ok V /\ forall ku, In ku (get_basis L) -> locfun (to_nyst gmres H c V) H c (snd ku).
Proof.
  unfold mk_lspace. intros E. inv_as E d X1. inv_as E cen X2. inv_as E area X3. inv_as E sp X4. inv_as E V X5. cbv zeta in E. inv_as E bs X6. inv_as E vs X7. inv_as E fs X8. apply Ok_inj in E. subst L. exists V. split; [exact X5|]. unfold get_basis. cbn [l_vert l_edge l_bubb]. intros ku I.
  assert (G : forall (A : Type) (f : A -> res kfun) l r, map_res f l = Ok r -> (forall a ku, f a = Ok ku -> locfun (to_nyst gmres H c V) H c (snd ku)) -> forall ku, In ku r -> locfun (to_nyst gmres H c V) H c (snd ku)).
  { intros A f l r E K k Ik. apply map_res_F2 in E. induction E as [|a y l r Ey E IH]; [destruct Ik|]. destruct Ik as [->|Ik]; [exact (K _ _ Ey)|exact (IH Ik)]. }
  rewrite !in_app_iff in I. destruct I as [I|[I|I]].
  - unfold vert_funs in X7. inv_as X7 es Y1. inv_as X7 keys Y2. apply (G _ _ _ _ X7); [|exact I]. intros key k Ek. inv_as Ek t Z1. inv_as Ek u Z2. apply Ok_inj in Ek. subst k. eapply lf_new, Z2.
  - unfold edge_funs in X8. inv_as X8 l Y1. apply Ok_inj in X8. subst fs. apply in_concat in I. destruct I as (l0 & Il & I). apply map_res_F2 in Y1. assert (exists b, space_funs (to_nyst gmres H c V) H c i g b = Ok l0) as (b & Eb) by (clear -Il Y1; induction Y1 as [|b y ls r Ey E IH]; [destruct Il|destruct Il as [->|Il]; eauto]).
    unfold space_funs in Eb. inv_as Eb es Y2. inv_as Eb j Y3. apply (G _ _ _ _ Eb); [|exact I]. intros m k Ek. inv_as Ek p Z1. inv_as Ek t Z2. inv_as Ek key Z3. inv_as Ek u Z4. apply Ok_inj in Ek. subst k. eapply lf_new, Z4.
  - unfold bubb_funs in X6. destruct (Z.ltb d 2); [apply Ok_inj in X6; subst bs; destruct I|]. apply (G _ _ _ _ X6); [|exact I]. intros m k Ek. inv_as Ek key Z1. inv_as Ek u Z2. apply Ok_inj in Ek. subst k. eapply lf_new, Z2.
Qed.
Lemma load_ok contains N H c ess f v : ready contains H c -> boundary_edges H c ess -> locfun N H c v -> canonical f ->
  exists q, mk_lpoly f H c = Ok q /\ l2_inner v (UGen (GPoly q)) H c = Ok (load_block (concat ess) f v + integrate_poly_over_mesh_cell (pmul RS (lp_form (u_poly v)) f) (quadrature (concat ess))).
Proof.
  intros Rd Be A C. destruct (ready_uniform _ _ _ _ Rd Be) as (F & NE & M & U). pose proof (good_sides v (locfun_good F N v A)) as Sv. destruct (mk_lpoly_ok F f C) as (q & Eq & F0 & _ & _ & _ & (_ & Ca & _)). exists q. split; [exact Eq|]. pose proof (carries_len _ _ _ _ Ca) as (L1 & L2 & _). destruct Ca as (_ & E1 & E2 & _).
  unfold l2_inner. cbv zeta. cbn [l2_gen]. unfold l2_hp. rewrite E2, (s_hv v Sv), (s_hn v Sv), E1. cbn [arith attr bind]. rewrite (two_flux F NE U) by (apply Sv || exact L2). rewrite (two_flux F NE U) by (apply Sv || exact L1). cbn [bind]. unfold l2_pp. rewrite F0, (int_poly_ok F NE U), quad_cell. reflexivity.
Qed.
