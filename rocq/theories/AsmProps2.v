(** C64: when a script ends. *)
From Coq Require Import List ZArith Reals Lia Lra Bool String Permutation.
From Verif Require Import PyBase PolyModel PolySpec PolyProofs BaryModel QuadModel VertModel EdgeModel EdgeSpec ContourModel CellModel CellSpec CellProofs CellProps ContourProofs2 ContourProofs3 ContourProofs4 ContourProps CellProps3 MeshModel MeshSpec MeshProofs MeshProps TraceModel IntPolyModel LocalModel LocalSpec LocalProofs LocalProofs2 LocalProofs5 LocalProps NystromModel EdgeSpaceModel GlobModel GlobSpec GlobProofs GlobProps SolverModel SolverSpec SolverProofs SolverProps SolverProps2 LocSpaceModel LocSpaceSpec LocSpaceProofs2 LocSpaceProofs3 LocSpaceProofs4 LocSpaceProps LocSpaceProps4 AsmModel AsmSpec AsmProofs AsmProofs2 AsmProofs3 AsmProps.
Import List ListNotations.
Open Scope R_scope.

Lemma F2_right {A B} (P : A -> B -> Prop) l l' y : Forall2 P l l' -> In y l' -> exists i x, nth_error l i = Some x /\ nth_error l' i = Some y /\ P x y.
Proof.
  intros F I. apply In_nth_error in I. destruct I as (i & Ei). exists i. destruct (nth_error l i) as [x|] eqn:Ex.
  - exists x. split; [reflexivity|]. split; [exact Ei|]. exact (Forall2_nth _ _ _ F _ _ _ Ex Ei).
  - apply nth_error_None in Ex. rewrite (F2_len _ _ _ F) in Ex. apply nth_error_None in Ex. congruence.
Qed.
Lemma some_inj {A} (x y : A) : Some x = Some y -> x = y.
Proof. congruence. Qed.
Lemma global_fields p k k' c : g_type k = g_type k' -> g_vert k = g_vert k' -> g_edge k = g_edge k' -> g_espace k = g_espace k' -> g_bubb k = g_bubb k' -> get_global_idx p k c = get_global_idx p k' c.
Proof. intros A B C D E. unfold get_global_idx. rewrite A, B, C, D, E. reflexivity. Qed.

Section Run.
Variable contains : R -> list pt -> pt -> bool.
Variable low_rank : nat -> matrix -> matrix.
Variable gmres : (list R -> res (list R)) -> list R -> (list R -> res (list R)) -> res (list R).
Variable set_iter : list Z -> list Z.
Hypothesis Order : forall l, Permutation (set_iter l) l.
Variable qd : quad * quad.
Variable B : bform.
Hypothesis Load : canonical (bf_rhs B).
Local Notation ready := (ContourProps.ready contains).
Local Notation build := (build_local contains low_rank gmres set_iter qd).

Variables (n : pyint) (q : Z) (H0 H : heap) (is : list nat) (m : mesh) (edges : list edge) (d : Z) (all : list espace) (p : gspace).
Hypothesis Q : get_quad_dict n q = Ok qd.
Hypothesis New : Forall new_edge H.
Hypothesis M : mk_mesh H0 is = Ok (H, m).
Hypothesis D1 : map_res (deref H) (m_edges m) = Ok edges.
Hypothesis D2 : mesh_spaces low_rank qd edges (PInt d) = Ok all.
Let sizes := map (fun b => Z.of_nat (List.length (sp_edge b))) all.
Hypothesis Sp : mk_space m (PInt d) sizes = Ok p.
(** The ends of the edges have indices. *)
Hypothesis Ends : forall i e, In i is -> nth_error H0 i = Some e -> e_loop e = false -> (0 <= vidx (e_anchor e))%Z /\ (0 <= vidx (e_endpnt e))%Z.
Variables interior gradient : bool.

Lemma build_ready X z X' c' L : build X p all z interior gradient = Ok (X', c', L) -> ready X' c' /\ exists ess, boundary_edges X' c' ess /\ forall es, kedges X' c' = Ok es -> es = concat ess.
Proof.
  intros Eb. destruct (build_inv _ _ _ _ _ _ _ _ _ _ _ _ _ _ Eb) as (c & es & sp & X1 & X2 & _). destruct (get_cell_built _ _ _ _ X1) as (ids & Mk & _).
  assert (Rd : ready X' c') by (unfold ContourProps.ready; do 12 eexists; split; [exact Mk|]; split; [exact Q|exact X2]). split; [exact Rd|]. destruct (ready_fresh _ _ _ Rd) as (ess & Fr & _). exists ess. split.
  - destruct Fr as [Fr _]. revert Fr. apply F2_imp. intros k0 es0 Y. apply Y.
  - intros es' Ke. pose proof (kedges_ok Fr) as Ke'. congruence.
Qed.
Lemma keys_valid X k z X' c' L ku : map deparameterize X = H -> nth_error (m_cells m) k = Some z -> build X p all z interior gradient = Ok (X', c', L) -> In ku (get_basis L) ->
  is_ok (get_global_idx p (fst ku) (Z.of_nat k)) = true /\ is_ok (fun_is_on_boundary H p (fst ku)) = true.
Proof.
  intros Dx Ez Eb Iu. destruct (mk_space_fields _ _ _ _ Sp) as (d' & Ed' & Hd & Pm & Pd & _). injection Ed' as <-.
  destruct (local_facts contains low_rank gmres set_iter qd n q H0 is H m edges d all p X z _ _ _ _ _ Q New M D1 D2 Pm Pd Dx Eb) as (_ & es & sp & Ke & Cs & EL & Rs & Lb & _). destruct (build_ready _ _ _ _ _ Eb) as (Rd & ess & Be & Kc). specialize (Kc es Ke). subst es.
  assert (Nn : Forall (Z.le 0) sizes) by (apply Forall_forall; intros x Ix; apply in_map_iff in Ix; destruct Ix as (b & <- & _); lia). destruct (numbered _ _ _ _ _ _ _ M Sp Nn) as (Num & _). rewrite Pd in Num.
  destruct (C44_tables _ _ _ _ M) as (_ & _ & Ie & _ & T & _ & _ & _ & _ & Vt & NC & NV). assert (Lh : Forall (fun i => (i < List.length H)%nat) (m_edges m)). { apply Forall_forall. intros i Ii. apply In_nth_error in Ii. destruct Ii as (j & Ej). destruct (T j i Ej) as (e0 & _ & _ & Ex). apply nth_error_Some. congruence. }
  assert (Gi : forall x k' c, seen_from x c -> exists_dof (m_ncells m) (bubbles d) (m_verts m) sizes x -> GlobProofs.key_of x = Ok k' -> g_type (fst ku) = g_type k' -> g_vert (fst ku) = g_vert k' -> g_edge (fst ku) = g_edge k' -> g_espace (fst ku) = g_espace k' -> g_bubb (fst ku) = g_bubb k' -> is_ok (get_global_idx p (fst ku) c) = true).
  { intros x k' c Sx Ex Kx E1 E2 E3 E4 E5. destruct (Num x c Ex Sx) as (k2 & Kx' & Gk). rewrite Kx in Kx'. apply Ok_inj in Kx'. subst k2. rewrite (global_fields p _ k' c E1 E2 E3 E4 E5), Gk. reflexivity. }
  assert (Lbl : forall l, Some sp = Some l -> Forall2 labelled (concat ess) l) by (intros l E; injection E as <-; exact Lb).
  unfold get_basis in Iu. apply in_app_or in Iu. destruct Iu as [Iu|Iu]; [|apply in_app_or in Iu; destruct Iu as [Iu|Iu]].
  - destruct (C59_vertex_keys low_rank gmres set_iter contains X' c' ess (Some sp) (PInt d) _ _ L Order Rd Be Lbl EL) as (_ & Kv & _). destruct (Kv ku Iu) as (w & Iw & Kt & Kvt & Ke1 & Ke2 & Ke3). unfold LocSpaceModel.key_of in *.
    assert (Vv : In (vidx w) (m_verts m)).
    { unfold vertices in Iw. apply in_flat_map in Iw. destruct Iw as (e' & Ie' & Iw). destruct (Rs e' Ie') as (i & o & e & Ei & En & e1 & P1 & ->). destruct (same_after o e1) as (_ & Sl & Sa & Se). rewrite Sl, Sa, Se in Iw.
      assert (Ed : nth_error (m_edges m) i <> None) by (intros Y; apply nth_error_None in Y; assert (nth_error edges i = None) by (apply nth_error_None; rewrite (map_res_length _ _ _ D1); exact Y); congruence). destruct (nth_error (m_edges m) i) as [j|] eqn:Ej; [|congruence]. destruct (map_res_nth _ _ _ D1 i j Ej) as (y & Ey & Ny). assert (y = e) by congruence. subst y. destruct (T i j Ej) as (e0 & E0 & _ & Ex). unfold deref in Ey. rewrite Ex in Ey. apply Ok_inj in Ey.
      assert (Nx : new_edge e) by (rewrite Forall_forall in New; apply New; subst e; exact (nth_error_In _ _ Ex)). pose proof (new_param _ _ _ _ _ Q Nx P1) as Fe. assert (Fl : e_loop e1 = e_loop e0) by (rewrite <- Fe in Ey; exact (f_equal e_loop Ey)). assert (Fa : e_anchor e1 = e_anchor e0) by (rewrite <- Fe in Ey; exact (f_equal e_anchor Ey)). assert (Fz : e_endpnt e1 = e_endpnt e0) by (rewrite <- Fe in Ey; exact (f_equal e_endpnt Ey)).
      rewrite Fl, Fa, Fz in Iw. destruct (e_loop e0) eqn:Lo; [destruct Iw|]. assert (Ij : In j is) by (apply Ie, (nth_error_In _ _ Ej)). destruct (Ends j e0 Ij E0 Lo) as [Z0 Z1]. apply Vt. split; [destruct Iw as [<-|[<-|[]]]; assumption|]. exists j, e0. split; [exact Ij|]. split; [exact E0|]. split; [exact Lo|]. unfold ends_at. destruct Iw as [<-|[<-|[]]]; auto. }
    split.
    + apply (Gi (VertexFun (vidx w)) (Key "vert" (vidx w) (-1) (-1) (-1) None None)); [exact Logic.I|exact Vv|reflexivity|..]; assumption.
    + unfold fun_is_on_boundary. rewrite Kt. cbn [String.eqb Ascii.eqb Bool.eqb]. rewrite Pm. destruct (C45_vert_boundary H m (g_vert (fst ku)) Lh) as (b & -> & _). reflexivity.
  - destruct (lspace_inv low_rank gmres set_iter contains _ _ _ _ _ _ _ _ Rd Be EL) as (d' & N & spaces & Ed & _ & _ & Ss & _ & _ & _ & _ & Ee & _). cbn in Ss. subst spaces. destruct (ready_uniform _ _ _ _ Rd Be) as (F & _). destruct (edge_inv F _ _ _ _ _ Ee) as (ls & El & Fl). rewrite El in Iu. apply in_concat in Iu. destruct Iu as (l & Il & Iu).
    destruct (F2_right _ _ _ _ Fl Il) as (j & b & Ebj & _ & Fb). destruct (F2_right _ _ _ _ Fb Iu) as (k0 & k1 & Ek & _ & (j' & pp & fs & Ep & Kk & _)). assert (Lb1 : (j < List.length (concat ess))%nat) by (rewrite (F2_len _ _ _ Lb); apply nth_error_Some; congruence). destruct (nth_error (concat ess) j) as [e'|] eqn:Ee'; [|apply nth_error_None in Ee'; lia]. destruct (Forall2_nth _ _ _ Lb _ _ _ Ee' Ebj) as (_ & _ & _ & _ & Kb). destruct (Kb k1 _ Kk) as (i0 & Ei0 & Kt & K1 & K2 & K3 & K4).
    destruct (Rs e' (nth_error_In _ _ Ee')) as (i & o & e & Ei & En & _). assert (Ei1 : i0 = Z.of_nat i) by congruence. rewrite Ei1 in K2. unfold cell_spaces in Cs. destruct (map_res_nth _ _ _ Cs j e' Ee') as (b' & Eb' & Nb'). assert (b' = b) by congruence. subst b'. cbv beta in Eb'. rewrite Ei in Eb'. assert (Li : (i < List.length all)%nat) by (unfold mesh_spaces in D2; rewrite (map_res_length _ _ _ D2); apply nth_error_Some; congruence). destruct (nth_error all i) as [b2|] eqn:Eb2; [|apply nth_error_None in Eb2; lia]. rewrite (PegProofs.pyget_nat _ _ _ Eb2) in Eb'. apply Ok_inj in Eb'. subst b2.
    split.
    + apply (Gi (EdgeFun (Z.of_nat i) (Z.of_nat k1)) (Key "edge" (-1) (Z.of_nat i) (Z.of_nat k1) (-1) None None)); [exact Logic.I| |reflexivity|..]; try assumption. cbn [exists_dof]. exists (Z.of_nat (List.length (sp_edge b))). split; [lia|]. rewrite Nat2Z.id. split; [unfold sizes; rewrite nth_error_map, Eb2; reflexivity|]. assert ((k1 < List.length (sp_edge b))%nat) by (apply nth_error_Some; congruence). lia.
    + unfold fun_is_on_boundary. rewrite Kt. cbn [String.eqb Ascii.eqb Bool.eqb]. rewrite Pm, K2. assert (Li' : (i < List.length (m_edges m))%nat) by (rewrite <- (map_res_length _ _ _ D1); apply nth_error_Some; congruence). destruct (nth_error (m_edges m) i) as [j0|] eqn:Ej0; [|apply nth_error_None in Ej0; lia]. destruct (T i j0 Ej0) as (e0 & _ & _ & Ex). destruct (proj1 (C45_edge_boundary H m (Z.of_nat i) Lh) i j0 _ (or_introl eq_refl) Ej0 Ex) as (bb & -> & _). reflexivity.
  - destruct (lspace_inv low_rank gmres set_iter contains _ _ _ _ _ _ _ _ Rd Be EL) as (d' & N & spaces & Ed & _ & _ & _ & _ & _ & Eu & _). injection Ed as <-. apply (bubb_inv _ _ _ _ _ _ _ Hd) in Eu. destruct (F2_right _ _ _ _ Eu Iu) as (k0 & k1 & Ek & _ & (Kt & K1 & K2 & K3 & K4) & _). unfold LocSpaceModel.key_of in *. split.
    + apply (Gi (Bubble (Z.of_nat k) (Z.of_nat k1)) (Key "bubb" (-1) (-1) (-1) (Z.of_nat k1) None None)); [reflexivity| |reflexivity|..]; try assumption. cbn [exists_dof]. assert ((k < List.length (m_cells m))%nat) by (apply nth_error_Some; congruence). split; [lia|]. apply nth_error_In in Ek. apply in_seq in Ek. pose proof (bubbles_nonneg d Hd) as Bn. unfold bubbles in *. lia.
    + unfold fun_is_on_boundary. rewrite Kt. reflexivity.
Qed.

(** Every cell can be built, whatever samples other cells have left. *)
Hypothesis Cells : forall X z, map deparameterize X = H -> In z (m_cells m) -> exists X' c' L, build X p all z interior gradient = Ok (X', c', L).

Lemma step_total X w l k : map deparameterize X = H -> hstays H X -> w_space w = with_dofs p l -> List.length l = List.length (m_cells m) -> (k < List.length (m_cells m))%nat ->
  exists X' w' l', run_step contains low_rank gmres set_iter qd B all interior gradient (X, w) k = Ok (X', w') /\ map deparameterize X' = H /\ hstays H X' /\ w_space w' = with_dofs p l' /\ List.length l' = List.length (m_cells m).
Proof.
  intros Dx Hx Ew Ll Lk. destruct (mk_space_fields _ _ _ _ Sp) as (d' & Ed' & Hd & Pm & Pd & _). injection Ed' as <-. destruct (nth_error (m_cells m) k) as [z|] eqn:Ez; [|apply nth_error_None in Ez; lia].
  destruct (C44_tables _ _ _ _ M) as (_ & _ & _ & _ & _ & _ & Ic & _ & _ & _ & NC & NV). unfold run_step. rewrite Ew. change (p_mesh (with_dofs p l)) with (p_mesh p). rewrite Pm. unfold geti at 1. rewrite Ez. cbn [bind]. unfold get_abs_cell_idx. rewrite (index_of_nth _ (increasing_nodup _ Ic) _ _ Ez). cbn [bind]. replace (Z.to_nat (0 + Z.of_nat k)) with k by lia.
  destruct (Cells X z Dx (nth_error_In _ _ Ez)) as (X' & c' & L & Eb). change (build X (with_dofs p l) all z interior gradient) with (build X p all z interior gradient). rewrite Eb. cbn [bind].
  pose proof (local_stays _ _ _ _ _ _ _ _ _ _ _ _ _ _ (hstays_right _ _ Hx) Eb) as Hs1. pose proof (hstays_trans _ _ _ Hx Hs1) as Hs.
  destruct (local_facts contains low_rank gmres set_iter qd n q H0 is H m edges d all p X z _ _ _ _ _ Q New M D1 D2 Pm Pd Dx Eb) as (Dx' & es & sp & Ke & Cs & EL & _). destruct (build_ready _ _ _ _ _ Eb) as (Rd & ess & Be & _).
  assert (Nn : Forall (Z.le 0) sizes) by (apply Forall_forall; intros x Ix; apply in_map_iff in Ix; destruct Ix as (b & <- & _); lia).
  assert (Kn : forall ku, In ku (get_basis L) -> exists key g, number_key H p (Z.of_nat k) (fst ku) = Ok key /\ glob key = Ok g).
  { intros ku Iu. destruct (keys_valid X k z X' c' L ku Dx Ez Eb Iu) as [K1 K2]. unfold number_key. destruct (get_global_idx p (fst ku) (Z.of_nat k)) as [g|] eqn:Eg; [|discriminate]. cbn [bind]. unfold set_glob_idx. pose proof (global_bound m (PInt d) sizes p ltac:(lia) ltac:(lia) Sp Nn _ _ _ Eg) as G0. destruct (Z.ltb_spec g 0); [lia|]. cbn [bind]. replace (fun_is_on_boundary H p _) with (fun_is_on_boundary H p (fst ku)) by reflexivity. destruct (fun_is_on_boundary H p (fst ku)) as [b|]; [|discriminate]. cbn [bind]. eexists _, g. split; reflexivity. }
  rewrite (register_stays H X' _ _ _ Hs). unfold register. change (map_res (number_key H (with_dofs p l) (Z.of_nat k))) with (map_res (number_key H p (Z.of_nat k))).
  assert (Mk : exists ks, map_res (number_key H p (Z.of_nat k)) (map LocSpaceModel.key_of (get_basis L)) = Ok ks /\ List.length ks = List.length (get_basis L) /\ forall j key, nth_error ks j = Some key -> exists g, glob key = Ok g).
  { revert Kn. generalize (get_basis L) as l0. induction l0 as [|ku l0 IH]; intros Kn; [exists []; split; [reflexivity|]; split; [reflexivity|]; intros [|j] key E; discriminate|]. destruct (Kn ku (or_introl eq_refl)) as (key & g & E1 & E2). destruct IH as (ks & E3 & E4 & E5); [intros; apply Kn; right; assumption|]. exists (key :: ks). cbn [map map_res]. unfold LocSpaceModel.key_of at 1. rewrite E1. cbn [bind]. rewrite E3. cbn [bind]. split; [reflexivity|]. split; [cbn; congruence|]. intros [|j] key' E; [injection E as <-; eauto|exact (E5 j key' E)]. }
  destruct Mk as (ks & Em & Lks & Gk). rewrite Em. cbn [bind with_dofs p_dofs]. destruct (nth_error l k) as [l0|] eqn:El0; [|apply nth_error_None in El0; lia]. cbn [bind fst snd].
  rewrite (nums_ok _ _ _ _ _ _ _ _ _ _ EL). set (fs := combine ks (map snd (get_basis L))). assert (Lf : List.length fs = List.length (get_basis L)) by (unfold fs; rewrite combine_length, map_length, Lks; apply Nat.min_id).
  assert (Fn : forall j, (j < List.length (get_basis L))%nat -> exists key u ku g, nth_error fs j = Some (key, u) /\ glob key = Ok g /\ In ku (get_basis L) /\ u = snd ku).
  { intros j Lj. destruct (nth_error fs j) as [[key u]|] eqn:Ef; [|apply nth_error_None in Ef; unfold kfun in *; lia]. destruct (AsmProofs2.combine_nth _ _ _ _ Ef) as [E1 E2]. cbn [fst snd] in *. destruct (Gk j key E1) as (g & Eg). rewrite nth_error_map in E2. unfold kfun in *; destruct (@nth_error (gkey * lpois) (get_basis L) j) as [ku|] eqn:Eku; [|discriminate]. injection E2 as <-. exists key, (snd ku), ku, g. split; [reflexivity|]. split; [exact Eg|]. split; [exact (nth_error_In _ _ Eku)|reflexivity]. }
  assert (Rows : exists rows, map_res (form_row B X' c' fs) (seq 0 (List.length (get_basis L))) = Ok rows).
  { apply LocSpaceProofs2.map_res_all. intros i Ii. apply in_seq in Ii. destruct (Fn i ltac:(lia)) as (key & u & ku & g & Ef & Eg & Iu & ->). unfold form_row, kfun in *. unfold geti at 1. rewrite Ef. cbn [bind snd fst].
    destruct (C64_form contains low_rank gmres set_iter X' c' ess _ _ _ _ L B ku ku Rd Be EL Iu Iu) as (_ & _ & _ & _ & _ & Er). rewrite (Er Load). cbn [bind]. rewrite Eg. cbn [bind].
    match goal with |- exists y, bind (map_res ?F ?S) _ = _ => destruct (map_res_all F S) as (ent & ->) end; [|cbn [bind]; eauto]. intros j Ij. apply in_seq in Ij. rewrite Lf in Ij. destruct (Fn j ltac:(lia)) as (key' & u' & ku' & g' & Ef' & Eg' & Iu' & ->). unfold geti, kfun in *. rewrite Ef'. cbn [bind].
    destruct (C64_form contains low_rank gmres set_iter X' c' ess _ _ _ _ L B ku ku' Rd Be EL Iu Iu') as (h & l2 & E1 & E2 & _). unfold form_values. cbn [fst snd]. unfold eval_h1, eval_l2. rewrite E1. cbn [bind]. rewrite E2. cbn [bind]. rewrite Eg, Eg'. cbn [bind]. eauto. }
  destruct Rows as (rows & Er). fold fs. rewrite Er. cbn [bind]. eexists X', _, _. split; [reflexivity|]. split; [exact Dx'|]. split; [exact Hs|]. cbn [w_space]. split; [reflexivity|]. rewrite hset_length by lia. exact Ll.
Qed.

Lemma fold_run w0 : w_space w0 = p -> forall k, (k <= List.length (m_cells m))%nat -> exists X w l, fold_res (run_step contains low_rank gmres set_iter qd B all interior gradient) (seq 0 k) (H, w0) = Ok (X, w) /\ map deparameterize X = H /\ hstays H X /\ w_space w = with_dofs p l /\ List.length l = List.length (m_cells m).
Proof.
  intros Ew. destruct (C44_tables _ _ _ _ M) as (_ & _ & _ & _ & _ & _ & _ & _ & _ & _ & NC & _). destruct (mk_space_fields _ _ _ _ Sp) as (d' & Ed' & Hd & Pm & Pd & _).
  induction k as [|k IH]; intros Lk.
  - exists H, w0, (p_dofs p). split; [reflexivity|]. split; [|split; [|split]].
    + rewrite <- (map_id H) at 2. apply map_ext_in. intros e Ie. apply new_bare. rewrite Forall_forall in New. apply New, Ie.
    + apply hstays_refl. revert New. apply Forall_impl, new_settled.
    + rewrite Ew. destruct p. reflexivity.
    + unfold mk_space in Sp. destruct (set_deg (PInt d)); [|discriminate]. apply Ok_inj in Sp. subst p. cbn [p_dofs]. rewrite repeat_length, NC, Nat2Z.id. reflexivity.
  - destruct (IH ltac:(lia)) as (X & w & l & E & Dx & Hx & Wx & Ll). destruct (step_total X w l k Dx Hx Wx Ll ltac:(lia)) as (X' & w' & l' & E' & R'). exists X', w', l'. split; [|exact R']. rewrite seq_S, fold_res_snoc, E. exact E'.
Qed.
(** There is something to compute. *)
Hypothesis Some_edge : is <> [].
Hypothesis Some_fun : (2 <= d)%Z \/ exists i e, In i is /\ nth_error H0 i = Some e /\ e_loop e = false.
Lemma some_fun : exists z, In z (m_cells m) /\ forall X X' c' L, map deparameterize X = H -> build X p all z interior gradient = Ok (X', c', L) -> get_basis L <> [].
Proof.
  destruct (C44_tables _ _ _ _ M) as (_ & _ & Ie & _ & T & _ & _ & Ct & _). destruct (mk_space_fields _ _ _ _ Sp) as (d' & Ed' & Hd & Pm & Pd & _). injection Ed' as <-.
  assert (Cell : forall i, In i is -> exists e z, nth_error H0 i = Some e /\ borders z e /\ In z (m_cells m)).
  { intros i Ii. pose proof Ii as Ij. apply Ie, In_nth_error in Ij. destruct Ij as (k & Ek). destruct (T k i Ek) as (e & E0 & Em & _). unfold embedded in Em. destruct (Z.leb_spec 0 (e_pos e)).
    - exists e, (e_pos e). split; [exact E0|]. split; [left; reflexivity|]. apply Ct. split; [assumption|]. exists i, e. split; [exact Ii|]. split; [exact E0|left; reflexivity].
    - exists e, (e_neg e). split; [exact E0|]. split; [right; reflexivity|]. apply Ct. split; [lia|]. exists i, e. split; [exact Ii|]. split; [exact E0|right; reflexivity]. }
  destruct Some_fun as [D|(i & e & Ii & E0 & Lo)].
  - destruct is as [|i is']; [congruence|]. destruct (Cell i (or_introl eq_refl)) as (_ & z & _ & _ & Iz). exists z. split; [exact Iz|]. intros X X' c' L Dx Eb Y.
    destruct (local_facts contains low_rank gmres set_iter qd n q H0 _ H m edges d all p X z _ _ _ _ _ Q New M D1 D2 Pm Pd Dx Eb) as (_ & es & sp & _ & _ & EL & _). destruct (build_ready _ _ _ _ _ Eb) as (Rd & ess & Be & _).
    destruct (lspace_inv low_rank gmres set_iter contains _ _ _ _ _ _ _ _ Rd Be EL) as (d' & N & spaces & Ed & _ & _ & _ & _ & _ & Eu & _). injection Ed as <-. apply (bubb_inv _ _ _ _ _ _ _ Hd), F2_len in Eu. rewrite seq_length in Eu. unfold get_basis in Y. apply app_eq_nil in Y. destruct Y as [_ Y]. apply app_eq_nil in Y. destruct Y as [_ Y]. rewrite Y in Eu. cbn in Eu.
    assert (1 <= d * (d - 1) / 2)%Z by (apply Z.div_le_lower_bound; nia). lia.
  - destruct (Cell i Ii) as (e' & z & E0' & Bz & Iz). assert (e' = e) by congruence. subst e'. exists z. split; [exact Iz|]. intros X X' c' L Dx Eb Y.
    destruct (local_facts contains low_rank gmres set_iter qd n q H0 _ H m edges d all p X z _ _ _ _ _ Q New M D1 D2 Pm Pd Dx Eb) as (_ & es & sp & Ke & _ & EL & Rs & Lb & Bo). destruct (build_ready _ _ _ _ _ Eb) as (Rd & ess & Be & Kc). specialize (Kc es Ke). subst es.
    pose proof Ii as Ij. apply Ie in Ij. pose proof Ij as Ij'. apply In_nth_error in Ij'. destruct Ij' as (k & Ek). destruct (T k i Ek) as (e0 & E0'' & _ & Ex). assert (e0 = e) by congruence. subst e0.
    assert (Jc : In i (cell_edges c')). { apply Bo; [exact Ij|]. rewrite <- Dx, nth_error_map in Ex. destruct (nth_error X i) as [x|]; [|discriminate]. apply some_inj in Ex. exists x. split; [reflexivity|]. destruct Bz as [Bz|Bz]; [left; rewrite <- Bz; exact (f_equal e_pos Ex)|right; rewrite <- Bz; exact (f_equal e_neg Ex)]. }
    assert (Es : exists e', In e' (concat ess) /\ nth_error X' i = Some e').
    { unfold kedges in Ke. apply map_res_F2 in Ke. apply In_nth_error in Jc. destruct Jc as (j & Ej). assert (Lj : (j < List.length (concat ess))%nat) by (rewrite <- (F2_len _ _ _ Ke); apply nth_error_Some; congruence). destruct (nth_error (concat ess) j) as [e'|] eqn:Ee'; [|apply nth_error_None in Ee'; lia]. exists e'. split; [exact (nth_error_In _ _ Ee')|]. pose proof (Forall2_nth _ _ _ Ke _ _ _ Ej Ee') as De. cbv beta in De. unfold deref in De. destruct (nth_error X' i); [apply Ok_inj in De; congruence|discriminate]. }
    destruct Es as (e' & Ie' & Ee'). destruct (local_facts contains low_rank gmres set_iter qd n q H0 _ H m edges d all p X z _ _ _ _ _ Q New M D1 D2 Pm Pd Dx Eb) as (Dx' & _).
    assert (Lo' : e_loop e' = false). { rewrite <- Dx', nth_error_map, Ee' in Ex. apply some_inj in Ex. rewrite <- Lo. exact (f_equal e_loop Ex). }
    assert (Lbl : forall l, Some sp = Some l -> Forall2 labelled (concat ess) l) by (intros l E; injection E as <-; exact Lb).
    destruct (C59_vertex_keys low_rank gmres set_iter contains X' c' ess (Some sp) (PInt d) _ _ L Order Rd Be Lbl EL) as (_ & _ & Kv). destruct (Kv (e_anchor e')) as (ku & Iku & _). { unfold vertices. apply in_flat_map. exists e'. split; [exact Ie'|]. rewrite Lo'. left. reflexivity. }
    unfold get_basis in Y. apply app_eq_nil in Y. destruct Y as [Y _]. rewrite Y in Iku. destruct Iku.
Qed.
Lemma run_total : exists H2 v, run_solver contains low_rank gmres set_iter qd B H p all interior gradient = Ok (H2, v).
Proof.
  destruct (C44_tables _ _ _ _ M) as (_ & _ & _ & _ & _ & _ & Ic & _ & _ & _ & NC & _). destruct (mk_space_fields _ _ _ _ Sp) as (d' & Ed' & Hd & Pm & Pd & _). injection Ed' as <-.
  unfold run_solver. cbv zeta. rewrite Pm, NC, Nat2Z.id. set (N := List.length (m_cells m)). destruct (fold_run (Work p [] [] (repeat None N)) eq_refl N (le_n _)) as (X & w & l & E & Dx & Hx & Wx & Ll). rewrite E. cbn [bind].
  pose (Inv := fun Y : heap => map deparameterize Y = H). assert (Keep : forall Y p' all' z i g Y' c L, Inv Y -> build Y p' all' z i g = Ok (Y', c, L) -> Inv Y').
  { intros Y p' all' z i g Y' c L Iy Eb. destruct (build_inv _ _ _ _ _ _ _ _ _ _ _ _ _ _ Eb) as (c0 & es & sp & X1 & X2 & _). destruct (get_cell_built _ _ _ _ X1) as (ids & Mk & _). unfold Inv in *. rewrite <- Iy. eapply cell_bare; [exact Q|exact (built_wf _ _ _ _ _ _ _ Mk)|rewrite Iy; exact New|exact X2]. }
  assert (Hb : Inv H). { unfold Inv. rewrite <- (map_id H) at 2. apply map_ext_in. intros e Ie. apply new_bare. rewrite Forall_forall in New. apply New, Ie. }
  assert (Hs : hstays H H) by (apply hstays_refl; revert New; apply Forall_impl, new_settled). pose proof Ic as Ic'. rewrite <- Pm in Ic'.
  destruct (run_fold contains low_rank gmres set_iter qd B Inv Keep H H p all interior gradient (Work p [] [] (repeat None N)) Ic' Hs Hb eq_refl eq_refl _ _ _ E) as (fam & F & C & _). rewrite Pm in C.
  assert (Nn : Forall (Z.le 0) sizes) by (apply Forall_forall; intros x Ix; apply in_map_iff in Ix; destruct Ix as (b & <- & _); lia).
  destruct (C48_total H0 H is m (PInt d) sizes p (run_basis fam) (run_pair h1_inner fam) (run_pair l2_inner fam) (run_load (bf_rhs B) fam) (bf_diffusion B) (bf_reaction B) interior M Sp Nn) as [Tot _].
  { intros k Lk. destruct (C k Lk) as (z & Ez & Y & Iy & _ & Eb & _). exists (get_basis (cr_space (fam k))). split; [reflexivity|]. intros ku Iu. exact (keys_valid Y k z _ _ _ ku Iy Ez Eb Iu). }
  destruct Tot as (v & Ev).
  { destruct some_fun as (z & Iz & NE). apply In_nth_error in Iz. destruct Iz as (k & Ek). assert (Lk : (k < N)%nat) by (apply nth_error_Some; congruence). exists k, (get_basis (cr_space (fam k))). split; [exact Lk|]. split; [reflexivity|]. destruct (C k Lk) as (z' & Ez & Y & Iy & _ & Eb & _). assert (z' = z) by congruence. subst z'. exact (NE Y _ _ _ Iy Eb). }
  unfold SolverModel.mk_solver in Ev. cbv zeta in Ev. rewrite Pm, NC, Nat2Z.id in Ev. fold N in Ev. unfold steps in F. rewrite F in Ev. cbn [bind] in Ev. destruct (impose_bc (w_space w) (w_entries w, w_rhs w)) as [sys|]; [|discriminate]. cbn [bind] in *. destruct (check_indices _ (map fst (snd sys))); [|discriminate]. cbn [bind] in *. destruct (check_indices _ (map t_row (fst sys))); [|discriminate]. cbn [bind] in *. destruct (check_indices _ (map t_col (fst sys))); [|discriminate]. cbn [bind] in *. eauto.
Qed.
End Run.

(** ** When a script ends *)
(** On new edges whose ends have indices, a script ends as soon as its mesh and its edge spaces do and
    every cell can be built on edges with any samples: numbering the functions, evaluating the form
    and collecting the system do not fail. The degree or the mesh must give at least one function. *)
Theorem C64_total contains low_rank gmres set_iter qd B n q H0 is deg H m H1 p all interior gradient : (forall l, Permutation (set_iter l) l) -> canonical (bf_rhs B) -> get_quad_dict n q = Ok qd -> Forall new_edge H0 ->
  (forall i e, In i is -> nth_error H0 i = Some e -> e_loop e = false -> (0 <= vidx (e_anchor e))%Z /\ (0 <= vidx (e_endpnt e))%Z) ->
  mk_mesh H0 is = Ok (H, m) -> mk_gfs low_rank qd H m deg = Ok (H1, p, all) ->
  (forall X z, map deparameterize X = H -> In z (m_cells m) -> exists X' c' L, build_local contains low_rank gmres set_iter qd X p all z interior gradient = Ok (X', c', L)) ->
  is <> [] -> ((2 <= p_deg p)%Z \/ exists i e, In i is /\ nth_error H0 i = Some e /\ e_loop e = false) ->
  exists H2 v, script contains low_rank gmres set_iter qd B H0 is deg interior gradient = Ok (H2, v).
Proof.
  intros Or Ld Q Nw Ends M G Cells NE SF. pose proof (mesh_new _ _ _ _ Nw M) as Nm. unfold script. rewrite M. cbn [bind]. rewrite G. cbn [bind].
  unfold mk_gfs in G. destruct (set_deg deg) as [d|] eqn:Ed; [|discriminate]. cbn [bind] in G. destruct (build_edge_spaces low_rank qd H (m_edges m) (PInt d)) as [[H3 all3]|] eqn:Es; [|discriminate]. cbn [bind] in G. destruct (mk_space m (PInt d) _) as [p3|] eqn:Ep; [|discriminate]. cbn [bind] in G. apply Ok_inj in G. injection G as -> -> ->.
  destruct (spaces_new _ _ _ _ _ _ Q _ _ _ _ Nm Es) as (-> & edges & all' & D1 & D2 & ->). cbn [app] in *. destruct (mk_space_fields _ _ _ _ Ep) as (d' & Ed' & Hd & Pm & Pd & _). injection Ed' as <-. rewrite Pd in SF.
  exact (run_total contains low_rank gmres set_iter Or qd B Ld n q H0 H is m edges d all' p3 Q Nm M D1 D2 Ep Ends interior gradient Cells NE SF).
Qed.
Print Assumptions C64_total.
