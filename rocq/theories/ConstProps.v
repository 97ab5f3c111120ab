(** C86: how the system depends on the bilinear form. *)
From Coq Require Import List ZArith Reals Lia Lra Bool String.
From Verif Require Import PyBase PolyModel PolySpec BaryModel QuadModel VertModel EdgeModel ContourModel CellModel MeshModel TraceModel LocalModel NystromModel EdgeSpaceModel GlobModel SolverModel LocSpaceModel AsmModel PegSpec PegProps BoardProps2 DeparamProps LocSpaceProps4 AgainProps ConstProofs.
From Verif Require ConvProofs5.
Import List ListNotations.
Open Scope R_scope.

(** The row [i] belongs to a function on the boundary of the mesh: a registered key with this number is marked so. *)
Definition boundary_row (p : gspace) (i : Z) : Prop := exists c ks k, (c < Z.to_nat (m_ncells (p_mesh p)))%nat /\ nth_error (p_dofs p) c = Some ks /\ In k ks /\ g_glob k = Some i /\ g_bdry k = Some true.
(** An entry with the form [B] and the same entry with the form [B'] *)
Definition same_entry (p : gspace) (B B' : bform) (t t' : entry) : Prop :=
  t_row t' = t_row t /\ t_col t' = t_col t /\ t_stiff t' = t_stiff t /\ t_mass t' = t_mass t /\
  (boundary_row p (t_row t) -> t_mat t' = t_mat t /\ t_mat t = if Z.eqb (t_row t) (t_col t) then 1 else 0) /\
  (~ boundary_row p (t_row t) -> t_mat t = bf_diffusion B * t_stiff t + bf_reaction B * t_mass t /\ t_mat t' = bf_diffusion B' * t_stiff t + bf_reaction B' * t_mass t).

Section Forms.
Variable contains : R -> list pt -> pt -> bool.
Variable low_rank : nat -> matrix -> matrix.
Variable gmres : (list R -> res (list R)) -> list R -> (list R -> res (list R)) -> res (list R).
Variable set_iter : list Z -> list Z.
Variable qd : quad * quad.
Notation run := (run_solver contains low_rank gmres set_iter qd).

(** Other constants: the same exception, or the same edges, keys, functions, right-hand side, stiffness and mass; the entries are formed anew. *)
Theorem C86_constants B B' X p all iv gv : bf_rhs B' = bf_rhs B ->
  match run B X p all iv gv, run B' X p all iv gv with
  | Ok (X1, v), Ok (X1', v') => X1' = X1 /\ v_space v' = v_space v /\ v_rhs v' = v_rhs v /\ v_num v' = v_num v /\ v_local v' = v_local v /\ v_soln v' = v_soln v /\ Forall2 (same_entry (v_space v) B B') (v_entries v) (v_entries v')
  | Err x, Err y => x = y
  | _, _ => False
  end.
Proof.
  intros F. unfold run_solver. cbv zeta. set (n := Z.to_nat (m_ncells (p_mesh p))). pose proof (fold_calc contains low_rank gmres set_iter qd B B' all iv gv (seq 0 n) F (X, Work p [] [] (repeat None n))) as C. change (wcalc B' (X, Work p [] [] (repeat None n))) with (X, @Work lpois p [] [] (repeat None n)) in C. rewrite C.
  destruct (fold_res (run_step _ _ _ _ _ B _ _ _) _ _) as [[X1 w]|x] eqn:E; [|reflexivity]. apply fold_formed in E; [|reflexivity]. cbn [bind wcalc fst snd w_space w_entries w_rhs w_local] in *. rewrite !impose_globs. destruct (bdry_globs (w_space w)) as [zs|] eqn:Zq; [|reflexivity]. cbn [bind fst snd].
  rewrite !strike_rows, !strike_cols, !strike_idx, calc_rows, calc_cols. repeat match goal with |- context [check_indices ?a ?b] => destruct (check_indices a b); [cbn [bind]|reflexivity] end. cbn [v_space v_entries v_rhs v_num v_local v_soln]. do 6 (split; [reflexivity|]).
  pose proof (globs_spec _ _ Zq) as G. fold (boundary_row (w_space w)) in G. clear - E G. induction (w_entries w) as [|t es IH]; [constructor|]. cbn [map] in E. injection E as Et Es. cbn [map]. constructor; [|exact (IH Es)].
  assert (Ev : t_mat t = formed B t) by (rewrite <- Et at 1; reflexivity). clear Et Es IH. unfold same_entry, strike. cbn [recalc t_row]. destruct (struck zs (t_row t)) eqn:K; cbn [recalc t_row t_col t_mat t_stiff t_mass].
  - do 4 (split; [reflexivity|]). split; [intros _; split; [reflexivity|rewrite Z.eqb_sym; reflexivity]|]. intros N. destruct N. apply G, K.
  - do 4 (split; [reflexivity|]). split; [intros Bd; apply G in Bd; congruence|]. intros _. split; [exact Ev|reflexivity].
Qed.

(** The matrices: stiffness and mass stay, and so do the boundary rows; the other rows are combined anew. *)
Theorem C86_matrices B B' X p all iv gv X1 v : bf_rhs B' = bf_rhs B -> run B X p all iv gv = Ok (X1, v) ->
  exists v', run B' X p all iv gv = Ok (X1, v') /\ (forall i, glob_rhs v' i = glob_rhs v i) /\ forall i j, stiff_mat v' i j = stiff_mat v i j /\ mass_mat v' i j = mass_mat v i j /\
  (boundary_row (v_space v) i -> glob_mat v' i j = glob_mat v i j) /\ (~ boundary_row (v_space v) i -> glob_mat v' i j = bf_diffusion B' * stiff_mat v i j + bf_reaction B' * mass_mat v i j).
Proof.
  intros F E. pose proof (C86_constants B B' X p all iv gv F) as C. rewrite E in C. destruct (run B' X p all iv gv) as [[X1' v']|]; [|contradiction]. destruct C as (-> & _ & Er & _ & _ & _ & C). exists v'. split; [reflexivity|]. split; [intros i; unfold glob_rhs; rewrite Er; reflexivity|]. intros i j. unfold stiff_mat, mass_mat, glob_mat, csr.
  set (p0 := v_space v) in *. clearbody p0. clear - C. induction C as [|t t' l l' (E1 & E2 & E3 & E4 & Bd & Nb) _ (IH1 & IH2 & IH3 & IH4)]; [cbn; repeat split; intros; ring|].
  cbn [filter]. rewrite E1, E2. destruct (Z.eqb_spec (t_row t) i) as [Q|]; cbn [andb]; [subst i|auto]. destruct (Z.eqb (t_col t) j); [|auto]. cbn [map fold_right]. rewrite E3, E4, IH1, IH2. split; [reflexivity|]. split; [reflexivity|]. split.
  - intros Hb. destruct (Bd Hb) as [-> _]. rewrite (IH3 Hb). reflexivity.
  - intros Hb. destruct (Nb Hb) as [_ ->]. rewrite (IH4 Hb). ring.
Qed.

(** Another right-hand side: the same edges, keys, functions and matrices, and loads at the same places. *)
Theorem C86_load B B' X p all iv gv X1 v X2 v' : bf_diffusion B' = bf_diffusion B -> bf_reaction B' = bf_reaction B -> run B X p all iv gv = Ok (X1, v) -> run B' X p all iv gv = Ok (X2, v') ->
  X2 = X1 /\ v_space v' = v_space v /\ v_entries v' = v_entries v /\ v_num v' = v_num v /\ v_local v' = v_local v /\ v_soln v' = v_soln v /\ map fst (v_rhs v') = map fst (v_rhs v) /\ forall i, boundary_row (v_space v) i -> glob_rhs v' i = glob_rhs v i.
Proof.
  intros D Rc E E'. unfold run_solver in *. cbv zeta in *. set (n := Z.to_nat (m_ncells (p_mesh p))) in *. destruct (fold_res (run_step _ _ _ _ _ B _ _ _) _ _) as [[Y w]|] eqn:W; [|discriminate]. destruct (fold_res (run_step _ _ _ _ _ B' _ _ _) _ _) as [s|] eqn:W'; [|discriminate].
  destruct (fold_load contains low_rank gmres set_iter qd B B' all iv gv _ D Rc X (Work p [] [] (repeat None n)) [] _ _ eq_refl W W') as (rs & -> & M). cbn [bind fst snd w_space w_entries w_rhs w_local] in *. rewrite !impose_globs in *. destruct (bdry_globs (w_space w)) as [zs|] eqn:Zq; [|discriminate]. cbn [bind fst snd] in *.
  rewrite !strike_idx in *. rewrite M in E'. repeat match type of E with context [check_indices ?a ?b] => destruct (check_indices a b); [cbn [bind] in *|discriminate] end. apply Ok_inj in E, E'. injection E as -> ->. injection E' as -> ->. cbn [v_space v_entries v_rhs v_num v_local v_soln]. do 6 (split; [reflexivity|]). split; [rewrite !strike_idx; exact M|].
  intros i Hb. apply (globs_spec _ _ Zq) in Hb. unfold glob_rhs. cbn [v_rhs]. assert (A : forall l : list (Z * R), fold_right Rplus 0 (map snd (filter (fun t => Z.eqb (fst t) i) (map (strike_rhs zs) l))) = 0).
  { induction l as [|[j y] l IH]; [reflexivity|]. cbn [map]. unfold strike_rhs at 1. cbn [fst]. destruct (struck zs j) eqn:K; cbn [filter fst]; destruct (Z.eqb_spec j i) as [->|]; try exact IH; [|congruence]. cbn [map snd fold_right]. rewrite IH. ring. }
  rewrite !A. reflexivity.
Qed.

(** A second solver over the same space, with other constants *)
Theorem C86_second B B' n q (X : heap) p all iv gv X1 v : get_quad_dict n q = Ok qd -> Forall new_edge (map deparameterize X) -> Forall (eq []) (p_dofs p) -> bf_rhs B' = bf_rhs B -> run B X p all iv gv = Ok (X1, v) ->
  exists X2 v', run B' X1 (v_space v) all iv gv = Ok (X2, v') /\ (forall i, glob_rhs v' i = glob_rhs v i) /\ forall i j, stiff_mat v' i j = stiff_mat v i j /\ mass_mat v' i j = mass_mat v i j /\
  (boundary_row (v_space v) i -> glob_mat v' i j = glob_mat v i j) /\ (~ boundary_row (v_space v) i -> glob_mat v' i j = bf_diffusion B' * stiff_mat v i j + bf_reaction B' * mass_mat v i j).
Proof.
  intros Q N Fr F E. destruct (C84_second contains low_rank gmres set_iter qd B n q X p all iv gv X1 v Q N Fr E) as (X2 & v2 & E2 & _ & (Se & Sr & _ & _ & _ & Sp & Ld) & Db). destruct (C86_matrices B B' _ _ _ _ _ _ _ F E2) as (v' & E' & Rh & M). exists X2, v'. split; [exact E'|].
  assert (Bd : forall i, boundary_row (v_space v2) i <-> boundary_row (v_space v) i).
  { intros i. unfold boundary_row. replace (p_mesh (v_space v2)) with (p_mesh (v_space v)) by (rewrite Sp; reflexivity). assert (K : forall c k, (exists ks, nth_error (p_dofs (v_space v2)) c = Some ks /\ In k ks) <-> exists ks, nth_error (p_dofs (v_space v)) c = Some ks /\ In k ks).
    { intros c k. specialize (Db c). split; intros (ks & Nk & I).
      - assert (Lc : (c < List.length (p_dofs (v_space v)))%nat) by (rewrite <- Ld; apply nth_error_Some; congruence). exists (nth c (p_dofs (v_space v)) []). split; [apply nth_error_nth', Lc|]. rewrite (nth_error_nth _ _ _ Nk) in Db. rewrite Db in I. apply in_app_or in I. tauto.
      - assert (Lc : (c < List.length (p_dofs (v_space v2)))%nat) by (rewrite Ld; apply nth_error_Some; congruence). exists (nth c (p_dofs (v_space v2)) []). split; [apply nth_error_nth', Lc|]. rewrite Db, (nth_error_nth _ _ _ Nk). apply in_or_app. left. exact I. }
    split; intros (c & ks & k & L & Nk & I & G).
    - destruct (proj1 (K c k)) as (ks' & Nk' & I'); [exists ks; auto|]. exists c, ks', k. auto.
    - destruct (proj2 (K c k)) as (ks' & Nk' & I'); [exists ks; auto|]. exists c, ks', k. auto. }
  assert (Ev : forall i j, glob_mat v2 i j = glob_mat v i j /\ stiff_mat v2 i j = stiff_mat v i j /\ mass_mat v2 i j = mass_mat v i j) by (intros; unfold glob_mat, stiff_mat, mass_mat; rewrite Se; auto).
  split; [intros i; rewrite Rh; unfold glob_rhs; rewrite Sr; reflexivity|]. intros i j. destruct (M i j) as (M1 & M2 & M3 & M4). destruct (Ev i j) as (E1 & E3 & E4). rewrite E3 in M1. rewrite E4 in M2. rewrite E1 in M3. rewrite E3, E4 in M4. rewrite Bd in M3, M4. auto.
Qed.
End Forms.
Print Assumptions C86_constants.
Print Assumptions C86_matrices.
Print Assumptions C86_load.
Print Assumptions C86_second.

(** The board of C82_example with the form (1, 1) and with the form (2, -3) *)
Example C86_example low_rank : exists qd H0 H m H1 p all H2 v v', get_quad_dict (PInt 16) 7 = Ok qd /\ pegboard (2, 3)%Z (1 / 4) = Ok (H, m) /\ mk_mesh H0 (seq 0 (List.length H0)) = Ok (H, m) /\ mk_gfs low_rank qd H m (PInt 2) = Ok (H1, p, all) /\
  run_solver ConvProofs5.within low_rank (fun _ b _ => Ok b) (fun l => l) qd (BForm 1 1 [rmon 1 0 0; rmon 1 1 0]) H1 p all true true = Ok (H2, v) /\
  run_solver ConvProofs5.within low_rank (fun _ b _ => Ok b) (fun l => l) qd (BForm 2 (-3) [rmon 1 0 0; rmon 1 1 0]) H1 p all true true = Ok (H2, v') /\
  forall i j, ~ boundary_row (v_space v) i -> glob_mat v i j = stiff_mat v i j + mass_mat v i j /\ glob_mat v' i j = 2 * stiff_mat v i j - 3 * mass_mat v i j.
Proof.
  destruct (C82_example low_rank) as (qd & H0 & H & m & H2 & v & edges & al & Q & E & MK & Es & _). unfold script in Es. rewrite MK in Es. cbn [bind] in Es. destruct (mk_gfs low_rank qd H m (PInt 2)) as [[[H1 p] all]|] eqn:G; [|discriminate]. cbn [bind] in Es.
  destruct (C86_matrices _ _ _ _ _ (BForm 1 1 [rmon 1 0 0; rmon 1 1 0]) (BForm 2 (-3) [rmon 1 0 0; rmon 1 1 0]) _ _ _ _ _ _ _ eq_refl Es) as (v' & E' & _ & M). destruct (C86_matrices _ _ _ _ _ (BForm 1 1 [rmon 1 0 0; rmon 1 1 0]) (BForm 1 1 [rmon 1 0 0; rmon 1 1 0]) _ _ _ _ _ _ _ eq_refl Es) as (v1 & E1 & _ & M1). rewrite Es in E1. apply Ok_inj in E1. injection E1 as ->.
  exists qd, H0, H, m, H1, p, all, H2, v, v'. do 6 (split; [assumption|]). intros i j Nb. destruct (M i j) as (_ & _ & _ & A). destruct (M1 i j) as (_ & _ & _ & A1). rewrite (A Nb), (A1 Nb). cbn [bf_diffusion bf_reaction]. split; ring.
Qed.
