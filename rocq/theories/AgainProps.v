(** C84: the matrix and the right-hand side do not depend on the samples that edges already have, nor on
    an earlier or interrupted assembly over the same global function space. *)
From Coq Require Import List ZArith Reals Lia Lra Bool String Permutation.
From Verif Require Import PyBase PolyModel PolySpec PolyProofs PolyProps BaryModel QuadModel QuadProps VertModel EdgeModel ContourModel CellModel MeshModel MeshProofs MeshProps TraceModel LocalModel NystromModel EdgeSpaceModel GlobModel SolverModel LocSpaceModel LocSpaceSpec LocSpaceProps4 AsmModel AsmProofs3 DeparamProps PegSpec PegProofs PegProps PegProps2 BoardProofs BoardProps2 AgainProofs AgainProofs2.
From Verif Require ConvProofs5 BoardProofs3.
Import List ListNotations.
Open Scope R_scope.

(** Edges that may differ in their samples only *)
Definition same_edges (X Y : heap) : Prop := map deparameterize X = map deparameterize Y.
(** Solvers with the same linear system. The keys that their spaces have registered may differ. *)
Definition same_system (v v' : @solver lpois) : Prop :=
  v_entries v' = v_entries v /\ v_rhs v' = v_rhs v /\ v_num v' = v_num v /\ v_local v' = v_local v /\ v_soln v' = v_soln v /\ v_space v' = with_dofs (v_space v) (p_dofs (v_space v')) /\ List.length (p_dofs (v_space v')) = List.length (p_dofs (v_space v)).
Definition same_outcome {A} (Q : A -> A -> Prop) (r r' : res (heap * A)) : Prop :=
  match r, r' with Ok (X, v), Ok (X', v') => same_edges X X' /\ Q v v' | Err x, Err y => x = y | _, _ => False end.

Section Again.
Variable contains : R -> list pt -> pt -> bool.
Variable low_rank : nat -> matrix -> matrix.
Variable gmres : (list R -> res (list R)) -> list R -> (list R -> res (list R)) -> res (list R).
Variable set_iter : list Z -> list Z.
Variable qd : quad * quad.
Variable B : bform.
Notation step := (run_step contains low_rank gmres set_iter qd B).
Notation local := (build_local contains low_rank gmres set_iter qd).
Notation run := (run_solver contains low_rank gmres set_iter qd B).

(** Whatever samples the edges have, the run has the same outcome. *)
Theorem C84_samples X Y p all interior gradient : same_edges X Y -> same_outcome eq (run X p all interior gradient) (run Y p all interior gradient).
Proof.
  intros S. unfold run_solver. cbv zeta. pose proof (fold_same contains low_rank gmres set_iter qd B all interior gradient (seq 0 (Z.to_nat (m_ncells (p_mesh p)))) X Y (Work p [] [] (repeat None (Z.to_nat (m_ncells (p_mesh p))))) (same_bare_map _ _ S)) as F.
  destruct (fold_res _ _ (X, _)) as [[X1 w]|], (fold_res _ _ (Y, _)) as [[Y1 w']|]; cbn [same_res fst snd bind] in *; try contradiction; [|exact F]. destruct F as [S1 ->]. apply map_same_bare in S1.
  destruct (impose_bc _ _) as [sys|]; [|reflexivity]. cbn [bind]. repeat match goal with |- context [check_indices ?a ?b] => destruct (check_indices a b); [cbn [bind]|reflexivity] end. split; [exact S1|reflexivity].
Qed.

(** What a run over the space [p] has reached when it stops: the first [k] cells are done and the edges
    are as they were then but for samples; or in addition the keys of the next cell are registered. *)
Inductive reached (X : heap) (p : gspace) (all : list espace) (interior gradient : bool) : heap -> gspace -> Prop :=
| between k X1 w X' : (k <= Z.to_nat (m_ncells (p_mesh p)))%nat ->
    fold_res (step all interior gradient) (seq 0 k) (X, Work p [] [] (repeat None (Z.to_nat (m_ncells (p_mesh p))))) = Ok (X1, w) ->
    same_edges X1 X' -> reached X p all interior gradient X' (w_space w)
| within k X1 w z abs X2 c L r X' : (k < Z.to_nat (m_ncells (p_mesh p)))%nat ->
    fold_res (step all interior gradient) (seq 0 k) (X, Work p [] [] (repeat None (Z.to_nat (m_ncells (p_mesh p))))) = Ok (X1, w) ->
    geti (m_cells (p_mesh (w_space w))) k = Ok z -> get_abs_cell_idx (p_mesh (w_space w)) z = Ok abs ->
    local X1 (w_space w) all z interior gradient = Ok (X2, c, L) ->
    register X2 (w_space w) (Z.to_nat abs) (map key_of (get_basis L)) = Ok r ->
    same_edges X2 X' -> reached X p all interior gradient X' (fst r).

Lemma reached_edges n q X p all iv gv X' p' : get_quad_dict n q = Ok qd -> Forall new_edge (map deparameterize X) -> reached X p all iv gv X' p' -> same_edges X X'.
Proof.
  intros Q N [k X1 w Y _ F S|k X1 w z abs X2 c L r Y _ F _ _ El _ S]; pose proof (fold_bare contains low_rank gmres set_iter qd B n q all iv gv _ Q _ _ _ _ N F) as D; unfold same_edges in *; [congruence|].
  rewrite <- S. symmetry. rewrite <- D in N |- *. exact (local_bare contains low_rank gmres set_iter qd n q _ _ _ _ _ _ _ _ _ Q N El).
Qed.
Lemma reached_grows X p all iv gv X' p' : reached X p all iv gv X' p' -> grows p p' /\ (numbered p -> numbered p').
Proof.
  intros [k X1 w Y _ F S|k X1 w z abs X2 c L r Y _ F _ _ El Er S]; destruct (fold_grows contains low_rank gmres set_iter qd B _ _ _ _ _ _ _ _ F) as [G N]; cbn [w_space] in *; [auto|].
  split; [eapply grows_trans; [exact G|exact (register_grows _ _ _ _ _ Er)]|]. intros Np. exact (register_numbered _ _ _ _ _ (N Np) Er).
Qed.
Lemma reached_final X p all iv gv X' p' X1 w : reached X p all iv gv X' p' ->
  fold_res (step all iv gv) (seq 0 (Z.to_nat (m_ncells (p_mesh p)))) (X, Work p [] [] (repeat None (Z.to_nat (m_ncells (p_mesh p))))) = Ok (X1, w) -> grows p' (w_space w).
Proof.
  set (n := Z.to_nat (m_ncells (p_mesh p))). intros [k X2 u Y Lk F S|k X2 u z abs X3 c L r Y Lk F Ez Ea El Er Sx] E; fold n in Lk, F.
  - replace n with (k + (n - k))%nat in E at 1 by lia. rewrite seq_app, fold_res_app, F in E. cbn [bind] in E. exact (proj1 (fold_grows contains low_rank gmres set_iter qd B _ _ _ _ _ _ _ _ E)).
  - replace n with (k + S (n - S k))%nat in E at 1 by lia. rewrite seq_app, fold_res_app, F in E. cbn [bind plus seq fold_res] in E. destruct (step all iv gv (X2, u) k) as [[X4 w4]|] eqn:Es; [|discriminate]. cbn [bind] in E. pose proof (proj1 (fold_grows contains low_rank gmres set_iter qd B _ _ _ _ _ _ _ _ E)) as G.
    destruct (step_inv contains low_rank gmres set_iter qd B _ _ _ _ _ _ _ _ Es) as (z' & abs' & X5 & c' & L' & r' & Ez' & Ea' & El' & Er' & Ew & _). rewrite Ez in Ez'. apply Ok_inj in Ez'. subst z'. rewrite Ea in Ea'. apply Ok_inj in Ea'. subst abs'. rewrite El in El'. apply Ok_inj in El'. injection El' as -> -> ->. rewrite Er in Er'. apply Ok_inj in Er'. subst r'. rewrite <- Ew. exact G.
Qed.

(** A solver over the space that an earlier run, complete or not, has left has the outcome of the first:
    the same exception, or the same system. The space is fresh in the first run. Of every cell the keys
    of the earlier run come first. *)
Theorem C84_again n q (X : heap) p all interior gradient X' p' : get_quad_dict n q = Ok qd -> Forall new_edge (map deparameterize X) -> Forall (eq []) (p_dofs p) -> reached X p all interior gradient X' p' ->
  same_outcome (fun v v' => same_system v v' /\ forall c, nth c (p_dofs (v_space v')) [] = nth c (p_dofs p') [] ++ nth c (p_dofs (v_space v)) []) (run X p all interior gradient) (run X' p' all interior gradient).
Proof.
  intros Q N Fr Re. pose proof (reached_edges _ _ _ _ _ _ _ _ _ Q N Re) as S. destruct (reached_grows _ _ _ _ _ _ _ Re) as [(G & Lg & l & Ep) Nb]. assert (Em : forall c, nth c (p_dofs p) [] = []). { intros c. destruct (nth_in_or_default c (p_dofs p) []) as [I|I]; [|exact I]. rewrite Forall_forall in Fr. symmetry. exact (Fr _ I). }
  assert (Np : numbered p) by (intros c k I; rewrite Em in I; destruct I). unfold run_solver. cbv zeta. replace (p_mesh p') with (p_mesh p) by (rewrite Ep; reflexivity).
  pose proof (fold_near contains low_rank gmres set_iter qd B p p' all interior gradient (seq 0 (Z.to_nat (m_ncells (p_mesh p)))) (X, Work p [] [] (repeat None (Z.to_nat (m_ncells (p_mesh p))))) (X', Work p' [] [] (repeat None (Z.to_nat (m_ncells (p_mesh p)))))) as F.
  lapply F; clear F. 2:{ split; [exact (same_bare_map _ _ S)|]. split; [|auto]. cbn [fst snd w_space]. exists (p_dofs p'). split; [rewrite Ep; reflexivity|]. split; [exact Lg|]. split; [intros c; exists []; rewrite !app_nil_r; auto|]. intros c k. split; [apply G|auto]. }
  intros F. match type of F with same_res _ ?a ?b => destruct a as [[X1 w]|] eqn:E, b as [[Y1 w']|] end; cbn [same_res bind] in *; try contradiction; [|exact F].
  destruct F as (S1 & M & E1 & E2 & E3). cbn [fst snd] in *. apply map_same_bare in S1. pose proof (reached_final _ _ _ _ _ _ _ _ _ Re E) as (Gf & _). pose proof (proj2 (fold_grows contains low_rank gmres set_iter qd B _ _ _ _ _ _ _ _ E) Np) as Nw. cbn [w_space] in Nw.
  rewrite E1, E2, (impose_more low_rank qd p p' _ _ _ M Gf Nw). destruct M as (l' & Ew & Ll & Sp & _). rewrite Ew. cbn [with_dofs p_num]. destruct (impose_bc _ _) as [sys|]; [|reflexivity]. cbn [bind]. repeat match goal with |- context [check_indices ?a ?b] => destruct (check_indices a b); [cbn [bind]|reflexivity] end.
  split; [exact S1|]. split; [repeat split; [exact E3|exact Ll]|]; cbn [v_space v_local with_dofs p_dofs]. intros c. destruct (Sp c) as (s & -> & ->). rewrite Em. reflexivity.
Qed.

(** After a complete run a second solver exists and has the same system, and every key is registered twice. *)
Theorem C84_second n q (X : heap) p all interior gradient X1 v : get_quad_dict n q = Ok qd -> Forall new_edge (map deparameterize X) -> Forall (eq []) (p_dofs p) -> run X p all interior gradient = Ok (X1, v) ->
  exists X2 v2, run X1 (v_space v) all interior gradient = Ok (X2, v2) /\ same_edges X X2 /\ same_system v v2 /\ forall c, nth c (p_dofs (v_space v2)) [] = nth c (p_dofs (v_space v)) [] ++ nth c (p_dofs (v_space v)) [].
Proof.
  intros Q N Fr E. assert (Re : reached X p all interior gradient X1 (v_space v)).
  { unfold run_solver in E. cbv zeta in E. destruct (fold_res _ _ _) as [[X2 w]|] eqn:F; [|discriminate]. cbn [bind] in E. destruct (impose_bc _ _); [|discriminate]. cbn [bind] in E. repeat match type of E with context [check_indices ?a ?b] => destruct (check_indices a b); [cbn [bind] in E|discriminate] end. apply Ok_inj in E. injection E as -> ->. cbn [v_space]. eapply between; [apply le_n|exact F|reflexivity]. }
  pose proof (C84_again n q X p all interior gradient X1 (v_space v) Q N Fr Re) as A. rewrite E in A. unfold same_outcome in A. destruct (run X1 (v_space v) all interior gradient) as [[X2 v2]|]; [|contradiction]. destruct A as (S & Sy & D). exists X2, v2. split; [reflexivity|]. split; [|auto].
  pose proof (reached_edges _ _ _ _ _ _ _ _ _ Q N Re) as S1. unfold same_edges in *. congruence.
Qed.

(** The second solver forms the same functions from coefficients as the first, although it has every key twice. *)
Theorem C84_combo fzero fadd fscale n q (X : heap) p all interior gradient X1 v X2 v2 z coef u : get_quad_dict n q = Ok qd -> Forall new_edge (map deparameterize X) -> Forall (eq []) (p_dofs p) ->
  run X p all interior gradient = Ok (X1, v) -> run X1 (v_space v) all interior gradient = Ok (X2, v2) -> linear_combo fzero fadd fscale v z coef = Ok u -> linear_combo fzero fadd fscale v2 z coef = Ok u.
Proof.
  intros Q N Fr E E2 L. destruct (C84_second n q X p all interior gradient X1 v Q N Fr E) as (X2' & v2' & E2' & _ & (_ & _ & _ & Lo & _ & Sp & Ld) & Db). rewrite E2 in E2'. apply Ok_inj in E2'. injection E2' as -> ->.
  unfold linear_combo, get_coef in *. rewrite Lo. replace (p_mesh (v_space v2)) with (p_mesh (v_space v)) by (rewrite Sp; reflexivity). destruct (get_abs_cell_idx _ z) as [abs|]; [|discriminate]. cbn [bind] in *. destruct (pyget (v_local v) abs) as [[fs|]|]; [|discriminate|discriminate]. cbn [bind] in *.
  destruct (pyget (p_dofs (v_space v)) abs) as [d|] eqn:Pd; [|discriminate]. cbn [bind] in L. assert (Pd2 : pyget (p_dofs (v_space v2)) abs = Ok (d ++ d)).
  { unfold pyget in *. cbv zeta in *. rewrite Ld. match type of Pd with (if ?b then _ else geti _ ?j) = _ => destruct b; [discriminate|]; set (i := j) in * end. unfold geti in *. destruct (nth_error (p_dofs (v_space v)) i) as [d0|] eqn:Ni; [|discriminate]. apply Ok_inj in Pd. subst d0.
    assert (Li : (i < List.length (p_dofs (v_space v2)))%nat) by (rewrite Ld; apply nth_error_Some; congruence). rewrite (nth_error_nth' _ [] Li), Db, (nth_error_nth _ _ _ Ni). reflexivity. }
  rewrite Pd2. cbn [bind]. destruct (map_res _ d) as [lc|] eqn:Ml; [|discriminate]. cbn [bind] in L.
  assert (Ml2 : map_res (fun k => do g <- glob k; pyget coef g) (d ++ d) = Ok (lc ++ lc)).
  { assert (Gen : forall (f : gkey -> res R) a b ra rb, map_res f a = Ok ra -> map_res f b = Ok rb -> map_res f (a ++ b) = Ok (ra ++ rb)). { intros f. induction a as [|x a IH]; intros b ra rb Ea Ebb; [cbn in *; apply Ok_inj in Ea; subst; exact Ebb|]. cbn in *. destruct (f x); [|discriminate]. cbn in *. destruct (map_res f a); [|discriminate]. cbn in Ea. apply Ok_inj in Ea. subst ra. rewrite (IH b _ rb eq_refl Ebb). reflexivity. } apply Gen; exact Ml. }
  rewrite Ml2. cbn [bind]. revert L. generalize (fzero (Z.to_nat abs)). generalize (combine (seq 0 (List.length fs)) fs). intros l. induction l as [|[i f] l IH]; intros w L; [exact L|]. cbn [fold_res fst snd] in *. unfold geti at 1 in L. destruct (nth_error lc i) as [x|] eqn:Nx; [|discriminate]. cbn [bind] in L. unfold geti at 1. rewrite nth_error_app1 by (apply nth_error_Some; congruence). rewrite Nx. cbn [bind]. apply IH, L.
Qed.

(** A script that ends: its solver can be built again from its global space. *)
Theorem C84_script n q H0 is deg interior gradient H m H1 p all H2 v : get_quad_dict n q = Ok qd -> Forall new_edge H0 -> mk_mesh H0 is = Ok (H, m) -> mk_gfs low_rank qd H m deg = Ok (H1, p, all) ->
  script contains low_rank gmres set_iter qd B H0 is deg interior gradient = Ok (H2, v) ->
  exists H3 v2, run H2 (v_space v) all interior gradient = Ok (H3, v2) /\ same_edges H1 H3 /\ same_system v v2.
Proof.
  intros Q N M G E. unfold script in E. rewrite M in E. cbn [bind] in E. rewrite G in E. cbn [bind] in E.
  assert (NH : Forall new_edge H) by exact (mesh_new _ _ _ _ N M).
  unfold mk_gfs, build_edge_spaces in G. destruct (set_deg deg) as [d|] eqn:Ed; [|discriminate]. cbn [bind] in G. destruct (fold_res _ _ _) as [[H3 all']|] eqn:F; [|discriminate]. cbn [bind] in G. destruct (mk_space m (PInt d) _) as [p'|] eqn:Sp; [|discriminate]. cbn [bind] in G. apply Ok_inj in G. injection G as -> -> ->.
  destruct (spaces_new low_rank n q qd (m_edges m) (PInt d) Q H [] H3 all' NH F) as (-> & _). assert (D : map deparameterize H = H) by (rewrite <- (map_id H) at 2; apply map_ext_in; intros e Ie; apply new_bare; rewrite Forall_forall in NH; apply NH, Ie).
  destruct (C84_second n q H p' all' interior gradient H2 v Q ltac:(rewrite D; exact NH)) as (H3 & v2 & A & S & Sy & _); [|exact E|exists H3, v2; auto].
  unfold mk_space in Sp. destruct (set_deg (PInt d)); [|discriminate]. cbn [bind] in Sp. apply Ok_inj in Sp. subst p'. cbn [p_dofs]. apply Forall_forall. intros x I. apply repeat_spec in I. congruence.
Qed.
End Again.
Print Assumptions C84_samples.
Print Assumptions C84_again.
Print Assumptions C84_second.
Print Assumptions C84_combo.
Print Assumptions C84_script.

(** On the board of C82_example the run ends; when it is interrupted after five of the twelve cells and started again on what is left, it ends with the same system. *)
Example C84_example low_rank : exists qd H0 H m H1 p all H2 v X5 w5 H3 v3 H4 v4, get_quad_dict (PInt 16) 7 = Ok qd /\ pegboard (2, 3)%Z (1 / 4) = Ok (H, m) /\ mk_mesh H0 (seq 0 (List.length H0)) = Ok (H, m) /\ m_ncells m = 12%Z /\
  mk_gfs low_rank qd H m (PInt 2) = Ok (H1, p, all) /\
  (let run := run_solver ConvProofs5.within low_rank (fun _ b _ => Ok b) (fun l => l) qd (BForm 1 1 [rmon 1 0 0; rmon 1 1 0]) in
   let step := run_step ConvProofs5.within low_rank (fun _ b _ => Ok b) (fun l => l) qd (BForm 1 1 [rmon 1 0 0; rmon 1 1 0]) in
   run H1 p all true true = Ok (H2, v) /\ fold_res (step all true true) (seq 0 5) (H1, Work p [] [] (repeat None 12)) = Ok (X5, w5) /\
   run X5 (w_space w5) all true true = Ok (H3, v3) /\ same_system v v3 /\ run H2 (v_space v) all true true = Ok (H4, v4) /\ same_system v v4).
Proof.
  destruct (C82_example low_rank) as (qd & H0 & H & m & H2 & v & _ & _ & Q & E & MK & Es & _). destruct (pegboard_ok 2 3 (1 / 4)) as (H' & m' & E' & _ & _ & _ & MK'); [lia|lia|]. cbn [Z.of_nat Pos.of_succ_nat Pos.succ] in E'. rewrite E in E'. apply Ok_inj in E'. injection E' as -> ->.
  pose proof (mesh_new _ _ _ _ (board_new 2 3 (1 / 4) ltac:(lia)) MK') as NH. assert (D : map deparameterize H = H) by (rewrite <- (map_id H) at 2; apply map_ext_in; intros e Ie; apply new_bare; rewrite Forall_forall in NH; apply NH, Ie).
  assert (Nc : m_ncells m = 12%Z). { destruct (BoardProofs3.board_counts 2 3 (1 / 4) H m ltac:(lia) ltac:(lia) E) as [-> _]; [|]; unfold holes_of; destruct (Rle_dec (1 / 4) 0); try lra; [cbn; lia|reflexivity]. }
  unfold script in Es. rewrite MK in Es. cbn [bind] in Es. destruct (mk_gfs low_rank qd H m (PInt 2)) as [[[H1 p] all]|] eqn:G; [|discriminate]. cbn [bind] in Es.
  assert (K : H1 = H /\ Forall (eq []) (p_dofs p) /\ p_mesh p = m).
  { unfold mk_gfs, build_edge_spaces in G. cbn [set_deg as_int bind Z.ltb Z.compare Pos.compare Pos.compare_cont] in G. destruct (fold_res _ _ _) as [[H3 all']|] eqn:F; [|discriminate]. cbn [bind] in G. destruct (mk_space m (PInt 2) _) as [p'|] eqn:Sp; [|discriminate]. cbn [bind] in G. apply Ok_inj in G. injection G as -> -> ->. split; [exact (proj1 (spaces_new low_rank (PInt 16) 7 qd (m_edges m) (PInt 2) Q H [] H3 all' NH F))|]. unfold mk_space in Sp. cbn [set_deg as_int bind Z.ltb Z.compare Pos.compare Pos.compare_cont] in Sp. apply Ok_inj in Sp. subst p'. cbn [p_dofs p_mesh]. split; [|reflexivity]. apply Forall_forall. intros x I. apply repeat_spec in I. congruence. }
  destruct K as (-> & Fr & Pm). assert (ND : Forall new_edge (map deparameterize H)) by (rewrite D; exact NH).
  destruct (C84_second _ _ _ _ _ _ _ _ _ _ _ _ _ _ _ Q ND Fr Es) as (H4 & v4 & E4 & _ & S4 & _).
  pose proof Es as Es'. unfold run_solver in Es'. cbv zeta in Es'. rewrite Pm, Nc in Es'. change (Z.to_nat 12) with (5 + 7)%nat in Es' at 1. rewrite seq_app, fold_res_app in Es'. destruct (fold_res _ (seq 0 5) _) as [[X5 w5]|] eqn:F5; [|discriminate].
  assert (Re : reached ConvProofs5.within low_rank (fun _ b _ => Ok b) (fun l => l) qd (BForm 1 1 [rmon 1 0 0; rmon 1 1 0]) H p all true true X5 (w_space w5)). { eapply (between _ _ _ _ _ _ _ _ _ _ _ 5); [rewrite Pm, Nc; cbn; lia|rewrite Pm, Nc; exact F5|reflexivity]. }
  pose proof (C84_again _ _ _ _ _ _ _ _ _ _ _ _ _ _ _ Q ND Fr Re) as A. rewrite Es in A. unfold same_outcome in A. destruct (run_solver _ _ _ _ _ _ X5 _ _ _ _) as [[H3 v3]|] eqn:E3; [|contradiction]. destruct A as (_ & S3 & _).
  exists qd, H0, H, m, H, p, all, H2, v, X5, w5, H3, v3, H4, v4. split; [exact Q|]. split; [exact E|]. split; [exact MK|]. split; [exact Nc|]. split; [exact G|]. cbv zeta. split; [exact Es|]. split; [exact F5|]. split; [exact E3|]. split; [exact S3|]. split; [exact E4|exact S4].
Qed.
