(** The Nyström solver as a whole, continued: construction, and the sizes of its answers. *)
From Coq Require Import List ZArith Reals Lia Lra Bool String.
From Coquelicot Require Import Coquelicot.
From Verif Require Import PyBase PolyModel PolySpec BaryModel QuadModel VertModel EdgeModel EdgeSpec EdgeProps4 ContourModel CellModel CellSpec CellProofs CellProps ContourProofs ContourProofs2 ContourProofs3 InteriorProofs ContourProofs4 ContourProps CellProps3 TraceModel TraceSpec TraceProofs LocalProofs3 LocalModel LocalSpec LocalProofs LocalProofs2 LocalProofs5 FftModel FftSpec FftProofs FftProofs2 FftProofs3 FftProps AntilapModel AntilapSpec AntilapProofs AntilapProofs2 AntilapProofs3 AntilapProofs4 AntilapProps2 NystromModel NystromSpec NystromProofs NystromProofs2 NystromProofs3 NystromProofs4 NystromProofs5 NystromProofs6.
Import List ListNotations.
Open Scope R_scope.

Section Cell.
Context {contains : R -> list pt -> pt -> bool} {H : heap} {c : cell} {ess : list (list edge)}.
Hypothesis Rd : ready contains H c.
Hypothesis B : boundary_edges H c ess.
Local Notation es := (concat ess).
Local Notation N := (Z.to_nat (csize es)).
Local Notation h := (Z.to_nat (c_holes c)).
Let F := NpF Rd B.

Lemma layers_ok : apart (cell_grid c ess) -> separated (cell_grid c ess) -> build_layers H c = Ok (Layers (matrix_of single_entry (cell_grid c ess)) (matrix_of double_entry (cell_grid c ess)) (map (fun r => sum_list r) (matrix_of double_entry (cell_grid c ess)))).
Proof using Rd B.
  intros A Se. destruct (ready_odd _ _ _ _ Rd B) as (m & Lm & Om). unfold build_layers. rewrite (single_matrix H c ess m) by assumption. cbn [bind]. rewrite (double_matrix H c ess F A). cbn [bind]. reflexivity.
Qed.
Context (gm : (list R -> res (list R)) -> list R -> (list R -> res (list R)) -> res (list R)).
Hypothesis Gm : solves_sizes gm.
Lemma diag_entries (A : mat) : shape h h A -> exists d, map_res (fun i => do r <- geti A i; geti r i) (holes c) = Ok d /\ List.length d = h.
Proof.
  intros [L1 L2]. exists (map (fun i => nth i (nth i A []) 0) (seq 0 h)). split; [|rewrite map_length; apply seq_length]. unfold holes. apply map_res_map. intros i Ii. apply in_seq in Ii. rewrite (geti_at A [] i) by lia. cbn [bind]. apply geti_at. rewrite Forall_forall in L2. rewrite (L2 (nth i A [])); [lia|]. apply nth_In. lia.
Qed.
Theorem solver_ok L name s xs : build_layers H c = Ok L -> set_strategy name = Ok s -> centers c xs ->
  exists V d, mk_solver gm H c name "jacobi" = Ok V /\ sv_layers V = L /\ sv_strategy V = s /\ sv_diag V = jacobis es ++ d /\ List.length d = h /\ ((0 < c_holes c)%Z -> compute_log_terms H c L = Ok (sv_terms V)) /\
  ((0 < c_holes c)%Z -> s = ByFft -> exists l, sv_eta V = Some l /\ List.length l = h /\ Forall (fun t => exists v, tr_vals t = Some v /\ fitting es v) l).
Proof using Rd B Gm.
  intros EL Es Cx. unfold mk_solver. rewrite EL. cbn [bind]. pose proof (holes_Z Rd B) as HZ. destruct (Z.ltb_spec 0 (c_holes c)) as [Hp|Hz].
  - destruct (terms_ok Rd B L xs EL Cx) as (T & ET & _ & _ & S2 & _). rewrite ET. cbn [bind String.eqb]. destruct (diag_entries (lt_Sn T) S2) as (d & Ed & Ld). change (String.eqb "jacobi" "jacobi") with true. cbv iota. rewrite (diagonal_ok Rd B (lt_Sn T) d Ed). cbn [bind]. rewrite Es. cbn [bind]. destruct s.
    + cbn [bind]. eexists _, d. split; [reflexivity|]. cbn [sv_layers sv_strategy sv_diag sv_terms sv_eta]. repeat split; auto. discriminate.
    + destruct (indicators_ok Rd B gm Gm L EL d) as (l & El & Ll & Fl). rewrite El. cbn [bind]. eexists _, d. split; [reflexivity|]. cbn [sv_layers sv_strategy sv_diag sv_terms sv_eta]. repeat split; auto. intros _ _. exists l. auto.
  - cbn [bind]. assert (Z0 : c_holes c = 0%Z) by lia. change (String.eqb "jacobi" "jacobi") with true. cbv iota. rewrite (diagonal_ok Rd B (lt_Sn (LogTerms [] [] [])) []) by (unfold holes; rewrite Z0; reflexivity). cbn [bind]. rewrite Es. cbn [bind]. eexists _, []. split; [reflexivity|]. cbn [sv_layers sv_strategy sv_diag sv_terms sv_eta]. rewrite Z0. repeat split; lia.
Qed.
Theorem solver_tame L name s xs : build_layers H c = Ok L -> set_strategy name = Ok s -> centers c xs ->
  exists V, mk_solver gm H c name "jacobi" = Ok V /\ tame es h (to_nyst gm H c V).
Proof using Rd B Gm.
  intros EL Es Cx. destruct (solver_ok L name s xs EL Es Cx) as (V & d & EV & VL & Vs & Vd & Ld & VT & Ve). exists V. split; [exact EV|]. pose proof (holes_Z Rd B) as HZ.
  unfold to_nyst. apply (C55_tame contains (as_solver gm H c V) H c ess xs); try assumption.
  - intros Hp. unfold solver_fits, as_solver. cbn [as_strategy as_neumann as_eta]. rewrite Vs. destruct s.
    + intros w Fw. rewrite VL, Vd. destruct (solve_ok Rd B gm Gm L EL d w) as (v & Ev & Lv); [apply (fit_N Rd B), Fw|]. exists v. split; [exact Ev|apply (fit_N Rd B), Lv].
    + destruct (Ve Hp eq_refl) as (l & El & Ll & Fl). exists l. split; [exact El|]. intros m Lm. destruct (nth_error l m) as [t|] eqn:Et; [|apply nth_error_None in Et; lia]. rewrite Forall_forall in Fl. destruct (Fl t (nth_error_In _ _ Et)) as (v & Ev & Fv). exists t, v. auto.
  - intros v Fv. unfold harmonic_conjugate. destruct (deriv_fit Rd B v Fv) as (w & Ew & Fw). rewrite Ew. cbn [bind]. destruct (Z.eqb_spec (c_holes c) 0) as [Z0|Nz].
    + rewrite VL, Vd. destruct (solve_ok Rd B gm Gm L EL d (map Ropp w)) as (y & Ey & Ly); [rewrite map_length; apply (fit_N Rd B), Fw|]. rewrite Ey. cbn [bind]. exists y, []. rewrite Z0. split; [reflexivity|]. split; [apply (fit_N Rd B), Ly|reflexivity].
    + rewrite (proj2 (Z.ltb_lt _ _)) by lia. rewrite VL, Vd. destruct (holes_conj_ok Rd B gm Gm L EL (sv_terms V) xs (VT ltac:(lia)) Cx d v w) as (x & lc & E & Lx & Ll); [apply (fit_N Rd B), Fv|apply (fit_N Rd B), Fw|exact Ld|]. exists x, lc. split; [exact E|]. split; [apply (fit_N Rd B), Lx|exact Ll].
  - intros j Lj. destruct (terms_facts Rd B L EL (sv_terms V) xs (VT ltac:(lia)) Cx) as (Fl & _ & Lx). destruct (F2_at _ _ _ j Fl) as (xi & t & _ & Et & (E1 & E2 & _)); [rewrite <- (Forall2_len _ _ _ Fl); lia|]. eexists t, _, _. split; [exact Et|]. split; [exact E1|]. split; [exact E2|]. split; apply (fit_N Rd B), (fit_samples Rd B).
Qed.
End Cell.
