(** Edges: C29 (repeated parameterization), C30 (vertices and samples), C33 (integration),
    C34 (dot products), C35 (bounding boxes). *)
From Coq Require Import List ZArith Reals Lia Lra Psatz Bool String.
From Coquelicot Require Import Coquelicot.
From Verif Require Import PyBase PolyModel BaryModel BarySpec BBoxModel QuadModel QuadSpec QuadProofs QuadProps CurveModel CurveSpec CurveProps VertModel EdgeModel EdgeSpec EdgeProofs EdgeProofs2 EdgeProps EdgeProps2.
Import List ListNotations.
Open Scope R_scope.

Ltac ecbn := cbv beta iota zeta delta [with_diary with_smp with_param with_qtype set_verts set_cells deparameterize e_diary e_anchor e_endpnt e_pos e_neg e_curve e_opts e_qtype e_idx e_bdry e_loop e_param e_npts e_smp e_tb fst snd].

(** ** C29 *)

(** Only the description of the edge matters: its previous samples do not. *)
Theorem C29_deparameterize qd e : parameterize qd (deparameterize e) = parameterize qd e.
Proof. reflexivity. Qed.

Lemma parameterize_depends qd e1 e2 : deparameterize e1 = deparameterize e2 -> parameterize qd e1 = parameterize qd e2.
Proof. intros H. rewrite <- (C29_deparameterize qd e1), <- (C29_deparameterize qd e2), H. reflexivity. Qed.

(** Histories without join_points: parameterizing again changes nothing. *)
Theorem C29_no_join n p qd e e1 : get_quad_dict n p = Ok qd -> last_join (e_diary e) = None ->
  parameterize qd e = Ok e1 -> parameterize qd e1 = Ok e1.
Proof.
  intros HD HJ H. destruct (parameterize_frame _ _ _ _ _ HD H) as (q & _ & E). unfold after_diary in E. rewrite HJ in E.
  rewrite <- H. apply parameterize_depends. rewrite E. reflexivity.
Qed.
Print Assumptions C29_no_join.

(** For every history, from the second call on nothing changes any more. *)
Theorem C29_stable n p qd e e1 e2 : get_quad_dict n p = Ok qd -> parameterize qd e = Ok e1 -> parameterize qd e1 = Ok e2 ->
  parameterize qd e2 = Ok e2 /\ parameterize qd (deparameterize e2) = Ok e2.
Proof.
  intros HD H1 H2. assert (E : parameterize qd e2 = Ok e2); [|split; [exact E|rewrite C29_deparameterize; exact E]].
  destruct (parameterize_frame _ _ _ _ _ HD H1) as (q1 & _ & E1). destruct (parameterize_frame _ _ _ _ _ HD H2) as (q2 & _ & E2).
  rewrite <- H2. apply parameterize_depends. clear HD H1 H2 qd n p. remember (e_smp e1) as m1 eqn:Q1. clear Q1. remember (e_smp e2) as m2 eqn:Q2. clear Q2.
  unfold after_diary in E1. destruct (last_join (e_diary e)) as [[a b]|] eqn:J.
  - subst e1. subst e2. unfold set_verts, with_smp, with_param, after_diary, deparameterize. cbn [e_diary e_anchor e_endpnt e_pos e_neg e_curve e_opts e_qtype e_idx e_bdry e_loop e_param e_npts e_smp e_tb with_qtype].
    destruct (veqb a (VVert b)) eqn:V; cbn [last_join with_param with_qtype e_diary e_anchor e_endpnt e_pos e_neg e_curve e_opts e_qtype e_idx e_bdry e_loop e_param e_npts e_smp e_tb]; [reflexivity|].
    unfold set_verts, with_smp. cbn [with_param with_qtype e_diary e_anchor e_endpnt e_pos e_neg e_curve e_opts e_qtype e_idx e_bdry e_loop e_param e_npts e_smp e_tb]. rewrite V. reflexivity.
  - subst e1. subst e2. unfold after_diary. cbn [with_smp with_param e_diary]. rewrite J. reflexivity.
Qed.
Print Assumptions C29_stable.

(** Any number of further calls, with or without deparameterize in between *)
Fixpoint reparameterize (qd : quad * quad) (between : list bool) (e : edge) : res edge :=
  match between with
  | [] => Ok e
  | b :: l => do e' <- parameterize qd (if b then deparameterize e else e); reparameterize qd l e'
  end.
Lemma reparameterize_fix qd e l : parameterize qd e = Ok e -> reparameterize qd l e = Ok e.
Proof. intros H. induction l as [|b l IH]; [reflexivity|]. cbn. destruct b; rewrite ?C29_deparameterize, H; exact IH. Qed.

Lemma sim_comp_assoc S3 S2 S1 : sim_comp S3 (sim_comp S2 S1) = sim_comp (sim_comp S3 S2) S1.
Proof.
  destruct S3 as [[a b] [c d] f], S2 as [[a' b'] [c' d'] f'], S1 as [[a'' b''] [c'' d''] f'']. unfold sim_comp, sapp, lin, pt_mul, pt_add. cbn [s_c s_d s_flip fst snd].
  destruct f, f', f''; cbn [xorb fst snd pt_conj]; f_equal; f_equal; cbn [fst snd]; ring.
Qed.
Lemma sim_comp_id_r S : sim_comp S sim_id = S.
Proof. destruct S as [[a b] [c d] f]. unfold sim_comp, sim_id, sapp, lin, pt_mul, pt_add. cbn [s_c s_d s_flip fst snd]. destruct f; cbn [xorb pt_conj fst snd]; f_equal; f_equal; ring. Qed.
Lemma sim_comp_id_l S : sim_comp sim_id S = S.
Proof. destruct S as [[a b] [c d] f]. unfold sim_comp, sim_id, sapp, lin, pt_mul, pt_add. cbn [s_c s_d s_flip fst snd]. destruct f; cbn [xorb pt_conj fst snd]; f_equal; f_equal; ring. Qed.

Lemma diary_sim_app l m : forall u v, let S := diary_sim u v l in
  diary_sim u v (l ++ m) = sim_comp (diary_sim (sapp S u) (sapp S v) m) S /\ (diary_fine u v (l ++ m) <-> diary_fine u v l /\ diary_fine (sapp S u) (sapp S v) m).
Proof.
  induction l as [|s l IH]; intros u v; cbv zeta.
  - cbn [List.app diary_sim diary_fine]. rewrite !id_app, sim_comp_id_r. tauto.
  - cbn [List.app diary_sim diary_fine]. set (S1 := step_sim u v s). destruct (IH (sapp S1 u) (sapp S1 v)) as [A B]. cbv zeta in A, B. rewrite A. rewrite !comp_app. split; [symmetry; apply sim_comp_assoc|]. cbv zeta. rewrite B. tauto.
Qed.

(** A history that ends with a join_points and before it does not reverse orientation: every
    further call gives the same edge. A fresh edge between distinct vertices is of this kind.
    Missing: histories with a transformation after the join (refuted below) or with a
    reflection before it. *)
Theorem C29_join_last_partial n p qd e q X DX DDX pre a b : get_quad_dict n p = Ok qd -> pick qd e = Ok q ->
  cX (e_curve e) (e_opts e) = Ok X -> cDX (e_curve e) (e_opts e) = Ok DX -> cDDX (e_curve e) (e_opts e) = Ok DDX ->
  fst (e_tb e) < snd (e_tb e) -> (forall t, fst (e_tb e) <= t <= snd (e_tb e) -> 0 < norm2 (DX t)) ->
  e_diary e = pre ++ [SJoin a b] -> let x0 := X (fst (e_tb e)) in let x1 := X (snd (e_tb e)) in
  diary_fine x0 x1 (e_diary e) -> s_flip (diary_sim x0 x1 pre) = false -> step_fine x0 x1 (SJoin a b) ->
  exists e1, parameterize qd e = Ok e1 /\ forall l, reparameterize qd l e1 = Ok e1.
Proof.
  intros HD Hq HX HDX HDDX HT HR HJ x0 x1 HF HFl HSt. pose proof PI_RGT_0 as HP. pose proof TOL_pos as HTol.
  assert (Hdt : 0 < param_dt e) by (unfold param_dt; apply Rdiv_lt_0_compat; lra).
  assert (HR' : forall t, 0 <= t <= 2 * PI -> 0 < norm2 (pt_scale (param_dt e) (DX (param_arg e t)))).
  { intros t Ht. rewrite norm2_scale. apply Rmult_lt_0_compat; [nra|]. apply HR. unfold param_arg. split; [nra|]. apply Rle_trans with (fst (e_tb e) + 2 * PI * param_dt e); [nra|]. unfold param_dt. right. field. lra. }
  pose proof (parameterize_jets n p qd e q X DX DDX HD Hq HX HDX HDDX HR' HF) as E1. cbv zeta in E1. fold x0 x1 in E1.
  destruct (pick_ok _ _ _ _ _ HD Hq) as (_ & Ty & _).
  rewrite HJ in HF. destruct (diary_sim_app pre [SJoin a b] x0 x1) as [F3 F]. cbv zeta in F3, F. apply F in HF as HF'. destruct HF' as (F1 & F2 & _). cbn [diary_sim] in F3. rewrite sim_comp_id_l in F3. cbn [step_sim] in F3. rewrite <- HJ in HF, F3.
  assert (D0 : 0 < pdist x0 x1) by (destruct HSt as (_ & H & _); lra).
  rewrite (join_sim_comp _ x0 x1 _ _ HFl (diary_c_pos _ _ _ F1) D0) in F3.
  match type of E1 with _ = Ok ?x => set (e1 := x) in E1 end. exists e1. split; [exact E1|]. intros l. apply reparameterize_fix.
  assert (LJ : last_join (e_diary e) = Some (a, b)).
  { rewrite HJ. clear. induction pre as [|s l IH]; [reflexivity|]. cbn. rewrite IH. reflexivity. }
  assert (V : veqb a (VVert b) = false) by (unfold veqb, vnorm, mkvert; cbn [vx vy]; rewrite pdist_pow; apply Rltb_false; destruct HSt as (H & _); exact H).
  assert (D1 : e_diary e1 = [SJoin a b]) by (unfold e1, after_diary; rewrite LJ; unfold set_verts; rewrite V; reflexivity).
  assert (C1 : e_curve e1 = e_curve e /\ e_opts e1 = e_opts e /\ e_tb e1 = e_tb e /\ e_qtype e1 = e_qtype e).
  { unfold e1, after_diary. rewrite LJ. ecbn. rewrite Ty. repeat split. }
  destruct C1 as (C1 & C2 & C3 & C4).
  assert (Hq1 : pick qd e1 = Ok q) by (unfold pick in *; rewrite C4; exact Hq).
  assert (PA : param_arg e1 = param_arg e /\ param_dt e1 = param_dt e) by (unfold param_arg, param_dt; rewrite C3; split; reflexivity). destruct PA as [PA PD].
  pose proof (parameterize_jets n p qd e1 q X DX DDX HD Hq1) as E2. rewrite C1, C2, C3, PA, PD, D1 in E2. fold x0 x1 in E2. specialize (E2 HX HDX HDDX HR' (conj HSt I)). cbv zeta in E2.
  rewrite E2. f_equal.
  assert (ES : diary_sim x0 x1 [SJoin a b] = diary_sim x0 x1 (e_diary e)).
  { rewrite F3. cbn [diary_sim]. apply sim_comp_id_l. }
  rewrite ES. unfold e1, after_diary. rewrite LJ. cbn [last_join]. ecbn. rewrite V. reflexivity.
Qed.
Print Assumptions C29_join_last_partial.

(** A transformation after the join is lost at the third call: parameterize rewrites the diary
    to the join alone. The edge from (0,0) to (1,0), translated by (1,0): the first call starts at
    (1,0), the second at (0,0). *)
Theorem C29_refuted : exists e e0 e1 e2, mk_edge (mkvert 0 0) (mkvert 1 0) (-1) (-1) Line "trap" None (0, 2 * PI) [] = Ok e /\
  apply_step true (STranslate (mkvert 1 0)) e = Ok e0 /\ parameterize dict4 e0 = Ok e1 /\ parameterize dict4 e1 = Ok e2 /\
  option_map sx (nth_error (e_smp e1) 0) = Some (1, 0) /\ option_map sx (nth_error (e_smp e2) 0) = Some (0, 0).
Proof.
  pose proof PI_RGT_0 as HP. set (a := mkvert 0 0). set (b := mkvert 1 0). assert (D1 : pdist (coord a) (coord b) = 1) by exact dist01.
  assert (SJ : step_fine (0, 0) (1, 0) (SJoin a b)) by (cbn [step_fine]; rewrite D1, dist01; unfold TOL; repeat split; lra).
  assert (V : veqb a (VVert b) = false) by (unfold veqb, vnorm, mkvert; cbn [vx vy]; rewrite pdist_pow, D1; apply Rltb_false; unfold TOL; lra).
  assert (F2 : diary_fine (0, 0) (1, 0) [SJoin a b; STranslate b]) by (split; [exact SJ|split; exact I]).
  exists (line_edge a b), (with_diary (line_edge a b) [SJoin a b; STranslate b]).
  pose proof (line_param a b _ F2) as E1. cbv zeta in E1. pose proof (line_param a b [SJoin a b] (conj SJ I)) as E2. cbv zeta in E2.
  do 2 eexists. split; [apply line_edge_mk; rewrite D1; unfold TOL; lra|]. split; [reflexivity|]. split; [exact E1|]. split.
  - etransitivity; [|exact E2]. apply parameterize_depends. unfold after_diary. cbn [last_join]. unfold line_edge. ecbn. rewrite V. ecbn. reflexivity.
  - match goal with |- context [e_smp (with_qtype (after_diary [SJoin a b; STranslate b] ?e0 ?m) ?y)] => destruct (after_diary_fields [SJoin a b; STranslate b] e0 m y) as (_ & _ & ->) end.
    match goal with |- context [e_smp (with_qtype (after_diary [SJoin a b] ?e0 ?m) ?y)] => destruct (after_diary_fields [SJoin a b] e0 m y) as (_ & _ & ->) end.
    unfold curve_jets, linspace. rewrite !nth_error_map. cbn [seq map combine nth_error option_map fst snd sample_of sx jx].
    cbn [diary_sim]. rewrite !comp_app, !id_app. replace ((0 + INR 0 * ((2 * PI - 0) / INR 8)) / (2 * PI), 0) with ((0, 0) : pt) by (cbn [INR]; f_equal; field; lra).
    assert (J : sapp (step_sim (0, 0) (1, 0) (SJoin a b)) (0, 0) = (0, 0)) by (apply (join_sim_ends (0, 0) (1, 0) (coord a) (coord b)); rewrite dist01; lra).
    rewrite J. split; [|reflexivity]. f_equal. unfold sapp, lin, pt_mul, pt_add, coord, b, mkvert. cbn [step_sim s_c s_d s_flip fst snd vx vy coord]. f_equal; ring.
Qed.
Print Assumptions C29_refuted.

(** A fresh straight edge meets the hypotheses of [C29_join_last_partial]. *)
Example C29_example l : exists e1, parameterize dict4 (line_edge (mkvert 0 0) (mkvert 1 0)) = Ok e1 /\ reparameterize dict4 l e1 = Ok e1.
Proof.
  pose proof PI_RGT_0 as HP. assert (D1 : pdist (coord (mkvert 0 0)) (coord (mkvert 1 0)) = 1) by exact dist01. destruct line_ends as [L0 L1].
  assert (SJ : step_fine (0, 0) (1, 0) (SJoin (mkvert 0 0) (mkvert 1 0))) by (cbn [step_fine]; rewrite D1, dist01; unfold TOL; repeat split; lra).
  destruct (C29_join_last_partial (PInt 4) 7 dict4 (line_edge (mkvert 0 0) (mkvert 1 0)) (fst dict4) _ _ _ [] (mkvert 0 0) (mkvert 1 0) dict4_ok eq_refl eq_refl eq_refl eq_refl) as (e1 & E & R); cbn [line_edge e_tb e_diary fst snd List.app]; rewrite ?L0, ?L1.
  - lra.
  - intros t _. unfold norm2. cbn [fst snd]. assert (0 < 1 / (2 * PI)) by (apply Rdiv_lt_0_compat; lra). nra.
  - reflexivity.
  - split; [exact SJ|exact I].
  - reflexivity.
  - exact SJ.
  - exists e1. split; [exact E|apply R].
Qed.

(** ** C30 *)

(** Whenever the history ends with a join, in particular for a fresh edge between distinct
    vertices, the vertices of the parameterized edge are its first and last samples. *)
Theorem C30_join_last_partial n p qd e e' pre a b : get_quad_dict n p = Ok qd -> e_diary e = pre ++ [SJoin a b] -> parameterize qd e = Ok e' ->
  e_anchor e' = a /\ e_endpnt e' = b /\ e_loop e' = false /\
  option_map sx (nth_error (e_smp e') 0) = Some (coord a) /\ option_map sx (nth_error (e_smp e') (Z.to_nat (e_npts e' - 1))) = Some (coord b).
Proof.
  intros HD HJ H. destruct (parameterize_frame _ _ _ _ _ HD H) as (q & Hq & _). unfold parameterize in H. fold (pick qd e) in H. rewrite Hq in H. cbn [bind] in H.
  destruct (e_tb e) as [ta tb]. destruct (cX (e_curve e) (e_opts e)) as [X|]; [|discriminate]. destruct (cDX (e_curve e) (e_opts e)) as [DX|]; [|discriminate]. destruct (cDDX (e_curve e) (e_opts e)) as [DDX|]; [|discriminate].
  cbn [bind] in H. unfold run_diary in H. cbn [e_diary with_param] in H. rewrite HJ, fold_res_app in H.
  match type of H with context [fold_res _ pre ?x] => set (e0 := x) in H end. destruct (fold_res _ pre e0) as [e1|] eqn:E1; [|discriminate]. cbn [bind fold_res] in H.
  destruct (apply_step false (SJoin a b) e1) as [e2|] eqn:E2; [|discriminate]. cbn [bind] in H. apply Ok_inj in H. subst e'. cbn [e_anchor e_endpnt e_loop e_smp e_npts with_qtype].
  assert (P1 : e_param e1 = true) by (rewrite (diary_frame _ e0 e1 eq_refl E1); unfold after_diary; destruct (last_join pre) as [[? ?]|]; reflexivity).
  cbn [apply_step] in E2. pose proof E2 as E2'. unfold join_points in E2'. destruct (Rltb _ TOL); [discriminate|]. cbv zeta in E2'. rewrite log_param, P1 in E2'. cbn [log] in E2'.
  destruct (nth_error (e_smp e1) 0) as [s0|] eqn:N0; [|discriminate]. destruct (nth_error (e_smp e1) (Z.to_nat (e_npts e1 - 1))) as [s1|] eqn:N1; [|discriminate]. clear E2'.
  destruct (C28_rejected false a b e1) as (_ & _ & R & _). destruct (proj1 (R s0 s1 P1 N0 N1) (ex_intro _ e2 E2)) as (F1 & F2 & F3).
  destruct (join_pos false a b e1 s0 s1 P1 N0 N1 F1 F2 F3) as (e3 & J & A & B & _ & L & _). rewrite E2 in J. apply Ok_inj in J. subst e3.
  destruct (C28_join false a b e1 s0 s1 P1 N0 N1 F1 F2 F3) as (e3 & J & _ & _ & _ & G0 & G1 & _). rewrite E2 in J. apply Ok_inj in J. subst e3.
  repeat split; assumption.
Qed.
Print Assumptions C30_join_last_partial.

Theorem C30_fresh n p qd a b pc nc c qt i tb o e e' : get_quad_dict n p = Ok qd -> mk_edge a b pc nc c qt i tb o = Ok e -> e_loop e = false ->
  parameterize qd e = Ok e' ->
  e_anchor e' = a /\ e_endpnt e' = b /\
  option_map sx (nth_error (e_smp e') 0) = Some (coord a) /\ option_map sx (nth_error (e_smp e') (Z.to_nat (e_npts e' - 1))) = Some (coord b).
Proof.
  intros HD HM HL HE. assert (D : e_diary e = [] ++ [SJoin a b]).
  { unfold mk_edge in HM. destruct (check_idx i) as [j|]; [|discriminate]. cbn [bind] in HM. destruct (check_t_bounds tb) as [t|]; [|discriminate]. cbn [bind] in HM. apply Ok_inj in HM. subst e.
    unfold set_cells, set_verts in *. cbn [e_loop e_diary] in *. destruct (veqb _ _); [discriminate|reflexivity]. }
  destruct (C30_join_last_partial n p qd e e' [] a b HD D HE) as (A & B & _ & C & E). repeat split; assumption.
Qed.
Print Assumptions C30_fresh.

(** It fails for a translation of a parameterized edge, ... *)
Theorem C30_translate_refuted : exists e1 e2, parameterize dict4 (line_edge (mkvert 0 0) (mkvert 1 0)) = Ok e1 /\ apply_step true (STranslate (mkvert 1 0)) e1 = Ok e2 /\
  e_param e2 = true /\ e_anchor e2 = mkvert 0 0 /\ option_map sx (nth_error (e_smp e2) 0) = Some (1, 0).
Proof.
  destruct (C29_example []) as (e1 & E & _). exists e1. eexists. split; [exact E|]. split; [reflexivity|].
  destruct (C30_join_last_partial (PInt 4) 7 dict4 (line_edge (mkvert 0 0) (mkvert 1 0)) e1 [] (mkvert 0 0) (mkvert 1 0) dict4_ok eq_refl E) as (A & _ & _ & C & _).
  destruct (parameterize_frame (PInt 4) 7 dict4 _ _ dict4_ok E) as (q & _ & Fr).
  assert (P1 : e_param e1 = true) by (rewrite Fr; reflexivity). unfold translate, on_smp. rewrite log_param, P1. split; [exact P1|]. split; [exact A|].
  cbn [e_smp with_smp]. rewrite log_smp, nth_error_map. destruct (nth_error (e_smp e1) 0) as [s|]; [|discriminate]. cbn [option_map] in C |- *. cbn [sx].
  assert (X : sx s = (0, 0)) by (injection C as C; exact C). rewrite X. cbn [fst snd mkvert vx vy]. do 2 f_equal; ring.
Qed.

(** ... for a reversed edge, ... *)
Theorem C30_reverse_refuted : exists e1, parameterize dict4 (line_edge (mkvert 0 0) (mkvert 1 0)) = Ok e1 /\
  e_anchor (reverse_orientation e1) = mkvert 0 0 /\ option_map sx (nth_error (e_smp (reverse_orientation e1)) 0) = Some (1, 0).
Proof.
  destruct (C29_example []) as (e1 & E & _). exists e1. split; [exact E|].
  destruct (C30_join_last_partial (PInt 4) 7 dict4 (line_edge (mkvert 0 0) (mkvert 1 0)) e1 [] (mkvert 0 0) (mkvert 1 0) dict4_ok eq_refl E) as (A & _ & _ & _ & C).
  destruct (parameterize_frame (PInt 4) 7 dict4 _ _ dict4_ok E) as (q & Q & Fr). apply Ok_inj in Q. cbn [fst dict4] in Q.
  assert (P1 : e_param e1 = true) by (rewrite Fr; reflexivity). assert (N1 : e_npts e1 = 9%Z) by (rewrite Fr, Q; reflexivity). rewrite N1 in C. change (Z.to_nat (9 - 1)) with 8%nat in C.
  assert (L : List.length (e_smp e1) = 9%nat).
  { assert (F : diary_fine (0, 0) (1, 0) [SJoin (mkvert 0 0) (mkvert 1 0)]).
    { split; [|exact I]. assert (D1 : pdist (coord (mkvert 0 0)) (coord (mkvert 1 0)) = 1) by exact dist01. cbn [step_fine]. rewrite D1, dist01. unfold TOL. repeat split; lra. }
    pose proof (line_param (mkvert 0 0) (mkvert 1 0) _ F) as LP. cbv zeta in LP. change (with_diary (line_edge (mkvert 0 0) (mkvert 1 0)) [SJoin (mkvert 0 0) (mkvert 1 0)]) with (line_edge (mkvert 0 0) (mkvert 1 0)) in LP.
    rewrite E in LP. apply Ok_inj in LP. rewrite <- LP. match goal with |- context [e_smp (with_qtype (after_diary ?l ?e0 ?m) ?y)] => destruct (after_diary_fields l e0 m y) as (_ & _ & ->) end. reflexivity. }
  destruct (nth_error (e_smp e1) 8) as [s|] eqn:N8; [|discriminate]. destruct (C27_reversed e1 8 s P1 N8) as (R & _ & RA & _). rewrite L in R. change (9 - 1 - 8)%nat with 0%nat in R.
  split; [rewrite RA; exact A|]. rewrite R. cbn [option_map sx] in C |- *. exact C.
Qed.

(** ... and for closed curves: a circle's anchor is its centre. *)
Theorem C30_circle_refuted : exists e e', mk_edge (mkvert 0 0) (mkvert 0 0) (-1) (-1) Circle "trap" None (0, 2 * PI) [] = Ok e /\ parameterize dict4 e = Ok e' /\
  e_anchor e' = mkvert 0 0 /\ e_endpnt e' = mkvert 0 0 /\ option_map sx (nth_error (e_smp e') 0) = Some (1, 0).
Proof.
  pose proof PI_RGT_0 as HP. assert (V : veqb (mkvert 0 0) (VVert (mkvert 0 0)) = true).
  { unfold veqb, vnorm, mkvert. cbn [vx vy]. apply Rltb_true. replace ((0 - 0) ^ 2 + (0 - 0) ^ 2) with 0 by ring. rewrite sqrt_0. lra. }
  exists (Edge (mkvert 0 0) (mkvert 0 0) (-1) (-1) Circle [] "trap" None true true false (-1) [] (0, 2 * PI) [STranslate (mkvert 0 0)]).
  eexists. split.
  { unfold mk_edge, check_idx, check_t_bounds. cbn [fst snd bind]. destruct (Rle_dec (2 * PI) 0); [lra|]. cbn [bind]. unfold set_cells, set_verts. rewrite V. reflexivity. }
  split; [reflexivity|]. split; [reflexivity|]. split; [reflexivity|].
  ecbn. unfold translate, on_smp, log. ecbn. rewrite !nth_error_map.
  change (nth_error (combine (q_t (let (x, _) := dict4 in x)) (q_wgt (let (x, _) := dict4 in x))) 0) with (Some (0 + INR 0 * ((2 * PI - 0) / INR 8), 1)).
  cbn [option_map fst snd raw_sample sx mkvert vx vy circle_R opt].
  replace (1 / 2 * (2 * PI - 0) / PI * (0 + INR 0 * ((2 * PI - 0) / INR 8)) + 0) with 0 by (cbn [INR]; ring). rewrite cos_0, sin_0. do 2 f_equal; ring.
Qed.
