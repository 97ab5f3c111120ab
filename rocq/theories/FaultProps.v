(** Properties C72 and C73: names of curves; edges after a refused method. *)
From Coq Require Import List ZArith Reals Lra Lia String.
From Verif Require Import PyBase PolyModel BaryModel QuadModel CurveModel VertModel EdgeModel EdgeSpec EdgeProofs EdgeProofs2
  EdgeProps EdgeProps2 EdgeProps3 FaultModel FaultProofs.
Import ListNotations.
Open Scope R_scope.

(* ------------------------------------------------------------------ *)
(** ** C73 *)

(** A method raises exactly when EdgeModel says so, and otherwise returns the same edge. *)
Theorem C73_outcomes w s e :
  (forall e', st_step w s e = (e', None) <-> apply_step w s e = Ok e') /\
  (forall x, (exists e', st_step w s e = (e', Some x)) <-> apply_step w s e = Err x).
Proof.
  rewrite <- st_step_outcome. split; intros; [rewrite outcome_ok|rewrite outcome_err]; reflexivity.
Qed.
Print Assumptions C73_outcomes.

Lemma run_diary_frame e : run_diary e = outcome (st_run (e_diary e) e).
Proof. unfold run_diary. symmetry. apply st_run_outcome. Qed.

Theorem C73_sampling_outcomes sp qd t e : find_module sp (shown t) = Some (e_curve e) ->
  (forall e', st_parameterize sp qd t e = (e', None) <-> parameterize qd e = Ok e') /\
  (forall x, (exists e', st_parameterize sp qd t e = (e', Some (Raised x))) <-> parameterize qd e = Err x).
Proof.
  intros M. unfold st_parameterize, parameterize. rewrite M.
  assert (K : (if String.eqb (e_qtype e) "trap" then Ok (fst qd) else if String.eqb (e_qtype e) "kress" then Ok (snd qd) else Err ValueError)
    = match (if String.eqb (e_qtype e) "trap" then Some (fst qd) else if String.eqb (e_qtype e) "kress" then Some (snd qd) else None) with
      | Some q => Ok q | None => Err ValueError end) by (destruct (String.eqb _ "trap"); [reflexivity|destruct (String.eqb _ "kress"); reflexivity]).
  rewrite K. clear K. destruct (if String.eqb (e_qtype e) "trap" then _ else _) as [q|]; cbn [bind].
  2:{ split; intros; split; intros H; try discriminate; [destruct H as (e' & H); injection H as _ ->; reflexivity|injection H as <-; exists e; reflexivity]. }
  cbv zeta. destruct (e_tb e) as [a b]. destruct (curve_all (e_curve e) (e_opts e)) as [(X & DX & DDX & -> & -> & ->)|(y & -> & -> & ->)]; cbn [bind].
  - rewrite run_diary_frame. cbn [with_param e_diary].
    match goal with |- context [st_run _ ?u] => destruct (st_run (e_diary e) u) as [e2 [y|]] end; cbn [outcome snd fst bind].
    + split; intros; split; intros H; try discriminate; [destruct H as (e' & H); injection H as _ ->; reflexivity|injection H as <-; eexists; reflexivity].
    + split; intros; split; intros H; try discriminate; [injection H as <-; reflexivity|apply Ok_inj in H; subst; reflexivity|destruct H as (e' & H); discriminate].
  - split; intros; split; intros H; try discriminate; [destruct H as (e' & H); injection H as _ ->; reflexivity|injection H as <-; eexists; reflexivity].
Qed.
Print Assumptions C73_sampling_outcomes.

(** Every method but join_points leaves the edge as it was when it is refused; only dilations
    and matrices are ever refused. *)
Theorem C73_methods_unchanged w s e e' x : (forall a b, s <> SJoin a b) -> st_step w s e = (e', Some x) ->
  e' = e /\ x = EdgeTransformationError /\
  ((exists al, s = SDilate al /\ Rabs al < TOL) \/ s = SOrtho None \/ exists A, s = SOrtho (Some A) /\ TOL < ortho_defect A).
Proof.
  intros N H. assert (O : apply_step w s e = Err x) by (rewrite <- st_step_outcome, H; reflexivity).
  destruct (C26_rejected w e) as (_ & _ & _ & _ & RT & RX & RY).
  destruct s as [a|a b|th| | |al|A]; cbn [st_step apply_step] in *.
  - discriminate.
  - destruct (N a b eq_refl).
  - destruct (RT th) as (? & E). congruence.
  - destruct RX as (? & E). congruence.
  - destruct RY as (? & E). congruence.
  - unfold st_dilate in H. destruct (Rltb (Rabs al) TOL) eqn:E; [|discriminate]. injection H as <- <-. apply Rltb_true in E.
    split; [reflexivity|]. split; [reflexivity|]. left. exists al. auto.
  - unfold st_ortho in H. destruct A as [M|].
    + destruct (Rltb TOL (ortho_defect M)) eqn:E; [|discriminate]. injection H as <- <-. apply Rltb_true in E.
      split; [reflexivity|]. split; [reflexivity|]. right. right. exists M. auto.
    + injection H as <- <-. split; [reflexivity|]. split; [reflexivity|]. right. left. reflexivity.
Qed.
Print Assumptions C73_methods_unchanged.

(** join_points leaves the edge as it was only when a and b coincide. When the samples are
    refused the call has already been recorded; when the ratio of lengths is refused the samples
    have also been moved: the first one lies at the origin. *)
Theorem C73_join_refused w a b e e' x : st_step w (SJoin a b) e = (e', Some x) ->
  (pdist (coord a) (coord b) < TOL /\ e' = e /\ x = EdgeTransformationError) \/
  (TOL <= pdist (coord a) (coord b) /\ e_param e = true /\ e' = log w (SJoin a b) e /\
     ((x = IndexError /\ (nth_error (e_smp e) 0 = None \/ nth_error (e_smp e) (Z.to_nat (e_npts e - 1)) = None)) \/
      (x = EdgeTransformationError /\ exists s0 s1, nth_error (e_smp e) 0 = Some s0 /\
         nth_error (e_smp e) (Z.to_nat (e_npts e - 1)) = Some s1 /\ pdist (sx s0) (sx s1) < TOL))) \/
  (TOL <= pdist (coord a) (coord b) /\ e_param e = true /\ x = EdgeTransformationError /\
     e' = with_smp (log w (SJoin a b) e) (e_smp e') /\ option_map sx (nth_error (e_smp e') 0) = Some (0, 0) /\
     exists s0 s1, nth_error (e_smp e) 0 = Some s0 /\ nth_error (e_smp e) (Z.to_nat (e_npts e - 1)) = Some s1 /\
       TOL <= pdist (sx s0) (sx s1) /\ pdist (coord a) (coord b) < TOL * pdist (sx s0) (sx s1)).
Proof.
  pose proof TOL_pos as HT. cbn [st_step]. unfold st_join. rewrite pdist_pow.
  destruct (Rltb (pdist (coord a) (coord b)) TOL) eqn:E.
  { intros H. injection H as <- <-. apply Rltb_true in E. left. auto. }
  apply Rltb_false in E. cbv zeta. rewrite log_param, log_smp, log_npts. destruct (e_param e) eqn:P; [|discriminate].
  destruct (nth_error (e_smp e) 0) as [s0|] eqn:N0.
  2:{ intros H. injection H as <- <-. right. left. repeat split; auto. }
  destruct (nth_error (e_smp e) (Z.to_nat (e_npts e - 1))) as [s1|] eqn:N1.
  2:{ intros H. injection H as <- <-. right. left. repeat split; auto. }
  rewrite pdist_pow'. destruct (Rltb (pdist (sx s0) (sx s1)) TOL) eqn:F.
  { intros H. injection H as <- <-. apply Rltb_true in F. right. left. repeat split; auto. right. split; [reflexivity|]. exists s0, s1. auto. }
  apply Rltb_false in F.
  match goal with |- context [st_rotate false ?th ?u] => set (theta := th); set (u0 := u) end.
  destruct (st_rotate_none false theta u0) as (e1 & R1). rewrite R1. unfold andthen at 2. cbn [snd fst].
  unfold st_dilate. assert (0 < pdist (coord a) (coord b) / pdist (sx s0) (sx s1)) as Q by (apply Rdiv_lt_0_compat; lra).
  destruct (Rltb (Rabs (pdist (coord a) (coord b) / pdist (sx s0) (sx s1))) TOL) eqn:G; cbn [andthen snd fst]; [|discriminate].
  intros H. injection H as <- <-. apply Rltb_true in G. rewrite Rabs_pos_eq in G by lra. right. right. split; [exact E|]. split; [reflexivity|]. split; [reflexivity|].
  assert (P0 : e_param u0 = true) by (unfold u0, translate, on_smp, log; destruct w; cbn; rewrite P; cbn; exact P).
  assert (R2 : rotate false theta u0 = Ok e1) by (rewrite <- st_rotate_outcome, R1; reflexivity).
  split; [|split].
  - pose proof (rotate_frame false theta u0 e1 R2) as R3. cbn [log] in R3. rewrite R3. unfold u0, translate, on_smp, log. destruct w; cbn; rewrite P; reflexivity.
  - unfold st_rotate in R1. cbv zeta in R1. cbn [log] in R1. rewrite P0 in R1. unfold st_ortho in R1.
    destruct (Rltb TOL _); [discriminate|]. injection R1 as <-. cbn [log]. unfold on_smp at 1. rewrite P0. cbn [e_smp with_smp]. rewrite nth_error_map.
    assert (S0 : nth_error (e_smp u0) 0 = Some (Smp (fst (sx s0) + - fst (sx s0), snd (sx s0) + - snd (sx s0)) (sT s0) (sN s0) (sw s0) (sk s0))).
    { unfold u0, translate, on_smp. cbn [log]. rewrite log_param, P. cbn [e_smp with_smp]. rewrite log_smp, nth_error_map, N0. reflexivity. }
    rewrite S0. cbn [option_map]. unfold ortho_sample, mv2. cbn [sx fst snd]. apply f_equal. apply injective_projections; cbn [fst snd]; ring.
  - exists s0, s1. repeat split; auto. apply (Rmult_lt_compat_r (pdist (sx s0) (sx s1))) in G; [|lra]. unfold Rdiv in G. rewrite Rmult_assoc, Rinv_l, Rmult_1_r in G by lra. exact G.
Qed.
Print Assumptions C73_join_refused.

(** A refused join_points that has been recorded makes every later sampling fail, whatever else
    is recorded afterwards, also after deparameterize. *)
Theorem C73_join_refuted qd e a b e' x : parameterize qd e = Ok e -> TOL <= pdist (coord a) (coord b) ->
  st_step true (SJoin a b) e = (e', Some x) ->
  e_diary e' = e_diary e ++ [SJoin a b] /\ e' <> e /\
  forall rest, parameterize qd (with_diary e' (e_diary e' ++ rest)) = Err x /\
    parameterize qd (deparameterize (with_diary e' (e_diary e' ++ rest))) = Err x.
Proof.
  intros HS HT H.
  assert (E : deparameterize e' = deparameterize (with_diary e (e_diary e ++ [SJoin a b]))).
  { destruct (C73_join_refused true a b e e' x H) as [(L & _)|[(_ & _ & -> & _)|(_ & _ & _ & E & _)]]; [lra|reflexivity|rewrite E; reflexivity]. }
  assert (D : e_diary e' = e_diary e ++ [SJoin a b]) by (change (e_diary (deparameterize e') = e_diary e ++ [SJoin a b]); rewrite E; reflexivity).
  split; [exact D|]. split.
  { intros C. rewrite C in D. apply (f_equal (@List.length step)) in D. rewrite app_length in D. cbn in D. lia. }
  intros rest. rewrite C29_deparameterize. cut (parameterize qd (with_diary e' (e_diary e' ++ rest)) = Err x); [intros C; split; exact C|].
  assert (P : parameterize qd (with_diary e (e_diary e ++ [SJoin a b])) = Err x).
    { pose proof (parameterize_snoc qd e (SJoin a b)) as S. rewrite HS in S. cbn [bind] in S.
      assert (J : apply_step true (SJoin a b) e = Err x) by (rewrite <- st_step_outcome, H; reflexivity). rewrite J in S.
      destruct (parameterize qd (with_diary e (e_diary e ++ [SJoin a b]))); cbn in S; [contradiction|congruence]. }
    rewrite D. assert (E2 : parameterize qd (with_diary e' ((e_diary e ++ [SJoin a b]) ++ rest)) =
      parameterize qd (with_diary e ((e_diary e ++ [SJoin a b]) ++ rest))).
    { apply parameterize_depends. destruct e, e'. unfold deparameterize, with_param, with_diary in *. cbn in *. congruence. }
    rewrite E2. clear E2 H E D HS. revert P. unfold parameterize. cbn [e_qtype e_tb e_curve e_opts with_diary].
    destruct (if String.eqb (e_qtype e) "trap" then _ else _) as [q|]; [|exact (fun z => z)]. cbn [bind]. destruct (e_tb e) as [t0 t1].
    destruct (cX (e_curve e) (e_opts e)) as [X|]; [|exact (fun z => z)]. destruct (cDX (e_curve e) (e_opts e)) as [DX|]; [|exact (fun z => z)]. destruct (cDDX (e_curve e) (e_opts e)) as [DDX|]; [|exact (fun z => z)]. cbn [bind].
    unfold run_diary. cbn [e_diary with_param with_diary].
    match goal with |- context [fold_res _ (e_diary e ++ [SJoin a b]) ?u] => match goal with |- context [fold_res _ ((e_diary e ++ [SJoin a b]) ++ rest) ?v] =>
      pose proof (same_fold (e_diary e ++ [SJoin a b]) u v (conj eq_refl (conj eq_refl eq_refl))) as SF; set (u1 := u) in *; set (v1 := v) in * end end.
    rewrite (fold_res_app _ (e_diary e ++ [SJoin a b]) rest).
    destruct (fold_res _ (e_diary e ++ [SJoin a b]) u1) as [r1|y1]; [discriminate|]. cbn [bind]. intros P. assert (y1 = x) as -> by (cbn in P; congruence).
    destruct (fold_res _ (e_diary e ++ [SJoin a b]) v1) as [r2|y2]; cbn in SF; [contradiction|]. cbn [bind]. congruence.
Qed.
Print Assumptions C73_join_refuted.

(** What a refused sampling leaves. A wrong quad_type changes nothing. A missing module or a
    refused option leaves the former samples and flag with a new num_pts. An exception in the
    diary leaves an edge that is flagged as sampled. *)
Theorem C73_sampling_refused n p sp qd t e e' f : get_quad_dict n p = Ok qd -> st_parameterize sp qd t e = (e', Some f) ->
  (e_qtype e <> "trap"%string /\ e_qtype e <> "kress"%string /\ f = Raised ValueError /\ e' = e) \/
  (exists q, pick qd e = Ok q /\ e' = with_npts e (2 * Z.of_nat (q_n q) + 1) /\
     ((f = NoModule /\ find_module sp (shown t) = None) \/
      exists c x, f = Raised x /\ find_module sp (shown t) = Some c /\ cX c (e_opts e) = Err x)) \/
  (exists q x, pick qd e = Ok q /\ f = Raised x /\ e_param e' = true /\ e_npts e' = (2 * Z.of_nat (q_n q) + 1)%Z /\
     Z.of_nat (List.length (e_smp e')) = e_npts e' /\ e_qtype e' = e_qtype e /\ e_opts e' = e_opts e /\ e_tb e' = e_tb e).
Proof.
  intros HD. unfold st_parameterize.
  assert (K : (if String.eqb (e_qtype e) "trap" then Some (fst qd) else if String.eqb (e_qtype e) "kress" then Some (snd qd) else None)
    = match pick qd e with Ok q => Some q | Err _ => None end) by (unfold pick; destruct (String.eqb _ "trap"); [reflexivity|destruct (String.eqb _ "kress"); reflexivity]).
  rewrite K. clear K. destruct (pick qd e) as [q|y] eqn:Q.
  2:{ intros H. injection H as <- <-. left. unfold pick in Q.
      destruct (String.eqb_spec (e_qtype e) "trap"); [discriminate|]. destruct (String.eqb_spec (e_qtype e) "kress"); [discriminate|]. auto. }
  intros H. right. revert H. destruct (pick_ok _ _ _ _ _ HD Q) as ((L1 & L2 & _) & _ & _). cbv zeta.
  destruct (e_tb e) as [a b] eqn:TB. destruct (find_module sp (shown t)) as [c|].
  2:{ intros G. injection G as <- <-. left. exists q. auto. }
  destruct (curve_all c (e_opts e)) as [(X & DX & DDX & EX & EY & EZ)|(y & EX & _)]; rewrite EX.
  2:{ intros G. injection G as <- <-. left. exists q. split; [reflexivity|]. split; [reflexivity|]. right. exists c, y. auto. }
  rewrite EY, EZ. match goal with |- context [st_run _ ?u] => set (u0 := u); pose proof (run_keeps (e_diary e) u0) as KK; destruct (st_run (e_diary e) u0) as [e2 [x|]] end; [|discriminate].
  intros G. injection G as <- <-. right. exists q, x. destruct KK as (K1 & K2 & K3 & K4 & K5 & K6 & K7). cbn [fst] in *. repeat split.
  - exact K1.
  - exact K2.
  - rewrite K3, K2. unfold u0. cbn [e_smp e_npts with_param]. rewrite map_length, combine_length, L1, L2. lia.
  - exact K6.
  - exact K5.
  - rewrite K7. unfold u0. cbn [e_tb with_param]. exact TB.
Qed.
Print Assumptions C73_sampling_refused.

(** A new edge between two different vertices with a closed curve: the sampling raises, and the
    edge is flagged as sampled, with the points of the closed curve where the library has it,
    which need not touch either vertex. *)
Theorem C73_sampling_refuted n p sp qd t e q X a b : get_quad_dict n p = Ok qd -> pick qd e = Ok q ->
  find_module sp (shown t) = Some (e_curve e) -> cX (e_curve e) (e_opts e) = Ok X ->
  e_diary e = [SJoin a b] -> TOL <= pdist (coord a) (coord b) -> pdist (X (fst (e_tb e))) (X (snd (e_tb e))) < TOL ->
  exists e', st_parameterize sp qd t e = (e', Some (Raised EdgeTransformationError)) /\ e_param e' = true /\
    e_anchor e' = e_anchor e /\ e_endpnt e' = e_endpnt e /\
    get_sampled_points false e' = Ok (map (fun t => X (param_arg e t)) (q_t q)).
Proof.
  intros HD Q M EX ED HT HC. pose proof PI_RGT_0 as HP. destruct (pick_ok _ _ _ _ _ HD Q) as (NK & _ & _).
  destruct (curve_all (e_curve e) (e_opts e)) as [(X' & DX & DDX & EX' & EDX & EDDX)|(y & EX' & _)]; [|congruence].
  assert (X' = X) as -> by (rewrite EX in EX'; apply Ok_inj in EX'; congruence). clear EX'.
  unfold st_parameterize.
  assert (K : (if String.eqb (e_qtype e) "trap" then Some (fst qd) else if String.eqb (e_qtype e) "kress" then Some (snd qd) else None) = Some q)
    by (unfold pick in Q; destruct (String.eqb _ "trap"); [apply Ok_inj in Q; congruence|destruct (String.eqb _ "kress"); [apply Ok_inj in Q; congruence|discriminate]]).
  rewrite K, M. cbv zeta. destruct (e_tb e) as [t0 t1] eqn:TB. rewrite EX, EDX, EDDX, ED.
  set (smp := map _ (combine (q_t q) (q_wgt q))). set (u0 := with_param e true (2 * Z.of_nat (q_n q) + 1) smp).
  assert (AR : forall s, param_arg e s = 1 / 2 * (t1 - t0) / PI * s + t0).
  { intros s. unfold param_arg, param_dt. rewrite TB. cbn [fst snd]. field. lra. }
  assert (SX : forall i s, nth_error (q_t q) i = Some s -> exists z, nth_error smp i = Some z /\ sx z = X (param_arg e s)).
  { intros i s E. unfold smp. rewrite nth_error_map, nth_error_combine, E. destruct NK as (L1 & L2 & _).
    assert (exists w, nth_error (q_wgt q) i = Some w) as (w & W).
    { destruct (nth_error (q_wgt q) i) as [w|] eqn:W; [exists w; reflexivity|]. apply nth_error_None in W. assert (nth_error (q_t q) i <> None) as Z by congruence. apply nth_error_Some in Z. lia. }
    rewrite W. eexists. split; [reflexivity|]. cbn [raw_sample sx fst snd]. rewrite AR. reflexivity. }
  destruct NK as (L1 & L2 & N0 & N1 & _).
  destruct (SX 0%nat 0) as (z0 & Z0 & Y0). { rewrite (nth_error_nth' (q_t q) 0) by lia. rewrite N0. reflexivity. }
  destruct (SX (2 * q_n q)%nat (2 * PI)) as (z1 & Z1 & Y1). { rewrite (nth_error_nth' (q_t q) 0) by lia. rewrite N1. reflexivity. }
  assert (J : st_run [SJoin a b] u0 = (u0, Some EdgeTransformationError)).
  { rewrite st_run_cons. cbn [st_step]. unfold st_join. rewrite pdist_pow. replace (Rltb (pdist (coord a) (coord b)) TOL) with false by (symmetry; apply Rltb_false; exact HT).
    cbv zeta. cbn [log]. unfold u0 at 1 2 3 4. cbn [e_param e_smp e_npts with_param]. replace (Z.to_nat (2 * Z.of_nat (q_n q) + 1 - 1)) with (2 * q_n q)%nat by lia.
    rewrite Z0, Z1, pdist_pow', Y0, Y1, !AR.
    replace (1 / 2 * (t1 - t0) / PI * 0 + t0) with t0 by ring. replace (1 / 2 * (t1 - t0) / PI * (2 * PI) + t0) with t1 by (field; lra).
    cbn [fst snd] in HC. replace (Rltb (pdist (X t0) (X t1)) TOL) with true by (symmetry; apply Rltb_true; exact HC). reflexivity. }
  rewrite J. exists u0. split; [reflexivity|]. split; [reflexivity|]. split; [reflexivity|]. split; [reflexivity|].
  unfold get_sampled_points, u0. cbn [e_param e_smp with_param]. f_equal. unfold smp. rewrite map_map. cbn [raw_sample sx].
  rewrite <- (map_map (fun tw : R * R => fst tw) (fun s => X (1 / 2 * (t1 - t0) / PI * s + t0))).
  assert (F : forall (u v : list R), List.length u = List.length v -> map (fun tw : R * R => fst tw) (combine u v) = u).
  { induction u as [|x u IH]; intros [|y v] L; cbn in *; try discriminate; [reflexivity|]. rewrite IH by lia. reflexivity. }
  rewrite F by lia. apply map_ext. intros s. rewrite AR. reflexivity.
Qed.
Print Assumptions C73_sampling_refuted.

(** An edge from (3,0) to (4,0) declared a circle: the sampling raises; afterwards the edge gives
    the points of the unit circle, and its vertices are unchanged. *)
Definition circle34 : edge := Edge (mkvert 3 0) (mkvert 4 0) (-1) (-1) Circle [] "trap" None true false false (-1) [] (0, 2 * PI) [SJoin (mkvert 3 0) (mkvert 4 0)].
Lemma dist34 : pdist (coord (mkvert 3 0)) (coord (mkvert 4 0)) = 1.
Proof. unfold pdist, coord, mkvert. cbn [fst snd vx vy]. replace ((3 - 4) * (3 - 4) + (0 - 0) * (0 - 0)) with 1 by ring. apply sqrt_1. Qed.
Example C73_sampling_example :
  mk_edge (mkvert 3 0) (mkvert 4 0) (-1) (-1) Circle "trap" None (0, 2 * PI) [] = Ok circle34 /\
  exists e', st_parameterize Line dict4 (CStr "circle") circle34 = (e', Some (Raised EdgeTransformationError)) /\ e_param e' = true /\
    e_anchor e' = mkvert 3 0 /\ exists l, get_sampled_points false e' = Ok l /\ List.length l = 9%nat /\ Forall (fun z => fst z * fst z + snd z * snd z = 1) l.
Proof.
  pose proof PI_RGT_0 as HP. split.
  { unfold mk_edge, check_idx, check_t_bounds. cbn [fst snd bind]. destruct (Rle_dec (2 * PI) 0); [lra|]. cbn [bind]. unfold set_cells, set_verts.
    assert (V : veqb (mkvert 3 0) (VVert (mkvert 4 0)) = false).
    { unfold veqb, vnorm, mkvert. cbn [vx vy]. apply Rltb_false. replace ((3 - 4) ^ 2 + (0 - 0) ^ 2) with 1 by ring. rewrite sqrt_1. lra. }
    rewrite V. reflexivity. }
  destruct (C73_sampling_refuted (PInt 4) 7 Line dict4 (CStr "circle") circle34 (fst dict4) (fun t => (1 * cos t, 1 * sin t)) (mkvert 3 0) (mkvert 4 0) dict4_ok eq_refl eq_refl eq_refl eq_refl)
    as (e' & E & P & A & _ & G).
  - rewrite dist34. unfold TOL. lra.
  - cbn [circle34 e_tb fst snd]. rewrite cos_0, sin_0, cos_2PI, sin_2PI. unfold pdist. cbn [fst snd].
    replace ((1 * 1 - 1 * 1) * (1 * 1 - 1 * 1) + (1 * 0 - 1 * 0) * (1 * 0 - 1 * 0)) with 0 by ring. rewrite sqrt_0. apply TOL_pos.
  - exists e'. split; [exact E|]. split; [exact P|]. split; [exact A|]. eexists. split; [exact G|]. split; [reflexivity|].
    apply Forall_map, Forall_forall. intros s _. cbn [fst snd]. pose proof (sin2_cos2 (param_arg circle34 s)) as U. unfold Rsqr in U. lra.
Qed.

(** A sampled circle refuses to join two points, and can never be sampled again. *)
Definition circle0 : edge := Edge (mkvert 0 0) (mkvert 0 0) (-1) (-1) Circle [] "trap" None true true false (-1) [] (0, 2 * PI) [STranslate (mkvert 0 0)].
Example C73_join_example : exists e e', parameterize dict4 circle0 = Ok e /\ parameterize dict4 e = Ok e /\
  st_step true (SJoin (mkvert 3 0) (mkvert 4 0)) e = (e', Some EdgeTransformationError) /\
  parameterize dict4 e' = Err EdgeTransformationError /\ parameterize dict4 (deparameterize e') = Err EdgeTransformationError.
Proof.
  pose proof PI_RGT_0 as HP. assert (S1 : exists e, parameterize dict4 circle0 = Ok e) by (eexists; reflexivity). destruct S1 as (e & S1). exists e.
  pose proof (C29_no_join (PInt 4) 7 dict4 circle0 e dict4_ok eq_refl S1) as S2.
  assert (J : exists e', st_step true (SJoin (mkvert 3 0) (mkvert 4 0)) e = (e', Some EdgeTransformationError)).
  { apply outcome_err. rewrite st_step_outcome. destruct (C28_rejected true (mkvert 3 0) (mkvert 4 0) e) as (_ & C & _).
    cbn [apply_step].
    assert (SS : exists s0 s1, e_param e = true /\ nth_error (e_smp e) 0 = Some s0 /\ nth_error (e_smp e) (Z.to_nat (e_npts e - 1)) = Some s1 /\ pdist (sx s0) (sx s1) < TOL).
    { unfold parameterize in S1. cbn [circle0 e_qtype e_tb e_curve e_opts cX cDX cDDX bind String.eqb Ascii.eqb Bool.eqb] in S1. unfold run_diary in S1. cbn [e_diary with_param fold_res apply_step bind] in S1.
      apply Ok_inj in S1. subst e. do 2 eexists. split; [reflexivity|].
      split; [reflexivity|]. split; [reflexivity|]. cbn [raw_sample sx fst snd circle_R opt mkvert vx vy].
      match goal with |- pdist (?r * cos ?u + 0, _) (?r * cos ?v + 0, _) < TOL => replace u with 0 by (cbn [INR]; field; lra); replace v with (2 * PI) by (cbn [INR]; field; lra) end.
      rewrite cos_0, sin_0, cos_2PI, sin_2PI. unfold pdist. cbn [fst snd].
      match goal with |- sqrt ?z < TOL => replace z with 0 by ring end. rewrite sqrt_0. apply TOL_pos. }
    destruct SS as (s0 & s1 & P & A & B & D). exact (C s0 s1 P A B D). }
  destruct J as (e' & J). exists e'. split; [exact S1|]. split; [exact S2|]. split; [exact J|].
  destruct (C73_join_refuted dict4 e (mkvert 3 0) (mkvert 4 0) e' EdgeTransformationError S2) as (_ & _ & F); [rewrite dist34; unfold TOL; lra|exact J|].
  destruct (F []) as (F1 & F2). rewrite app_nil_r in F1, F2. destruct e'. auto.
Qed.
