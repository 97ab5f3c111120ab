(** Edges: C25 (stored geometry), C26 (transformations), C27 (reversal), C28 (join_points),
    C29 (repeated parameterization), C30 (vertices and samples). *)
From Coq Require Import List ZArith Reals Lia Lra Psatz Bool String.
From Coquelicot Require Import Coquelicot.
From Verif Require Import PyBase PolyModel BaryModel BBoxModel QuadModel QuadSpec QuadProofs QuadProps CurveModel CurveSpec CurveProps VertModel EdgeModel EdgeSpec EdgeProofs EdgeProofs2.
Import List ListNotations.
Open Scope R_scope.

(** ** C25 *)

(** What [sample_of] says: unit tangent along the derivative, clockwise normal, weighted speed,
    and the normal component of the acceleration over the squared speed. *)
Theorem C25_sample_meaning j : regular j -> let s := sample_of j in let d := jd j in
  sx s = jx j /\ norm (sT s) = 1 /\ d = pt_scale (norm d) (sT s) /\ sN s = (snd (sT s), - fst (sT s)) /\
  sw s = norm d * jw j /\ sk s * norm2 d = fst (jdd j) * fst (sN s) + snd (jdd j) * snd (sN s).
Proof.
  intros H s d. pose proof (norm_pos _ H) as Hn. pose proof (norm_sq d) as Hs. fold d in Hn. unfold s, sample_of. cbn [sx sT sN sw sk]. fold d.
  repeat split.
  - unfold norm at 1. replace (norm2 (pt_scale (/ norm d) d)) with 1; [apply sqrt_1|]. replace (norm2 (pt_scale (/ norm d) d)) with (norm2 d / (norm d * norm d)) by (unfold norm2 at 1 2, pt_scale; cbn [fst snd]; field; lra). rewrite Hs. field. unfold regular in H. fold d in H. lra.
  - rewrite pt_scale_scale. replace (norm d * / norm d) with 1 by (field; lra). rewrite pt_scale_1. reflexivity.
  - unfold cw, cross, pt_scale. cbn [fst snd]. rewrite <- Hs. field. lra.
Qed.

(** After the first parameterize the samples are those of the transformed curve at the
    quadrature nodes: [c] is the library curve on the parameter interval followed by the
    similarity the diary stands for, and [c'], [c''] are its derivatives. Proved for diaries of
    exact similarities with positive dilations; without that restriction it fails, see below. *)
Theorem C25_geometry_partial n p qd e q X DX : get_quad_dict n p = Ok qd ->
  (e_qtype e = "trap"%string /\ q = fst qd \/ e_qtype e = "kress"%string /\ q = snd qd) ->
  fst (e_tb e) < snd (e_tb e) -> spline_ok (e_curve e) ->
  cX (e_curve e) (e_opts e) = Ok X -> cDX (e_curve e) (e_opts e) = Ok DX ->
  (forall t, fst (e_tb e) <= t <= snd (e_tb e) -> 0 < norm2 (DX t)) ->
  diary_fine (X (fst (e_tb e))) (X (snd (e_tb e))) (e_diary e) ->
  exists e' c c' c'', parameterize qd e = Ok e' /\ e_param e' = true /\ e_npts e' = (2 * Z.of_nat (q_n q) + 1)%Z /\
    (forall t, c t = sapp (diary_sim (X (fst (e_tb e))) (X (snd (e_tb e))) (e_diary e))
                      (X (fst (e_tb e) + t * ((snd (e_tb e) - fst (e_tb e)) / (2 * PI))))) /\
    (forall t, pt_derive c t (c' t) /\ pt_derive c' t (c'' t)) /\
    e_smp e' = map (fun tw => sample_of (Jet (c (fst tw)) (c' (fst tw)) (c'' (fst tw)) (snd tw))) (combine (q_t q) (q_wgt q)) /\
    List.length (e_smp e') = (2 * q_n q + 1)%nat /\ (forall t, 0 <= t <= 2 * PI -> 0 < norm2 (c' t)).
Proof.
  intros HD HQ HT HSp HX HDX HR HF. pose proof PI_RGT_0 as HP.
  assert (Hq : pick qd e = Ok q) by (unfold pick; destruct HQ as [[-> ->]|[-> ->]]; reflexivity).
  destruct (C22_derivatives _ _ _ HSp HX) as (DX' & DDX & HDX' & HDDX & HDer). rewrite HDX in HDX'. apply Ok_inj in HDX'. subst DX'.
  assert (Hdt : 0 < param_dt e) by (unfold param_dt; apply Rdiv_lt_0_compat; lra).
  assert (Harg : forall t, 0 <= t <= 2 * PI -> fst (e_tb e) <= param_arg e t <= snd (e_tb e)).
  { intros t Ht. unfold param_arg. split; [nra|]. apply Rle_trans with (fst (e_tb e) + 2 * PI * param_dt e); [nra|]. unfold param_dt. right. field. lra. }
  assert (HR' : forall t, 0 <= t <= 2 * PI -> 0 < norm2 (pt_scale (param_dt e) (DX (param_arg e t)))).
  { intros t Ht. rewrite norm2_scale. apply Rmult_lt_0_compat; [nra|]. apply HR, Harg, Ht. }
  pose proof (parameterize_jets n p qd e q X DX DDX HD Hq HX HDX HDDX HR' HF) as E. cbv zeta in E.
  pose proof (diary_c_pos _ _ _ HF) as HS. set (S := diary_sim _ _ _) in *.
  destruct (pick_ok _ _ _ _ _ HD Hq) as ((L1 & L2 & _) & _).
  exists (with_qtype (after_diary (e_diary e) (with_param e true (2 * Z.of_nat (q_n q) + 1) [])
    (map sample_of (curve_jets (fun t => sapp S (X (param_arg e t))) (fun t => lin S (pt_scale (param_dt e) (DX (param_arg e t))))
       (fun t => lin S (pt_scale (param_dt e ^ 2) (DDX (param_arg e t)))) (q_t q) (q_wgt q)))) (q_type q)).
  exists (fun t => sapp S (X (param_arg e t))), (fun t => lin S (pt_scale (param_dt e) (DX (param_arg e t)))), (fun t => lin S (pt_scale (param_dt e ^ 2) (DDX (param_arg e t)))).
  match type of E with _ = Ok (with_qtype (after_diary ?l ?e0 ?m) ?y) => destruct (after_diary_fields l e0 m y) as (F1 & F2 & F3) end.
  split; [exact E|]. split; [exact F1|]. split; [exact F2|]. split; [reflexivity|]. split; [|split; [|split]].
  - intros t. destruct (HDer (param_arg e t)) as [D1 D2]. split.
    + apply sapp_derive, arg_derive, D1.
    + apply lin_derive. replace (param_dt e ^ 2) with (param_dt e * param_dt e) by ring. rewrite <- pt_scale_scale. apply (scale_derive (param_dt e) (fun t => DX (param_arg e t))), arg_derive, D2.
  - rewrite F3. unfold curve_jets. rewrite map_map. reflexivity.
  - rewrite F3. unfold curve_jets. rewrite !map_length, combine_length, L1, L2. lia.
  - intros t Ht. cbv beta. rewrite norm2_lin. apply Rmult_lt_0_compat; [exact HS|apply HR', Ht].
Qed.
Print Assumptions C25_geometry_partial.

(** A straight edge in each of the examples *)
Definition line_edge (a b : vert) : edge :=
  Edge a b (-1) (-1) Line [] "trap" None true false false (-1) [] (0, 2 * PI) [SJoin a b].
Lemma line_edge_mk a b : TOL <= pdist (coord a) (coord b) -> mk_edge a b (-1) (-1) Line "trap" None (0, 2 * PI) [] = Ok (line_edge a b).
Proof.
  intros H. pose proof PI_RGT_0. unfold mk_edge, check_idx, check_t_bounds. cbn [fst snd bind]. destruct (Rle_dec (2 * PI) 0); [lra|]. cbn [bind].
  unfold set_verts, set_cells. cbn [e_anchor e_endpnt e_pos e_neg e_curve e_opts e_qtype e_idx e_bdry e_loop e_param e_npts e_smp e_tb e_diary].
  assert (E : veqb a (VVert b) = false).
  { unfold veqb, vnorm, mkvert. cbn [vx vy]. rewrite pdist_pow. apply Rltb_false. exact H. }
  rewrite E. reflexivity.
Qed.
Definition dict4 : quad * quad := (Quad_ "trap" 4 (PI / INR 4) (linspace 0 (2 * PI) 8) (map (fun _ => 1) (linspace 0 (2 * PI) 8)),
  Quad_ "kress" 4 (PI / INR 4) (map (kress_node 7) (linspace 0 (2 * PI) 8)) (map (kress_wgt 7) (linspace 0 (2 * PI) 8))).
Lemma dict4_ok : get_quad_dict (PInt 4) 7 = Ok dict4.
Proof. reflexivity. Qed.

Lemma line_X : cX Line [] = Ok (fun t => (t / (2 * PI), 0)).
Proof. reflexivity. Qed.
Lemma line_ends : (0 / (2 * PI), 0) = (0, 0) /\ (2 * PI / (2 * PI), 0) = (1, 0).
Proof. pose proof PI_RGT_0. split; f_equal; field; lra. Qed.
Lemma dist01 : pdist (0, 0) (1, 0) = 1.
Proof. unfold pdist. cbn [fst snd]. replace ((0 - 1) * (0 - 1) + (0 - 0) * (0 - 0)) with 1 by ring. apply sqrt_1. Qed.

(** The samples of a straight edge whose diary is a fine list [l] *)
Lemma line_param a b l : diary_fine (0, 0) (1, 0) l ->
  let S := diary_sim (0, 0) (1, 0) l in
  parameterize dict4 (with_diary (line_edge a b) l) = Ok (with_qtype (after_diary l (with_param (with_diary (line_edge a b) l) true 9 [])
    (map sample_of (curve_jets (fun t => sapp S (t / (2 * PI), 0)) (fun _ => lin S (1 / (2 * PI), 0)) (fun _ => (0, 0)) (linspace 0 (2 * PI) 8) (map (fun _ => 1) (linspace 0 (2 * PI) 8))))) "trap").
Proof.
  intros HF S. pose proof PI_RGT_0. destruct line_ends as [E0 E1].
  pose proof (parameterize_jets (PInt 4) 7 dict4 (with_diary (line_edge a b) l) (fst dict4) _ _ _ dict4_ok eq_refl eq_refl eq_refl eq_refl) as P.
  cbn [line_edge with_diary e_tb e_diary fst snd] in P. rewrite E0, E1 in P. etransitivity; [apply P; [|exact HF]|].
  - intros t _. rewrite norm2_scale. unfold param_dt, norm2. cbn [line_edge with_diary e_tb fst snd]. replace ((2 * PI - 0) / (2 * PI)) with 1 by (field; lra).
    assert (0 < 1 / (2 * PI)) by (apply Rdiv_lt_0_compat; lra). nra.
  - fold S. do 3 f_equal. f_equal. unfold curve_jets. apply map_ext. intros [t w]. cbn [fst snd].
    assert (A : param_arg (with_diary (line_edge a b) l) t = t) by (unfold param_arg, param_dt; cbn [line_edge with_diary e_tb fst snd]; field; lra).
    assert (D : param_dt (with_diary (line_edge a b) l) = 1) by (unfold param_dt; cbn [line_edge with_diary e_tb fst snd]; field; lra).
    change (Edge _ _ _ _ _ _ _ _ _ _ _ _ _ _ _) with (with_diary (line_edge a b) l). rewrite A, D. f_equal.
    + rewrite pt_scale_1. reflexivity.
    + unfold lin, pt_scale, pt_mul, pt_conj. destruct (s_flip S); cbn [fst snd]; f_equal; ring.
Qed.

(** The hypotheses are met by a straight edge from (0,0) to (3,4), with the quadrature n = 4. *)
Example C25_example : let e := line_edge (mkvert 0 0) (mkvert 3 4) in
  mk_edge (mkvert 0 0) (mkvert 3 4) (-1) (-1) Line "trap" None (0, 2 * PI) [] = Ok e /\
  diary_fine (0, 0) (1, 0) (e_diary e) /\
  exists e', parameterize dict4 e = Ok e' /\ List.length (e_smp e') = 9%nat /\
    Forall (fun s => sT s = (3 / 5, 4 / 5) /\ sN s = (4 / 5, - (3 / 5)) /\ sw s = 5 / (2 * PI) /\ sk s = 0) (e_smp e').
Proof.
  intros e. pose proof PI_RGT_0 as HP. assert (D5 : pdist (coord (mkvert 0 0)) (coord (mkvert 3 4)) = 5).
  { unfold pdist, coord, mkvert. cbn [fst snd vx vy]. replace ((0 - 3) * (0 - 3) + (0 - 4) * (0 - 4)) with (5 * 5) by ring. apply sqrt_square. lra. }
  assert (F : diary_fine (0, 0) (1, 0) (e_diary e)).
  { cbn [e line_edge e_diary diary_fine step_fine]. rewrite D5, dist01. unfold TOL. repeat split; lra. }
  split; [apply line_edge_mk; rewrite D5; unfold TOL; lra|]. split; [exact F|].
  pose proof (line_param (mkvert 0 0) (mkvert 3 4) [SJoin (mkvert 0 0) (mkvert 3 4)] F) as E. cbv zeta in E. eexists. split; [exact E|].
  match goal with |- context [with_qtype (after_diary ?l ?e0 ?m) ?y] => destruct (after_diary_fields l e0 m y) as (_ & _ & ->) end.
  split; [reflexivity|]. apply Forall_map. unfold curve_jets. apply Forall_map, Forall_forall. intros [t w] I. apply in_combine_r, in_map_iff in I. destruct I as (? & <- & _). cbn [fst snd].
  set (S := diary_sim _ _ _). assert (EL : lin S (1 / (2 * PI), 0) = (3 / (2 * PI), 4 / (2 * PI))).
  { unfold S. cbn [diary_sim]. rewrite comp_lin, id_lin. unfold step_sim, join_sim, lin, pt_div, coord, mkvert. cbn [s_c s_flip vx vy]. unfold norm2, pt_scale, pt_sub, pt_conj, pt_mul. cbn [fst snd]. f_equal; field; lra. }
  assert (EN : norm (3 / (2 * PI), 4 / (2 * PI)) = 5 / (2 * PI)).
  { unfold norm, norm2. cbn [fst snd]. replace (_ + _) with ((5 / (2 * PI)) * (5 / (2 * PI))) by (field; lra). apply sqrt_square. left. apply Rdiv_lt_0_compat; lra. }
  unfold sample_of. cbn [jx jd jdd jw sT sN sw sk]. rewrite EL, EN. unfold cw, pt_scale, cross. cbn [fst snd]. repeat split; try (f_equal; field; lra); field; lra.
Qed.

(** Dilation by a negative factor is accepted and turns the curve around, but the stored tangent,
    normal and curvature keep their direction: the edge from (0,0) to (1,0) dilated by -1 runs
    from (0,0) to (-1,0) with tangent (1,0) at every sample. *)
Theorem C25_negative_dilation_refuted : exists e e0 e', mk_edge (mkvert 0 0) (mkvert 1 0) (-1) (-1) Line "trap" None (0, 2 * PI) [] = Ok e /\
  apply_step true (SDilate (-1)) e = Ok e0 /\ parameterize dict4 e0 = Ok e' /\
  option_map sx (nth_error (e_smp e') 0) = Some (0, 0) /\ option_map sx (nth_error (e_smp e') 8) = Some (-1, 0) /\
  Forall (fun s => sT s = (1, 0)) (e_smp e').
Proof.
  pose proof PI_RGT_0 as HP. assert (D1 : pdist (coord (mkvert 0 0)) (coord (mkvert 1 0)) = 1) by exact dist01.
  set (e := line_edge (mkvert 0 0) (mkvert 1 0)). assert (F : diary_fine (0, 0) (1, 0) [SJoin (mkvert 0 0) (mkvert 1 0)]).
  { cbn [diary_fine step_fine]. rewrite D1, dist01. unfold TOL. repeat split; lra. }
  pose proof (line_param (mkvert 0 0) (mkvert 1 0) _ F) as E. cbv zeta in E. set (S := diary_sim _ _ _) in *.
  set (l := map sample_of _) in E.
  assert (EI : forall z, lin S z = z /\ sapp S z = z).
  { intros z. unfold S. cbn [diary_sim]. rewrite comp_lin, id_lin, comp_app, id_app. destruct z as [x y]. unfold step_sim, join_sim, sapp, lin, pt_div, coord, mkvert. cbn [s_c s_d s_flip vx vy].
    unfold norm2, pt_scale, pt_sub, pt_conj, pt_mul, pt_add. cbn [fst snd]. split; f_equal; field. }
  assert (Ab : Rabs (-1) = 1) by (rewrite Rabs_left by lra; ring).
  assert (T1 : Rltb 1 TOL = false) by (apply Rltb_false; unfold TOL; lra).
  pose proof (parameterize_snoc dict4 e (SDilate (-1))) as P. change (with_diary (line_edge (mkvert 0 0) (mkvert 1 0)) [SJoin (mkvert 0 0) (mkvert 1 0)]) with e in E.
  rewrite E in P. cbn [bind apply_step] in P. unfold dilate in P. rewrite Ab, T1 in P.
  destruct (parameterize dict4 (with_diary e (e_diary e ++ [SDilate (-1)]))) as [e'|] eqn:E'; [|contradiction]. cbn [res_same] in P. destruct P as (_ & _ & P).
  exists e, (with_diary e (e_diary e ++ [SDilate (-1)])), e'.
  split; [apply line_edge_mk; rewrite D1; unfold TOL; lra|]. split; [cbn [apply_step]; unfold dilate; rewrite Ab, T1; reflexivity|]. split; [exact E'|]. rewrite P.
  unfold on_smp. rewrite log_param. match goal with |- context [with_qtype (after_diary ?l ?e0 ?m) ?y] => destruct (after_diary_fields l e0 m y) as (-> & _ & A3) end.
  cbn [e_param with_param e_smp with_smp]. rewrite log_smp, A3.
  assert (EL : map (fun s => Smp (fst (sx s) * -1, snd (sx s) * -1) (sT s) (sN s) (sw s * 1) (sk s * (1 / -1))) l =
    map (fun t => Smp (- (t / (2 * PI)), 0) (1, 0) (0, -1) (1 / (2 * PI)) 0) (linspace 0 (2 * PI) 8)).
  { assert (EC : combine (linspace 0 (2 * PI) 8) (map (fun _ => 1) (linspace 0 (2 * PI) 8)) = map (fun t => (t, 1)) (linspace 0 (2 * PI) 8)).
    { generalize (linspace 0 (2 * PI) 8). intros m. induction m as [|x m IH]; [reflexivity|]. cbn. rewrite IH. reflexivity. }
    unfold l, curve_jets. rewrite EC, !map_map. apply map_ext. intros t. cbn [fst snd]. rewrite (proj1 (EI _)), (proj2 (EI _)). unfold sample_of. cbn [jx jd jdd jw sx sT sN sw sk fst snd].
    assert (0 < 1 / (2 * PI)) by (apply Rdiv_lt_0_compat; lra). rewrite norm_real by assumption. unfold cw, pt_scale, cross. cbn [fst snd]. f_equal; try (f_equal; field; lra); field; lra. }
  rewrite EL. split; [|split].
  - unfold linspace. rewrite !nth_error_map. cbn [nth_error seq option_map sx INR]. do 2 f_equal. field. lra.
  - unfold linspace. rewrite !nth_error_map. cbn [nth_error seq option_map sx]. do 2 f_equal. rewrite !INR_IZR_INZ. cbn. field. lra.
  - apply Forall_map, Forall_forall. reflexivity.
Qed.
Print Assumptions C25_negative_dilation_refuted.
