(** Lemmas on edges: similarities, samples of transformed curves, diaries. *)
From Coq Require Import List ZArith Reals Lia Lra Psatz Bool String.
From Coquelicot Require Import Coquelicot.
From Verif Require Import PyBase PolyModel BaryModel BBoxModel QuadModel CurveModel CurveSpec VertModel EdgeModel EdgeSpec.
Import List ListNotations.
Open Scope R_scope.

Lemma TOL_pos : 0 < TOL.
Proof. unfold TOL. lra. Qed.
Lemma Rltb_true x y : Rltb x y = true <-> x < y.
Proof. unfold Rltb. destruct (Rlt_dec x y); split; intros; try congruence; try lra; auto. Qed.
Lemma Rltb_false x y : Rltb x y = false <-> y <= x.
Proof. unfold Rltb. destruct (Rlt_dec x y); split; intros; try congruence; try lra; auto. Qed.

(** ** Complex algebra *)
Ltac ptring := unfold pt_add, pt_sub, pt_scale, pt_mul, pt_conj, norm2, cross, cw; cbn [fst snd]; try first [ring | apply f_equal2; ring].

Lemma norm2_nonneg z : 0 <= norm2 z.
Proof. unfold norm2. nra. Qed.
Lemma norm_sq z : norm z * norm z = norm2 z.
Proof. apply sqrt_sqrt, norm2_nonneg. Qed.
Lemma norm_pos z : 0 < norm2 z -> 0 < norm z.
Proof. apply sqrt_lt_R0. Qed.
Lemma norm_nonneg z : 0 <= norm z.
Proof. apply sqrt_pos. Qed.
Lemma norm2_mul z w : norm2 (pt_mul z w) = norm2 z * norm2 w.
Proof. ptring. Qed.
Lemma norm2_conj z : norm2 (pt_conj z) = norm2 z.
Proof. ptring. Qed.
Lemma norm2_lin S z : norm2 (lin S z) = norm2 (s_c S) * norm2 z.
Proof. unfold lin. rewrite norm2_mul. destruct (s_flip S); [rewrite norm2_conj|]; reflexivity. Qed.
Lemma norm_lin S z : norm (lin S z) = norm (s_c S) * norm z.
Proof. unfold norm. rewrite norm2_lin, sqrt_mult by apply norm2_nonneg. reflexivity. Qed.
Lemma cross_lin S z w : cross (lin S z) (lin S w) = (if s_flip S then - norm2 (s_c S) else norm2 (s_c S)) * cross z w.
Proof. unfold lin. destruct (s_flip S); ptring. Qed.
Lemma lin_scale S a z : lin S (pt_scale a z) = pt_scale a (lin S z).
Proof. unfold lin. destruct (s_flip S); ptring. Qed.
Lemma pt_scale_scale a b z : pt_scale a (pt_scale b z) = pt_scale (a * b) z.
Proof. ptring. Qed.
Lemma pt_scale_1 z : pt_scale 1 z = z.
Proof. destruct z. ptring. Qed.
Lemma lin_sub S z w : pt_sub (sapp S z) (sapp S w) = lin S (pt_sub z w).
Proof. unfold sapp, lin. destruct (s_flip S); ptring. Qed.
Lemma pdist_norm z w : pdist z w = norm (pt_sub z w).
Proof. reflexivity. Qed.
Lemma app_dist S z w : pdist (sapp S z) (sapp S w) = norm (s_c S) * pdist z w.
Proof. rewrite !pdist_norm, lin_sub, norm_lin. reflexivity. Qed.

Lemma comp_lin S2 S1 z : lin (sim_comp S2 S1) z = lin S2 (lin S1 z).
Proof. destruct S2 as [c2 d2 [|]], S1 as [c1 d1 [|]]; unfold sim_comp, lin; cbn [s_c s_d s_flip xorb]; ptring. Qed.
Lemma comp_app S2 S1 z : sapp (sim_comp S2 S1) z = sapp S2 (sapp S1 z).
Proof. destruct S2 as [c2 d2 [|]], S1 as [c1 d1 [|]]; unfold sapp, sim_comp, sapp, lin; cbn [s_c s_d s_flip xorb]; ptring. Qed.
Lemma id_lin z : lin sim_id z = z.
Proof. destruct z. unfold lin; cbn [sim_id s_c s_flip]. ptring. Qed.
Lemma id_app z : sapp sim_id z = z.
Proof. destruct z. unfold sapp, lin; cbn [sim_id s_c s_d s_flip]. ptring. Qed.
Lemma comp_jmap S2 S1 j : jmap (sim_comp S2 S1) j = jmap S2 (jmap S1 j).
Proof. unfold jmap. cbn [jx jd jdd jw]. rewrite comp_app, !comp_lin. reflexivity. Qed.
Lemma id_jmap j : jmap sim_id j = j.
Proof. destruct j as [x d dd w]. unfold jmap. cbn [jx jd jdd jw]. rewrite id_app, !id_lin. reflexivity. Qed.
Lemma jmap_ext S S' j : s_c S = s_c S' -> s_d S = s_d S' -> s_flip S = s_flip S' -> jmap S j = jmap S' j.
Proof. destruct S, S'; cbn. intros -> -> ->. reflexivity. Qed.
Lemma regular_jmap S j : 0 < norm2 (s_c S) -> regular j -> regular (jmap S j).
Proof. unfold regular, jmap. cbn [jd]. rewrite norm2_lin. intros. apply Rmult_lt_0_compat; assumption. Qed.

(** ** Samples of a transformed curve *)
Lemma sample_of_jmap S j : 0 < norm2 (s_c S) -> regular j ->
  let u := sample_of j in let r := norm (s_c S) in
  let T := pt_scale (/ r) (lin S (sT u)) in
  sample_of (jmap S j) = Smp (sapp S (sx u)) T (cw T) (r * sw u) ((if s_flip S then - sk u else sk u) / r).
Proof.
  intros HS Hj. pose proof (norm_pos _ HS) as Hr. pose proof (norm_pos _ Hj) as Hv. pose proof (norm_sq (s_c S)) as Hsq.
  cbv zeta. unfold sample_of, jmap. cbn [jx jd jdd jw sx sT sN sw sk]. rewrite norm_lin, cross_lin.
  assert (ET : pt_scale (/ (norm (s_c S) * norm (jd j))) (lin S (jd j)) = pt_scale (/ norm (s_c S)) (lin S (pt_scale (/ norm (jd j)) (jd j)))).
  { rewrite lin_scale, pt_scale_scale. f_equal. field. split; lra. }
  rewrite ET. f_equal; [ring|]. rewrite <- Hsq. destruct (s_flip S); field; split; lra.
Qed.

(** ** The elementary steps on samples *)
Lemma translate_sample a j : regular j ->
  let s := sample_of j in Smp (fst (sx s) + vx a, snd (sx s) + vy a) (sT s) (sN s) (sw s) (sk s) = sample_of (jmap (Sim (1, 0) (coord a) false) j).
Proof.
  intros H. cbv zeta. unfold sample_of, jmap. cbn [jx jd jdd jw sx sT sN sw sk].
  assert (E : forall z, lin (Sim (1, 0) (coord a) false) z = z) by (intros []; unfold lin; cbn [s_c s_flip]; ptring).
  rewrite !E. f_equal. unfold sapp. rewrite E. reflexivity.
Qed.

Lemma norm_real a : 0 < a -> norm (a, 0) = a.
Proof. intros H. unfold norm, norm2. cbn [fst snd]. replace (a * a + 0 * 0) with (a * a) by ring. apply sqrt_square. lra. Qed.

Lemma dilate_sample al j : 0 < al -> regular j ->
  let s := sample_of j in Smp (fst (sx s) * al, snd (sx s) * al) (sT s) (sN s) (sw s * Rabs al) (sk s * (1 / al)) = sample_of (jmap (Sim (al, 0) (0, 0) false) j).
Proof.
  intros Ha H. cbv zeta. rewrite sample_of_jmap; [|unfold norm2; cbn [s_c fst snd]; nra|exact H]. cbn [s_c s_flip].
  rewrite norm_real by exact Ha. rewrite Rabs_pos_eq by lra.
  assert (E : forall z, lin (Sim (al, 0) (0, 0) false) z = pt_scale al z) by (intros []; unfold lin; cbn [s_c s_flip]; ptring).
  rewrite E, pt_scale_scale. replace (/ al * al) with 1 by (field; lra). rewrite pt_scale_1.
  f_equal; [unfold sapp; rewrite E; cbn [s_d]; ptring|ring|field; lra].
Qed.

Lemma orth_facts a b c d : orthogonal ((a, b), (c, d)) ->
  (a * d - b * c = 1 /\ d = a /\ b = - c) \/ (a * d - b * c = -1 /\ d = - a /\ b = c).
Proof.
  intros (H1 & H2 & H3).
  assert (D : (a * d - b * c) * (a * d - b * c) = 1).
  { replace ((a * d - b * c) * (a * d - b * c)) with ((a * a + c * c) * (b * b + d * d) - (a * b + c * d) * (a * b + c * d)) by ring. rewrite H1, H2, H3. ring. }
  assert (Ed : d = (a * d - b * c) * a).
  { replace ((a * d - b * c) * a) with (d * (a * a + c * c) - c * (a * b + c * d)) by ring. rewrite H1, H3. ring. }
  assert (Eb : b = - (a * d - b * c) * c).
  { replace (- (a * d - b * c) * c) with (b * (a * a + c * c) - a * (a * b + c * d)) by ring. rewrite H1, H3. ring. }
  set (D0 := a * d - b * c) in *. assert (F : (D0 - 1) * (D0 + 1) = 0) by nra.
  apply Rmult_integral in F. destruct F as [F|F]; [left|right]; (split; [lra|]).
  - replace D0 with 1 in * by lra. split; lra.
  - replace D0 with (-1) in * by lra. split; lra.
Qed.

Lemma orth_defect_0 A : orthogonal A -> ortho_defect A = 0.
Proof.
  destruct A as [[a b] [c d]]. intros (H1 & H2 & H3). unfold ortho_defect. rewrite H1, H2, H3. replace (b * a + d * c) with 0 by lra.
  replace ((1 - 1) ^ 2 + 0 ^ 2 + 0 ^ 2 + (1 - 1) ^ 2) with 0 by ring. apply sqrt_0.
Qed.

Lemma ortho_sample_of A j p q : orthogonal A -> regular j -> ortho_sample A (sample_of j) = sample_of (jmap (step_sim p q (SOrtho (Some A))) j).
Proof.
  destruct A as [[a b] [c d]]. intros HA H. pose proof HA as (H1 & H2 & H3). cbn [step_sim].
  assert (N : norm2 (a, c) = 1) by exact H1.
  assert (N1 : norm (a, c) = 1) by (unfold norm; rewrite N; apply sqrt_1).
  rewrite sample_of_jmap by (cbn [s_c]; try rewrite N; try lra; exact H). cbv zeta. cbn [s_c s_flip]. rewrite N1, Rinv_1, pt_scale_1.
  set (S := Sim _ _ _).
  assert (E : forall z, mv2 ((a, b), (c, d)) z = lin S z).
  { intros [x y]. unfold mv2, S, lin; cbn [s_c s_flip fst snd]. destruct (orth_facts a b c d HA) as [(D & -> & ->)|(D & -> & ->)]; destruct (Rlt_dec _ 0); try lra; ptring. }
  unfold ortho_sample. cbv iota beta zeta. rewrite !E. f_equal.
  - unfold sapp. cbn [S s_d]. destruct (lin S _). ptring.
  - ring.
  - pose proof TOL_pos. destruct (orth_facts a b c d HA) as [(D & -> & ->)|(D & -> & ->)]; destruct (Rlt_dec _ 0); try lra.
    + destruct (Rltb (Rabs (- c - c)) TOL) eqn:E1; cbn [andb]; [|unfold Rdiv; lra]. destruct (Rltb (Rabs (a + a)) TOL) eqn:E2; [|unfold Rdiv; lra]. exfalso.
      apply Rltb_true in E1, E2. apply Rabs_def2 in E1, E2. unfold TOL in *. nra.
    + replace (c - c) with 0 by ring. replace (a + - a) with 0 by ring. rewrite Rabs_R0. replace (Rltb 0 TOL) with true by (symmetry; apply Rltb_true; assumption). cbn [andb]. unfold Rdiv. lra.
Qed.

(** ** arctan2 *)
Lemma sqrt_ratio x y : 0 < x -> sqrt (x * x + y * y) = x * sqrt (1 + (y / x) * (y / x)).
Proof.
  intros H. replace (x * x + y * y) with (x * x * (1 + y / x * (y / x))) by (field; lra).
  rewrite sqrt_mult by nra. rewrite sqrt_square by lra. reflexivity.
Qed.
Lemma cos_atan' u : cos (atan u) = / sqrt (1 + u * u).
Proof. rewrite cos_atan. unfold Rsqr, Rdiv. ring. Qed.
Lemma sin_atan' u : sin (atan u) = u * / sqrt (1 + u * u).
Proof. rewrite sin_atan. unfold Rsqr, Rdiv. ring. Qed.

Lemma atan2_spec x y : 0 < x * x + y * y ->
  cos (atan2 y x) = x / sqrt (x * x + y * y) /\ sin (atan2 y x) = y / sqrt (x * x + y * y).
Proof.
  intros H. unfold atan2. pose proof (sqrt_lt_R0 _ H) as HR.
  assert (Q : forall u, 0 < sqrt (1 + u * u)) by (intros u; apply sqrt_lt_R0; nra).
  destruct (Rlt_dec 0 x) as [P|P].
  - rewrite cos_atan', sin_atan', (sqrt_ratio x y P). specialize (Q (y / x)). split; field; split; lra.
  - destruct (Rlt_dec x 0) as [N|N].
    + assert (E : sqrt (x * x + y * y) = - x * sqrt (1 + y / x * (y / x))).
      { replace (x * x + y * y) with (- x * - x + y * y) by ring. rewrite sqrt_ratio by lra. do 3 f_equal. field. lra. }
      rewrite E. specialize (Q (y / x)). destruct (Rle_dec 0 y).
      * rewrite neg_cos, neg_sin, cos_atan', sin_atan'. split; field; split; lra.
      * replace (atan (y / x) - PI) with (- (PI - atan (y / x))) by ring. rewrite cos_neg, sin_neg, Rtrigo_facts.cos_pi_minus, Rtrigo_facts.sin_pi_minus, cos_atan', sin_atan'. split; field; split; lra.
    + assert (x = 0) by lra. subst x. replace (0 * 0 + y * y) with (y * y) in * by ring. destruct (Rlt_dec 0 y).
      * rewrite cos_PI2, sin_PI2, sqrt_square by lra. split; field; lra.
      * destruct (Rlt_dec y 0); [|nra]. rewrite cos_neg, sin_neg, cos_PI2, sin_PI2. replace (y * y) with (- y * - y) by ring. rewrite sqrt_square by lra. split; field; lra.
Qed.

(** ** Steps on edges *)
Lemma log_param w s e : e_param (log w s e) = e_param e.
Proof. destruct w; reflexivity. Qed.
Lemma log_smp w s e : e_smp (log w s e) = e_smp e.
Proof. destruct w; reflexivity. Qed.
Lemma log_npts w s e : e_npts (log w s e) = e_npts e.
Proof. destruct w; reflexivity. Qed.

Lemma map_samples (f : sample -> sample) S js : Forall regular js ->
  (forall j, regular j -> f (sample_of j) = sample_of (jmap S j)) -> map f (map sample_of js) = map sample_of (map (jmap S) js).
Proof.
  intros F H. induction F as [|j js Hj _ IH]; [reflexivity|]. cbn [map]. rewrite IH, H by exact Hj. reflexivity.
Qed.
Lemma regular_map S js : 0 < norm2 (s_c S) -> Forall regular js -> Forall regular (map (jmap S) js).
Proof. intros H F. apply Forall_map. eapply Forall_impl; [|exact F]. intros j. apply regular_jmap, H. Qed.

Section EdgeSteps.
  Variables (e : edge) (js : list jet).
  Hypotheses (HP : e_param e = true) (HS : e_smp e = map sample_of js) (HR : Forall regular js).

  Lemma on_smp_js f S w s : (forall j, regular j -> f (sample_of j) = sample_of (jmap S j)) ->
    on_smp f (log w s e) = with_smp (log w s e) (map sample_of (map (jmap S) js)).
  Proof. intros H. unfold on_smp. rewrite log_param, HP, log_smp, HS, (map_samples f S) by assumption. reflexivity. Qed.

  Lemma translate_js w a : translate w a e = with_smp (log w (STranslate a) e) (map sample_of (map (jmap (Sim (1, 0) (coord a) false)) js)).
  Proof. unfold translate. apply on_smp_js. intros j Hj. exact (translate_sample a j Hj). Qed.

  Lemma dilate_js w al : TOL <= al -> dilate w al e = Ok (with_smp (log w (SDilate al) e) (map sample_of (map (jmap (Sim (al, 0) (0, 0) false)) js))).
  Proof.
    intros H. pose proof TOL_pos. unfold dilate. replace (Rltb (Rabs al) TOL) with false by (symmetry; apply Rltb_false; rewrite Rabs_pos_eq; lra).
    f_equal. apply on_smp_js. intros j Hj. apply (dilate_sample al j); [lra|exact Hj].
  Qed.

  Lemma ortho_js w A p q : orthogonal A ->
    apply_ortho w (Some A) e = Ok (with_smp (log w (SOrtho (Some A)) e) (map sample_of (map (jmap (step_sim p q (SOrtho (Some A)))) js))).
  Proof.
    intros H. pose proof TOL_pos. unfold apply_ortho. rewrite orth_defect_0 by exact H. replace (Rltb TOL 0) with false by (symmetry; apply Rltb_false; lra).
    f_equal. apply on_smp_js. intros j Hj. apply ortho_sample_of; assumption.
  Qed.

  Lemma rotate_js w th : rotate w th e = Ok (with_smp (log w (SRotate th) e) (map sample_of (map (jmap (step_sim (0, 0) (0, 0) (SRotate th))) js))).
  Proof.
    unfold rotate. cbv zeta. rewrite log_param, HP. set (c := cos _). set (s := sin _).
    assert (C1 : s * s + c * c = 1) by apply sin2_cos2.
    assert (O : orthogonal ((c, - s), (s, c))) by (unfold orthogonal; repeat split; lra).
    assert (X : forall e', e_param e' = true -> e_smp e' = map sample_of js ->
      apply_ortho false (Some ((c, - s), (s, c))) e' = Ok (with_smp e' (map sample_of (map (jmap (step_sim (0, 0) (0, 0) (SRotate th))) js)))).
    { intros e' P' S'. unfold apply_ortho. pose proof TOL_pos. rewrite orth_defect_0 by exact O. replace (Rltb TOL 0) with false by (symmetry; apply Rltb_false; lra).
      unfold on_smp. cbn [log]. rewrite P', S'. do 2 f_equal. apply map_samples; [exact HR|]. intros j Hj.
      rewrite (ortho_sample_of _ j (0, 0) (0, 0)) by assumption. f_equal. apply jmap_ext; try reflexivity. cbn [step_sim s_flip]. destruct (Rlt_dec _ 0); [exfalso; lra|reflexivity]. }
    apply X; [rewrite log_param|rewrite log_smp]; assumption.
  Qed.

  Lemma reflect_js w (A : mat2) s (S : sim) : orthogonal A -> (forall j, regular j -> ortho_sample A (sample_of j) = sample_of (jmap S j)) ->
    apply_ortho false (Some A) (log w s e) = Ok (with_smp (log w s e) (map sample_of (map (jmap S) js))).
  Proof.
    intros O H. unfold apply_ortho. pose proof TOL_pos. rewrite orth_defect_0 by exact O. replace (Rltb TOL 0) with false by (symmetry; apply Rltb_false; lra).
    unfold on_smp. cbn [log]. rewrite log_param, HP, log_smp, HS. do 2 f_equal. apply map_samples; assumption.
  Qed.
End EdgeSteps.

Lemma pdist_pow a b : sqrt ((vx a - vx b) ^ 2 + (vy a - vy b) ^ 2) = pdist (coord a) (coord b).
Proof. unfold pdist, coord. cbn [fst snd]. f_equal. ring. Qed.
Lemma pdist_pow' x y : sqrt ((fst x - fst y) ^ 2 + (snd x - snd y) ^ 2) = pdist x y.
Proof. unfold pdist. f_equal. ring. Qed.
Lemma pdist_sym x y : pdist x y = pdist y x.
Proof. unfold pdist. f_equal. ring. Qed.
Lemma pdist_sq x y : pdist x y * pdist x y = norm2 (pt_sub x y).
Proof. rewrite pdist_norm. apply norm_sq. Qed.

(** The four elementary motions of join_points make up the complex quotient *)
Lemma join_motion p q a b th : 0 < pdist p q -> 0 < pdist (coord a) (coord b) ->
  th = (- atan2 (snd q - snd p) (fst q - fst p) + atan2 (vy b - vy a) (vx b - vx a)) * (180 / PI) ->
  forall j, jmap (Sim (1, 0) (coord a) false) (jmap (Sim (pdist (coord a) (coord b) / pdist p q, 0) (0, 0) false)
    (jmap (step_sim (0, 0) (0, 0) (SRotate th)) (jmap (Sim (1, 0) (- fst p, - snd p) false) j))) = jmap (join_sim p q (coord a) (coord b)) j.
Proof.
  intros Hpq Hab Eth j. pose proof PI_RGT_0 as HP.
  assert (N1 : 0 < (fst q - fst p) * (fst q - fst p) + (snd q - snd p) * (snd q - snd p)).
  { pose proof (pdist_sq q p) as E. rewrite (pdist_sym q p) in E. unfold norm2, pt_sub in E. cbn [fst snd] in E. rewrite <- E. apply Rmult_lt_0_compat; exact Hpq. }
  assert (N2 : 0 < (vx b - vx a) * (vx b - vx a) + (vy b - vy a) * (vy b - vy a)).
  { pose proof (pdist_sq (coord b) (coord a)) as E. rewrite (pdist_sym (coord b)) in E. unfold norm2, pt_sub, coord in E. cbn [fst snd] in E. rewrite <- E. apply Rmult_lt_0_compat; exact Hab. }
  destruct (atan2_spec _ _ N1) as [C1 S1]. destruct (atan2_spec _ _ N2) as [C2 S2].
  assert (Er1 : sqrt ((fst q - fst p) * (fst q - fst p) + (snd q - snd p) * (snd q - snd p)) = pdist p q) by (rewrite pdist_sym; reflexivity).
  assert (Er2 : sqrt ((vx b - vx a) * (vx b - vx a) + (vy b - vy a) * (vy b - vy a)) = pdist (coord a) (coord b)) by (rewrite pdist_sym; reflexivity).
  rewrite Er1 in C1, S1. rewrite Er2 in C2, S2. set (r1 := pdist p q) in *. set (r2 := pdist (coord a) (coord b)) in *.
  assert (Q1 : r1 * r1 = (fst q - fst p) * (fst q - fst p) + (snd q - snd p) * (snd q - snd p)) by (unfold r1; rewrite pdist_sym; apply pdist_sq).
  set (al := atan2 (snd q - snd p) (fst q - fst p)) in *. set (be := atan2 (vy b - vy a) (vx b - vx a)) in *.
  assert (Th : th * PI / 180 = be - al) by (rewrite Eth; field; lra).
  rewrite <- !comp_jmap. apply jmap_ext; [| |reflexivity].
  - cbn [step_sim]. rewrite Th, cos_minus, sin_minus, C1, S1, C2, S2. unfold join_sim, pt_div, sim_comp, sapp, lin. cbn [s_c s_d s_flip xorb]. ptring.
    rewrite <- Q1. unfold coord. cbn [fst snd]. f_equal; field; lra.
  - cbn [step_sim]. rewrite Th, cos_minus, sin_minus, C1, S1, C2, S2. unfold join_sim, pt_div, sim_comp, sapp, lin. cbn [s_c s_d s_flip xorb]. ptring.
    rewrite <- Q1. unfold coord. cbn [fst snd]. f_equal; field; lra.
Qed.

Definition ends (js : list jet) (n : Z) (p q : pt) : Prop :=
  option_map jx (nth_error js 0) = Some p /\ option_map jx (nth_error js (Z.to_nat (n - 1))) = Some q.
Lemma ends_map S js n p q : ends js n p q -> ends (map (jmap S) js) n (sapp S p) (sapp S q).
Proof.
  intros [H1 H2]. unfold ends. rewrite !nth_error_map.
  destruct (nth_error js 0) as [j|]; [|discriminate]. destruct (nth_error js (Z.to_nat (n - 1))) as [j'|]; [|discriminate].
  cbn in *. injection H1 as <-. injection H2 as <-. split; reflexivity.
Qed.

Lemma step_c_pos p q s : step_fine p q s -> 0 < norm2 (s_c (step_sim p q s)).
Proof.
  pose proof TOL_pos as HT. unfold norm2. destruct s as [a|a b|th| | |al|[[[a b] [c d]]|]]; cbn [step_sim step_fine s_c fst snd]; intros H; try lra.
  - destruct H as (H1 & H2 & H3). unfold join_sim. cbn [s_c]. set (c := pt_div _ _). change (0 < norm2 c). unfold c, pt_div.
    assert (E : forall r z, norm2 (pt_scale r z) = r * r * norm2 z) by (intros; ptring). rewrite E, norm2_mul, norm2_conj, <- !pdist_sq.
    rewrite (pdist_sym q p), (pdist_sym (coord b)). assert (0 < pdist p q * pdist p q) by nra. assert (0 < / (pdist p q * pdist p q)) by (apply Rinv_0_lt_compat; assumption).
    repeat apply Rmult_lt_0_compat; lra.
  - pose proof (sin2_cos2 (th * PI / 180)) as E. unfold Rsqr in E. lra.
  - nra.
  - destruct H as (H1 & _). lra.
Qed.

Lemma step_samples w s e js p q : e_param e = true -> e_smp e = map sample_of js -> Forall regular js -> ends js (e_npts e) p q ->
  step_fine p q s -> apply_step w s e = Ok (after_step w s e (map sample_of (map (jmap (step_sim p q s)) js))).
Proof.
  intros HP HS HR HE HF. pose proof TOL_pos as HT.
  destruct s as [a|a b|th| | |al|[A|]]; cbn [apply_step after_step step_fine] in *.
  - rewrite (translate_js e js HP HS HR). reflexivity.
  - destruct HF as (F1 & F2 & F3). destruct HE as [E1 E2]. unfold join_points. rewrite pdist_pow.
    replace (Rltb (pdist (coord a) (coord b)) TOL) with false by (symmetry; apply Rltb_false; exact F1). cbv zeta. rewrite log_param, HP, log_smp, log_npts, HS, !nth_error_map.
    destruct (nth_error js 0) as [j0|]; [|discriminate]. destruct (nth_error js (Z.to_nat (e_npts e - 1))) as [j1|]; [|discriminate].
    cbn [option_map] in *. injection E1 as <-. injection E2 as <-. cbn [sample_of sx]. rewrite pdist_pow'.
    replace (Rltb (pdist (jx j0) (jx j1)) TOL) with false by (symmetry; apply Rltb_false; exact F2).
    set (th := (_ * (180 / PI))). set (e0 := log w (SJoin a b) e).
    assert (P0 : e_param e0 = true) by (unfold e0; rewrite log_param; exact HP). assert (S0 : e_smp e0 = map sample_of js) by (unfold e0; rewrite log_smp; exact HS).
    rewrite (translate_js e0 js P0 S0 HR). cbn [log].
    set (T1 := Sim (1, 0) (coord (mkvert (- fst (jx j0)) (- snd (jx j0)))) false).
    assert (R1 : Forall regular (map (jmap T1) js)) by (apply regular_map; [unfold norm2; cbn; lra|exact HR]).
    rewrite (rotate_js (with_smp e0 (map sample_of (map (jmap T1) js))) (map (jmap T1) js) P0 eq_refl R1). cbn [bind log].
    set (T2 := step_sim (0, 0) (0, 0) (SRotate th)).
    assert (R2 : Forall regular (map (jmap T2) (map (jmap T1) js))) by (apply regular_map; [apply (step_c_pos (0, 0) (0, 0)); exact I|exact R1]).
    rewrite (dilate_js _ (map (jmap T2) (map (jmap T1) js))); [|exact P0|reflexivity|exact R2|exact F3]. cbn [bind log].
    set (T3 := Sim (_ / _, 0) (0, 0) false).
    assert (R3 : Forall regular (map (jmap T3) (map (jmap T2) (map (jmap T1) js)))).
    { apply regular_map; [|exact R2]. apply (step_c_pos (0, 0) (0, 0) (SDilate (pdist (coord a) (coord b) / pdist (jx j0) (jx j1)))). exact F3. }
    rewrite (translate_js _ (map (jmap T3) (map (jmap T2) (map (jmap T1) js)))); [|exact P0|reflexivity|exact R3]. cbn [log]. f_equal.
    unfold set_verts, with_smp; cbn [e_anchor e_endpnt e_pos e_neg e_curve e_opts e_qtype e_idx e_bdry e_loop e_param e_npts e_smp e_tb e_diary].
    assert (EM : map (jmap (Sim (1, 0) (coord a) false)) (map (jmap T3) (map (jmap T2) (map (jmap T1) js))) = map (jmap (step_sim (jx j0) (jx j1) (SJoin a b))) js).
    { rewrite !map_map. apply map_ext. intros j. apply join_motion; [lra|lra|reflexivity]. }
    rewrite EM. unfold e0. destruct w; reflexivity.
  - rewrite (rotate_js e js HP HS HR). reflexivity.
  - unfold reflect_x. cbv zeta. rewrite log_param, HP. apply reflect_js; try assumption.
    + unfold orthogonal; repeat split; ring.
    + intros j Hj. rewrite (ortho_sample_of _ j p q); [|unfold orthogonal; repeat split; ring|exact Hj]. f_equal. apply jmap_ext; try reflexivity. cbn [step_sim s_flip]. destruct (Rlt_dec _ 0); [reflexivity|lra].
  - unfold reflect_y. cbv zeta. rewrite log_param, HP. apply reflect_js; try assumption.
    + unfold orthogonal; repeat split; ring.
    + intros j Hj. rewrite (ortho_sample_of _ j p q); [|unfold orthogonal; repeat split; ring|exact Hj]. f_equal. apply jmap_ext; try reflexivity. cbn [step_sim s_flip]. destruct (Rlt_dec _ 0); [reflexivity|lra].
  - rewrite (dilate_js e js HP HS HR) by exact HF. reflexivity.
  - rewrite (ortho_js e js HP HS HR w A p q) by exact HF. reflexivity.
  - contradiction.
Qed.

(** ** Diaries *)
Lemma diary_samples l : forall e js p q, e_param e = true -> e_smp e = map sample_of js -> Forall regular js -> ends js (e_npts e) p q ->
  diary_fine p q l -> fold_res (fun e s => apply_step false s e) l e = Ok (after_diary l e (map sample_of (map (jmap (diary_sim p q l)) js))).
Proof.
  induction l as [|s l IH]; intros e js p q HP HS HR HE HF.
  - cbn [fold_res diary_sim]. unfold after_diary. cbn [last_join]. f_equal. rewrite (map_ext (jmap sim_id) (fun j => j)), map_id by (intros; apply id_jmap).
    rewrite <- HS. destruct e; reflexivity.
  - destruct HF as [F1 F2]. cbn [fold_res]. rewrite (step_samples false s e js p q) by assumption. cbn [bind].
    set (S := step_sim p q s) in *. set (e1 := after_step _ _ _ _).
    assert (A : e_param e1 = true /\ e_smp e1 = map sample_of (map (jmap S) js) /\ e_npts e1 = e_npts e).
    { unfold e1. destruct s; cbn; auto. }
    destruct A as (A1 & A2 & A3).
    rewrite (IH e1 (map (jmap S) js) (sapp S p) (sapp S q)); try assumption.
    + f_equal. cbn [diary_sim]. fold S. assert (EM : map (jmap (diary_sim (sapp S p) (sapp S q) l)) (map (jmap S) js) = map (jmap (sim_comp (diary_sim (sapp S p) (sapp S q) l) S)) js)
        by (rewrite map_map; apply map_ext; intros j; symmetry; apply comp_jmap). rewrite EM.
      set (sm := map sample_of _). unfold after_diary. cbn [last_join]. destruct (last_join l) as [[a b]|].
      * unfold e1. destruct s; reflexivity.
      * unfold e1. destruct s; reflexivity.
    + apply regular_map; [apply step_c_pos; exact F1|exact HR].
    + rewrite A3. apply ends_map. exact HE.
Qed.
