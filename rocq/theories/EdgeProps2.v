(** Edges: C26 (transformations), C27 (reversal), C28 (join_points). *)
From Coq Require Import List ZArith Reals Lia Lra Psatz Bool String.
From Coquelicot Require Import Coquelicot.
From Verif Require Import PyBase PolyModel BaryModel BarySpec BBoxModel QuadModel QuadSpec QuadProofs QuadProps CurveModel CurveSpec CurveProps VertModel EdgeModel EdgeSpec EdgeProofs EdgeProofs2 EdgeProps.
Import List ListNotations.
Open Scope R_scope.

(** ** C26 *)

(** Every transformation method maps the samples of a curve to the samples of the transformed
    curve: [js] are the points of the curve with first and second derivative, [step_sim] the
    plane map the method stands for. Missing: dilations by negative factors, see below. *)
Theorem C26_steps_partial w s e js p q : e_param e = true -> e_smp e = map sample_of js -> Forall regular js ->
  option_map jx (nth_error js 0) = Some p -> option_map jx (nth_error js (Z.to_nat (e_npts e - 1))) = Some q ->
  step_fine p q s ->
  exists e', apply_step w s e = Ok e' /\ e_smp e' = map sample_of (map (jmap (step_sim p q s)) js) /\
    e_param e' = true /\ e_npts e' = e_npts e /\ e_tb e' = e_tb e /\ e_curve e' = e_curve e /\ e_opts e' = e_opts e /\ e_qtype e' = e_qtype e /\
    ((forall a b, s <> SJoin a b) -> e_anchor e' = e_anchor e /\ e_endpnt e' = e_endpnt e /\ e_diary e' = e_diary e ++ (if w then [s] else [])).
Proof.
  intros HP HS HR E0 E1 HF. eexists. split; [exact (step_samples w s e js p q HP HS HR (conj E0 E1) HF)|].
  destruct s as [a|a b|th| | |al|A]; cbn [after_step]; destruct w; repeat split; try exact HP; cbn; try (rewrite app_nil_r; reflexivity); exfalso; eapply H; reflexivity.
Qed.
Print Assumptions C26_steps_partial.

(** Before parameterization a method only records itself. *)
Theorem C26_recorded s e e' : e_param e = false -> apply_step true s e = Ok e' -> e' = with_diary e (e_diary e ++ [s]).
Proof.
  intros H. destruct s as [a|a b|th| | |al|A]; cbn [apply_step]; unfold translate, join_points, rotate, reflect_x, reflect_y, dilate, apply_ortho, on_smp; cbv zeta; rewrite ?log_param, ?H.
  - intros E. apply Ok_inj in E. exact E.
  - destruct (Rltb _ TOL); [discriminate|]. intros E. apply Ok_inj in E. exact E.
  - intros E. apply Ok_inj in E. exact E.
  - intros E. apply Ok_inj in E. exact E.
  - intros E. apply Ok_inj in E. exact E.
  - destruct (Rltb _ TOL); [discriminate|]. intros E. apply Ok_inj in E. exact E.
  - destruct A as [M|]; [|discriminate]. destruct (Rltb TOL _); [discriminate|]. intros E. apply Ok_inj in E. exact E.
Qed.

(** Transforming before or after parameterization gives the same samples, for every method and
    every parameter, accepted or not. *)
Theorem C26_order qd e e0 s : e_param e = false -> apply_step true s e = Ok e0 ->
  match parameterize qd e0, (do e1 <- parameterize qd e; apply_step true s e1) with
  | Ok a, Ok b => e_smp a = e_smp b /\ e_npts a = e_npts b
  | Err x, Err y => x = y
  | _, _ => False
  end.
Proof.
  intros HP HE. rewrite (C26_recorded s e e0 HP HE). pose proof (parameterize_snoc qd e s) as H.
  destruct (parameterize qd (with_diary e (e_diary e ++ [s]))), (do e1 <- parameterize qd e; apply_step true s e1); cbn in H; try contradiction; [|exact H].
  destruct H as (_ & A & B). split; assumption.
Qed.
Print Assumptions C26_order.

(** Rejections: a dilation factor below 1e-12 in absolute value, and matrices that are not 2 by
    2 or whose A^T A - I exceeds 1e-12 in the Frobenius norm. Nothing else is rejected. *)
Theorem C26_rejected w e :
  (forall al, (exists e', dilate w al e = Ok e') <-> TOL <= Rabs al) /\
  (forall al, Rabs al < TOL -> dilate w al e = Err EdgeTransformationError) /\
  apply_ortho w None e = Err EdgeTransformationError /\
  (forall a b c d, (exists e', apply_ortho w (Some ((a, b), (c, d))) e = Ok e') <->
     (a * a + c * c - 1) ^ 2 + 2 * (a * b + c * d) ^ 2 + (b * b + d * d - 1) ^ 2 <= TOL ^ 2) /\
  (forall th, exists e', rotate w th e = Ok e') /\ (exists e', reflect_x w e = Ok e') /\ (exists e', reflect_y w e = Ok e').
Proof.
  pose proof TOL_pos as HT.
  assert (OR : forall A w e, orthogonal A -> exists e', apply_ortho w (Some A) e = Ok e').
  { intros A w' e0 H. unfold apply_ortho. rewrite orth_defect_0 by exact H. replace (Rltb TOL 0) with false by (symmetry; apply Rltb_false; lra). eexists; reflexivity. }
  split; [|split; [|split; [|split; [|split; [|split]]]]].
  - intros al. unfold dilate. destruct (Rltb (Rabs al) TOL) eqn:E; [apply Rltb_true in E|apply Rltb_false in E]; split; intros H.
    + destruct H; discriminate.
    + lra.
    + exact E.
    + eexists; reflexivity.
  - intros al H. unfold dilate. replace (Rltb (Rabs al) TOL) with true by (symmetry; apply Rltb_true; exact H). reflexivity.
  - reflexivity.
  - intros a b c d. unfold apply_ortho, ortho_defect. set (x := a * a + c * c - 1). set (y := a * b + c * d). replace (b * a + d * c) with y by (unfold y; ring). set (z := b * b + d * d - 1).
    replace (x ^ 2 + y ^ 2 + y ^ 2 + z ^ 2) with (x ^ 2 + 2 * y ^ 2 + z ^ 2) by ring. set (u := x ^ 2 + 2 * y ^ 2 + z ^ 2).
    assert (U : 0 <= u) by (unfold u; nra). pose proof (sqrt_sqrt u U) as SS. pose proof (sqrt_pos u) as SP.
    destruct (Rltb TOL (sqrt u)) eqn:E; [apply Rltb_true in E|apply Rltb_false in E]; split; intros H.
    + destruct H; discriminate.
    + exfalso. nra.
    + nra.
    + eexists; reflexivity.
  - intros th. unfold rotate. cbv zeta. destruct (e_param (log w (SRotate th) e)); [|eexists; reflexivity]. apply OR.
    pose proof (sin2_cos2 (th * PI / 180)) as E. unfold Rsqr in E. unfold orthogonal. repeat split; lra.
  - unfold reflect_x. cbv zeta. destruct (e_param _); [|eexists; reflexivity]. apply OR. unfold orthogonal. repeat split; ring.
  - unfold reflect_y. cbv zeta. destruct (e_param _); [|eexists; reflexivity]. apply OR. unfold orthogonal. repeat split; ring.
Qed.
Print Assumptions C26_rejected.

(** A matrix that is accepted although not exactly orthogonal changes squared tangent lengths
    by at most 1e-12. *)
Theorem C26_near_orthogonal A s : ortho_defect A <= TOL -> norm2 (sT s) = 1 -> Rabs (norm2 (sT (ortho_sample A s)) - 1) <= TOL.
Proof.
  destruct A as [[a b] [c d]]. unfold ortho_defect. set (x := a * a + c * c - 1). set (y := a * b + c * d). replace (b * a + d * c) with y by (unfold y; ring). set (z := b * b + d * d - 1).
  intros H N. unfold ortho_sample, mv2. cbn [sT fst snd]. destruct (sT s) as [t1 t2]. unfold norm2 in *. cbn [fst snd] in *.
  replace ((a * t1 + b * t2) * (a * t1 + b * t2) + (c * t1 + d * t2) * (c * t1 + d * t2) - 1) with (x * (t1 * t1) + 2 * y * (t1 * t2) + z * (t2 * t2) + (t1 * t1 + t2 * t2 - 1)) by (unfold x, y, z; ring). rewrite N, Rminus_diag_eq, Rplus_0_r by reflexivity.
  set (u := x ^ 2 + y ^ 2 + y ^ 2 + z ^ 2) in *. assert (U : 0 <= u) by (unfold u; nra). pose proof (sqrt_sqrt u U) as SS. pose proof (sqrt_pos u) as SP.
  apply Rle_trans with (sqrt u); [|exact H]. apply Rsqr_incr_0_var; [|exact SP]. rewrite <- Rsqr_abs. unfold Rsqr. rewrite SS. unfold u.
  set (v := t1 * t1) in *. set (w := t2 * t2) in *. set (m := t1 * t2). assert (M : m * m = v * w) by (unfold m, v, w; ring).
  assert (Q : v * v + 2 * (m * m) + w * w = 1) by (rewrite M; replace (v * v + 2 * (v * w) + w * w) with ((v + w) * (v + w)) by ring; rewrite N; ring).
  replace (x ^ 2 + y ^ 2 + y ^ 2 + z ^ 2) with ((x * x + 2 * (y * y) + z * z) * (v * v + 2 * (m * m) + w * w)) by (rewrite Q; ring).
  assert (0 <= 2 * ((x * m - y * v) * (x * m - y * v)) + (x * w - z * v) * (x * w - z * v) + 2 * ((y * w - z * m) * (y * w - z * m))).
  { pose proof (Rle_0_sqr (x * m - y * v)) as A1. pose proof (Rle_0_sqr (x * w - z * v)) as A2. pose proof (Rle_0_sqr (y * w - z * m)) as A3. unfold Rsqr in *. lra. }
  lra.
Qed.

(** A negative dilation factor is accepted. Positions and speeds are those of the transformed
    curve; tangent, normal and curvature have the wrong sign at every sample. *)
Theorem C26_negative_dilation_refuted w al e js : al <= - TOL -> e_param e = true -> e_smp e = map sample_of js -> Forall regular js ->
  exists e', apply_step w (SDilate al) e = Ok e' /\
    e_smp e' = map (fun j => let s := sample_of (jmap (Sim (al, 0) (0, 0) false) j) in
      Smp (sx s) (- fst (sT s), - snd (sT s)) (- fst (sN s), - snd (sN s)) (sw s) (- sk s)) js.
Proof.
  intros Ha HP HS HR. pose proof TOL_pos as HT. cbn [apply_step]. unfold dilate. replace (Rltb (Rabs al) TOL) with false by (symmetry; apply Rltb_false; rewrite Rabs_left by lra; lra).
  eexists. split; [reflexivity|]. unfold on_smp. rewrite log_param, HP. cbn [e_smp with_smp]. rewrite log_smp, HS, map_map. apply map_ext_in. intros j Hj.
  rewrite Forall_forall in HR. specialize (HR j Hj). pose proof (norm_pos _ HR) as Hn. rewrite Rabs_left by lra.
  assert (NN : norm (al, 0) = - al) by (unfold norm, norm2; cbn [fst snd]; replace (al * al + 0 * 0) with (- al * - al) by ring; apply sqrt_square; lra).
  assert (N2 : 0 < norm2 (s_c (Sim (al, 0) (0, 0) false))) by (unfold norm2; cbn [s_c fst snd]; nra).
  cbv zeta. rewrite sample_of_jmap by assumption. cbn [s_c s_flip sx sT sN sw sk]. rewrite NN.
  assert (E : forall z, lin (Sim (al, 0) (0, 0) false) z = pt_scale al z) by (intros []; unfold lin; cbn [s_c s_flip]; ptring).
  unfold sapp. rewrite !E, pt_scale_scale. replace (/ - al * al) with (-1) by (field; lra). unfold sample_of. cbn [sx sT sN sw sk s_d]. unfold pt_scale, cw, pt_add. cbn [fst snd].
  f_equal; try (f_equal; ring); try ring. field. split; lra.
Qed.
Print Assumptions C26_negative_dilation_refuted.

(** The quarter circle point (0,1) with derivative (-1,0), reflected across the x axis *)
Example C26_example : let j := Jet (0, 1) (-1, 0) (0, -1) 1 in
  regular j /\ step_fine (0, 1) (0, 1) SReflX /\ jmap (step_sim (0, 1) (0, 1) SReflX) j = Jet (0, -1) (-1, 0) (0, 1) 1 /\
  sample_of j = Smp (0, 1) (-1, 0) (0, 1) 1 (-1) /\ sample_of (Jet (0, -1) (-1, 0) (0, 1) 1) = Smp (0, -1) (-1, 0) (0, 1) 1 1.
Proof.
  assert (N : norm (-1, 0) = 1) by (unfold norm, norm2; cbn [fst snd]; replace (-1 * -1 + 0 * 0) with 1 by ring; apply sqrt_1).
  cbv zeta. split; [unfold regular, norm2; cbn; lra|]. split; [exact I|]. split; [|split].
  - unfold jmap, sapp, lin, pt_mul, pt_conj, pt_add. cbn [step_sim jx jd jdd jw s_c s_d s_flip fst snd]. f_equal; f_equal; ring.
  - unfold sample_of. cbn [jx jd jdd jw]. rewrite N. unfold pt_scale, cw, cross. cbn [fst snd]. f_equal; try (f_equal; field); field.
  - unfold sample_of. cbn [jx jd jdd jw]. rewrite N. unfold pt_scale, cw, cross. cbn [fst snd]. f_equal; try (f_equal; field); field.
Qed.

(** ** C27 *)

Theorem C27_involution e : reverse_orientation (reverse_orientation e) = e.
Proof.
  unfold reverse_orientation. destruct (e_param e) eqn:H; [|rewrite H; reflexivity]. cbn [e_param with_smp]. rewrite H. cbn [e_smp with_smp].
  assert (E : rev (map reverse_sample (rev (map reverse_sample (e_smp e)))) = e_smp e).
  { rewrite map_rev, rev_involutive, map_map. rewrite <- map_id. apply map_ext. intros [x [t1 t2] [n1 n2] w k]. unfold reverse_sample. cbn [sx sT sN sw sk fst snd]. rewrite !Ropp_involutive. reflexivity. }
  rewrite E. destruct e; reflexivity.
Qed.
Print Assumptions C27_involution.

(** Order reversed; tangents, normals and curvature negated; positions and speeds kept. *)
Theorem C27_reversed e i s : e_param e = true -> nth_error (e_smp e) i = Some s ->
  nth_error (e_smp (reverse_orientation e)) (List.length (e_smp e) - 1 - i) =
    Some (Smp (sx s) (- fst (sT s), - snd (sT s)) (- fst (sN s), - snd (sN s)) (sw s) (- sk s)) /\
  List.length (e_smp (reverse_orientation e)) = List.length (e_smp e) /\
  e_anchor (reverse_orientation e) = e_anchor e /\ e_endpnt (reverse_orientation e) = e_endpnt e /\ e_diary (reverse_orientation e) = e_diary e.
Proof.
  intros H Hi. assert (L : (i < List.length (e_smp e))%nat) by (apply nth_error_Some; rewrite Hi; discriminate).
  unfold reverse_orientation. rewrite H. cbn [e_smp with_smp e_anchor e_endpnt e_diary]. split; [|split; [rewrite rev_length, map_length; reflexivity|repeat split]].
  set (d := reverse_sample s). rewrite (nth_error_nth' _ d) by (rewrite rev_length, map_length; lia). f_equal.
  rewrite rev_nth by (rewrite map_length; lia). rewrite map_length. replace (List.length (e_smp e) - S (List.length (e_smp e) - 1 - i))%nat with i by lia.
  unfold d. rewrite map_nth. rewrite (nth_error_nth _ _ _ Hi). reflexivity.
Qed.

(** The dictionary's quadratures are symmetric. *)
Lemma rev_linspace_map (f g : R -> R) N : (0 < N)%nat -> (forall t, 0 <= t <= 2 * PI -> f (2 * PI - t) = g t) ->
  rev (map f (linspace 0 (2 * PI) (2 * N))) = map g (linspace 0 (2 * PI) (2 * N)).
Proof.
  intros HN H. assert (IN : 0 < INR N) by (apply lt_0_INR; exact HN). apply nth_ext with (d := 0) (d' := 0); [rewrite rev_length, !map_length; reflexivity|]. intros i Hi. rewrite rev_length, map_length, linspace_length in Hi.
  rewrite rev_nth by (rewrite map_length, linspace_length; lia). rewrite map_length, linspace_length, !nth_map_linspace by lia. rewrite <- H by (apply grid_range; lia). f_equal.
  unfold grid. rewrite minus_INR by lia. rewrite S_INR, S_INR, mult_INR. cbn [INR]. field. lra.
Qed.
Lemma dict_symmetric n p a b q : get_quad_dict n p = Ok (a, b) -> q = a \/ q = b -> rev (q_t q) = map (fun t => 2 * PI - t) (q_t q) /\ rev (q_wgt q) = q_wgt q.
Proof.
  unfold get_quad_dict. destruct n as [n|]; [|discriminate]. rewrite quad_trap, quad_kress. destruct (Z.ltb_spec n 4); [discriminate|]. destruct (Z.ltb_spec p 2); [discriminate|]. cbv zeta. cbn [bind].
  set (N := Z.to_nat n). assert (HN : (0 < N)%nat) by (unfold N; lia). intros E Q. apply Ok_inj in E. pose proof (f_equal fst E) as Ea. pose proof (f_equal snd E) as Eb. cbn [fst snd] in Ea, Eb. clear E. subst a b. destruct Q as [Q|Q]; subst q; cbn [q_t q_wgt].
  - split.
    + rewrite <- (map_id (linspace 0 (2 * PI) (2 * N))) at 1. apply rev_linspace_map; [exact HN|]. intros; reflexivity.
    + apply rev_linspace_map; [exact HN|]. reflexivity.
  - split.
    + rewrite map_map. apply rev_linspace_map; [exact HN|]. intros t Ht. apply kress_sym; [lia|exact Ht].
    + apply rev_linspace_map; [exact HN|]. intros t Ht. apply kress_wgt_sym.
Qed.

Lemma rev_combine {A B} (l : list A) (m : list B) : List.length l = List.length m -> rev (combine l m) = combine (rev l) (rev m).
Proof.
  revert m. induction l as [|a l IH]; intros [|b m]; try discriminate; [reflexivity|]. cbn. intros E. injection E as E. rewrite IH by exact E.
  assert (X : forall (u : list A) (v : list B), List.length u = List.length v -> combine u v ++ [(a, b)] = combine (u ++ [a]) (v ++ [b])).
  { induction u as [|x u IHu]; intros [|y v]; try discriminate; [reflexivity|]. cbn. intros E'. injection E' as E'. rewrite IHu by exact E'. reflexivity. }
  apply X. rewrite !rev_length. exact E.
Qed.

(** The reversed edge stores the samples of the reversed curve t -> c(2 pi - t) at the same
    quadrature. *)
Theorem C27_reversed_curve n p a b q e (c c' c'' : R -> pt) : get_quad_dict n p = Ok (a, b) -> q = a \/ q = b ->
  (forall t, pt_derive c t (c' t) /\ pt_derive c' t (c'' t)) -> (forall t, 0 <= t <= 2 * PI -> 0 < norm2 (c' t)) ->
  e_param e = true -> e_smp e = map sample_of (curve_jets c c' c'' (q_t q) (q_wgt q)) ->
  exists r r' r'', (forall t, r t = c (2 * PI - t)) /\ (forall t, pt_derive r t (r' t) /\ pt_derive r' t (r'' t)) /\
    e_smp (reverse_orientation e) = map sample_of (curve_jets r r' r'' (q_t q) (q_wgt q)).
Proof.
  intros HD HQ HDer HR HP HS. exists (fun t => c (2 * PI - t)), (fun t => pt_scale (-1) (c' (2 * PI - t))), (fun t => c'' (2 * PI - t)).
  assert (A : forall f t d, pt_derive f (2 * PI - t) d -> pt_derive (fun t => f (2 * PI - t)) t (pt_scale (-1) d)).
  { intros f t d [H1 H2]. assert (DI : is_derive (fun t => 2 * PI - t) t (-1)) by (auto_derive; [trivial|ring]). split; cbn [pt_scale fst snd].
    - apply (is_derive_comp (fun s => fst (f s)) (fun t => 2 * PI - t) t _ _ H1 DI).
    - apply (is_derive_comp (fun s => snd (f s)) (fun t => 2 * PI - t) t _ _ H2 DI). }
  split; [reflexivity|]. split.
  - intros t. destruct (HDer (2 * PI - t)) as [H1 H2]. split; [apply A, H1|].
    replace (c'' (2 * PI - t)) with (pt_scale (-1) (pt_scale (-1) (c'' (2 * PI - t)))) by (rewrite pt_scale_scale; replace (-1 * -1) with 1 by ring; apply pt_scale_1).
    apply (scale_derive (-1) (fun t => c' (2 * PI - t))), A, H2.
  - unfold reverse_orientation. rewrite HP. cbn [e_smp with_smp]. rewrite HS. unfold curve_jets. rewrite !map_map, <- map_rev.
    assert (NK : node_ok q) by (destruct (dict_ok _ _ _ _ HD) as [[X _] [Y _]]; destruct HQ as [->| ->]; assumption). destruct NK as (L1 & L2 & _ & _ & F).
    destruct (dict_symmetric _ _ _ _ _ HD HQ) as [S1 S2]. rewrite rev_combine by lia. rewrite S1, S2.
    assert (EC : combine (map (fun t => 2 * PI - t) (q_t q)) (q_wgt q) = map (fun tw => (2 * PI - fst tw, snd tw)) (combine (q_t q) (q_wgt q))).
    { generalize (q_t q) (q_wgt q). intros l. induction l as [|x l IH]; intros [|y m]; cbn; try reflexivity. rewrite IH. reflexivity. }
    rewrite EC, map_map. apply map_ext_in. intros [t w] I. cbn [fst snd]. apply in_combine_l in I. rewrite Forall_forall in F. specialize (F t I).
    assert (N : 0 < norm2 (c' (2 * PI - t))) by (apply HR; lra). pose proof (norm_pos _ N) as Hn.
    assert (NN : norm (pt_scale (-1) (c' (2 * PI - t))) = norm (c' (2 * PI - t))) by (unfold norm; rewrite norm2_scale; f_equal; ring).
    unfold reverse_sample, sample_of. cbn [jx jd jdd jw sx sT sN sw sk]. rewrite NN. unfold cw, pt_scale, cross. cbn [fst snd]. f_equal; first [f_equal; field; lra | field; lra].
Qed.
Print Assumptions C27_reversed_curve.

Lemma np_sum_app l m : np_sum (l ++ m) = np_sum l + np_sum m.
Proof. unfold np_sum. induction l as [|a l IH]; cbn; [ring|]. rewrite IH. ring. Qed.
Lemma np_sum_rev l : np_sum (rev l) = np_sum l.
Proof. induction l as [|a l IH]; [reflexivity|]. cbn [rev]. rewrite np_sum_app, IH. unfold np_sum. cbn [fold_right]. ring. Qed.
Lemma np_sum_map_scale h l : np_sum (map (fun x => h * x) l) = h * np_sum l.
Proof. unfold np_sum. induction l as [|a l IH]; cbn; [ring|]. rewrite IH. ring. Qed.
(** The closed form of the trapezoid rule *)
Lemma trapezoid_form h v v0 v' : v = v0 :: v' -> v' <> [] ->
  1 / 2 * h * (v0 + last v v0) + np_sum (map (fun x => h * x) (removelast v')) = h * (np_sum v - (v0 + last v v0) / 2).
Proof.
  intros -> H. rewrite np_sum_map_scale. assert (E : last (v0 :: v') v0 = last v' v0) by (destruct v'; [congruence|reflexivity]). rewrite E.
  pose proof (app_removelast_last v0 H) as A. cbn [np_sum fold_right]. fold (np_sum v'). rewrite A at 3. rewrite np_sum_app. cbn. field.
Qed.
Lemma last_rev_hd {A} (l : list A) d : last (rev l) d = hd d l.
Proof. destruct l as [|a l]; [reflexivity|]. cbn [rev]. rewrite last_last. reflexivity. Qed.
Lemma hd_rev_last {A} (l : list A) d : hd d (rev l) = last l d.
Proof. rewrite <- (rev_involutive l) at 2. rewrite last_rev_hd. reflexivity. Qed.

Lemma last_indep {A} (l : list A) d d' : l <> [] -> last l d = last l d'.
Proof. induction l as [|a [|b l] IH]; intros H; [congruence|reflexivity|]. apply IH. discriminate. Qed.
Lemma integrate_form v e : e_param e = true -> (2 <= e_npts e)%Z -> Z.of_nat (List.length v) = e_npts e ->
  integrate_preweighted v false e = Ok (2 * PI / IZR (e_npts e - 1) * (np_sum v - (hd 0 v + last v 0) / 2)).
Proof.
  intros HP HN HL. unfold integrate_preweighted. rewrite HP. cbv zeta iota. rewrite (proj2 (Z.eqb_eq _ _) HL). destruct v as [|v0 [|v1 v]]; [cbn in HL; lia|cbn in HL; lia|].
  rewrite (trapezoid_form _ (v0 :: v1 :: v) v0 (v1 :: v) eq_refl) by discriminate. do 3 f_equal. cbn [hd].
  assert (E : last (v0 :: v1 :: v) v0 = last (v0 :: v1 :: v) 0) by (apply last_indep; discriminate). rewrite E. reflexivity.
Qed.

(** Reversal leaves trapezoid integrals unchanged: the values are reversed with the samples. *)
Theorem C27_integrals e v : e_param e = true -> Z.of_nat (List.length (e_smp e)) = e_npts e -> (2 <= e_npts e)%Z ->
  integrate_over_edge (rev v) false (reverse_orientation e) = integrate_over_edge v false e /\
  integrate_preweighted (rev v) false (reverse_orientation e) = integrate_preweighted v false e /\
  forall f, evaluate_function f false (reverse_orientation e) = do u <- evaluate_function f false e; Ok (rev u).
Proof.
  intros HP HL HN. assert (PR : e_param (reverse_orientation e) = true) by (unfold reverse_orientation; rewrite HP; exact HP).
  assert (NR : e_npts (reverse_orientation e) = e_npts e) by (unfold reverse_orientation; rewrite HP; reflexivity).
  assert (SR : e_smp (reverse_orientation e) = rev (map reverse_sample (e_smp e))) by (unfold reverse_orientation; rewrite HP; reflexivity).
  assert (PW : forall v, integrate_preweighted (rev v) false (reverse_orientation e) = integrate_preweighted v false e).
  { intros u. destruct (Z.eq_dec (Z.of_nat (List.length u)) (e_npts e)) as [E|E].
    - rewrite !integrate_form; rewrite ?NR, ?rev_length; try assumption. rewrite np_sum_rev, last_rev_hd, hd_rev_last. do 2 f_equal. lra.
    - unfold integrate_preweighted. rewrite HP, PR, NR, rev_length. apply Z.eqb_neq in E. rewrite E. reflexivity. }
  split; [|split; [apply PW|]].
  - unfold integrate_over_edge, multiply_by_dx_norm. rewrite HP, PR, NR, SR, rev_length. cbv iota.
    destruct (Z.eqb_spec (Z.of_nat (List.length v)) (e_npts e)) as [E|E]; [|reflexivity]. unfold np_mul. rewrite map_rev, !rev_length, !map_length.
    replace (List.length (e_smp e)) with (List.length v) by lia. rewrite Nat.eqb_refl. cbn [bind].
    rewrite <- PW. f_equal. rewrite map_map. cbn [reverse_sample sw]. rewrite <- rev_combine by (rewrite map_length; lia). rewrite map_rev. reflexivity.
  - intros f. unfold evaluate_function. rewrite HP, PR, NR, SR. cbn [bind]. f_equal. rewrite !firstn_all2 by (rewrite ?rev_length, ?map_length; lia). rewrite map_rev, map_map. reflexivity.
Qed.
Print Assumptions C27_integrals.

Example C27_example : let e := with_param (line_edge (mkvert 0 0) (mkvert 1 0)) true 2 [Smp (0, 0) (1, 0) (0, -1) 2 3; Smp (1, 0) (1, 0) (0, -1) 4 5] in
  e_smp (reverse_orientation e) = [Smp (1, 0) (-1, -0) (-0, - -1) 4 (-5); Smp (0, 0) (-1, -0) (-0, - -1) 2 (-3)] /\ integrate_over_edge [1; 10] false e = Ok (42 * PI).
Proof.
  cbv zeta. split; [unfold reverse_orientation; cbn; reflexivity|]. unfold integrate_over_edge, multiply_by_dx_norm. cbn [with_param line_edge e_param e_npts e_smp map List.length Z.of_nat Z.eqb]. cbn. f_equal. field.
Qed.

(** ** C28 *)

Theorem C28_join w a b e s0 s1 : e_param e = true -> nth_error (e_smp e) 0 = Some s0 -> nth_error (e_smp e) (Z.to_nat (e_npts e - 1)) = Some s1 ->
  let r := pdist (coord a) (coord b) / pdist (sx s0) (sx s1) in
  TOL <= pdist (coord a) (coord b) -> TOL <= pdist (sx s0) (sx s1) -> TOL <= r ->
  exists e', join_points w a b e = Ok e' /\ e_anchor e' = a /\ e_endpnt e' = b /\ List.length (e_smp e') = List.length (e_smp e) /\
    option_map sx (nth_error (e_smp e') 0) = Some (coord a) /\ option_map sx (nth_error (e_smp e') (Z.to_nat (e_npts e' - 1))) = Some (coord b) /\
    (forall i j u v u' v', nth_error (e_smp e) i = Some u -> nth_error (e_smp e) j = Some v -> nth_error (e_smp e') i = Some u' -> nth_error (e_smp e') j = Some v' ->
       pdist (sx u') (sx v') = r * pdist (sx u) (sx v)) /\
    (forall i j k u v z u' v' z', nth_error (e_smp e) i = Some u -> nth_error (e_smp e) j = Some v -> nth_error (e_smp e) k = Some z ->
       nth_error (e_smp e') i = Some u' -> nth_error (e_smp e') j = Some v' -> nth_error (e_smp e') k = Some z' ->
       cross3 (sx u') (sx v') (sx z') = r * r * cross3 (sx u) (sx v) (sx z)).
Proof.
  intros HP E0 E1 r F1 F2 F3. pose proof TOL_pos as HT. destruct (join_pos w a b e s0 s1 HP E0 E1 F1 F2 F3) as (e' & J & A & B & _ & _ & P' & N' & Q). exists e'.
  set (S := join_sim _ _ _ _) in Q. assert (HD : 0 < pdist (sx s0) (sx s1)) by lra. destruct (join_sim_ends (sx s0) (sx s1) (coord a) (coord b) HD) as [X0 X1]. fold S in X0, X1.
  assert (HN : norm (s_c S) = r) by (apply join_sim_norm; exact HD).
  assert (G : forall i u, nth_error (e_smp e) i = Some u -> option_map sx (nth_error (e_smp e') i) = Some (sapp S (sx u))).
  { intros i u Hi. apply (f_equal (fun l => nth_error l i)) in Q. unfold pos in Q. rewrite !nth_error_map, Hi in Q. exact Q. }
  assert (G' : forall i u u', nth_error (e_smp e) i = Some u -> nth_error (e_smp e') i = Some u' -> sx u' = sapp S (sx u)).
  { intros i u u' Hi Hi'. specialize (G i u Hi). rewrite Hi' in G. cbn in G. congruence. }
  split; [exact J|]. split; [exact A|]. split; [exact B|]. split.
  { apply (f_equal (@List.length pt)) in Q. unfold pos in Q. rewrite !map_length in Q. exact Q. }
  split; [rewrite (G _ _ E0), X0; reflexivity|]. split; [rewrite N', (G _ _ E1), X1; reflexivity|]. split.
  - intros i j u v u' v' Hu Hv Hu' Hv'. rewrite (G' _ _ _ Hu Hu'), (G' _ _ _ Hv Hv'), app_dist, HN. reflexivity.
  - intros i j k u v z u' v' z' Hu Hv Hz Hu' Hv' Hz'. rewrite (G' _ _ _ Hu Hu'), (G' _ _ _ Hv Hv'), (G' _ _ _ Hz Hz'). rewrite <- HN, norm_sq.
    assert (SF : s_flip S = false) by reflexivity. clearbody S. destruct S as [[c1 c2] [d1 d2] f]. cbn [s_flip] in SF. subst f. unfold cross3, sapp, lin, pt_mul, pt_add, norm2. cbn [s_c s_d s_flip fst snd]. ring.
Qed.
Print Assumptions C28_join.

(** Rejections. Besides coincident target points and coincident endpoints, a ratio below 1e-12
    is rejected, by the dilation. *)
Theorem C28_rejected w a b e :
  (pdist (coord a) (coord b) < TOL -> join_points w a b e = Err EdgeTransformationError) /\
  (forall s0 s1, e_param e = true -> nth_error (e_smp e) 0 = Some s0 -> nth_error (e_smp e) (Z.to_nat (e_npts e - 1)) = Some s1 ->
     pdist (sx s0) (sx s1) < TOL -> join_points w a b e = Err EdgeTransformationError) /\
  (forall s0 s1, e_param e = true -> nth_error (e_smp e) 0 = Some s0 -> nth_error (e_smp e) (Z.to_nat (e_npts e - 1)) = Some s1 ->
     ((exists e', join_points w a b e = Ok e') <->
      TOL <= pdist (coord a) (coord b) /\ TOL <= pdist (sx s0) (sx s1) /\ TOL <= pdist (coord a) (coord b) / pdist (sx s0) (sx s1))) /\
  (e_param e = false -> TOL <= pdist (coord a) (coord b) -> join_points true a b e = Ok (with_diary e (e_diary e ++ [SJoin a b]))).
Proof.
  pose proof TOL_pos as HT.
  assert (R1 : pdist (coord a) (coord b) < TOL -> join_points w a b e = Err EdgeTransformationError).
  { intros H. unfold join_points. rewrite pdist_pow. replace (Rltb _ TOL) with true by (symmetry; apply Rltb_true; exact H). reflexivity. }
  assert (R2 : forall s0 s1, e_param e = true -> nth_error (e_smp e) 0 = Some s0 -> nth_error (e_smp e) (Z.to_nat (e_npts e - 1)) = Some s1 ->
     pdist (sx s0) (sx s1) < TOL -> join_points w a b e = Err EdgeTransformationError).
  { intros s0 s1 HP E0 E1 H. unfold join_points. destruct (Rltb _ TOL); [reflexivity|]. cbv zeta. rewrite log_param, HP, log_smp, log_npts, E0, E1, pdist_pow'.
    replace (Rltb (pdist _ _) TOL) with true by (symmetry; apply Rltb_true; exact H). reflexivity. }
  split; [exact R1|]. split; [exact R2|]. split.
  - intros s0 s1 HP E0 E1. split; [|intros (A & B & C); destruct (join_pos w a b e s0 s1 HP E0 E1 A B C) as (e' & J & _); exists e'; exact J].
    intros [e' J]. destruct (Rle_lt_dec TOL (pdist (coord a) (coord b))) as [A|A]; [|rewrite (R1 A) in J; discriminate].
    destruct (Rle_lt_dec TOL (pdist (sx s0) (sx s1))) as [B|B]; [|rewrite (R2 s0 s1 HP E0 E1 B) in J; discriminate].
    split; [exact A|]. split; [exact B|]. apply Rnot_lt_le. intros C. unfold join_points in J. rewrite pdist_pow in J. replace (Rltb (pdist (coord a) (coord b)) TOL) with false in J by (symmetry; apply Rltb_false; exact A).
    cbv zeta in J. rewrite log_param, HP, log_smp, log_npts, E0, E1, pdist_pow' in J. replace (Rltb (pdist (sx s0) (sx s1)) TOL) with false in J by (symmetry; apply Rltb_false; exact B).
    destruct (rotate false _ _) as [x|]; [|discriminate]. cbn [bind] in J. unfold dilate at 1 in J.
    assert (0 < pdist (coord a) (coord b) / pdist (sx s0) (sx s1)) by (apply Rdiv_lt_0_compat; lra).
    replace (Rltb (Rabs _) TOL) with true in J by (symmetry; apply Rltb_true; rewrite Rabs_pos_eq; lra). discriminate.
  - intros HP H. unfold join_points. rewrite pdist_pow. replace (Rltb (pdist _ _) TOL) with false by (symmetry; apply Rltb_false; exact H). cbv zeta. rewrite log_param, HP. reflexivity.
Qed.
Print Assumptions C28_rejected.

Example C28_example : let e := with_param (line_edge (mkvert 0 0) (mkvert 1 0)) true 2 [Smp (2, 0) (0, 1) (1, 0) 1 0; Smp (2, 2) (0, 1) (1, 0) 1 0] in
  exists e', join_points true (mkvert 0 0) (mkvert 1 0) e = Ok e' /\ map sx (e_smp e') = [(0, 0); (1, 0)].
Proof.
  cbv zeta. set (e := with_param _ _ _ _). assert (D2 : pdist (2, 0) (2, 2) = 2) by (unfold pdist; cbn [fst snd]; replace ((2 - 2) * (2 - 2) + (0 - 2) * (0 - 2)) with (2 * 2) by ring; apply sqrt_square; lra).
  assert (D1 : pdist (coord (mkvert 0 0)) (coord (mkvert 1 0)) = 1) by exact dist01.
  destruct (C28_join true (mkvert 0 0) (mkvert 1 0) e (Smp (2, 0) (0, 1) (1, 0) 1 0) (Smp (2, 2) (0, 1) (1, 0) 1 0) eq_refl eq_refl eq_refl) as (e' & J & _ & _ & L & A & B & _); cbn [sx]; rewrite ?D1, ?D2; try (unfold TOL; lra).
  exists e'. split; [exact J|]. assert (NP : e_npts e' = 2%Z).
  { destruct (join_pos true (mkvert 0 0) (mkvert 1 0) e (Smp (2, 0) (0, 1) (1, 0) 1 0) (Smp (2, 2) (0, 1) (1, 0) 1 0) eq_refl eq_refl eq_refl) as (e2 & J2 & _ & _ & _ & _ & _ & N2 & _); cbn [sx]; rewrite ?D1, ?D2; try (unfold TOL; lra). rewrite J in J2. apply Ok_inj in J2. subst e2. exact N2. }
  rewrite NP in B. change (Z.to_nat (2 - 1)) with 1%nat in B. change (List.length (e_smp e)) with 2%nat in L. destruct (e_smp e') as [|u [|v [|]]]; try discriminate L. cbn [nth_error option_map map] in A, B |- *.
  assert (A' : sx u = (0, 0)) by (injection A as A; exact A). assert (B' : sx v = (1, 0)) by (injection B as B; exact B). rewrite A', B'. reflexivity.
Qed.
