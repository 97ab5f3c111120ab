(** Edges: C33 (integration), C34 (dot products), C35 (bounding boxes). *)
From Coq Require Import List ZArith Reals Lia Lra Psatz Bool String.
From Verif Require Import PyBase PolyModel BaryModel BarySpec BBoxModel QuadModel QuadSpec QuadProofs QuadProps CurveModel CurveSpec CurveProps VertModel EdgeModel EdgeSpec EdgeProofs EdgeProofs2 EdgeProps EdgeProps2 EdgeProps3.
Import List ListNotations.
Open Scope R_scope.

(** ** C33 *)

Lemma on_smp_ws f e : (forall s, 0 <= sw s -> 0 <= sw (f s)) -> well_sampled e -> well_sampled (on_smp f e).
Proof.
  intros Hf (P & L & N & W). unfold on_smp. rewrite P. unfold well_sampled. cbn [e_param e_npts e_smp with_smp]. rewrite map_length. repeat split; try assumption.
  apply Forall_map. eapply Forall_impl; [|exact W]. exact Hf.
Qed.
Lemma log_ws w s e : well_sampled e -> well_sampled (log w s e).
Proof. unfold well_sampled. rewrite log_param, log_smp, log_npts. tauto. Qed.
Lemma ortho_ws w A e e' : well_sampled e -> apply_ortho w A e = Ok e' -> well_sampled e'.
Proof.
  intros W. unfold apply_ortho. destruct A as [M|]; [|discriminate]. destruct (Rltb _ _); [discriminate|]. intros H. apply Ok_inj in H. subst e'. apply on_smp_ws; [|apply log_ws, W].
  intros s. unfold ortho_sample. destruct M as [[a b] [c d]]. cbn [sw]. tauto.
Qed.
Lemma translate_ws w a e : well_sampled e -> well_sampled (translate w a e).
Proof. intros W. apply on_smp_ws; [intros s; cbn [sw]; tauto|apply log_ws, W]. Qed.
Lemma dilate_ws w al e e' : well_sampled e -> dilate w al e = Ok e' -> well_sampled e'.
Proof.
  intros W. unfold dilate. destruct (Rltb _ _); [discriminate|]. intros H. apply Ok_inj in H. subst e'. apply on_smp_ws; [|apply log_ws, W].
  intros s Hs. cbn [sw]. apply Rmult_le_pos; [exact Hs|apply Rabs_pos].
Qed.
Lemma rotate_ws w th e e' : well_sampled e -> rotate w th e = Ok e' -> well_sampled e'.
Proof. intros W. unfold rotate. rewrite log_param. destruct (e_param e) eqn:P; [|destruct W; congruence]. apply ortho_ws, log_ws, W. Qed.
Lemma step_ws w s e e' : well_sampled e -> apply_step w s e = Ok e' -> well_sampled e'.
Proof.
  intros W. destruct s as [a|a b|th| | |al|A]; cbn [apply_step].
  - intros H. apply Ok_inj in H. subst e'. apply translate_ws, W.
  - unfold join_points. destruct (Rltb _ _); [discriminate|]. rewrite log_param. destruct (e_param e) eqn:P; [|destruct W; congruence]. cbv zeta. rewrite log_smp, log_npts.
    destruct (nth_error (e_smp e) 0) as [s0|]; [|discriminate]. destruct (nth_error (e_smp e) _) as [s1|]; [|discriminate]. destruct (Rltb _ _); [discriminate|].
    match goal with |- bind (rotate ?w ?th ?x) _ = _ -> _ => destruct (rotate w th x) as [x1|] eqn:E1; [|discriminate]; assert (W1 : well_sampled x1) by (eapply rotate_ws; [|exact E1]; apply translate_ws, log_ws, W) end.
    cbn [bind]. match goal with |- bind (dilate ?w ?th ?x) _ = _ -> _ => destruct (dilate w th x) as [x2|] eqn:E2; [|discriminate]; assert (W2 : well_sampled x2) by (eapply dilate_ws; [exact W1|exact E2]) end.
    cbn [bind]. intros H. apply Ok_inj in H. subst e'. exact (translate_ws false a x2 W2).
  - apply rotate_ws, W.
  - unfold reflect_x. rewrite log_param. destruct (e_param e) eqn:P; [|destruct W; congruence]. apply ortho_ws, log_ws, W.
  - unfold reflect_y. rewrite log_param. destruct (e_param e) eqn:P; [|destruct W; congruence]. apply ortho_ws, log_ws, W.
  - apply dilate_ws, W.
  - apply ortho_ws, W.
Qed.
Lemma fold_ws l : forall e e', well_sampled e -> fold_res (fun e s => apply_step false s e) l e = Ok e' -> well_sampled e'.
Proof.
  induction l as [|s l IH]; intros e e' W H; cbn [fold_res] in H; [apply Ok_inj in H; subst; exact W|].
  destruct (apply_step false s e) as [e1|] eqn:E; [|discriminate]. cbn [bind] in H. apply (IH e1); [eapply step_ws; eassumption|exact H].
Qed.
Lemma dict_nonneg n p a b : get_quad_dict n p = Ok (a, b) -> Forall (fun w => 0 <= w) (q_wgt a) /\ Forall (fun w => 0 <= w) (q_wgt b) /\ (4 <= q_n a)%nat /\ (4 <= q_n b)%nat.
Proof.
  unfold get_quad_dict. destruct (mk_quad "trap" n 7) as [qa|] eqn:Ea; [|discriminate]. destruct (mk_quad "kress" n p) as [qb|] eqn:Eb; [|discriminate].
  cbn [bind]. intros H. apply Ok_inj in H. injection H as -> ->. destruct n as [n|]; [|discriminate]. rewrite quad_trap in Ea. rewrite quad_kress in Eb.
  destruct (Z.ltb_spec n 4); [discriminate|]. destruct (Z.ltb_spec p 2); [discriminate|]. cbv zeta in Ea, Eb. apply Ok_inj in Ea, Eb. subst qa qb. cbn [q_wgt q_n].
  split; [apply Forall_map, Forall_forall; intros; lra|]. split; [|lia]. apply Forall_map. apply linspace_forall; [lia|]. intros i Hi. pose proof (grid_range (Z.to_nat n) i ltac:(lia) Hi) as G. assert (P2 : (2 <= Z.to_nat p)%nat) by lia.
  destruct (Req_dec (grid (Z.to_nat n) i) 0) as [->|N0]; [rewrite kress_wgt_0 by exact P2; lra|].
  destruct (Req_dec (grid (Z.to_nat n) i) (2 * PI)) as [->|N1]; [replace (2 * PI) with (2 * PI - 0) by ring; rewrite kress_wgt_sym, kress_wgt_0 by exact P2; lra|].
  left. apply kress_wgt_pos; [exact P2|lra].
Qed.

(** Every parameterized edge, whatever its history, is well sampled, and it stays so. *)
Theorem C33_well_sampled n p qd e e' : get_quad_dict n p = Ok qd -> parameterize qd e = Ok e' ->
  well_sampled e' /\ well_sampled (reverse_orientation e') /\ forall w s e'', apply_step w s e' = Ok e'' -> well_sampled e''.
Proof.
  intros HD H. assert (W : well_sampled e').
  { destruct (parameterize_frame _ _ _ _ _ HD H) as (q & Hq & _). destruct (pick_ok _ _ _ _ _ HD Hq) as ((L1 & L2 & _) & _).
    assert (QW : Forall (fun w => 0 <= w) (q_wgt q) /\ (4 <= q_n q)%nat).
    { destruct qd as [a b]. destruct (dict_nonneg _ _ _ _ HD) as (A & B & C & D). unfold pick in Hq. destruct (String.eqb _ _); [apply Ok_inj in Hq; subst; auto|]. destruct (String.eqb _ _); [|discriminate]. apply Ok_inj in Hq; subst; auto. }
    destruct QW as [QW QN]. unfold parameterize in H. fold (pick qd e) in H. rewrite Hq in H. cbn [bind] in H. destruct (e_tb e) as [ta tb]. destruct (cX _ _) as [X|]; [|discriminate]. destruct (cDX _ _) as [DX|]; [|discriminate]. destruct (cDDX _ _) as [DDX|]; [|discriminate]. cbn [bind] in H.
    match type of H with context [run_diary ?x] => set (e0 := x) in H end. destruct (run_diary e0) as [e1|] eqn:E1; [|discriminate]. cbn [bind] in H. apply Ok_inj in H. subst e'.
    assert (W0 : well_sampled e0).
    { unfold e0, well_sampled. cbn [e_param e_npts e_smp with_param]. rewrite map_length, combine_length, L1, L2. split; [reflexivity|]. split; [lia|]. split; [lia|].
      apply Forall_map, Forall_forall. intros [t w] I. apply in_combine_r in I. rewrite Forall_forall in QW. specialize (QW w I). unfold raw_sample. cbn [sw fst snd]. apply Rmult_le_pos; [apply sqrt_pos|exact QW]. }
    pose proof (fold_ws _ _ _ W0 E1) as W1. exact W1. }
  split; [exact W|]. split.
  - destruct W as (P & L & N & F). unfold well_sampled, reverse_orientation. rewrite P. cbn [e_param e_npts e_smp with_smp]. rewrite rev_length, map_length. repeat split; try assumption.
    apply Forall_rev, Forall_map. eapply Forall_impl; [|exact F]. intros s. unfold reverse_sample. cbn [sw]. tauto.
  - intros w s e'' Hs. eapply step_ws; eassumption.
Qed.
Print Assumptions C33_well_sampled.

Lemma zip_length f u v : List.length u = List.length v -> List.length (zip_with f u v) = List.length u.
Proof. intros H. unfold zip_with. rewrite map_length, combine_length. lia. Qed.
Lemma np_mul_zip u v : List.length u = List.length v -> np_mul u v = Ok (zip_with Rmult u v).
Proof. intros H. unfold np_mul. rewrite H, Nat.eqb_refl. reflexivity. Qed.
Lemma trapezoid_sum h x l : trapezoid h (x :: l) = h * (sum_list (x :: l) - (x + last (x :: l) x) / 2).
Proof.
  revert x. induction l as [|y l IH]; intros x; [unfold trapezoid, sum_list; cbn; field|].
  assert (E : trapezoid h (x :: y :: l) = h * (x + y) / 2 + trapezoid h (y :: l)) by reflexivity. rewrite E, IH.
  assert (L : last (x :: y :: l) x = last (y :: l) y) by (change (last (x :: y :: l) x) with (last (y :: l) x); apply last_indep; discriminate). rewrite L.
  unfold sum_list. cbn [fold_right]. field.
Qed.

(** With the endpoint: the trapezoid rule on the parameter interval of values times speed. *)
Theorem C33_trapezoid e v : well_sampled e -> Z.of_nat (List.length v) = e_npts e ->
  integrate_over_edge v false e = Ok (trapezoid (2 * PI / IZR (e_npts e - 1)) (zip_with Rmult v (map sw (e_smp e)))).
Proof.
  intros (P & L & N & _) H. unfold integrate_over_edge, multiply_by_dx_norm. rewrite P. cbv iota. rewrite (proj2 (Z.eqb_eq _ _) H). rewrite np_mul_zip by (rewrite map_length; lia). cbn [bind].
  assert (LZ : Z.of_nat (List.length (zip_with Rmult v (map sw (e_smp e)))) = e_npts e) by (rewrite zip_length; [exact H|rewrite map_length; lia]).
  rewrite integrate_form by (try assumption; lia). f_equal. destruct (zip_with Rmult v (map sw (e_smp e))) as [|x l]; [cbn in LZ; lia|]. rewrite trapezoid_sum. cbn [hd]. change (np_sum (x :: l)) with (sum_list (x :: l)).
  rewrite (last_indep (x :: l) 0 x) by discriminate. reflexivity.
Qed.
Print Assumptions C33_trapezoid.

(** What the code computes without the endpoint: it leaves out one more sample. *)
Lemma integrate_ignore e v : well_sampled e -> Z.of_nat (List.length v) = (e_npts e - 1)%Z ->
  integrate_over_edge v true e = Ok (2 * PI / IZR (e_npts e - 1) * sum_list (removelast (zip_with Rmult v (removelast (map sw (e_smp e)))))).
Proof.
  intros (P & L & N & _) H. unfold integrate_over_edge, multiply_by_dx_norm. rewrite P. cbv iota. rewrite (proj2 (Z.eqb_eq _ _) H).
  assert (LR : List.length (removelast (map sw (e_smp e))) = List.length v) by (pose proof (removelast_firstn_len (map sw (e_smp e))) as R; rewrite R, firstn_length, map_length; lia).
  rewrite np_mul_zip by (symmetry; exact LR). cbn [bind]. unfold integrate_preweighted. rewrite P. cbv zeta iota. rewrite zip_length by (symmetry; exact LR). rewrite (proj2 (Z.eqb_eq _ _) H). f_equal. apply np_sum_map_scale.
Qed.

Lemma sum_lincomb a b u v : List.length u = List.length v -> sum_list (lincomb a b u v) = a * sum_list u + b * sum_list v.
Proof. revert v. unfold lincomb, zip_with, sum_list. induction u as [|x u IH]; intros [|y v] H; try discriminate; cbn; [ring|]. rewrite IH by (cbn in H; lia). ring. Qed.
Lemma removelast_lincomb a b u v : List.length u = List.length v -> removelast (lincomb a b u v) = lincomb a b (removelast u) (removelast v).
Proof.
  revert v. unfold lincomb, zip_with. induction u as [|x u IH]; intros [|y v] H; try discriminate; [reflexivity|]. destruct u as [|x' u], v as [|y' v]; try discriminate; [reflexivity|].
  change (removelast (x :: x' :: u)) with (x :: removelast (x' :: u)). change (removelast (y :: y' :: v)) with (y :: removelast (y' :: v)). cbn [combine map] in *. rewrite <- (IH (y' :: v)) by (cbn in *; lia). reflexivity.
Qed.
Lemma lincomb_mul a b u v w : List.length u = List.length v -> List.length u = List.length w ->
  zip_with Rmult (lincomb a b u v) w = lincomb a b (zip_with Rmult u w) (zip_with Rmult v w).
Proof. revert v w. unfold lincomb, zip_with. induction u as [|x u IH]; intros [|y v] [|z w] H1 H2; try discriminate; [reflexivity|]. cbn in *. f_equal; [ring|]. apply IH; lia. Qed.
Lemma last_lincomb a b u v d : List.length u = List.length v -> last (lincomb a b u v) (a * d + b * d) = a * last u d + b * last v d.
Proof.
  revert v. unfold lincomb, zip_with. induction u as [|x u IH]; intros [|y v] H; try discriminate; [reflexivity|]. destruct u as [|x' u], v as [|y' v]; try discriminate; [reflexivity|]. cbn [combine map] in *.
  apply (IH (y' :: v)). cbn in *; lia.
Qed.
Lemma trapezoid_lincomb h a b u v : List.length u = List.length v -> u <> [] -> trapezoid h (lincomb a b u v) = a * trapezoid h u + b * trapezoid h v.
Proof.
  intros L NE. destruct u as [|x u]; [congruence|]. destruct v as [|y v]; [discriminate|]. unfold lincomb at 1. unfold zip_with. cbn [combine map fst snd].
  rewrite !trapezoid_sum. change ((a * x + b * y) :: map (fun p => a * fst p + b * snd p) (combine u v)) with (lincomb a b (x :: u) (y :: v)). rewrite sum_lincomb by exact L.
  rewrite (last_indep (lincomb a b (x :: u) (y :: v)) _ (a * 0 + b * 0)) by discriminate. rewrite last_lincomb by exact L. rewrite (last_indep (x :: u) x 0), (last_indep (y :: v) y 0) by discriminate. field.
Qed.

(** Linear in the values, with and without the endpoint *)
Theorem C33_linear e ign a b u v I J : well_sampled e -> List.length u = List.length v ->
  integrate_over_edge u ign e = Ok I -> integrate_over_edge v ign e = Ok J -> integrate_over_edge (lincomb a b u v) ign e = Ok (a * I + b * J).
Proof.
  intros W L HI HJ. destruct W as (P & LS & N & F). assert (W : well_sampled e) by (split; [exact P|]; auto).
  assert (LC : List.length (lincomb a b u v) = List.length u) by (apply zip_length; exact L). destruct ign.
  - assert (H : Z.of_nat (List.length u) = (e_npts e - 1)%Z).
    { unfold integrate_over_edge, multiply_by_dx_norm in HI. rewrite P in HI. destruct (Z.eqb_spec (Z.of_nat (List.length u)) (e_npts e - 1)); [assumption|discriminate]. }
    assert (LR : List.length (removelast (map sw (e_smp e))) = List.length u) by (pose proof (removelast_firstn_len (map sw (e_smp e))) as R; rewrite R, firstn_length, map_length; lia).
    rewrite integrate_ignore in * by (try assumption; lia). apply Ok_inj in HI, HJ. subst I J. f_equal. rewrite lincomb_mul by lia. rewrite removelast_lincomb by (rewrite !zip_length; lia).
    rewrite sum_lincomb; [ring|]. rewrite (removelast_firstn_len (zip_with Rmult u _)), (removelast_firstn_len (zip_with Rmult v _)), !firstn_length. rewrite !zip_length by lia. lia.
  - assert (H : Z.of_nat (List.length u) = e_npts e).
    { unfold integrate_over_edge, multiply_by_dx_norm in HI. rewrite P in HI. destruct (Z.eqb_spec (Z.of_nat (List.length u)) (e_npts e)); [assumption|discriminate]. }
    assert (LM : List.length (map sw (e_smp e)) = List.length u) by (rewrite map_length; lia).
    rewrite C33_trapezoid in * by (try assumption; lia). apply Ok_inj in HI, HJ. subst I J. f_equal. rewrite lincomb_mul by lia. apply trapezoid_lincomb; [rewrite !zip_length; lia|].
    intros E. apply (f_equal (@List.length R)) in E. rewrite zip_length in E by lia. cbn in E. lia.
Qed.
Print Assumptions C33_linear.

Lemma sum_mono u v : Forall2 Rle u v -> sum_list u <= sum_list v.
Proof. unfold sum_list. induction 1; cbn; lra. Qed.
Lemma zip_mono u v w : Forall2 Rle u v -> Forall (fun x => 0 <= x) w -> Forall2 Rle (zip_with Rmult u w) (zip_with Rmult v w).
Proof. intros H. revert w. unfold zip_with. induction H as [|x y u v Hxy H IH]; intros [|z w] F; cbn; try constructor; [|apply IH; inversion F; assumption]. inversion F. nra. Qed.
Lemma removelast_mono u v : Forall2 Rle u v -> Forall2 Rle (removelast u) (removelast v).
Proof. induction 1 as [|x y u v Hxy H IH]; [constructor|]. destruct H as [|x' y' u' v' H1 H2]; [constructor|]. constructor; [exact Hxy|exact IH]. Qed.
Lemma trapezoid_mono h u v : 0 <= h -> Forall2 Rle u v -> trapezoid h u <= trapezoid h v.
Proof.
  intros Hh H. unfold trapezoid. apply sum_mono. induction H as [|x y u v Hxy H IH]; [constructor|]. destruct H as [|x' y' u' v' H1 H2]; [constructor|].
  change (pairs (x :: x' :: u')) with ((x, x') :: pairs (x' :: u')). change (pairs (y :: y' :: v')) with ((y, y') :: pairs (y' :: v')). cbn [map fst snd]. constructor; [nra|exact IH].
Qed.

(** Monotone in the values, with and without the endpoint *)
Theorem C33_monotone e ign u v I J : well_sampled e -> Forall2 Rle u v ->
  integrate_over_edge u ign e = Ok I -> integrate_over_edge v ign e = Ok J -> I <= J.
Proof.
  intros W H HI HJ. pose proof PI_RGT_0 as HP. assert (L : List.length u = List.length v) by (clear - H; induction H; cbn; lia). destruct W as (P & LS & N & F). assert (W : well_sampled e) by (split; [exact P|]; auto).
  assert (Hh : 0 <= 2 * PI / IZR (e_npts e - 1)) by (left; apply Rdiv_lt_0_compat; [lra|apply IZR_lt; lia]).
  assert (FW : Forall (fun x => 0 <= x) (map sw (e_smp e))) by (apply Forall_map; exact F).
  destruct ign.
  - assert (H1 : Z.of_nat (List.length u) = (e_npts e - 1)%Z).
    { unfold integrate_over_edge, multiply_by_dx_norm in HI. rewrite P in HI. destruct (Z.eqb_spec (Z.of_nat (List.length u)) (e_npts e - 1)); [assumption|discriminate]. }
    rewrite integrate_ignore in * by (try assumption; lia). apply Ok_inj in HI, HJ. subst I J. apply Rmult_le_compat_l; [exact Hh|]. apply sum_mono, removelast_mono, zip_mono; [exact H|].
    rewrite removelast_firstn_len. clear - FW. revert FW. generalize (Nat.pred (List.length (map sw (e_smp e)))). generalize (map sw (e_smp e)). intros l k. revert l. induction k; intros [|x l] F; cbn; constructor; inversion F; subst; auto.
  - assert (H1 : Z.of_nat (List.length u) = e_npts e).
    { unfold integrate_over_edge, multiply_by_dx_norm in HI. rewrite P in HI. destruct (Z.eqb_spec (Z.of_nat (List.length u)) (e_npts e)); [assumption|discriminate]. }
    rewrite C33_trapezoid in * by (try assumption; lia). apply Ok_inj in HI, HJ. subst I J. apply trapezoid_mono; [exact Hh|]. apply zip_mono; assumption.
Qed.
Print Assumptions C33_monotone.

(** Wrong lengths and unparameterized edges are rejected. *)
Theorem C33_rejected e v ign : (e_param e = false -> integrate_over_edge v ign e = Err NotParameterizedError) /\
  (e_param e = true -> Z.of_nat (List.length v) <> (if ign then e_npts e - 1 else e_npts e)%Z -> integrate_over_edge v ign e = Err SizeMismatchError).
Proof.
  unfold integrate_over_edge, multiply_by_dx_norm. split; intros ->; [reflexivity|]. intros H. destruct ign; apply Z.eqb_neq in H; rewrite H; reflexivity.
Qed.

(** Ignoring the endpoint changes the result: with zero weights at both ends, as for Kress
    quadrature, the last interior sample is lost. *)
Theorem C33_ignore_endpoint_refuted e v w0 w wk vk v' I J : well_sampled e -> map sw (e_smp e) = 0 :: w ++ [wk; 0] ->
  v = w0 :: v' ++ [vk] -> List.length v' = List.length w -> forall vl,
  integrate_over_edge (v ++ [vl]) false e = Ok I -> integrate_over_edge v true e = Ok J -> I - J = 2 * PI / IZR (e_npts e - 1) * (vk * wk).
Proof.
  intros W EW -> LV vl HI HJ. assert (LS := W). destruct LS as (_ & LS & _). pose proof (f_equal (@List.length R) EW) as L. rewrite map_length in L. cbn [List.length] in L. rewrite app_length in L. cbn [List.length] in L.
  rewrite C33_trapezoid in HI by (try assumption; cbn [List.length List.app]; rewrite !app_length; cbn [List.length]; lia). rewrite integrate_ignore in HJ by (try assumption; cbn [List.length]; rewrite !app_length; cbn [List.length]; lia).
  apply Ok_inj in HI, HJ. subst I J. rewrite EW. set (h := 2 * PI / _).
  assert (Z1 : zip_with Rmult ((w0 :: v' ++ [vk]) ++ [vl]) (0 :: w ++ [wk; 0]) = w0 * 0 :: zip_with Rmult v' w ++ [vk * wk; vl * 0]).
  { unfold zip_with. cbn [List.app combine map fst snd]. f_equal. rewrite <- app_assoc. cbn [List.app]. clear - LV. revert w LV. induction v' as [|x v' IH]; intros [|y w] L; try discriminate; [reflexivity|]. cbn. f_equal. apply IH. cbn in L; lia. }
  assert (Z2 : removelast (0 :: w ++ [wk; 0]) = 0 :: w ++ [wk]).
  { replace (0 :: w ++ [wk; 0]) with ((0 :: w ++ [wk]) ++ [0]) by (cbn; rewrite <- app_assoc; reflexivity). apply removelast_last. }
  assert (Z3 : zip_with Rmult (w0 :: v' ++ [vk]) (0 :: w ++ [wk]) = (w0 * 0 :: zip_with Rmult v' w) ++ [vk * wk]).
  { unfold zip_with. cbn [List.app combine map fst snd]. f_equal. clear - LV. revert w LV. induction v' as [|x v' IH]; intros [|y w] L; try discriminate; [reflexivity|]. cbn. f_equal. apply IH. cbn in L; lia. }
  rewrite Z1, Z2, Z3, removelast_last, trapezoid_sum. set (z := zip_with Rmult v' w).
  assert (EL : last (w0 * 0 :: z ++ [vk * wk; vl * 0]) (w0 * 0) = vl * 0) by (replace (w0 * 0 :: z ++ [vk * wk; vl * 0]) with ((w0 * 0 :: z ++ [vk * wk]) ++ [vl * 0]) by (cbn; rewrite <- app_assoc; reflexivity); apply last_last).
  rewrite EL. unfold sum_list. cbn [fold_right]. fold (sum_list (z ++ [vk * wk; vl * 0])) (sum_list z). change (sum_list (z ++ [vk * wk; vl * 0])) with (np_sum (z ++ [vk * wk; vl * 0])). rewrite np_sum_app. change (np_sum z) with (sum_list z). unfold np_sum. cbn [fold_right]. field.
Qed.
Print Assumptions C33_ignore_endpoint_refuted.

(** The constant 1 on the straight edge from (0,0) to (1,0) with Kress quadrature *)
Example C33_ignore_example : exists e' I J, parameterize dict4 (with_qtype (line_edge (mkvert 0 0) (mkvert 1 0)) "kress") = Ok e' /\ well_sampled e' /\
  integrate_over_edge (repeat 1 9) false e' = Ok I /\ integrate_over_edge (repeat 1 8) true e' = Ok J /\ J < I.
Proof.
  pose proof PI_RGT_0 as HP. set (e := with_qtype (line_edge (mkvert 0 0) (mkvert 1 0)) "kress"). destruct line_ends as [L0 L1].
  assert (D1 : pdist (coord (mkvert 0 0)) (coord (mkvert 1 0)) = 1) by exact dist01.
  assert (SJ : step_fine (0, 0) (1, 0) (SJoin (mkvert 0 0) (mkvert 1 0))) by (cbn [step_fine]; rewrite D1, dist01; unfold TOL; repeat split; lra).
  destruct (C25_geometry_partial (PInt 4) 7 dict4 e (snd dict4) (fun t => (t / (2 * PI), 0)) (fun t => (1 / (2 * PI), 0)) dict4_ok) as (e' & c & c' & c'' & E & _ & EN & _ & _ & ES & _ & RG).
  - right. split; reflexivity.
  - cbn. lra.
  - exact I.
  - reflexivity.
  - reflexivity.
  - intros t _. unfold norm2. cbn [fst snd]. assert (0 < 1 / (2 * PI)) by (apply Rdiv_lt_0_compat; lra). nra.
  - change (e_tb e) with (0, 2 * PI). change (e_diary e) with [SJoin (mkvert 0 0) (mkvert 1 0)]. cbn [fst snd]. rewrite L0, L1. split; [exact SJ|exact I].
  - destruct (C33_well_sampled (PInt 4) 7 dict4 e e' dict4_ok E) as (W & _).
    assert (I1 := C33_trapezoid e' (repeat 1 9) W ltac:(rewrite EN; reflexivity)). assert (J1 := integrate_ignore e' (repeat 1 8) W ltac:(rewrite EN; reflexivity)).
    do 3 eexists. split; [exact E|]. split; [exact W|]. split; [exact I1|]. split; [exact J1|].
    set (nw := fun i => norm (c' (kress_node 7 (0 + INR i * ((2 * PI - 0) / INR 8)))) * kress_wgt 7 (0 + INR i * ((2 * PI - 0) / INR 8))).
    assert (EW : map sw (e_smp e') = nw 0%nat :: [nw 1%nat; nw 2%nat; nw 3%nat; nw 4%nat; nw 5%nat; nw 6%nat] ++ [nw 7%nat; nw 8%nat]) by (rewrite ES, map_map; reflexivity).
    assert (N0 : nw 0%nat = 0) by (unfold nw; replace (0 + INR 0 * _) with 0 by (cbn [INR]; ring); rewrite kress_wgt_0 by lia; ring).
    assert (N8 : nw 8%nat = 0).
    { unfold nw. replace (0 + INR 8 * _) with (2 * PI - 0) by (cbn [INR]; field). rewrite kress_wgt_sym, kress_wgt_0 by lia. ring. }
    assert (N7 : 0 < nw 7%nat).
    { unfold nw. assert (0 < 0 + INR 7 * ((2 * PI - 0) / INR 8) < 2 * PI) by (cbn [INR]; lra). apply Rmult_lt_0_compat; [|apply kress_wgt_pos; [lia|assumption]].
      apply norm_pos, RG. set (x := 0 + INR 7 * ((2 * PI - 0) / INR 8)) in *. pose proof (kress_incr 7 0 x ltac:(lia) ltac:(lra) ltac:(lra) ltac:(lra)) as A. pose proof (kress_incr 7 x (2 * PI) ltac:(lia) ltac:(lra) ltac:(lra) ltac:(lra)) as B.
      rewrite kress_0 in A by lia. rewrite kress_2PI in B by lia. lra. }
    rewrite N0, N8 in EW. pose proof (C33_ignore_endpoint_refuted e' (repeat 1 8) 1 _ _ 1 [1; 1; 1; 1; 1; 1] _ _ W EW eq_refl eq_refl 1 I1 J1) as DI.
    assert (0 < 2 * PI / IZR (e_npts e' - 1) * (1 * nw 7%nat)); [|lra]. apply Rmult_lt_0_compat; [|lra]. apply Rdiv_lt_0_compat; [lra|]. rewrite EN. cbn. lra.
Qed.

(** ** C34 *)

Lemma slice_removelast {A} (l : list A) : slice_to_neg 1 l = removelast l.
Proof. unfold slice_to_neg. rewrite removelast_firstn_len. f_equal. lia. Qed.

(** Without the endpoint: pointwise dot products with the tangent and with the normal. *)
Theorem C34_ignore_endpoint_partial e c1 c2 : well_sampled e ->
  Z.of_nat (List.length c1) = (e_npts e - 1)%Z -> Z.of_nat (List.length c2) = (e_npts e - 1)%Z ->
  (exists r, dot_with_tangent c1 c2 true e = Ok r /\ List.length r = List.length c1 /\
    forall i s x y, nth_error (e_smp e) i = Some s -> nth_error c1 i = Some x -> nth_error c2 i = Some y -> nth_error r i = Some (x * fst (sT s) + y * snd (sT s))) /\
  (exists r, dot_with_normal c1 c2 true e = Ok r /\ List.length r = List.length c1 /\
    forall i s x y, nth_error (e_smp e) i = Some s -> nth_error c1 i = Some x -> nth_error c2 i = Some y -> nth_error r i = Some (x * fst (sN s) + y * snd (sN s))).
Proof.
  intros (P & L & N & _) H1 H2.
  assert (G : forall v, exists r, dot_with v c1 c2 true e = Ok r /\ List.length r = List.length c1 /\
    forall i s x y, nth_error (e_smp e) i = Some s -> nth_error c1 i = Some x -> nth_error c2 i = Some y -> nth_error r i = Some (x * fst (v s) + y * snd (v s))).
  { intros v. unfold dot_with. rewrite P. cbv zeta iota. change (Z.of_nat 1) with 1%Z. rewrite (proj2 (Z.eqb_eq _ _) H1), (proj2 (Z.eqb_eq _ _) H2). cbn [negb orb]. rewrite !slice_removelast.
    assert (LR : forall f : sample -> R, List.length (removelast (map f (e_smp e))) = List.length c1) by (intros f; rewrite removelast_firstn_len, firstn_length, map_length; lia).
    rewrite !np_mul_zip by (rewrite LR; lia). cbn [bind]. unfold np_add. rewrite !zip_length by (rewrite LR; lia). replace (List.length c2) with (List.length c1) by lia. rewrite Nat.eqb_refl. eexists. split; [reflexivity|].
    split; [rewrite map_length, combine_length, !zip_length by (rewrite LR; lia); lia|]. intros i s x y Hs Hx Hy. unfold zip_with. rewrite nth_error_map, nth_error_combine, !nth_error_map, !nth_error_combine, Hx, Hy.
    assert (RF : forall f : sample -> R, nth_error (removelast (map f (e_smp e))) i = Some (f s)).
    { intros f. assert (IL : (i < List.length c1)%nat) by (apply nth_error_Some; congruence). rewrite removelast_firstn_len, map_length.
      assert (NF : forall (l : list R) k, (i < k)%nat -> nth_error (firstn k l) i = nth_error l i) by (clear; intros l k; revert l i; induction k; intros [|a l] [|i] Hk; try lia; try reflexivity; cbn; apply IHk; lia).
      rewrite NF by lia. rewrite nth_error_map, Hs. reflexivity. }
    rewrite !RF. reflexivity. }
  split; apply G.
Qed.
Print Assumptions C34_ignore_endpoint_partial.

(** Components of the wrong length are rejected, in either mode. *)
Theorem C34_rejected e c1 c2 ign :
  (e_param e = false -> dot_with_tangent c1 c2 ign e = Err NotParameterizedError /\ dot_with_normal c1 c2 ign e = Err NotParameterizedError) /\
  (e_param e = true -> let m := (if ign then e_npts e - 1 else e_npts e)%Z in Z.of_nat (List.length c1) <> m \/ Z.of_nat (List.length c2) <> m ->
    dot_with_tangent c1 c2 ign e = Err SizeMismatchError /\ dot_with_normal c1 c2 ign e = Err SizeMismatchError).
Proof.
  unfold dot_with_tangent, dot_with_normal, dot_with. split; intros ->; [split; reflexivity|]. cbv zeta iota. intros H.
  assert (E : (negb (Z.eqb (Z.of_nat (List.length c1)) (e_npts e - Z.of_nat (if ign then 1 else 0))) || negb (Z.eqb (Z.of_nat (List.length c2)) (e_npts e - Z.of_nat (if ign then 1 else 0))))%bool = true).
  { apply orb_true_iff. rewrite !negb_true_iff, !Z.eqb_neq. destruct ign; lia. }
  rewrite E. split; reflexivity.
Qed.
Print Assumptions C34_rejected.

(** With the endpoint the slice [:-0] is empty: every call with arrays of the right length fails. *)
Theorem C34_endpoint_refuted e c1 c2 : well_sampled e -> Z.of_nat (List.length c1) = e_npts e -> Z.of_nat (List.length c2) = e_npts e ->
  dot_with_tangent c1 c2 false e = Err BroadcastError /\ dot_with_normal c1 c2 false e = Err BroadcastError.
Proof.
  intros (P & L & N & _) H1 H2. unfold dot_with_tangent, dot_with_normal, dot_with. rewrite P. cbv zeta iota. change (Z.of_nat 0) with 0%Z. rewrite Z.sub_0_r, (proj2 (Z.eqb_eq _ _) H1), (proj2 (Z.eqb_eq _ _) H2). cbn [negb orb slice_to_neg].
  assert (E : np_mul c1 [] = Err BroadcastError) by (destruct c1 as [|x [|y c1]]; cbn in H1; try lia; reflexivity). rewrite E. split; reflexivity.
Qed.
Print Assumptions C34_endpoint_refuted.

Example C34_example : let e := with_param (line_edge (mkvert 0 0) (mkvert 1 0)) true 3 [Smp (0, 0) (1, 0) (0, -1) 1 0; Smp (1, 0) (1, 0) (0, -1) 1 0; Smp (2, 0) (1, 0) (0, -1) 1 0] in
  well_sampled e /\ exists r, dot_with_normal [5; 6] [7; 8] true e = Ok r /\ r = [-7; -8].
Proof.
  cbv zeta. split; [repeat split; cbn; try lia; repeat constructor; cbn; lra|]. eexists. split; [reflexivity|]. cbn. f_equal; [ring|]. f_equal. ring.
Qed.

(** ** C35 *)

Lemma lmin_le l : forall a, lmin a l <= a /\ Forall (fun x => lmin a l <= x) l.
Proof.
  induction l as [|x l IH]; intros a; cbn; [split; [apply Rle_refl|constructor]|]. destruct (IH (Rmin a x)) as [A B]. unfold lmin in *. split; [eapply Rle_trans; [exact A|apply Rmin_l]|].
  constructor; [eapply Rle_trans; [exact A|apply Rmin_r]|exact B].
Qed.
Lemma lmax_ge l : forall a, a <= lmax a l /\ Forall (fun x => x <= lmax a l) l.
Proof.
  induction l as [|x l IH]; intros a; cbn; [split; [apply Rle_refl|constructor]|]. destruct (IH (Rmax a x)) as [A B]. unfold lmax in *. split; [eapply Rle_trans; [apply Rmax_l|exact A]|].
  constructor; [eapply Rle_trans; [apply Rmax_r|exact A]|exact B].
Qed.
Lemma lmin_In l : forall a, In (lmin a l) (a :: l).
Proof. induction l as [|x l IH]; intros a; [left; reflexivity|]. cbn. destruct (IH (Rmin a x)) as [E|E]; unfold lmin in *; [|right; right; exact E]. rewrite <- E. unfold Rmin. destruct (Rle_dec a x); [left|right; left]; reflexivity. Qed.
Lemma lmax_In l : forall a, In (lmax a l) (a :: l).
Proof. induction l as [|x l IH]; intros a; [left; reflexivity|]. cbn. destruct (IH (Rmax a x)) as [E|E]; unfold lmax in *; [|right; right; exact E]. rewrite <- E. unfold Rmax. destruct (Rle_dec a x); [right; left|left]; reflexivity. Qed.

(** The spread of a set of points in both directions *)
Definition spread (l : list R) (d : R) : Prop := (forall x y, In x l -> In y l -> x - y <= d) /\ exists x y, In x l /\ In y l /\ x - y = d.
Lemma spread_range x l : spread (x :: l) (lmax x l - lmin x l).
Proof.
  split; [|exists (lmax x l), (lmin x l); split; [apply lmax_In|]; split; [apply lmin_In|reflexivity]]. intros u v Hu Hv. destruct (lmin_le l x) as [A B]. destruct (lmax_ge l x) as [C D]. rewrite Forall_forall in B, D.
  assert (u <= lmax x l) by (destruct Hu as [<-|Hu]; [exact C|apply D, Hu]). assert (lmin x l <= v) by (destruct Hv as [<-|Hv]; [exact A|apply B, Hv]). lra.
Qed.
Lemma spread_unique l d d' : spread l d -> spread l d' -> d = d'.
Proof. intros [A (x & y & Ix & Iy & E)] [B (x' & y' & Ix' & Iy' & E')]. specialize (A x' y' Ix' Iy'). specialize (B x y Ix Iy). lra. Qed.

(** The box of a sampled edge contains all samples, except possibly when one of the spreads lies
    between half the larger spread and the tolerance while the larger one reaches the tolerance
    (then the right or upper side is cut, see below). *)
Theorem C35_contains_partial e dx dy : e_param e = true -> e_smp e <> [] ->
  spread (map (fun s => fst (sx s)) (e_smp e)) dx -> spread (map (fun s => snd (sx s)) (e_smp e)) dy ->
  let d := Rmax dx dy in d < TOL \/ (TOL <= dx \/ dx <= d / 2) /\ (TOL <= dy \/ dy <= d / 2) ->
  exists x0 x1 y0 y1, edge_bounding_box e = Ok (x0, x1, y0, y1) /\
    Forall (fun s => x0 <= fst (sx s) <= x1 /\ y0 <= snd (sx s) <= y1) (e_smp e).
Proof.
  intros P NE SX SY d HD. unfold edge_bounding_box. rewrite P. destruct (e_smp e) as [|s0 l]; [congruence|]. cbn [map] in *. unfold bounding_box.
  set (xs := map (fun s => fst (sx s)) l) in *. set (ys := map (fun s => snd (sx s)) l) in *. set (x := fst (sx s0)) in *. set (y := snd (sx s0)) in *.
  pose proof (spread_unique _ _ _ SX (spread_range x xs)) as Ex. pose proof (spread_unique _ _ _ SY (spread_range y ys)) as Ey. cbv zeta. rewrite <- Ex, <- Ey. fold d.
  assert (D0 : 0 <= dx /\ 0 <= dy) by (destruct SX as [SX _], SY as [SY _]; specialize (SX x x (or_introl eq_refl) (or_introl eq_refl)); specialize (SY y y (or_introl eq_refl) (or_introl eq_refl)); lra).
  assert (Dd : dx <= d /\ dy <= d) by (unfold d; split; [apply Rmax_l|apply Rmax_r]).
  assert (BX : forall s, In s (s0 :: l) -> lmin x xs <= fst (sx s) <= lmax x xs).
  { intros s Hs. destruct (lmin_le xs x) as [A B]. destruct (lmax_ge xs x) as [C D]. rewrite Forall_forall in B, D. destruct Hs as [<-|Hs]; [split; assumption|]. assert (I : In (fst (sx s)) xs) by (unfold xs; apply in_map_iff; exists s; auto). split; [apply B, I|apply D, I]. }
  assert (BY : forall s, In s (s0 :: l) -> lmin y ys <= snd (sx s) <= lmax y ys).
  { intros s Hs. destruct (lmin_le ys y) as [A B]. destruct (lmax_ge ys y) as [C D]. rewrite Forall_forall in B, D. destruct Hs as [<-|Hs]; [split; assumption|]. assert (I : In (snd (sx s)) ys) by (unfold ys; apply in_map_iff; exists s; auto). split; [apply B, I|apply D, I]. }
  destruct (Rlt_dec d TOL); [|destruct (Rlt_dec dx TOL), (Rlt_dec dy TOL)]; do 4 eexists; (split; [reflexivity|]); apply Forall_forall; intros s Hs; specialize (BX s Hs); specialize (BY s Hs); lra.
Qed.
Print Assumptions C35_contains_partial.

(** In particular when the larger spread is below the tolerance or at least twice the tolerance *)
Theorem C35_contains e dx dy : e_param e = true -> e_smp e <> [] ->
  spread (map (fun s => fst (sx s)) (e_smp e)) dx -> spread (map (fun s => snd (sx s)) (e_smp e)) dy ->
  Rmax dx dy < TOL \/ 2 * TOL <= Rmax dx dy ->
  exists x0 x1 y0 y1, edge_bounding_box e = Ok (x0, x1, y0, y1) /\
    Forall (fun s => x0 <= fst (sx s) <= x1 /\ y0 <= snd (sx s) <= y1) (e_smp e).
Proof.
  intros P NE SX SY H. apply (C35_contains_partial e dx dy P NE SX SY). cbv zeta. destruct H as [H|H]; [left; exact H|right]. split; lra.
Qed.

(** Width and height are positive unless all samples coincide. *)
Theorem C35_positive e : e_param e = true -> e_smp e <> [] -> (exists s s', In s (e_smp e) /\ In s' (e_smp e) /\ sx s <> sx s') ->
  exists x0 x1 y0 y1, edge_bounding_box e = Ok (x0, x1, y0, y1) /\ x0 < x1 /\ y0 < y1.
Proof.
  intros P NE (s & s' & Is & Is' & Hne). pose proof TOL_pos as HT. unfold edge_bounding_box. rewrite P. destruct (e_smp e) as [|s0 l]; [congruence|]. cbn [map]. unfold bounding_box.
  set (xs := map (fun s => fst (sx s)) l) in *. set (ys := map (fun s => snd (sx s)) l) in *. set (x := fst (sx s0)) in *. set (y := snd (sx s0)) in *.
  destruct (spread_range x xs) as [SX _]. destruct (spread_range y ys) as [SY _]. cbv zeta. set (dx := lmax x xs - lmin x xs) in *. set (dy := lmax y ys - lmin y ys) in *. set (d := Rmax dx dy).
  assert (Dd : dx <= d /\ dy <= d) by (unfold d; split; [apply Rmax_l|apply Rmax_r]).
  assert (IX : forall u, In u (s0 :: l) -> In (fst (sx u)) (x :: xs)) by (intros u Hu; apply (in_map (fun s => fst (sx s)) (s0 :: l)), Hu).
  assert (IY : forall u, In u (s0 :: l) -> In (snd (sx u)) (y :: ys)) by (intros u Hu; apply (in_map (fun s => snd (sx s)) (s0 :: l)), Hu).
  assert (DP : 0 < d).
  { pose proof (SX _ _ (IX _ Is) (IX _ Is')) as A. pose proof (SX _ _ (IX _ Is') (IX _ Is)) as B. pose proof (SY _ _ (IY _ Is) (IY _ Is')) as C. pose proof (SY _ _ (IY _ Is') (IY _ Is)) as D.
    destruct (Rlt_dec 0 d) as [|Nd]; [assumption|]. exfalso. apply Hne. destruct (sx s) as [u1 u2], (sx s') as [v1 v2]. cbn [fst snd] in *. f_equal; lra. }
  pose proof (SX _ _ (IX _ Is) (IX _ Is)) as X0. pose proof (SY _ _ (IY _ Is) (IY _ Is)) as Y0.
  destruct (Rlt_dec d TOL); [|destruct (Rlt_dec dx TOL), (Rlt_dec dy TOL)]; do 4 eexists; (split; [reflexivity|]); unfold dx, dy in *; lra.
Qed.
Print Assumptions C35_positive.

(** Two points at distance 9e-13 in x and 1e-12 in y: the box ends at x = 5e-13. *)
Theorem C35_contains_refuted : exists e x0 x1 y0 y1, e_param e = true /\ map sx (e_smp e) = [(0, 0); (9 / 10 * TOL, TOL)] /\
  edge_bounding_box e = Ok (x0, x1, y0, y1) /\ x1 < 9 / 10 * TOL.
Proof.
  pose proof TOL_pos as HT. exists (with_param (line_edge (mkvert 0 0) (mkvert 1 0)) true 2 [Smp (0, 0) (1, 0) (0, -1) 1 0; Smp (9 / 10 * TOL, TOL) (1, 0) (0, -1) 1 0]).
  unfold edge_bounding_box, bounding_box. cbn [with_param e_param e_smp map sx fst snd lmin lmax fold_left].
  rewrite (Rmin_left 0 (9 / 10 * TOL)), (Rmax_right 0 (9 / 10 * TOL)), (Rmin_left 0 TOL), (Rmax_right 0 TOL) by lra. rewrite (Rmax_right (9 / 10 * TOL - 0) (TOL - 0)) by lra.
  destruct (Rlt_dec (TOL - 0) TOL); [lra|]. destruct (Rlt_dec (9 / 10 * TOL - 0) TOL); [|lra]. destruct (Rlt_dec (TOL - 0) TOL); [lra|]. do 4 eexists. split; [reflexivity|]. split; [reflexivity|]. split; [reflexivity|]. lra.
Qed.
Print Assumptions C35_contains_refuted.

(** Unparameterized edges are rejected. *)
Theorem C35_rejected e : e_param e = false -> edge_bounding_box e = Err NotParameterizedError.
Proof. unfold edge_bounding_box. intros ->. reflexivity. Qed.

Example C35_example : let e := with_param (line_edge (mkvert 0 0) (mkvert 1 0)) true 2 [Smp (0, 0) (1, 0) (0, -1) 1 0; Smp (1, 0) (1, 0) (0, -1) 1 0] in edge_bounding_box e = Ok (0, 1, 0 - (1 - 0) / 2, 0 + (1 - 0) / 2).
Proof.
  unfold edge_bounding_box, bounding_box. cbn [with_param e_param e_smp map sx fst snd lmin lmax fold_left]. rewrite (Rmin_left 0 1), (Rmax_right 0 1), (Rmin_left 0 0), (Rmax_left 0 0) by lra. rewrite (Rmax_left (1 - 0) (0 - 0)) by lra. unfold TOL.
  repeat match goal with |- context [Rlt_dec ?a ?b] => destruct (Rlt_dec a b); try (exfalso; lra) end. reflexivity.
Qed.
