(** C78: examples on the annulus with radii 1 and 4 *)
From Coq Require Import List ZArith Reals Lia Lra Psatz Permutation.
From Flocq Require Import Core BinarySingleNaN.
From Verif Require Import BaryModel BBoxModel QuadModel QuadSpec QuadProofs QuadProps CurveModel VertModel EdgeModel EdgeSpec EdgeProofs EdgeProofs2 EdgeProps EdgeProps3 ContourModel CellModel CellSpec CellProofs CellProps ContourProofs ContourProofs2 ContourProofs3 InteriorProofs ContourProofs4 VertProps EdgeProps4 ContourProps CellProofs2 Annulus CellProps2 CellProps3.
From Verif Require Import PyBase PolyModel FloatIdxModel FloatPolyModel FloatErr FloatPolySpec FloatPolyProofs FloatQuadModel FloatQuadSpec FloatQuadProofs FloatQuadProps FloatBdryModel FloatBdryProofs FloatBdryProps FloatInnerModel FloatInnerProofs FloatInnerProps.
From Verif Require Import LocalModel.
Import List ListNotations.
Open Scope R_scope.

(** Products: the weighted normal derivative 1 times the trace 1 on that annulus has the integral 10 pi. *)
Example C78_flux_example : exists H c ess w x, ready disc H c /\ boundary_edges H c ess /\ Forall (fun es => (csize es <= 2 ^ 53)%Z) ess /\ Forall2 (fun s y => near 0 (sw s) (sw s) 0 y) (cell_smp ess) w /\
  d_flux from_left w (repeat (of_int 1) 16) H c = Ok x /\ fin x = true /\ d_green from_left w (repeat (of_int 1) 16) (repeat (of_int 1) 16) w H c = Ok (dsub x x) /\ fin (dsub x x) = true.
Proof.
  destruct C76_boundary_example as (H & c & ess & w & x & Rd & B & Sm & W & _ & E & Fx). assert (L : List.length w = 16%nat). { destruct (ready_uniform _ _ _ _ Rd B) as (F & NE & _). unfold d_cell_weighted in E. rewrite (comps_guard _ _ _ (proj1 F)), (proj1 (proj2 (proj2 F))) in E. cbn [attr bind] in E. destruct (Z.eqb_spec (Z.of_nat (List.length (repeat (of_int 1) 16))) (CellSpec.total (map csize ess))) as [X|X]; [|discriminate]. rewrite repeat_length in X. pose proof (cell_smp_len ess (fresh_all _ _ _ (proj1 F))) as Ls. rewrite <- X in Ls. assert (Lw : List.length (cell_smp ess) = List.length w) by (clear -W; induction W; cbn; congruence). lia. }
  assert (E1 : d_flux from_left (repeat (of_int 1) 16) w H c = Ok x). { unfold d_flux. rewrite L, repeat_length. cbn [Nat.eqb]. unfold d_cell_weighted in E. destruct (cell_guard H c); [|discriminate]. cbn [bind] in E. destruct (attr (c_npts c)); [|discriminate]. cbn [bind] in E. destruct (Z.eqb _ _) in E; [exact E|discriminate]. }
  assert (E2 : d_flux from_left w (repeat (of_int 1) 16) H c = Ok x) by (rewrite C78_flux_commutes; exact E1).
  exists H, c, ess, w, x. do 6 (split; [assumption|]). unfold d_green. rewrite E2, E1. cbn [bind]. split; [reflexivity|]. pose proof (Bminus_correct 53 1024 _ _ mode_NE x x Fx Fx) as C. rewrite Rminus_diag_eq in C by reflexivity. rewrite round_0 in C by apply valid_rnd_N. rewrite Rabs_R0, Rlt_bool_true in C by apply bpow_gt_0. apply C.
Qed.

(** ** Integrals of polynomials *)
(** The coordinates of the samples are a + b / sqrt 2; the doubles are (2^50 a + floor (2^50 / sqrt 2) b) / 2^50. *)
Definition hv : R := 1 / sqrt 2.
Definition exact_of (p : Z * Z) : R := IZR (fst p) + IZR (snd p) * hv.
Definition root_m : Z := 796131459065721.
Definition num_of (p : Z * Z) : Z := (fst p * 2 ^ 50 + snd p * root_m)%Z.
Definition double_of (p : Z * Z) : double := binary_normalize 53 1024 eq_refl eq_refl mode_NE (num_of p) (-50) false.
Definition small (p : Z * Z) : bool := andb (Z.leb (Z.abs (fst p)) 4) (Z.leb (Z.abs (snd p)) 4).
Lemma double_of_val p : small p = true -> fin (double_of p) = true /\ val (double_of p) = IZR (num_of p) / 2 ^ 50.
Proof.
  intros S. unfold small in S. apply andb_prop in S. destruct S as [S1 S2]. apply Z.leb_le in S1, S2.
  assert (B : (Z.abs (num_of p) < 2 ^ 53)%Z). { unfold num_of, root_m. destruct p as [a b]. cbn [fst snd] in *. lia. }
  pose proof (binary_normalize_correct 53 1024 eq_refl eq_refl mode_NE (num_of p) (-50) false) as C. cbv zeta in C. cbn [round_mode] in C.
  assert (E : @F2R radix2 {| Fnum := num_of p; Fexp := -50 |} = IZR (num_of p) / 2 ^ 50) by (unfold F2R; cbn [Fnum Fexp]; rewrite (bpow_inv 50) by reflexivity; reflexivity).
  assert (G : generic_format radix2 (SpecFloat.fexp 53 1024) (@F2R radix2 {| Fnum := num_of p; Fexp := -50 |})).
  { rewrite fexp_flt. apply generic_format_FLT. exists (Float radix2 (num_of p) (-50)); [reflexivity|cbn [Fnum]; change (Zpower radix2 53) with (2 ^ 53)%Z; exact B|cbn; lia]. }
  rewrite (round_generic radix2 (SpecFloat.fexp 53 1024) ZnearestE _ G) in C. rewrite Rlt_bool_true in C; [destruct C as (X & Y & _); split; [exact Y|rewrite <- E; exact X]|].
  rewrite E. unfold Rdiv. rewrite Rabs_mult, <- abs_IZR. rewrite Rabs_pos_eq by (apply Rlt_le, Rinv_0_lt_compat, pow_lt; lra). apply Rle_lt_trans with (IZR (2 ^ 53) * 1).
  - apply Rmult_le_compat; [apply IZR_le; lia|apply Rlt_le, Rinv_0_lt_compat, pow_lt; lra|apply IZR_le; lia|]. rewrite <- Rinv_1. apply Rinv_le_contravar; [lra|]. apply pow_R1_Rle. lra.
  - rewrite Rmult_1_r. change (2 ^ 53)%Z with (Zpower radix2 53). rewrite IZR_Zpower by lia. apply bpow_lt. lia.
Qed.
Lemma hv_bounds : IZR root_m / 2 ^ 50 <= hv <= (IZR root_m + 1) / 2 ^ 50 /\ 0 <= hv <= 1.
Proof.
  assert (S0 : 0 < sqrt 2) by (apply sqrt_lt_R0; lra). assert (S2 : sqrt 2 * sqrt 2 = 2) by (apply sqrt_sqrt; lra).
  assert (H2 : hv * hv = 1 / 2). { unfold hv. replace (1 / sqrt 2 * (1 / sqrt 2)) with (1 / (sqrt 2 * sqrt 2)) by (field; lra). rewrite S2. reflexivity. }
  assert (H0 : 0 < hv) by (unfold hv; apply Rdiv_lt_0_compat; lra).
  assert (G : forall a, 0 <= a -> (a * a <= 1 / 2 -> a <= hv) /\ (1 / 2 <= a * a -> hv <= a)) by (intros a Ha; split; intros X; nra).
  unfold root_m. split; [split; [apply G; lra|apply G; lra]|]. split; [lra|]. apply (G 1); lra.
Qed.
Lemma near_of p : small p = true -> near 1 (exact_of p) 32 0 (double_of p).
Proof.
  intros S. destruct (double_of_val p S) as [F V]. destruct hv_bounds as [[L U] [H0 H1]]. unfold small in S. apply andb_prop in S. destruct S as [S1 S2]. apply Z.leb_le in S1, S2. destruct p as [a b]. cbn [fst snd] in S1, S2. assert (A : Rabs (IZR a) <= 4) by (rewrite <- abs_IZR; apply IZR_le; exact S1). assert (B : Rabs (IZR b) <= 4) by (rewrite <- abs_IZR; apply IZR_le; exact S2).
  split; [exact F|]. split; [|split; [lra|]].
  - unfold exact_of. cbn [fst snd]. eapply Rle_trans; [apply Rabs_triang|]. rewrite Rabs_mult. rewrite (Rabs_pos_eq hv) by exact H0. assert (Rabs (IZR b) * hv <= 4 * 1) by (apply Rmult_le_compat; [apply Rabs_pos|assumption|assumption|assumption]). lra.
  - rewrite V. unfold exact_of, num_of. cbn [fst snd]. rewrite plus_IZR, !mult_IZR. replace ((IZR a * IZR (2 ^ 50) + IZR b * IZR root_m) / 2 ^ 50 - (IZR a + IZR b * hv)) with (IZR b * (IZR root_m / 2 ^ 50 - hv)) by (replace (IZR (2 ^ 50)) with (2 ^ 50) by (cbn [pow]; lra); field; apply pow_nonzero; lra).
    rewrite Rabs_mult. assert (D : Rabs (IZR root_m / 2 ^ 50 - hv) <= / 2 ^ 50) by (rewrite Rabs_left1 by lra; unfold Rdiv in *; rewrite Rmult_plus_distr_r in U; lra).
    apply Rle_trans with (4 * / 2 ^ 50); [apply Rmult_le_compat; [apply Rabs_pos|apply Rabs_pos|assumption|assumption]|]. unfold uro. cbn [pow]. lra.
Qed.

(** Samples of a circle *)
Definition octz (x r s : Z) : list ((Z * Z) * (Z * Z)) :=
  [((x + r, 0), (0, 0)); ((x, r), (0, s * r)); ((x, 0), (s * r, 0)); ((x, - r), (0, s * r)); ((x - r, 0), (0, 0)); ((x, - r), (0, - (s * r))); ((x, 0), (- (s * r), 0)); ((x, r), (0, - (s * r))); ((x + r, 0), (0, 0))]%Z.
Definition point_of (p : (Z * Z) * (Z * Z)) : pt := (exact_of (fst p), exact_of (snd p)).
Lemma octz_oct x r s : map point_of (octz x r s) = oct (IZR x) (IZR r) (IZR s).
Proof.
  unfold octz, oct, point_of, exact_of. cbn [map fst snd]. rewrite ?minus_IZR, ?plus_IZR, ?opp_IZR, ?mult_IZR. unfold hv. assert (sqrt 2 <> 0) by (apply Rgt_not_eq, sqrt_lt_R0; lra).
  repeat (apply f_equal2; [apply f_equal2; field; assumption|]). reflexivity.
Qed.
Lemma ring_normals x r p n e : 0 < r -> parameterize dict4 (ring x r p n) = Ok e -> map sN (e_smp e) = oct 0 1 1.
Proof.
  intros R0 E. pose proof PI_RGT_0. unfold parameterize in E. cbn [ring e_qtype e_tb e_curve e_opts String.eqb Ascii.eqb Bool.eqb bind cX cDX cDDX] in E. apply Ok_inj in E. subst e. rewrite <- ring_points_oct. unfold translate, on_smp, log. ecbn. cbn [fst dict4 q_t q_wgt].
  unfold ring_points, linspace. rewrite !map_map. cbn [seq map combine fst snd sN raw_sample]. unfold circle_R. cbn [opt String.eqb Ascii.eqb Bool.eqb].
  assert (D : forall t, 1 / 2 * (2 * PI - 0) / PI * t + 0 = t) by (intros t; field; lra). rewrite !D.
  assert (D1 : 1 / 2 * (2 * PI - 0) / PI = 1) by (field; lra). rewrite !D1.
  assert (Q : forall t, sqrt ((1 * (- r * sin t)) ^ 2 + (1 * (r * cos t)) ^ 2) = r).
  { intros t. replace ((1 * (- r * sin t)) ^ 2 + (1 * (r * cos t)) ^ 2) with (r * r * ((sin t)² + (cos t)²)) by (unfold Rsqr; ring). rewrite sin2_cos2. rewrite Rmult_1_r. apply sqrt_square. lra. }
  rewrite !Q. repeat (apply f_equal2; [apply f_equal2; field; lra|]). reflexivity.
Qed.
Lemma ring_reversed x r p n o e0 e : 0 < r -> like e0 x r p n -> resampled dict4 o e0 e -> map sN (e_smp e) = if Z.eqb o (-1) then oct 0 (-1) (-1) else oct 0 1 1.
Proof.
  intros R0 L (e1 & E & ->). unfold like in L. rewrite L in E. pose proof (ring_normals _ _ _ _ _ R0 E) as N. destruct (ring_param x r p n) as (e2 & E2 & P & _ & _). assert (e2 = e1) by congruence. subst e2. destruct (Z.eqb o (-1)); [|exact N]. unfold reverse_orientation. rewrite P. cbn [with_smp e_smp]. rewrite map_rev, map_map.
  assert (X : map (fun s => sN (reverse_sample s)) (e_smp e1) = map (fun q : pt => (- fst q, - snd q)) (map sN (e_smp e1))) by (rewrite map_map; reflexivity). rewrite X, N. unfold oct. cbn [map rev app fst snd]. assert (sqrt 2 <> 0) by (apply Rgt_not_eq, sqrt_lt_R0; lra). repeat (apply f_equal2; [apply f_equal2; field; assumption|]). reflexivity.
Qed.
(** Doubles and sizes for the samples of a circle *)
Definition sample_of (r : Z) (q : ((Z * Z) * (Z * Z)) * ((Z * Z) * (Z * Z))) : dsample * dsize :=
  (DSample (double_of (fst (fst q))) (double_of (snd (fst q))) (double_of (fst (snd q))) (double_of (snd (snd q))) (double_of (r, 0%Z)), DSize 32 32 32 32 32).
Definition circle_of (x r s nr : Z) : list (dsample * dsize) := map (sample_of r) (combine (removelast (octz x r s)) (removelast (octz 0 nr s))).
Definition fits (q : (Z * Z) * (Z * Z)) : bool := andb (small (fst q)) (small (snd q)).
Lemma samples_match r : small (r, 0%Z) = true -> forall A B smp, forallb fits A = true -> forallb fits B = true -> map sx smp = map point_of A -> map sN smp = map point_of B -> map sw smp = repeat (IZR r) (List.length smp) -> Forall2 (matches 1) smp (map (sample_of r) (combine A B)).
Proof.
  intros Sr. induction A as [|a A IH]; intros B [|s smp] FA FB X N W; try discriminate; destruct B as [|b B]; try discriminate; cbn [combine map]; [constructor|]. cbn [forallb] in FA, FB. apply andb_prop in FA, FB. destruct FA as [Fa FA]. destruct FB as [Fb FB]. unfold fits in Fa, Fb. apply andb_prop in Fa, Fb. injection X as X1 X2. injection N as N1 N2. injection W as W1 W2. constructor; [|apply IH; assumption].
  unfold matches, sample_of. cbn [zx zy znx zny zw dx dy dnx dny dw fst snd]. rewrite X1, N1, W1. unfold point_of. cbn [fst snd]. do 4 (split; [apply near_of; tauto|]). replace (IZR r) with (exact_of (r, 0%Z)) by (unfold exact_of; cbn [fst snd]; ring). apply near_of, Sr.
Qed.
Lemma circle_match x r nr s e : (nr = 1 /\ s = 1 \/ nr = -1 /\ s = -1)%Z -> small (r, 0%Z) = true -> forallb fits (removelast (octz x r s)) = true -> map sx (e_smp e) = oct (IZR x) (IZR r) (IZR s) -> map sN (e_smp e) = oct 0 (IZR nr) (IZR s) -> map sw (e_smp e) = repeat (IZR r) 9 -> Forall2 (matches 1) (open_smp e) (circle_of x r s nr).
Proof.
  intros C Sr Fx X N W. unfold open_smp, circle_of. assert (L : List.length (removelast (e_smp e)) = 8%nat). { assert (L9 : List.length (map sw (e_smp e)) = 9%nat) by (rewrite W; reflexivity). rewrite map_length in L9. destruct (e_smp e) as [|s1 l] eqn:El; [discriminate|]. rewrite <- El in *. assert (List.length (e_smp e) = S (List.length (removelast (e_smp e)))); [|lia]. rewrite (app_removelast_last s1) at 1 by (rewrite El; discriminate). rewrite app_length. cbn. lia. }
  apply samples_match; [exact Sr|exact Fx|destruct C as [[-> ->]|[-> ->]]; vm_compute; reflexivity| | |].
  - rewrite map_removelast, X, <- octz_oct. reflexivity.
  - rewrite map_removelast, N, <- (octz_oct 0). reflexivity.
  - rewrite L, map_removelast, W. reflexivity.
Qed.
Lemma blocks_len : forall s l, (List.length (d_blocks s l) <= List.length l)%nat.
Proof. induction s as [|[h n] s IH]; intros l; cbn [d_blocks]; [cbn; lia|]. rewrite app_length, map_length. specialize (IH (skipn (Z.to_nat n) l)). rewrite skipn_length in IH. pose proof (firstn_length (Z.to_nat n) l). lia. Qed.
(** 3 x^2 y + 1/3 over the annulus: the hypotheses of the bound hold with one rounding in each coordinate, and the result is finite. *)
Definition the_poly : poly DS := [@Mono DS (MI 2 1) (of_int 3); @Mono DS (MI 0 0) (ddiv (of_int 1) (of_int 3))].
Example C78_int_poly_example : exists H c ess dzs x, ready disc H c /\ boundary_edges H c ess /\ Forall (fun es => (csize es <= 2 ^ 53)%Z) ess /\ Forall2 (matches 1) (cell_smp ess) dzs /\ List.length dzs = 16%nat /\
  d_int_poly from_left (spow DS) (map fst dzs) the_poly H c = Ok x /\ fin x = true /\
  Forall (fun m => (2 + Z.of_nat (morder (malpha m)) <= 2 ^ 53)%Z /\ (term_rounds (fun n => n) 1 m <= 9)%nat) the_poly /\ (forall l s, List.length l = 16%nat -> d_cell_steps c = Ok s -> (depth (from_left (d_blocks s l)) <= 16)%nat).
Proof.
  pose proof (ring_cell_outer (5, 5)%Z 1 ltac:(lra)) as B. set (c := made _ _ _ _ _) in B. assert (An : annulus c) by (exists 1%Z, [1; -1]%Z, (5, 5)%Z, 1; right; reflexivity). destruct (circles_param rings c rings_like (annulus_circles _ An)) as (H' & c' & P).
  assert (Rd : ready disc H' c') by (exists rings, 1%Z, [1; 0]%nat, (5, 5)%Z, 1, 1, c, (PInt 4), 7%Z, dict4, false, rings; split; [exact B|]; split; [exact dict4_ok|exact P]).
  destruct (ready_fresh _ _ _ Rd) as (ess & F & _). assert (BE : boundary_edges H' c' ess) by (unfold boundary_edges; destruct F as (F & _); eapply Forall2_impl; [|exact F]; intros k es Fk; apply Fk).
  pose proof (circles_wf _ (annulus_circles _ An)) as W.
  destruct (param_edge _ _ _ _ _ _ _ _ _ (unset 1 0 (-1)) O O (-1)%Z dict4_ok W P (or_intror (or_introl eq_refl)) eq_refl eq_refl) as (a0 & e0 & A0 & E0 & R0). destruct (param_edge _ _ _ _ _ _ _ _ _ (unset 1 1 1) O 1%nat 1%Z dict4_ok W P (or_introl eq_refl) eq_refl eq_refl) as (a1 & e1 & A1 & E1 & R1). cbn [rings nth_error] in A0, A1. injection A0 as <-. injection A1 as <-.
  assert (L4 : 0 < 4) by lra. destruct (ring_samples 1 1 2 1 _ _ _ Rlt_0_1 (like_self _ _ _ _) R0) as (N0 & W0 & _). destruct (ring_samples 0 4 1 (-1) _ _ _ L4 (like_self _ _ _ _) R1) as (N1 & W1 & _).
  destruct (ring_resampled 1 1 2 1 _ _ _ (like_self _ _ _ _) R0) as (_ & S0). destruct (ring_resampled 0 4 1 (-1) _ _ _ (like_self _ _ _ _) R1) as (_ & S1). pose proof (ring_reversed 1 1 2 1 _ _ _ Rlt_0_1 (like_self _ _ _ _) R0) as M0. pose proof (ring_reversed 0 4 1 (-1) _ _ _ L4 (like_self _ _ _ _) R1) as M1. cbn [Z.eqb Pos.eqb] in S0, S1, M0, M1.
  pose proof (circle_match 1 1 (-1) (-1) e0 (or_intror (conj eq_refl eq_refl)) eq_refl eq_refl S0 M0 W0) as Q0. pose proof (circle_match 0 4 1 1 e1 (or_introl (conj eq_refl eq_refl)) eq_refl eq_refl S1 M1 W1) as Q1.
  assert (Pm : ess = [[e1]; [e0]] \/ ess = [[e0]; [e1]]).
  { destruct (param_cell_ok disc (fun _ _ => True) (fun _ _ _ _ _ _ => I) dict4 _ _ _ _ _ _ _ dict4_ok W P) as (ess0 & ess' & Pr). pose proof (Permutation_map fst (p_edges _ _ _ _ _ _ _ _ _ Pr)) as PE. rewrite !map_map in PE. cbn [fst] in PE. change (map (fun x => k_edges x) (c_comps c)) with [[1%nat]; [0%nat]] in PE. apply Permutation_sym, Permutation_length_2_inv in PE. unfold boundary_edges in BE. clear -PE BE E0 E1.
    destruct (c_comps c') as [|k0 [|k1 [|? ?]]]; destruct PE as [PE|PE]; try discriminate; injection PE as K0 K1; inversion BE as [|? x0 ? l0 X0 F0]; subst; inversion F0 as [|? x1 ? l1 X1 F1]; subst; inversion F1; subst; rewrite K0 in X0; rewrite K1 in X1; unfold refs in X0, X1; inversion X0 as [|? u0 ? v0 Y0 Z0]; subst; inversion Z0; subst; inversion X1 as [|? u1 ? v1 Y1 Z1]; subst; inversion Z1; subst; [left; assert (u0 = e1) by congruence; assert (u1 = e0) by congruence; subst; reflexivity|right; assert (u0 = e0) by congruence; assert (u1 = e1) by congruence; subst; reflexivity]. }
  assert (Z1 : csize [e1] = 8%Z /\ csize [e0] = 8%Z) by (unfold csize, open_num; cbn [map]; rewrite N0, N1; auto). destruct Z1 as [Z1 Z0]. clear M0 M1 S0 S1 W0 W1 R0 R1.
  destruct (ready_uniform _ _ _ _ Rd BE) as (Fr & NE & _).
  assert (T : Forall (fun m => (2 + Z.of_nat (morder (malpha m)) <= 2 ^ 53)%Z /\ (term_rounds (fun n => n) 1 m <= 9)%nat) the_poly) by (unfold the_poly; repeat constructor; unfold term_rounds; cbn; lia).
  exists H', c', ess. destruct Pm as [-> | ->].
  - exists (circle_of 0 4 1 1 ++ circle_of 1 1 (-1) (-1)). eexists. split; [exact Rd|]. split; [exact BE|]. split; [constructor; [|constructor; [|constructor]]; lia|]. split; [unfold cell_smp, contour_smp; cbn [map concat]; rewrite !app_nil_r; apply Forall2_app; assumption|]. split; [reflexivity|].
    unfold d_int_poly, the_poly, d_cell_weighted, d_cell. rewrite (comps_guard _ _ _ (proj1 Fr)), (proj1 (proj2 (proj2 Fr))), (d_cell_steps_ok _ _ _ Fr NE). cbn [attr bind map CellSpec.total fold_right fold_res]. unfold k_step. rewrite Z0, Z1. cbn [List.length]. split; [reflexivity|]. split; [vm_compute; reflexivity|]. split; [exact T|].
    intros l s Ll Es. apply Ok_inj in Es. subst s. rewrite (proj2 (C76_from_left _)), <- Ll. apply blocks_len.
  - exists (circle_of 1 1 (-1) (-1) ++ circle_of 0 4 1 1). eexists. split; [exact Rd|]. split; [exact BE|]. split; [constructor; [|constructor; [|constructor]]; lia|]. split; [unfold cell_smp, contour_smp; cbn [map concat]; rewrite !app_nil_r; apply Forall2_app; assumption|]. split; [reflexivity|].
    unfold d_int_poly, the_poly, d_cell_weighted, d_cell. rewrite (comps_guard _ _ _ (proj1 Fr)), (proj1 (proj2 (proj2 Fr))), (d_cell_steps_ok _ _ _ Fr NE). cbn [attr bind map CellSpec.total fold_right fold_res]. unfold k_step. rewrite Z0, Z1. cbn [List.length]. split; [reflexivity|]. split; [vm_compute; reflexivity|]. split; [exact T|].
    intros l s Ll Es. apply Ok_inj in Es. subst s. rewrite (proj2 (C76_from_left _)), <- Ll. apply blocks_len.
Qed.
