(** Lemmas for the order of convergence (C81): edges and cells *)
From Coq Require Import List ZArith Reals Lia Lra Psatz Bool String Permutation.
From Coquelicot Require Import Coquelicot.
From Verif Require Import PyBase PolyModel PolySpec PolyProofs PolyProofs2 PolyProofs4 IntPolyModel IntPolyProofs BaryModel BBoxModel QuadModel QuadSpec QuadProofs QuadProps CurveModel CurveSpec CurveProps VertModel EdgeModel ContourModel CellModel CellSpec EdgeSpec EdgeProofs EdgeProofs2 EdgeProps EdgeProps3 EdgeProps4 CellProofs CellProps ContourProofs ContourProofs3 ContourProofs4 ContourProps CellProps2 CellProps3 Annulus LocalModel LocalSpec LocalProps2 ConvSpec ConvProofs ConvProofs2 ConvProps ConvProps2 RateSpec RateProofs RateProofs2.
Import List ListNotations.
Open Scope R_scope.

(** ** Periodic functions close up *)
Lemma smooth_ext_loc k a b f g : (forall t, a - 1 < t < b + 1 -> f t = g t) -> smooth k a b f -> smooth k a b g.
Proof.
  intros E. assert (Lc : forall t, a <= t <= b -> locally t (fun s => f s = g s)). { intros t Ht. exists (mkposreal (1 / 2) ltac:(lra)). intros y Hy. apply E. unfold ball in Hy; cbn in Hy. unfold AbsRing_ball, abs, minus, plus, opp in Hy; cbn in Hy. apply Rabs_def2 in Hy. lra. }
  destruct k as [|k]; intros H; [intros t Ht; apply (continuous_ext_loc g f t); [apply (Lc t Ht)|apply H, Ht]|]. destruct H as (f' & D & H). exists f'. split; [|exact H]. intros t Ht. apply (is_derive_ext_loc f g t); [apply (Lc t Ht)|apply D, Ht].
Qed.
Lemma smooth_shrink k a b c d f : a <= c -> d <= b -> smooth k a b f -> smooth k c d f.
Proof.
  intros A B. revert f. induction k as [|k IH]; intros f H; [intros t Ht; apply H; lra|]. destruct H as (f' & D & H). exists f'. split; [intros t Ht; apply D; lra|apply IH, H].
Qed.
Lemma smooth_all_derive k f : (forall c d, smooth (S k) c d f) -> (forall t, is_derive f t (Derive f t)) /\ forall c d, smooth k c d (Derive f).
Proof.
  intros H. assert (D : forall t, is_derive f t (Derive f t)). { intros t. destruct (H t t) as (f' & D & _). apply Derive_correct. exists (f' t). apply D. lra. } split; [exact D|].
  intros c d. destruct (H (c - 1) (d + 1)) as (f' & D' & S'). apply (smooth_ext_loc k c d f'); [intros t Ht; symmetry; apply is_derive_unique, D'; lra|]. apply (smooth_shrink k (c - 1) (d + 1)); [lra|lra|exact S'].
Qed.
Lemma periodic_closes k f T a : (forall c d, smooth k c d f) -> (forall t, f (t + T) = f t) -> closes k a (a + T) f.
Proof.
  revert f. induction k as [|k IH]; intros f H P; [apply (H a (a + T))|]. destruct (smooth_all_derive k f H) as (D & H'). split; [symmetry; apply P|]. exists (Derive f). split; [intros t _; apply D|]. apply IH; [exact H'|].
  intros t. apply is_derive_unique. apply (is_derive_ext (fun s => f (s - T))); [intros s; rewrite <- (P (s - T)); f_equal; ring|]. replace (Derive f t) with (1 * Derive f (t + T - T)) by (replace (t + T - T) with t by ring; ring).
  apply (is_derive_comp f (fun s => s - T) (t + T) (Derive f (t + T - T)) 1); [apply D|]. auto_derive; [trivial|ring].
Qed.
Lemma closes_lin k a b c d q f : 0 < d - c -> q = (b - a) / (d - c) -> a <= b -> closes k a b f -> closes k c d (fun t => f (a + (t - c) * q)).
Proof.
  intros Hcd Hq Hab. assert (Rg : forall t, c <= t <= d -> a <= a + (t - c) * q <= b). { intros t Ht. assert (Q0 : 0 <= q) by (rewrite Hq; apply Rmult_le_pos; [lra|left; apply Rinv_0_lt_compat, Hcd]). split; [nra|]. apply Rle_trans with (a + (d - c) * q); [nra|]. rewrite Hq. right. field. lra. }
  assert (Eb : a + (d - c) * q = b) by (rewrite Hq; field; lra). assert (DA : forall t, is_derive (fun t => a + (t - c) * q) t q) by (intros t; auto_derive; [trivial|ring]).
  assert (G : forall k w f, closes k a b f -> closes k c d (fun t => w * f (a + (t - c) * q))).
  { clear k f. induction k as [|k IH]; intros w f H.
    - intros t Ht. apply (continuous_mult (fun _ => w) (fun t => f (a + (t - c) * q))); [apply continuous_const|]. apply (continuous_comp (fun t => a + (t - c) * q) f); [apply (ex_derive_continuous (fun t => a + (t - c) * q)); exists q; apply DA|apply H, Rg, Ht].
    - destruct H as (Ends & f' & D & H). split; [rewrite Eb; replace (a + (c - c) * q) with a by ring; rewrite Ends; reflexivity|]. exists (fun t => (w * q) * f' (a + (t - c) * q)). split; [|apply IH, H].
      intros t Ht. rewrite Rmult_assoc. apply (is_derive_scal (fun t => f (a + (t - c) * q)) t w). apply (is_derive_comp f (fun t => a + (t - c) * q) t (f' (a + (t - c) * q)) q); [apply D, Rg, Ht|apply DA]. }
  intros H. apply (closes_ext k c d (fun t => 1 * f (a + (t - c) * q))); [intros t; ring|apply G, H].
Qed.
Lemma closes_scal k a b w f : closes k a b f -> closes k a b (fun t => w * f t).
Proof.
  revert f. induction k as [|k IH]; intros f H; [intros t Ht; apply (continuous_mult (fun _ => w) f); [apply continuous_const|apply H, Ht]|]. destruct H as (Ends & f' & D & H). split; [rewrite Ends; reflexivity|]. exists (fun t => w * f' t). split; [intros t Ht; apply (is_derive_scal f t w), D, Ht|apply IH, H].
Qed.

(** ** One edge *)
Lemma rule_closes k p e L : (2 <= p)%Z -> fst (e_tb e) < snd (e_tb e) -> fast k p e L -> closes k 0 (2 * PI) (fun t => rule_dphi p e t * (param_dt e * L (param_arg e (rule_phi p e t)))).
Proof.
  intros Hp Ht F. pose proof PI_RGT_0 as HP. assert (Hdt : 0 < param_dt e) by (unfold param_dt; apply Rdiv_lt_0_compat; lra). unfold rule_dphi, rule_phi. destruct F as [(Q & Kp & Sm)|(Q & Sm & Pe)]; rewrite Q; cbn [String.eqb Ascii.eqb Bool.eqb].
  - apply (kress_closes (Z.to_nat p) k (fun u => param_dt e * L (param_arg e u))); [lia|lia|]. apply smooth_scal. apply (smooth_comp k (fst (e_tb e)) (snd (e_tb e))); [|exact Sm|].
    + intros t Hi. unfold param_arg. split; [nra|]. apply Rle_trans with (fst (e_tb e) + 2 * PI * param_dt e); [nra|]. unfold param_dt. right. field. lra.
    + unfold param_arg. apply smooth_plus; [apply smooth_const|]. apply (smooth_mult _ _ _ (fun t => t) (fun _ => param_dt e)); [apply smooth_id|apply smooth_const].
  - apply (closes_ext k 0 (2 * PI) (fun t => param_dt e * L (param_arg e t))); [intros t; ring|]. apply closes_scal. pose proof (periodic_closes k L (snd (e_tb e) - fst (e_tb e)) (fst (e_tb e)) Sm Pe) as Cl. replace (fst (e_tb e) + (snd (e_tb e) - fst (e_tb e))) with (snd (e_tb e)) in Cl by ring.
    apply (closes_ext k 0 (2 * PI) (fun t => L (fst (e_tb e) + (t - 0) * param_dt e))); [intros t; unfold param_arg; rewrite Rminus_0_r; reflexivity|]. apply (closes_lin k (fst (e_tb e)) (snd (e_tb e))); [lra|unfold param_dt; rewrite Rminus_0_r; reflexivity|lra|exact Cl].
Qed.
Lemma order_down C k n : 0 <= C -> (4 <= n)%Z -> C / INR (2 * Z.to_nat n) ^ k <= C / IZR n ^ k.
Proof.
  intros HC Hn. assert (E : INR (2 * Z.to_nat n) = 2 * IZR n) by (rewrite mult_INR, INR_IZR_INZ, (INR_IZR_INZ (Z.to_nat n)), Z2Nat.id by lia; reflexivity). rewrite E. assert (P : 0 < IZR n) by (apply IZR_lt; lia).
  apply Rmult_le_compat_l; [exact HC|]. apply Rinv_le_contravar; [apply pow_lt, P|]. apply pow_incr. lra.
Qed.
(** The integrand after the rule's substitution *)
Definition rule_fun (p : Z) (e : edge) (L : R -> R) (t : R) : R := rule_dphi p e t * (param_dt e * L (param_arg e (rule_phi p e t))).
Lemma edge_samples G o e X DX p Y' : continuous_field G -> smooth_edge e X DX -> (2 <= p)%Z -> velocity e X Y' -> let g := rule_fun p e (line_integrand G o (traced X e) Y') in
  RInt g 0 (2 * PI) = line_integral G o (traced X e) Y' (fst (e_tb e)) (snd (e_tb e)) /\
  forall n, (4 <= n)%Z -> exists qd e1, get_quad_dict (PInt n) p = Ok qd /\ parameterize qd e = Ok e1 /\ e_npts e1 = (2 * n + 1)%Z /\
    map (fun s => G (sx s) (pt_scale o (sN s)) * sw s) (e_smp e1) = map (fun i => g (INR i * (2 * PI / INR (2 * Z.to_nat n)))) (seq 0 (2 * Z.to_nat n + 1)).
Proof.
  intros HG HS Hp HY g. pose proof PI_RGT_0 as HP. destruct (edge_limit G o e X DX p HG HS Hp) as (D & CD & LD & F). destruct (LD Y' HY) as (<- & DF).
  assert (Eg : forall t, 0 <= t <= 2 * PI -> rule_dphi p e t * D (rule_phi p e t) = g t) by (intros t Hi; unfold g, rule_fun; rewrite DF; [reflexivity|apply (proj1 (edge_rule p e Hp) t Hi)]).
  split. { rewrite <- (proj2 (edge_rule p e Hp) D CD). apply RInt_ext. intros t Hi. rewrite Rmin_left, Rmax_right in Hi by lra. symmetry. apply Eg. lra. }
  intros n Hn. destruct (F n Hn) as (qd & e1 & Eq & Ep & En & ES). exists qd, e1. split; [exact Eq|]. split; [exact Ep|]. split; [exact En|]. rewrite ES. apply map_ext_in. intros i Hi. apply in_seq in Hi. cbv zeta. apply Eg.
  assert (PN : 0 < INR (2 * Z.to_nat n)) by (apply lt_0_INR; lia). assert (Q : 0 < 2 * PI / INR (2 * Z.to_nat n)) by (apply Rdiv_lt_0_compat; lra). split; [apply Rmult_le_pos; [apply pos_INR|lra]|].
  apply Rle_trans with (INR (2 * Z.to_nat n) * (2 * PI / INR (2 * Z.to_nat n))); [apply Rmult_le_compat_r; [lra|apply le_INR; lia]|right; field; lra].
Qed.
(** The two sums over the samples of an edge *)
Lemma edge_sum G e X DX p Y' n : continuous_field G -> smooth_edge e X DX -> (2 <= p)%Z -> velocity e X Y' -> (4 <= n)%Z -> let g := rule_fun p e (line_integrand G 1 (traced X e) Y') in
  exists qd e', get_quad_dict (PInt n) p = Ok qd /\ parameterize qd e = Ok e' /\ integrate_over_edge (map (fun s => G (sx s) (sN s)) (e_smp e')) false e' = Ok (trap_sum (2 * PI / INR (2 * Z.to_nat n)) g (2 * Z.to_nat n)).
Proof.
  intros HG HS Hp HY Hn g. destruct (edge_samples G 1 e X DX p Y' HG HS Hp HY) as (_ & F). fold g in F. destruct (F n Hn) as (qd & e' & Eq & Ep & En & ES). exists qd, e'.
  destruct (C33_well_sampled _ _ _ _ _ Eq Ep) as (W & _). pose proof W as (_ & Le & _). split; [exact Eq|]. split; [exact Ep|]. rewrite C33_trapezoid; [|exact W|rewrite map_length; exact Le]. f_equal.
  set (m := (2 * Z.to_nat n)%nat) in *. assert (EM : INR m = IZR (2 * n + 1 - 1)) by (apply nat_steps; lia). rewrite En, <- EM.
  assert (EZ : zip_with Rmult (map (fun s => G (sx s) (sN s)) (e_smp e')) (map sw (e_smp e')) = map (fun i => g (INR i * (2 * PI / INR m))) (seq 0 (S m))).
  { rewrite Nat.add_1_r in ES. etransitivity; [|exact ES]. clear. induction (e_smp e') as [|s l IH]; [reflexivity|]. unfold zip_with in *. cbn [map combine fst snd] in *. rewrite IH, pt_scale_1. reflexivity. }
  rewrite EZ, trapezoid_pairs. reflexivity.
Qed.
Lemma edge_side_sum G o e X DX p Y' n qd e' : continuous_field G -> smooth_edge e X DX -> (2 <= p)%Z -> velocity e X Y' -> o = 1%Z \/ o = (-1)%Z -> (4 <= n)%Z -> let g := rule_fun p e (line_integrand G (IZR o) (traced X e) Y') in
  g 0 = g (2 * PI) -> get_quad_dict (PInt n) p = Ok qd -> resampled qd o e e' -> smp_sum G e' = trap_sum (2 * PI / INR (2 * Z.to_nat n)) g (2 * Z.to_nat n).
Proof.
  intros HG HS Hp HY Ho Hn g Ends Eq (e1 & Ep & ->). destruct (edge_samples G (IZR o) e X DX p Y' HG HS Hp HY) as (_ & F). fold g in F.
  destruct (F n Hn) as (qd' & e1' & Eq' & Ep' & En & ES). rewrite Eq in Eq'. apply Ok_inj in Eq'. subst qd'. rewrite Ep in Ep'. apply Ok_inj in Ep'. subst e1'.
  destruct (C33_well_sampled _ _ _ _ _ Eq Ep) as ((Pt & Le & _) & _). set (m := (2 * Z.to_nat n)%nat) in *. assert (EM : INR m = IZR (2 * n + 1 - 1)) by (apply nat_steps; lia).
  assert (Np : e_npts (if Z.eqb o (-1) then reverse_orientation e1 else e1) = (2 * n + 1)%Z) by (destruct (Z.eqb o (-1)); [unfold reverse_orientation; rewrite Pt; exact En|exact En]).
  assert (Pm : 0 < INR m) by (apply lt_0_INR; lia). assert (Ends' : g 0 = g (INR m * (2 * PI / INR m))) by (replace (INR m * (2 * PI / INR m)) with (2 * PI) by (field; lra); exact Ends).
  unfold smp_sum. rewrite Np, <- EM. destruct Ho as [-> | ->]; cbn [Z.eqb Pos.eqb].
  - assert (E1 : map (fun s => G (sx s) (sN s) * sw s) (e_smp e1) = map (fun i => g (INR i * (2 * PI / INR m))) (seq 0 (m + 1))) by (rewrite <- ES; apply map_ext; intros s; rewrite pt_scale_1; reflexivity).
    rewrite <- removelast_map, E1, removelast_map, removelast_seq. apply left_sum, Ends'.
  - unfold reverse_orientation. rewrite Pt. cbn [with_smp e_smp]. rewrite removelast_rev, map_rev, sum_rev.
    assert (E1 : forall l, map (fun s => G (sx s) (sN s) * sw s) (tl (map reverse_sample l)) = tl (map (fun s => G (sx s) (pt_scale (-1) (sN s)) * sw s) l)).
    { intros [|s l]; [reflexivity|]. cbn [map tl]. rewrite map_map. apply map_ext. intros s'. unfold reverse_sample. cbn [sx sN sw]. unfold pt_scale. do 3 f_equal; ring. }
    rewrite E1, ES. assert (E2 : tl (map (fun i => g (INR i * (2 * PI / INR m))) (seq 0 (m + 1))) = map (fun i => g (INR (S i) * (2 * PI / INR m))) (seq 0 m)) by (rewrite Nat.add_1_r; cbn [seq map tl]; rewrite <- seq_shift, map_map; reflexivity).
    rewrite E2. apply right_sum, Ends'.
Qed.
Lemma edge_order G o e X DX p Y' k : continuous_field G -> smooth_edge e X DX -> (2 <= p)%Z -> velocity e X Y' -> (1 <= k)%nat -> fast k p e (line_integrand G o (traced X e) Y') -> let g := rule_fun p e (line_integrand G o (traced X e) Y') in
  g 0 = g (2 * PI) /\ exists C, 0 <= C /\ forall n, (4 <= n)%Z -> Rabs (trap_sum (2 * PI / INR (2 * Z.to_nat n)) g (2 * Z.to_nat n) - line_integral G o (traced X e) Y' (fst (e_tb e)) (snd (e_tb e))) <= C / IZR n ^ k.
Proof.
  intros HG HS Hp HY Hk Fa g. pose proof PI_RGT_0 as HP. pose proof HS as (_ & Ht & _). destruct (edge_samples G o e X DX p Y' HG HS Hp HY) as (EI & _). fold g in EI. rewrite <- EI.
  pose proof (rule_closes k p e _ Hp Ht Fa : closes k 0 (2 * PI) g) as Cl. destruct k as [|k]; [lia|]. split; [apply Cl|]. destruct (trapezoid_order k g (2 * PI) ltac:(lra) Cl) as (C & C0 & B). exists C. split; [exact C0|]. intros n Hn. eapply Rle_trans; [apply B; lia|apply order_down; assumption].
Qed.
Lemma edge_rate G e X DX p Y' k : continuous_field G -> smooth_edge e X DX -> (2 <= p)%Z -> velocity e X Y' -> (1 <= k)%nat -> fast k p e (line_integrand G 1 (traced X e) Y') ->
  exists C, 0 <= C /\ forall n, (4 <= n)%Z -> exists qd e' I, get_quad_dict (PInt n) p = Ok qd /\ parameterize qd e = Ok e' /\ integrate_over_edge (map (fun s => G (sx s) (sN s)) (e_smp e')) false e' = Ok I /\
    Rabs (I - line_integral G 1 (traced X e) Y' (fst (e_tb e)) (snd (e_tb e))) <= C / IZR n ^ k.
Proof.
  intros HG HS Hp HY Hk Fa. destruct (edge_order G 1 e X DX p Y' k HG HS Hp HY Hk Fa) as (_ & C & C0 & B). exists C. split; [exact C0|]. intros n Hn. destruct (edge_sum G e X DX p Y' n HG HS Hp HY Hn) as (qd & e' & Eq & Ep & EI). exists qd, e'. eexists. split; [exact Eq|]. split; [exact Ep|]. split; [exact EI|]. apply B, Hn.
Qed.
Lemma edge_side_rate G o e X DX p Y' k : continuous_field G -> smooth_edge e X DX -> (2 <= p)%Z -> velocity e X Y' -> o = 1%Z \/ o = (-1)%Z -> (1 <= k)%nat -> fast k p e (line_integrand G (IZR o) (traced X e) Y') ->
  exists C, 0 <= C /\ forall n, (4 <= n)%Z -> forall qd e', get_quad_dict (PInt n) p = Ok qd ->
  resampled qd o e e' -> Rabs (smp_sum G e' - line_integral G (IZR o) (traced X e) Y' (fst (e_tb e)) (snd (e_tb e))) <= C / IZR n ^ k.
Proof.
  intros HG HS Hp HY Ho Hk Fa. destruct (edge_order G (IZR o) e X DX p Y' k HG HS Hp HY Hk Fa) as (Ends & C & C0 & B). exists C. split; [exact C0|]. intros n Hn qd e' Eq R. rewrite (edge_side_sum G o e X DX p Y' n qd e' HG HS Hp HY Ho Hn Ends Eq R). apply B, Hn.
Qed.

(** ** The boundary of a cell *)
Lemma max_const {A} (P : A -> R -> Prop) l : (forall a C C', In a l -> C <= C' -> P a C -> P a C') -> (forall a, In a l -> exists C, 0 <= C /\ P a C) -> exists C, 0 <= C /\ Forall (fun a => P a C) l.
Proof.
  induction l as [|a l IH]; intros Mo H; [exists 0; split; [lra|constructor]|]. destruct (H a (or_introl eq_refl)) as (C1 & P1 & H1). destruct IH as (C2 & P2 & H2); [intros b C C' Hb; apply Mo; right; exact Hb|intros b Hb; apply H; right; exact Hb|].
  exists (C1 + C2). split; [lra|]. constructor; [apply (Mo a C1); [left; reflexivity|lra|exact H1]|]. rewrite Forall_forall in *. intros b Hb. apply (Mo b C2); [right; exact Hb|lra|apply H2, Hb].
Qed.
(** Errors of the sums over the edges add up. *)
Lemma boundary_bound contains G H z ids mesh rtol atol c p X Y' n qd delta : mk_cell H z ids mesh rtol atol = Ok c -> get_quad_dict (PInt n) p = Ok qd -> 0 <= delta ->
  (forall i o e e', In i ids -> o = 1%Z \/ o = (-1)%Z -> IZR o = side z e -> nth_error H i = Some e -> resampled qd o e e' -> Rabs (smp_sum G e' - line_integral G (IZR o) (traced (X i) e) (Y' i) (fst (e_tb e)) (snd (e_tb e))) <= delta) ->
  forall w H' c' ess, param_cell contains qd w H c = Ok (H', c') -> boundary_edges H' c' ess -> exists I, cell_integrate (map (fun s => G (sx s) (sN s)) (cell_smp ess)) H' c' = Ok I /\ Rabs (I - boundary_integral G H z ids X Y') <= INR (List.length (oriented c)) * delta.
Proof.
  intros M Eq D0 Sm w H' c' ess Pc B. pose proof (built_wf _ _ _ _ _ _ _ M) as W. destruct (C36_contours _ _ _ _ _ _ _ M) as (_ & Pm & _).
  assert (HC : forall io e e', In io (oriented c) -> nth_error H (fst io) = Some e -> resampled qd (snd io) e e' -> Rabs (smp_sum G e' - edge_lim G H X Y' io) <= delta).
  { intros [i o] e e' I Ee R. cbn [fst snd] in *. destruct (side_orient _ _ _ _ _ _ _ _ _ M I) as (e0 & E0 & Ho & Es). rewrite Ee in E0. injection E0 as <-. assert (Ii : In i ids). { eapply Permutation_in; [exact Pm|]. rewrite <- (oriented_fst c W). apply (in_map fst _ _ I). }
    unfold edge_lim. cbn [fst snd]. rewrite Ee. apply (Sm i o e e' Ii Ho Es Ee R). }
  assert (Rd : ready contains H' c') by (exists H, z, ids, mesh, rtol, atol, c, (PInt n), p, qd, w, H; auto).
  exists (sum_list (map (smp_sum G) (concat ess))). split; [apply (cell_smp_sum contains); assumption|]. rewrite <- (boundary_sum G H z ids mesh rtol atol c X Y' M).
  destruct (param_cell_ok contains (fun _ _ => True) (fun _ _ _ _ _ _ => I) qd (PInt n) p w H c H' c' Eq W Pc) as (ess0 & ess' & Pr). assert (ess = ess') by (eapply edges_unique; [apply Pr|exact B]). subst ess'.
  pose proof (oriented_perm _ _ _ _ _ _ _ _ _ Pr) as Po.
  assert (Ls : Forall (fun k => List.length (k_edges k) = List.length (k_orients k)) (c_comps c')).
  { pose proof (p_edges _ _ _ _ _ _ _ _ _ Pr) as PE. apply Forall_forall. intros k0 Ik. assert (I2 : In (k_edges k0, k_orients k0) (map (fun k => (k_edges k, k_orients k)) (c_comps c))) by (eapply Permutation_in; [exact PE|apply (in_map (fun k => (k_edges k, k_orients k)) _ _ Ik)]). apply in_map_iff in I2. destruct I2 as (k1 & E0 & I0). injection E0 as E1 E2. rewrite <- E1, <- E2. destruct W as (_ & _ & F). rewrite Forall_forall in F. apply (proj1 (F k1 I0)). }
  pose proof (oriented_edges _ _ _ _ _ _ _ _ _ Pr Ls) as Fe. rewrite <- (sum_perm _ _ (Permutation_map (edge_lim G H X Y') Po)), <- (Permutation_length Po).
  apply sum_close. assert (Fi : forall io, In io (oriented c') -> In io (oriented c)) by (intros io; apply Permutation_in, Po). clear -Fe HC Fi. revert Fi. induction Fe as [|io e' l l' (e & Ee & R) Fe IH]; intros Fi; constructor; [apply (HC io e e' (Fi io (or_introl eq_refl)) Ee R)|]. apply IH. intros x Hx. apply Fi. right. exact Hx.
Qed.
Lemma polynomial_bound f contains H z ids mesh rtol atol c p X Y' n qd delta : mk_cell H z ids mesh rtol atol = Ok c -> get_quad_dict (PInt n) p = Ok qd -> 0 <= delta ->
  (forall i o e e', In i ids -> o = 1%Z \/ o = (-1)%Z -> IZR o = side z e -> nth_error H i = Some e -> resampled qd o e e' -> Rabs (smp_sum (poly_field f) e' - line_integral (poly_field f) (IZR o) (traced (X i) e) (Y' i) (fst (e_tb e)) (snd (e_tb e))) <= delta) ->
  forall w H' c', param_cell contains qd w H c = Ok (H', c') -> exists I, int_poly f H' c' = Ok I /\ Rabs (I - boundary_integral (poly_field f) H z ids X Y') <= INR (List.length (oriented c)) * delta.
Proof.
  intros M Eq D0 Sm w H' c' Pc. assert (Rd : ready contains H' c') by (exists H, z, ids, mesh, rtol, atol, c, (PInt n), p, qd, w, H; auto).
  destruct (param_cell_ok contains (fun _ _ => True) (fun _ _ _ _ _ _ => I) qd (PInt n) p w H c H' c' Eq (built_wf _ _ _ _ _ _ _ M) Pc) as (ess0 & ess & Pr). pose proof (p_fresh _ _ _ _ _ _ _ _ _ Pr) as Fr.
  assert (B : boundary_edges H' c' ess). { destruct Fr as (F & _). unfold boundary_edges. clear -F. induction F as [|k0 es ks ess (R & _) F IH]; constructor; assumption. }
  destruct (boundary_bound contains (poly_field f) H z ids mesh rtol atol c p X Y' n qd delta M Eq D0 Sm w H' c' ess Pc B) as (I & EI & HI). exists I. split; [|exact HI]. rewrite (C54_cell_integral contains H' c' ess f Rd B). f_equal.
  rewrite (cell_smp_sum contains H' c' ess (poly_field f) Rd B) in EI. apply Ok_inj in EI. subst I. rewrite integrate_poly_value.
  destruct (ready_uniform _ _ _ _ Rd B) as (F & NE & N & U). pose proof (fresh_all _ _ _ (proj1 F)) as W. apply Forall_concat in U. apply Forall_concat in W.
  rewrite <- (quadrature_sum (poly_field f) N) by assumption. apply bsum_ext. intros q. unfold xn, poly_field. cbn [fst snd]. ring.
Qed.
Lemma edges_rate G H z ids p X DX Y' k : continuous_field G -> (2 <= p)%Z -> (1 <= k)%nat ->
  (forall i e, In i ids -> nth_error H i = Some e -> smooth_edge e (X i) (DX i) /\ velocity e (X i) (Y' i) /\ fast k p e (line_integrand G (side z e) (traced (X i) e) (Y' i))) -> exists C, 0 <= C /\ forall n qd, (4 <= n)%Z -> get_quad_dict (PInt n) p = Ok qd ->
  forall i o e e', In i ids -> o = 1%Z \/ o = (-1)%Z -> IZR o = side z e -> nth_error H i = Some e -> resampled qd o e e' -> Rabs (smp_sum G e' - line_integral G (IZR o) (traced (X i) e) (Y' i) (fst (e_tb e)) (snd (e_tb e))) <= C / IZR n ^ k.
Proof.
  intros HG Hp Hk Sm.
  destruct (max_const (fun i C => forall n qd o e e', (4 <= n)%Z -> get_quad_dict (PInt n) p = Ok qd -> o = 1%Z \/ o = (-1)%Z -> IZR o = side z e -> nth_error H i = Some e -> resampled qd o e e' -> Rabs (smp_sum G e' - line_integral G (IZR o) (traced (X i) e) (Y' i) (fst (e_tb e)) (snd (e_tb e))) <= C / IZR n ^ k) ids) as (C & C0 & HC).
  - intros i C1 C2 _ L12 Q n qd o e e' Hn Eq Ho Es Ee R. eapply Rle_trans; [apply (Q n qd o e e' Hn Eq Ho Es Ee R)|]. apply Rmult_le_compat_r; [|exact L12]. left. apply Rinv_0_lt_compat, pow_lt, IZR_lt. lia.
  - intros i I. destruct (nth_error H i) as [e|] eqn:Ee; [|exists 0; split; [lra|discriminate]]. destruct (Sm i e I Ee) as (S1 & V1 & F1).
    assert (OO : exists o, (o = 1%Z \/ o = (-1)%Z) /\ IZR o = side z e) by (unfold side; destruct (Z.eqb z (e_pos e)); [exists 1%Z|exists (-1)%Z]; auto). destruct OO as (o & Ho & Es). rewrite <- Es in F1.
    destruct (edge_side_rate G o e (X i) (DX i) p (Y' i) k HG S1 Hp V1 Ho Hk F1) as (C & C0 & HC). exists C. split; [exact C0|]. intros n qd o' e0 e' Hn Eq _ Es' E0 R. injection E0 as <-. assert (o' = o) by (apply eq_IZR; congruence). subst o'. apply (HC n Hn qd e' Eq R).
  - exists C. split; [exact C0|]. rewrite Forall_forall in HC. intros n qd Hn Eq i o e e' I Ho Es Ee R. apply (HC i I n qd o e e'); assumption.
Qed.
Lemma boundary_rate contains G H z ids mesh rtol atol c p X DX Y' k : continuous_field G -> (2 <= p)%Z -> (1 <= k)%nat -> mk_cell H z ids mesh rtol atol = Ok c ->
  (forall i e, In i ids -> nth_error H i = Some e -> smooth_edge e (X i) (DX i) /\ velocity e (X i) (Y' i) /\ fast k p e (line_integrand G (side z e) (traced (X i) e) (Y' i))) -> exists C, 0 <= C /\ forall n, (4 <= n)%Z -> forall qd w H' c' ess, get_quad_dict (PInt n) p = Ok qd ->
  param_cell contains qd w H c = Ok (H', c') -> boundary_edges H' c' ess -> exists I, cell_integrate (map (fun s => G (sx s) (sN s)) (cell_smp ess)) H' c' = Ok I /\ Rabs (I - boundary_integral G H z ids X Y') <= C / IZR n ^ k.
Proof.
  intros HG Hp Hk M Sm. destruct (edges_rate G H z ids p X DX Y' k HG Hp Hk Sm) as (C & C0 & HC). exists (INR (List.length (oriented c)) * C). split; [apply Rmult_le_pos; [apply pos_INR|exact C0]|]. intros n Hn qd w H' c' ess Eq Pc B.
  unfold Rdiv. rewrite Rmult_assoc. apply (boundary_bound contains G H z ids mesh rtol atol c p X Y' n qd (C / IZR n ^ k) M Eq) with (w := w); [|apply (HC n qd Hn Eq)|exact Pc|exact B]. apply Rmult_le_pos; [exact C0|]. left. apply Rinv_0_lt_compat, pow_lt, IZR_lt. lia.
Qed.
Lemma polynomial_rate f contains H z ids mesh rtol atol c p X DX Y' k : (2 <= p)%Z -> (1 <= k)%nat -> mk_cell H z ids mesh rtol atol = Ok c ->
  (forall i e, In i ids -> nth_error H i = Some e -> smooth_edge e (X i) (DX i) /\ velocity e (X i) (Y' i) /\ fast k p e (line_integrand (poly_field f) (side z e) (traced (X i) e) (Y' i))) -> exists C, 0 <= C /\ forall n, (4 <= n)%Z -> forall qd w H' c', get_quad_dict (PInt n) p = Ok qd ->
  param_cell contains qd w H c = Ok (H', c') -> exists I, int_poly f H' c' = Ok I /\ Rabs (I - boundary_integral (poly_field f) H z ids X Y') <= C / IZR n ^ k.
Proof.
  intros Hp Hk M Sm. destruct (edges_rate (poly_field f) H z ids p X DX Y' k (poly_field_continuous f) Hp Hk Sm) as (C & C0 & HC). exists (INR (List.length (oriented c)) * C). split; [apply Rmult_le_pos; [apply pos_INR|exact C0]|]. intros n Hn qd w H' c' Eq Pc.
  unfold Rdiv. rewrite Rmult_assoc. apply (polynomial_bound f contains H z ids mesh rtol atol c p X Y' n qd (C / IZR n ^ k) M Eq) with (w := w); [|apply (HC n qd Hn Eq)|exact Pc]. apply Rmult_le_pos; [exact C0|]. left. apply Rinv_0_lt_compat, pow_lt, IZR_lt. lia.
Qed.
