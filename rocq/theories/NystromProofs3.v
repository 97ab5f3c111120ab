(** The kernels of the Nyström solver. *)
From Coq Require Import List ZArith Reals Lia Lra Bool String.
From Verif Require Import PyBase PolyModel PolySpec BaryModel QuadModel QuadSpec QuadProofs QuadProps VertModel EdgeModel EdgeSpec EdgeProofs2 EdgeProps4 ContourModel CellModel CellSpec CellProofs CellProps ContourProofs ContourProofs2 ContourProofs3 ContourProofs4 ContourProps CellProps3 TraceModel TraceSpec TraceProofs LocalProofs3 LocalModel LocalSpec LocalProofs LocalProofs2 LocalProofs5 AntilapModel AntilapSpec AntilapProofs4 NystromModel NystromSpec NystromProofs2.
Import List ListNotations.
Open Scope R_scope.

(** ** The double layer kernel *)
Lemma sq_dist_spec x y : sq_dist x y = dist2 x y.
Proof. unfold sq_dist, dist2, Rsqr. reflexivity. Qed.
Lemma dist2_0 x y : dist2 x y = 0 <-> x = y.
Proof.
  unfold dist2. split; [|intros ->; unfold Rsqr; ring]. intros E. pose proof (Rle_0_sqr (fst x - fst y)). pose proof (Rle_0_sqr (snd x - snd y)). destruct x as [x1 x2], y as [y1 y2]. cbn [fst snd] in *. apply f_equal2; apply Rminus_diag_uniq, Rsqr_0_uniq; lra.
Qed.
Lemma dist2_nonneg x y : 0 <= dist2 x y.
Proof. unfold dist2. pose proof (Rle_0_sqr (fst x - fst y)). pose proof (Rle_0_sqr (snd x - snd y)). lra. Qed.
Lemma step_ok k f : well_sampled f -> step_of k f = Ok (k * / IZR (e_npts f - 1)).
Proof. intros (_ & _ & Nn & _). unfold step_of. rewrite (proj2 (Z.eqb_neq _ _)) by lia. reflexivity. Qed.
Lemma in_points p e a : In a (edge_points (p, e)) -> p_ref a = p /\ p_edge a = e.
Proof. unfold edge_points. intros I. apply in_map_iff in I. destruct I as (x & <- & _). split; reflexivity. Qed.
Lemma double_same_ok p e f : well_sampled e -> well_sampled f -> block_ok double_entry double_block (p, e) (p, f).
Proof.
  intros We Wf. unfold block_ok, double_block, double_edge_block. cbn [fst snd]. rewrite (step_ok 1 f Wf). cbn [bind]. rewrite Nat.eqb_refl. apply edge_block_ok; [exact We|exact Wf|]. intros a b Ia Ib. destruct (in_points _ _ _ Ia) as [Ra _]. destruct (in_points _ _ _ Ib) as [Rb Eb]. unfold double_entry, mesh_step. rewrite Ra, Rb, Eb, Nat.eqb_refl. destruct (weightless b); [reflexivity|]. unfold double_same. cbn [andb]. unfold pair_dist. rewrite sq_dist_spec. unfold TOL.
  destruct (Rlt_dec _ _) as [L|L]; apply f_equal; unfold pt_dot, psub_pt; cbn [fst snd]; unfold Rdiv; lra.
Qed.
Lemma double_distinct_ok p q e f : well_sampled e -> well_sampled f -> p <> q -> (forall a b, In a (edge_points (p, e)) -> In b (edge_points (q, f)) -> weightless b = false -> sx (p_smp a) <> sx (p_smp b)) -> block_ok double_entry double_block (p, e) (q, f).
Proof.
  intros We Wf Npq Ap. unfold block_ok, double_block, double_edge_block. cbn [fst snd]. rewrite (step_ok 1 f Wf). cbn [bind]. rewrite (proj2 (Nat.eqb_neq _ _) Npq). apply edge_block_ok; [exact We|exact Wf|]. intros a b Ia Ib. destruct (in_points _ _ _ Ia) as [Ra _]. destruct (in_points _ _ _ Ib) as [Rb Eb]. specialize (Ap a b Ia Ib). unfold double_entry, mesh_step. rewrite Ra, Rb, Eb, (proj2 (Nat.eqb_neq _ _) Npq). destruct (weightless b); [reflexivity|]. specialize (Ap eq_refl). unfold double_distinct. cbn [andb]. unfold pair_dist. rewrite sq_dist_spec. destruct (Req_EM_T _ _) as [Z|Z]; [exfalso; apply Ap, dist2_0, Z|]. apply f_equal. unfold pt_dot, psub_pt. cbn [fst snd]. unfold Rdiv. lra.
Qed.
Lemma double_distinct_err p q e f : well_sampled e -> well_sampled f -> p <> q -> (exists a b, In a (edge_points (p, e)) /\ In b (edge_points (q, f)) /\ weightless b = false /\ sx (p_smp a) = sx (p_smp b)) -> block_err double_block (p, e) (q, f).
Proof.
  intros We Wf Npq (a & b & Ia & Ib & Wb & Eab). unfold block_err, double_block, double_edge_block. cbn [fst snd]. rewrite (step_ok 1 f Wf). cbn [bind]. rewrite (proj2 (Nat.eqb_neq _ _) Npq). apply (edge_block_err _ p q); [exact We|exact Wf| |].
  - intros s t. unfold double_distinct. destruct (Req_EM_T _ _); [right; reflexivity|left; eauto].
  - exists a, b. split; [exact Ia|]. split; [exact Ib|]. split; [exact Wb|]. unfold double_distinct. rewrite sq_dist_spec. destruct (Req_EM_T _ _) as [Z|Z]; [reflexivity|]. exfalso. apply Z, dist2_0, Eab.
Qed.

Lemma edges_sampled H c ess r : cell_fresh H c ess -> In r (edges_in c ess) -> well_sampled (snd r).
Proof.
  intros (F2 & _) I. unfold edges_in in I. apply in_concat in I. destruct I as (l & Il & Ir). apply in_map_iff in Il. destruct Il as ((k, es) & <- & Ike). cbn [fst snd] in Ir. pose proof (fresh_all _ _ _ F2) as W. rewrite Forall_forall in W. specialize (W es (in_combine_r _ _ _ _ Ike)). rewrite Forall_forall in W. apply W. destruct r as [p e]. exact (in_combine_r _ _ _ _ Ir).
Qed.
Lemma in_grid c ess r a : In r (edges_in c ess) -> In a (edge_points r) -> In a (cell_grid c ess).
Proof.
  intros I Ia. unfold edges_in in I. apply in_concat in I. destruct I as (l & Il & Ir). apply in_map_iff in Il. destruct Il as (ke & <- & Ike). unfold cell_grid. apply in_concat. exists (contour_grid (k_edges (fst ke)) (snd ke)). split; [apply (in_map (fun p => contour_grid (k_edges (fst p)) (snd p))); exact Ike|]. unfold contour_grid. apply in_concat. exists (edge_points r). split; [apply in_map, Ir|exact Ia].
Qed.
Lemma grid_edge c ess a : In a (cell_grid c ess) -> exists r, In r (edges_in c ess) /\ In a (edge_points r).
Proof.
  intros I. unfold cell_grid in I. apply in_concat in I. destruct I as (l & Il & Ia). apply in_map_iff in Il. destruct Il as (ke & <- & Ike). unfold contour_grid in Ia. apply in_concat in Ia. destruct Ia as (l & Il & Ia). apply in_map_iff in Il. destruct Il as (r & <- & Ir). exists r. split; [|exact Ia]. unfold edges_in. apply in_concat. exists (combine (k_edges (fst ke)) (snd ke)). split; [|exact Ir]. apply (in_map (fun ke => combine (k_edges (fst ke)) (snd ke))). exact Ike.
Qed.
Lemma double_matrix H c ess : cell_fresh H c ess -> apart (cell_grid c ess) -> layer_mat H c double_block = Ok (matrix_of double_entry (cell_grid c ess)).
Proof.
  intros F Ap. apply (layer_ok double_entry double_block H c ess F). intros [p e] [q f] Ir Ir'. pose proof (edges_sampled _ _ _ _ F Ir) as We. pose proof (edges_sampled _ _ _ _ F Ir') as Wf. cbn [snd] in We, Wf. destruct (Nat.eq_dec p q) as [->|Npq]; [apply double_same_ok; assumption|]. apply double_distinct_ok; try assumption. intros a b Ia Ib Wb. destruct (in_points _ _ _ Ia) as [Ra _]. destruct (in_points _ _ _ Ib) as [Rb _]. apply Ap; [exact (in_grid _ _ _ _ Ir Ia)|exact (in_grid _ _ _ _ Ir' Ib)|congruence|exact Wb].
Qed.
Lemma double_refused H c ess : cell_fresh H c ess -> ~ apart (cell_grid c ess) -> layer_mat H c double_block = Err ZeroDivisionError.
Proof.
  intros F Ap. assert (Dec : forall r r', In r (edges_in c ess) -> In r' (edges_in c ess) -> block_ok double_entry double_block r r' \/ (block_err double_block r r')).
  { intros [p e] [q f] Ir Ir'. pose proof (edges_sampled _ _ _ _ F Ir) as We. pose proof (edges_sampled _ _ _ _ F Ir') as Wf. cbn [snd] in We, Wf. destruct (Nat.eq_dec p q) as [->|Npq]; [left; apply double_same_ok; assumption|]. destruct (Classical_Prop.classic (exists a b, In a (edge_points (p, e)) /\ In b (edge_points (q, f)) /\ weightless b = false /\ sx (p_smp a) = sx (p_smp b))) as [Ex|Nx]; [right; apply double_distinct_err; assumption|left]. apply double_distinct_ok; try assumption. intros a b Ia Ib Wb E. apply Nx. exists a, b. auto. }
  apply (layer_err double_entry double_block H c ess F Dec). apply Classical_Prop.NNPP. intros Nx. apply Ap. intros a b Ia Ib Nr Wb E. apply Nx. destruct (grid_edge _ _ _ Ia) as ([p e] & Ir & Ia'). destruct (grid_edge _ _ _ Ib) as ([q f] & Ir' & Ib'). exists (p, e), (q, f). split; [exact Ir|]. split; [exact Ir'|]. destruct (in_points _ _ _ Ia') as [Ra _]. destruct (in_points _ _ _ Ib') as [Rb _].
  apply double_distinct_err; [exact (edges_sampled _ _ _ _ F Ir)|exact (edges_sampled _ _ _ _ F Ir')|congruence|]. exists a, b. auto.
Qed.

(** ** The single layer kernel *)
Lemma hset_map {A} (g : nat -> A) n j x : (j < n)%nat -> hset (map g (seq 0 n)) j x = map (fun l => if Nat.eqb l j then x else g l) (seq 0 n).
Proof.
  intros Lj. unfold hset. replace n with (j + S (n - S j))%nat by lia. rewrite seq_app, !map_app. cbn [seq Nat.add]. rewrite firstn_app, map_length, seq_length, Nat.sub_diag, firstn_O, app_nil_r, firstn_all2 by (rewrite map_length, seq_length; lia). f_equal; [apply map_ext_in; intros l Il; apply in_seq in Il; rewrite (proj2 (Nat.eqb_neq _ _)) by lia; reflexivity|].
  cbn [map]. rewrite Nat.eqb_refl. f_equal. rewrite skipn_app, map_length, seq_length, skipn_all2 by (rewrite map_length, seq_length; lia). replace (S j - j)%nat with 1%nat by lia. cbn [skipn app]. apply map_ext_in. intros l Il. apply in_seq in Il. rewrite (proj2 (Nat.eqb_neq _ _)) by lia. reflexivity.
Qed.
Lemma filter_all {A} (f : A -> bool) l : (forall a, In a l -> f a = true) -> filter f l = l.
Proof. induction l as [|a l IH]; intros E; [reflexivity|]. cbn [filter]. rewrite (E a (or_introl eq_refl)), IH; [reflexivity|]. intros b I. apply E. right. exact I. Qed.
Lemma filter_none {A} (f : A -> bool) l : (forall a, In a l -> f a = false) -> filter f l = [].
Proof. induction l as [|a l IH]; intros E; [reflexivity|]. cbn [filter]. rewrite (E a (or_introl eq_refl)), IH; [reflexivity|]. intros b I. apply E. right. exact I. Qed.
Lemma filter_from j0 n : (j0 <= n)%nat -> filter (fun j => Nat.leb j0 j) (seq 0 n) = seq j0 (n - j0).
Proof.
  intros L. replace n with (j0 + (n - j0))%nat at 1 by lia. rewrite seq_app, filter_app. cbn [Nat.add]. rewrite filter_none, filter_all; [reflexivity| |]; intros a I; apply in_seq in I; [apply Nat.leb_le; lia|apply Nat.leb_gt; lia].
Qed.
Lemma geti_map {A} (g : nat -> A) n j : (j < n)%nat -> geti (map g (seq 0 n)) j = Ok (g j).
Proof. intros L. apply geti_nth. rewrite nth_error_map. rewrite (nth_error_nth' _ 0%nat) by (rewrite seq_length; exact L). rewrite seq_nth by exact L. reflexivity. Qed.
Section Row.
Context (h : R) (x : list sample) (wgt node : list R) (n j0 i : nat) (d : sample) (G : nat -> R).
Hypothesis Li : (i < n)%nat.
Hypothesis Lj0 : (j0 <= n)%nat.
Hypothesis Lx : (n <= List.length x)%nat.
Hypothesis Lw : (n <= List.length wgt)%nat.
Hypothesis Ln : (n <= List.length node)%nat.
Let gap j := (Nat.max i j - Nat.min i j)%nat.
Hypothesis G_skip : forall j, (j < j0)%nat -> G j = 0.
Hypothesis node_0 : nth 0 node 0 < TINY.
Hypothesis node_far : forall j, (j0 <= j < n)%nat -> j <> i -> TINY <= nth (gap j) node 0 /\ 0 < sq_dist (sx (nth i x d)) (sx (nth j x d)) /\ G j = ln (sq_dist (sx (nth i x d)) (sx (nth j x d)) / nth (gap j) node 0) * h + nth (gap j) wgt 0.
Hypothesis G_diag : (j0 <= i)%nat -> G i = (if Rlt_dec (sw (nth i x d)) TINY then 0 else 2 * ln (sw (nth i x d))) * h + nth 0 wgt 0.
Lemma row_ok : single_same_row h x wgt node n j0 i = Ok (map (fun j => Some (G j)) (seq 0 n)).
Proof using Li Lj0 Lx Lw Ln G_skip node_0 node_far G_diag.
  unfold single_same_row. rewrite (filter_from j0 n Lj0). set (F := fun m => map (fun l => if Nat.ltb l m then Some (G l) else Some 0) (seq 0 n)).
  assert (F0 : repeat (Some 0) n = F j0). { unfold F. rewrite (map_ext _ (fun _ => Some 0)); [rewrite repeat_map, seq_length; reflexivity|]. intros l. destruct (Nat.ltb_spec l j0) as [L|L]; [rewrite (G_skip l L)|]; reflexivity. }
  rewrite F0. rewrite (fold_seq _ F (n - j0) j0).
  - f_equal. unfold F. apply map_ext_in. intros l Il. apply in_seq in Il. rewrite (proj2 (Nat.ltb_lt _ _)) by lia. reflexivity.
  - intros k Lk. set (j := (j0 + k)%nat). assert (Lj : (j0 <= j < n)%nat) by lia. clearbody j. cbv beta zeta. fold (gap j). assert (Lg : (gap j < n)%nat) by (unfold gap; lia). rewrite (geti_at node 0 (gap j)) by lia. cbn [bind]. rewrite (geti_at x d i) by lia. cbn [bind]. rewrite (geti_at x d j) by lia. cbn [bind].
    assert (Step : forall v, hset (hset (F j) j v) j (Some (G j)) = F (S j)). { intros v. unfold F. rewrite !hset_map by lia. apply map_ext. intros l. destruct (Nat.eqb_spec l j) as [->|Nl]; [rewrite (proj2 (Nat.ltb_lt _ _)) by lia; reflexivity|]. destruct (Nat.ltb_spec l j); destruct (Nat.ltb_spec l (S j)); try lia; reflexivity. }
    destruct (Nat.eq_dec j i) as [Eji|Nji].
    + assert (Eg : gap j = 0%nat) by (unfold gap; lia). rewrite Eg. destruct (Rlt_dec (nth 0 node 0) TINY) as [_|C]; [|exfalso; apply C, node_0]. assert (Ei : i = j) by lia.
      assert (Row : (if Rlt_dec (sw (nth i x d)) TINY then hset (F j) i (Some 0) else hset (F j) i (option_map (Rmult 2) (log_fin (sw (nth j x d))))) = hset (F j) j (Some (if Rlt_dec (sw (nth i x d)) TINY then 0 else 2 * ln (sw (nth i x d))))).
      { rewrite Ei. destruct (Rlt_dec (sw (nth j x d)) TINY) as [Lt|Ge]; [reflexivity|]. unfold log_fin. destruct (Rlt_dec 0 (sw (nth j x d))) as [P|Np]; [reflexivity|]. exfalso. unfold TINY in Ge. lra. }
      rewrite Row. unfold F at 1. rewrite hset_map by lia. rewrite geti_map by lia. rewrite Nat.eqb_refl. cbn [bind]. rewrite (geti_at wgt 0 0) by lia. cbn [bind option_map]. rewrite <- G_diag by lia. rewrite Ei. rewrite Step. reflexivity.
    + destruct (node_far j Lj Nji) as (Tn & Dp & Gj). destruct (Rlt_dec (nth (gap j) node 0) TINY) as [C|_]; [lra|]. unfold log_fin. assert (0 < nth (gap j) node 0) by (unfold TINY in Tn; lra). destruct (Rlt_dec 0 _) as [P|Np]; [|exfalso; apply Np; apply Rdiv_lt_0_compat; assumption].
      unfold F at 1. rewrite hset_map by lia. rewrite geti_map by lia. rewrite Nat.eqb_refl. cbn [bind]. rewrite (geti_at wgt 0 (gap j)) by lia. cbn [bind option_map]. rewrite <- Gj, Step. reflexivity.
Qed.
End Row.
Lemma finite_some {A} (g : A -> R) l : finite (map (fun a => Some (g a)) l) = Ok (map g l).
Proof. unfold finite. induction l as [|a l IH]; [reflexivity|]. cbn [map map_res bind]. rewrite IH. reflexivity. Qed.
Lemma mart_sum_list n t : mart_sum n t = sum_list (map (fun m => cos (INR m * t) / INR m) (seq 1 n)).
Proof.
  induction n as [|n IH]; [reflexivity|]. rewrite seq_S, map_app. cbn [mart_sum]. rewrite IH. unfold sum_list. rewrite fold_right_app. cbn [map fold_right]. rewrite Rplus_0_r. change (1 + n)%nat with (S n). generalize (cos (INR (S n) * t) / INR (S n)). intros y. generalize (map (fun m : nat => cos (INR m * t) / INR m) (seq 1 n)). intros l. induction l as [|z l IHl]; cbn [fold_right]; lra.
Qed.
Lemma node_spec m k : (0 < m)%nat -> (k < S (2 * m))%nat -> nth k (map mart_node (linspace 0 (2 * PI) (2 * m))) 0 = log_sine m k.
Proof.
  intros Pm Lk. unfold linspace. rewrite map_map. rewrite (nth_indep _ 0 (mart_node (0 + INR 0 * ((2 * PI - 0) / INR (2 * m))))) by (rewrite map_length, seq_length; exact Lk). rewrite (map_nth (fun i => mart_node (0 + INR i * ((2 * PI - 0) / INR (2 * m))))), seq_nth by exact Lk. cbn [Nat.add]. unfold mart_node, log_sine, Rsqr. replace ((0 + INR k * ((2 * PI - 0) / INR (2 * m))) / 2) with (INR k * PI / INR (2 * m)); [ring|]. field. apply not_0_INR. lia.
Qed.
Lemma wgt_spec m k : (0 < m)%nat -> (k < S (2 * m))%nat -> nth k (map (mart_wgt m) (linspace 0 (2 * PI) (2 * m))) 0 = log_weight m k.
Proof.
  intros Pm Lk. unfold linspace. rewrite map_map. rewrite (nth_indep _ 0 (mart_wgt m (0 + INR 0 * ((2 * PI - 0) / INR (2 * m))))) by (rewrite map_length, seq_length; exact Lk). rewrite (map_nth (fun i => mart_wgt m (0 + INR i * ((2 * PI - 0) / INR (2 * m))))), seq_nth by exact Lk. cbn [Nat.add]. unfold mart_wgt, log_weight. rewrite mart_sum_list. replace (0 + INR k * ((2 * PI - 0) / INR (2 * m))) with (2 * PI * INR k / INR (2 * m)); [|field; apply not_0_INR; lia]. field. apply not_0_INR. lia.
Qed.
Lemma log_sine_0 m : log_sine m 0 = 0.
Proof. unfold log_sine. cbn [INR]. unfold Rdiv. rewrite !Rmult_0_l, sin_0. unfold Rsqr. ring. Qed.
Lemma single_same_ok p e m : well_sampled e -> (4 <= m)%nat -> e_npts e = (2 * Z.of_nat m + 1)%Z -> separated (edge_points (p, e)) -> block_ok single_entry single_block (p, e) (p, e).
Proof.
  intros We Lm Em Sp. unfold block_ok, single_block. cbn [fst snd]. rewrite Em. replace ((2 * Z.of_nat m + 1 - 1) / 2)%Z with (Z.of_nat m) by (replace (2 * Z.of_nat m + 1 - 1)%Z with (Z.of_nat m * 2)%Z by lia; rewrite Z.div_mul; lia). rewrite quad_mart. destruct (Z.ltb_spec (Z.of_nat m) 4) as [C|_]; [lia|]. cbv zeta. rewrite Nat2Z.id. cbn [bind]. unfold single_edge_block. rewrite (step_ok _ e We). cbn [bind]. rewrite Nat.eqb_refl. cbn [q_wgt q_t].
  assert (d : sample) by (destruct We as (_ & L & Nn & _); destruct (e_smp e) as [|s l]; [cbn in L; lia|exact s]).
  assert (Hm : (Z.to_nat (e_npts e - 1) / 2)%nat = m) by (rewrite Em; replace (Z.to_nat (2 * Z.of_nat m + 1 - 1)) with (m * 2)%nat by lia; apply Nat.div_mul; lia).
  rewrite (map_res_fun _ (fun i => map (fun j => Some (single_entry (Point p e i (nth i (e_smp e) d)) (Point p e j (nth j (e_smp e) d)))) (pts_range e))).
  - cbn [bind]. rewrite (points_seq d p e We), map_map. generalize (pts_range e) at 2 4. intros l. induction l as [|i l IH]; [reflexivity|]. cbn [map map_res]. rewrite (finite_some (fun j => single_entry (Point p e i (nth i (e_smp e) d)) (Point p e j (nth j (e_smp e) d)))). cbn [bind]. rewrite IH. cbn [bind]. rewrite map_map. reflexivity.
  - intros i Ii. pose proof We as (_ & Le & Ne & _). assert (Li : (i < 2 * m)%nat) by (unfold pts_range in Ii; apply in_seq in Ii; lia). unfold pts_range. replace (Z.to_nat (e_npts e - 1)) with (2 * m)%nat by lia. rewrite points_seq with (d := d) in Sp by exact We.
    assert (Rng : forall j, (j < 2 * m)%nat -> In j (pts_range e)) by (intros j Lj; unfold pts_range; apply in_seq; lia).
    assert (Sk : forall j, Nat.ltb j (j_start e) = weightless (Point p e j (nth j (e_smp e) d))) by (intros j; rewrite skipped_prefix; reflexivity).
    assert (Lj0 : (j_start e <= 2 * m)%nat) by (unfold j_start; destruct (String.eqb _ _); lia).
    apply (row_ok _ _ _ _ _ _ _ d (fun j => single_entry (Point p e i (nth i (e_smp e) d)) (Point p e j (nth j (e_smp e) d)))); try lia; rewrite ?map_length; unfold linspace; rewrite ?map_length, ?seq_length; try lia.
    + intros j Lj. unfold single_entry. rewrite <- Sk, (proj2 (Nat.ltb_lt _ _) Lj). reflexivity.
    + fold (linspace 0 (2 * PI) (2 * m)). rewrite node_spec by lia. rewrite log_sine_0. unfold TINY. lra.
    + intros j Lj Nji. fold (linspace 0 (2 * PI) (2 * m)). rewrite node_spec, wgt_spec by lia. assert (Wj : weightless (Point p e j (nth j (e_smp e) d)) = false) by (rewrite <- Sk; apply Nat.ltb_ge; lia).
      destruct (Sp (Point p e i (nth i (e_smp e) d)) (Point p e j (nth j (e_smp e) d))) as [Nx Tn]; [apply in_map_iff; eauto|apply in_map_iff; exists j; split; [reflexivity|apply Rng; lia]|reflexivity|exact Wj|cbn [p_loc]; lia|]. cbn [p_smp p_loc p_edge] in Nx, Tn. rewrite Hm in Tn. split; [exact Tn|]. rewrite sq_dist_spec. split.
      * pose proof (dist2_nonneg (sx (nth i (e_smp e) d)) (sx (nth j (e_smp e) d))) as P. destruct (Req_dec (dist2 (sx (nth i (e_smp e) d)) (sx (nth j (e_smp e) d))) 0) as [Z|Z]; [exfalso; apply Nx, dist2_0, Z|lra].
      * unfold single_entry. rewrite Wj. cbn [p_ref p_loc p_edge p_smp]. rewrite Nat.eqb_refl, Hm. rewrite (proj2 (Nat.eqb_neq _ 0)) by lia. unfold mesh_step, pair_dist. cbn [p_edge p_smp]. lra.
    + intros Lj. fold (linspace 0 (2 * PI) (2 * m)). rewrite wgt_spec by lia. unfold single_entry. rewrite <- Sk. rewrite (proj2 (Nat.ltb_ge _ _) Lj). cbn [p_ref p_loc p_edge p_smp]. rewrite Nat.eqb_refl, Hm, Nat.max_id, Nat.min_id, Nat.sub_diag. cbn [Nat.eqb]. unfold mesh_step, TINY. cbn [p_edge p_smp]. destruct (Rlt_dec _ _); lra.
Qed.
Lemma single_distinct_ok p q e f m : well_sampled e -> well_sampled f -> (4 <= m)%nat -> e_npts e = (2 * Z.of_nat m + 1)%Z -> p <> q -> (forall a b, In a (edge_points (p, e)) -> In b (edge_points (q, f)) -> weightless b = false -> sx (p_smp a) <> sx (p_smp b)) -> block_ok single_entry single_block (p, e) (q, f).
Proof.
  intros We Wf Lm Em Npq Ap. unfold block_ok, single_block. cbn [fst snd]. rewrite Em. replace ((2 * Z.of_nat m + 1 - 1) / 2)%Z with (Z.of_nat m) by (replace (2 * Z.of_nat m + 1 - 1)%Z with (Z.of_nat m * 2)%Z by lia; rewrite Z.div_mul; lia). rewrite quad_mart. destruct (Z.ltb_spec (Z.of_nat m) 4) as [C|_]; [lia|]. cbv zeta. cbn [bind]. unfold single_edge_block. rewrite (step_ok _ f Wf). cbn [bind]. rewrite (proj2 (Nat.eqb_neq _ _) Npq).
  apply edge_block_ok; [exact We|exact Wf|]. intros a b Ia Ib. destruct (in_points _ _ _ Ia) as [Ra _]. destruct (in_points _ _ _ Ib) as [Rb Eb]. specialize (Ap a b Ia Ib). unfold single_entry, mesh_step. rewrite Ra, Rb, Eb, (proj2 (Nat.eqb_neq _ _) Npq). destruct (weightless b); [reflexivity|]. specialize (Ap eq_refl). unfold single_distinct, log_fin, pair_dist. rewrite sq_dist_spec. pose proof (dist2_nonneg (sx (p_smp a)) (sx (p_smp b))) as P. destruct (Rlt_dec _ _) as [L|L]; [apply f_equal; lra|]. exfalso. apply Ap, dist2_0. lra.
Qed.
Lemma edges_heap H c ess r : cell_fresh H c ess -> In r (edges_in c ess) -> nth_error H (fst r) = Some (snd r).
Proof.
  intros (F2 & _) I. unfold edges_in in I. apply in_concat in I. destruct I as (l & Il & Ir). apply in_map_iff in Il. destruct Il as ((k, es) & <- & Ike). cbn [fst snd] in Ir. assert (Fk : fresh H k es). { clear -F2 Ike. induction F2 as [|k0 e0 ks es' F0 F2 IH]; [destruct Ike|]. destruct Ike as [E|Ike]; [injection E as <- <-; exact F0|auto]. }
  destruct Fk as (Rf & _). clear -Rf Ir. destruct r as [p e]. cbn [fst snd]. revert Ir. induction Rf as [|p0 e0 ids es E Rf IH]; intros Ir; [destruct Ir|]. destruct Ir as [X|Ir]; [injection X as <- <-; exact E|auto].
Qed.
Lemma single_matrix H c ess m : cell_fresh H c ess -> (4 <= m)%nat -> Forall (Forall (fun e => e_npts e = (2 * Z.of_nat m + 1)%Z)) ess -> apart (cell_grid c ess) -> separated (cell_grid c ess) -> layer_mat H c single_block = Ok (matrix_of single_entry (cell_grid c ess)).
Proof.
  intros F Lm U Ap Sp. apply (layer_ok single_entry single_block H c ess F). intros [p e] [q f] Ir Ir'. pose proof (edges_sampled _ _ _ _ F Ir) as We. pose proof (edges_sampled _ _ _ _ F Ir') as Wf. cbn [snd] in We, Wf.
  assert (Em : e_npts e = (2 * Z.of_nat m + 1)%Z). { unfold edges_in in Ir. apply in_concat in Ir. destruct Ir as (l & Il & Il'). apply in_map_iff in Il. destruct Il as ((k, es) & <- & Ike). cbn [fst snd] in Il'. rewrite Forall_forall in U. specialize (U es (in_combine_r _ _ _ _ Ike)). rewrite Forall_forall in U. apply U. exact (in_combine_r _ _ _ _ Il'). }
  destruct (Nat.eq_dec p q) as [->|Npq].
  - pose proof (edges_heap _ _ _ _ F Ir) as E1. pose proof (edges_heap _ _ _ _ F Ir') as E2. cbn [fst snd] in E1, E2. assert (f = e) by congruence. subst f. apply (single_same_ok q e m); try assumption. intros a b Ia Ib. apply Sp; [exact (in_grid _ _ _ _ Ir Ia)|exact (in_grid _ _ _ _ Ir' Ib)].
  - apply (single_distinct_ok p q e f m); try assumption. intros a b Ia Ib Wb. destruct (in_points _ _ _ Ia) as [Ra _]. destruct (in_points _ _ _ Ib) as [Rb _]. apply Ap; [exact (in_grid _ _ _ _ Ir Ia)|exact (in_grid _ _ _ _ Ir' Ib)|congruence|exact Wb].
Qed.
(** The edges of a parameterized cell have an odd number of samples, nine or more *)
Lemma dict_odd n p qd : get_quad_dict n p = Ok qd -> exists m, (4 <= m)%nat /\ forall e o e', resampled qd o e e' -> e_npts e' = (2 * Z.of_nat m + 1)%Z.
Proof.
  intros Q. destruct qd as [a b]. assert (AB : q_n a = q_n b /\ (4 <= q_n a)%nat).
  { pose proof Q as Q'. unfold get_quad_dict in Q'. destruct (mk_quad "trap" n 7) as [qa|] eqn:Ea; [|discriminate]. destruct (mk_quad "kress" n p) as [qb|] eqn:Eb; [|discriminate]. cbn [bind] in Q'. apply Ok_inj in Q'. injection Q' as -> ->. destruct n as [n|]; [|discriminate]. rewrite quad_trap in Ea. rewrite quad_kress in Eb. destruct (Z.ltb_spec n 4); [discriminate|]. destruct (Z.ltb_spec p 2); [discriminate|]. cbv zeta in Ea, Eb. apply Ok_inj in Ea, Eb. subst qa qb. split; [reflexivity|]. cbn [q_n]. lia. }
  destruct AB as [AB Big]. exists (q_n a). split; [exact Big|]. intros e o e' (e1 & P & ->). destruct (parameterize_frame _ _ _ _ _ Q P) as (q & Hq & E). assert (X : e_npts e1 = (2 * Z.of_nat (q_n a) + 1)%Z).
  { rewrite E. assert (Y : q_n q = q_n a) by (unfold EdgeProofs2.pick in Hq; destruct (String.eqb _ _); [apply Ok_inj in Hq; subst; reflexivity|]; destruct (String.eqb _ _); [|discriminate]; apply Ok_inj in Hq; subst; symmetry; exact AB). rewrite <- Y. clear. unfold after_diary. destruct (last_join _) as [[u v]|]; reflexivity. }
  destruct (Z.eqb o (-1)); [|exact X]. unfold reverse_orientation. destruct (e_param e1); exact X.
Qed.
Lemma ready_odd contains H c ess : ready contains H c -> boundary_edges H c ess -> exists m, (4 <= m)%nat /\ Forall (Forall (fun e => e_npts e = (2 * Z.of_nat m + 1)%Z)) ess.
Proof.
  intros (H0 & z & ids & mesh & rtol & atol & c0 & n & p & qd & w & H1 & B & Q & P) BE. destruct (param_cell_ok contains (fun _ _ => True) (fun _ _ _ _ _ _ => I) qd n p w H1 c0 H c Q (built_wf _ _ _ _ _ _ _ B) P) as (ess0 & ess' & X). assert (ess = ess') by (eapply edges_unique; [apply X|exact BE]). subst ess'.
  destruct (dict_odd _ _ _ Q) as (m & Lm & HN). exists m. split; [exact Lm|]. pose proof (p_new _ _ _ _ _ _ _ _ _ X) as Y. clear -Y HN. revert Y. generalize (combine (c_comps c) ess0) as l. induction 1 as [|ke es l ess Y F IH]; constructor; [|exact IH]. clear -Y HN. revert Y. generalize (combine (k_orients (fst ke)) (snd ke)) as l. induction 1 as [|oe e l es R F IH]; constructor; [eapply HN, R|exact IH].
Qed.
