(** Examples for the interior points (C41), and edges shared by cells (C43). *)
From Coq Require Import List ZArith Reals Lia Lra Bool Permutation String.
From Verif Require Import PyBase PolyModel BaryModel BBoxModel QuadModel VertModel EdgeModel EdgeSpec EdgeProofs EdgeProps EdgeProps2 EdgeProps3 ContourModel CellModel CellSpec CellProofs CellProps ContourProofs ContourProofs2 ContourProofs3 InteriorProofs ContourProofs4 VertProps EdgeProps4 ContourProps CellProofs2 Annulus CellProps2 CellProps3 CellProps4.
Import List ListNotations.
Open Scope R_scope.

Lemma square_bound a r : 0 <= r -> a * a <= r * r -> - r <= a <= r.
Proof. intros R0 E. split; apply Rnot_lt_le; intros L; nra. Qed.

(** On a square grid the points are always found. *)
Theorem C41_square_total contains H0 z ids m rtol atol c n p qd H H' c' : mk_cell H0 z ids (Z.of_nat m, Z.of_nat m) rtol atol = Ok c -> get_quad_dict n p = Ok qd ->
  param_cell contains qd false H c = Ok (H', c') -> exists pts, param_cell contains qd true H c = Ok (H', with_int c' (Some pts)).
Proof.
  intros B Q E1. rewrite param_cell_split, E1. cbn [bind]. pose proof (built_wf _ _ _ _ _ _ _ B) as W. destruct (param_cell_ok contains (fun _ _ => True) (fun _ _ _ _ _ _ => I) qd n p false H c H' c' Q W E1) as (ess & ess' & Pr). pose proof (p_fresh _ _ _ _ _ _ _ _ _ Pr) as F. pose proof (p_nonempty _ _ _ _ _ _ _ _ _ Pr) as NE. destruct (p_interior _ _ _ _ _ _ _ _ _ Pr) as (EM & ER & EA).
  assert (KM : c_mesh c = (Z.of_nat m, Z.of_nat m)). { clear -B. unfold mk_cell in B. destruct (cell_idx z); [|discriminate]. cbn [bind] in B. destruct (map_res _ _); [|discriminate]. cbn [bind] in B. destruct (orientations _ _); [|discriminate]. cbn [bind] in B. destruct (boundary_components _ _ _ _); [|discriminate]. cbn [bind] in B. destruct (Rle_dec atol 0); [discriminate|]. destruct (Rle_dec rtol 0); [discriminate|]. apply Ok_inj in B. subst c. auto. }
  assert (NC : ess' <> []). { intros ->. destruct F as (F & _). inversion F as [X|]; subst. destruct (p_outer _ _ _ _ _ _ _ _ _ Pr) as (u1 & u2 & v1 & Fu & _ & _ & _ & Fo & Ec). destruct (find_outer_swap _ _ _ _ Fo) as (o & k0 & ko & A0 & Ao & ->). cbn [with_comps c_comps] in Ec. pose proof (swap0_length _ _ _ _ A0 Ao) as L. rewrite <- Ec, <- X in L. destruct (c_comps u1); [discriminate|discriminate]. }
  assert (EM1 : c_mesh c' = (Z.of_nat m, Z.of_nat m)) by congruence. destruct (interior_square contains H' c' ess' (Z.of_nat m) F NE NC EM1 ltac:(lia)) as (x0 & x1 & y0 & y1 & xs & ys & Bx & X & Y & EI). rewrite EI. cbn [bind]. eauto.
Qed.
Print Assumptions C41_square_total.

(** The annulus with a grid of 5 by 5 points: [(-2, 0)] is an interior point. *)
Example C41_example : exists c H' c' pts, mk_cell rings 1 [1; 0]%nat (5, 5)%Z (1 / 10) (1 / 10) = Ok c /\ param_cell disc dict4 true rings c = Ok (H', c') /\ c_int c' = Some pts /\ In (-2, 0) pts.
Proof.
  pose proof (ring_cell_outer (5, 5)%Z (1 / 10) ltac:(lra)) as B. set (c := made _ _ _ _ _) in B. assert (An : annulus c) by (exists 1%Z, [1; -1]%Z, (5, 5)%Z, (1 / 10); right; reflexivity). destruct (circles_param rings c rings_like (annulus_circles _ An)) as (H' & c' & P).
  destruct (C41_square_total disc rings 1 [1; 0]%nat 5 (1/10) (1/10) c _ _ _ _ _ _ B dict4_ok P) as (pts & P1). exists c, H', (with_int c' (Some pts)), pts. split; [exact B|]. split; [exact P1|]. split; [reflexivity|].
  destruct (C41_interior_points_partial disc rings 1 [1; 0]%nat 5 (1/10) (1/10) c _ _ _ _ _ _ B ltac:(lia) dict4_ok P1) as (x0 & x1 & y0 & y1 & pts' & T & E & Q). cbn [with_int c_int] in E. injection E as <-. apply Q.
  destruct (annulus_after _ _ _ _ _ rings_like An P) as (e0 & e1 & E0 & E1 & _ & _ & M0 & M1 & S0 & S1). destruct (annulus_nested H' e0 e1 1 1 E0 E1 S0 S1) as [N1 N2].
  assert (OM : outermost disc H' (c_comps c) 0).
  { split; [cbn; lia|]. split.
    - intros [|[|j]] kb kj Hb Hj D; cbn in Hb, Hj; try congruence; destruct j; discriminate.
    - intros [|[|i]] j ki kj Hi Hj D D'; cbn in Hi; try congruence; try (destruct i; discriminate). destruct j as [|[|j]]; cbn in Hj; try congruence; destruct j; discriminate. }
  destruct (C39_outer_first_partial disc rings 1 _ _ _ _ c _ _ dict4 false rings H' c' O (unset 1 1 1) B dict4_ok P OM eq_refl (or_intror (Nat.lt_succ_diag_r 1))) as (k & ks & Ek & Ee & _).
  destruct (param_cell_ok disc (fun _ _ => True) (fun _ _ _ _ _ _ => I) dict4 _ _ _ _ _ _ _ dict4_ok (circles_wf _ (annulus_circles _ An)) P) as (ess & ess' & Pr). pose proof (Permutation_map fst (p_edges _ _ _ _ _ _ _ _ _ Pr)) as PE. rewrite !map_map in PE. cbn [fst] in PE. change (map (fun x => k_edges x) (c_comps c)) with [[1%nat]; [0%nat]] in PE. rewrite Ek in PE. cbn [map] in PE. rewrite Ee in PE. cbn [unset k_edges] in PE. apply Permutation_cons_inv in PE. apply Permutation_length_1_inv in PE || apply Permutation_sym, Permutation_length_1_inv in PE.
  destruct ks as [|k1 [|? ?]]; try discriminate. cbn [map] in PE. injection PE as E2.
  unfold tight in T. unfold in_cell, cell_edges. cbn [with_int c_comps] in *. rewrite Ek in *. cbn [map concat app] in *. rewrite Ee, E2 in *. cbn [unset k_edges app] in *. rewrite (polygon_one _ _ _ _ _ _ E0 S0), (polygon_one _ _ _ _ _ _ E1 S1) in *.
  assert (D0 : forall p, In p (oct 1 1 (-1)) -> pdist p (1, 0) = 1) by (intros p; apply oct_dist; lra || auto). assert (D1 : forall p, In p (oct 0 4 1) -> pdist p (0, 0) = 4) by (intros p; apply oct_dist; lra || auto).
  assert (Bd : forall p, In p (oct 0 4 1) \/ In p (oct 1 1 (-1)) -> -4 <= fst p <= 4 /\ -4 <= snd p <= 4).
  { assert (C : forall p q r, pdist p q = r -> 0 <= r -> fst q - r <= fst p <= fst q + r /\ snd q - r <= snd p <= snd q + r).
    { intros p q r Ep R0. unfold pdist in Ep. assert (S : (fst p - fst q) * (fst p - fst q) + (snd p - snd q) * (snd p - snd q) = r * r) by (rewrite <- Ep, sqrt_sqrt; [ring|apply Rplus_le_le_0_compat; apply pow2_ge_0 || apply Rle_0_sqr]). pose proof (Rle_0_sqr (fst p - fst q)). pose proof (Rle_0_sqr (snd p - snd q)). unfold Rsqr in *. destruct (square_bound (fst p - fst q) r R0 ltac:(lra)). destruct (square_bound (snd p - snd q) r R0 ltac:(lra)). lra. }
    intros p [I|I]; [specialize (C p (0, 0) 4 (D1 _ I) ltac:(lra))|specialize (C p (1, 0) 1 (D0 _ I) ltac:(lra))]; cbn [fst snd] in C; lra. }
  assert (BX : x0 = -4 /\ x1 = 4 /\ y0 = -4 /\ y1 = 4).
  { destruct T as [T1 (a & b & u & v & Ia & Ib & Iu & Iv & <- & <- & <- & <-)]. assert (F8 : forall q, In q (firstn 8 (oct 0 4 1) ++ firstn 8 (oct 1 1 (-1)) ++ []) -> In q (oct 0 4 1) \/ In q (oct 1 1 (-1))) by (intros q I; rewrite app_nil_r in I; apply in_app_or in I; destruct I as [I|I]; apply in_firstn in I; auto).
    pose proof (Bd _ (F8 _ Ia)). pose proof (Bd _ (F8 _ Ib)). pose proof (Bd _ (F8 _ Iu)). pose proof (Bd _ (F8 _ Iv)).
    assert (T4 := T1 (0 + 4, 0) ltac:(cbn; tauto)). assert (T5 := T1 (0 - 4, 0) ltac:(cbn; tauto)). assert (T6 := T1 (0, 1 * 4) ltac:(cbn; tauto)). assert (T7 := T1 (0, - (1 * 4)) ltac:(cbn; tauto)). cbn [fst snd] in *. lra. }
  destruct BX as (-> & -> & -> & ->). cbn [fst snd]. split; [exists 1%nat; split; [lia|]; cbn; lra|]. split; [exists 2%nat; split; [lia|]; cbn; lra|]. split; [split|].
  - rewrite <- (app_nil_r (firstn 8 (oct 0 4 1))), disc_oct by lra. apply Rltb_true. rewrite (pdist_flat (-2) 0 2) by lra. lra.
  - constructor; [|constructor]. rewrite E2. rewrite (polygon_one _ _ _ _ _ _ E0 S0). rewrite <- (app_nil_r (firstn 8 (oct 1 1 (-1)))), disc_oct by (lra || auto). unfold Rltb. rewrite (pdist_flat (-2) 1 3) by lra. destruct (Rlt_dec 3 1); [lra|reflexivity].
  - intros s (j & e & t & Ij & Ej & It & <-). replace (Rmax _ _) with (4 / 5) by (rewrite Rmin_left by lra; rewrite Rmax_right; lra). assert (In j [1; 0]%nat) as [<-|[<-|[]]] by exact Ij.
    + assert (e = e1) by congruence. subst e. assert (In (sx t) (oct 0 4 1)) by (rewrite <- S1; apply in_map, It). pose proof (pdist_triangle (sx t) (-2, 0) (0, 0)) as Tr. rewrite (D1 _ H), (pdist_flat (-2) 0 2) in Tr by lra. lra.
    + assert (e = e0) by congruence. subst e. assert (In (sx t) (oct 1 1 (-1))) by (rewrite <- S0; apply in_map, It). pose proof (pdist_triangle (1, 0) (sx t) (-2, 0)) as Tr. rewrite (pdist_flat 1 (-2) 3) in Tr by lra. assert (pdist (1, 0) (sx t) = 1) by (transitivity (pdist (sx t) (1, 0)); [unfold pdist; apply (f_equal sqrt); cbn [fst snd]; ring|apply D0, H]). lra.
Qed.

(** The same annulus with 5 rows and 7 columns fails. *)
Example C41_oblong_example : exists c, mk_cell rings 1 [1; 0]%nat (5, 7)%Z 1 1 = Ok c /\ is_ok (param_cell disc dict4 false rings c) = true /\ param_cell disc dict4 true rings c = Err IndexError.
Proof.
  pose proof (ring_cell_outer (5, 7)%Z 1 ltac:(lra)) as B. set (c := made _ _ _ _ _) in B. assert (An : annulus c) by (exists 1%Z, [1; -1]%Z, (5, 7)%Z, 1; right; reflexivity). destruct (circles_param rings c rings_like (annulus_circles _ An)) as (H' & c' & P). exists c. split; [exact B|]. split; [rewrite P; reflexivity|].
  apply (C41_oblong_refuted disc rings 1 [1; 0]%nat 5 7 1 1 c (PInt 4) 7 dict4 rings H' c' B); try lia; [exact dict4_ok|exact P].
Qed.

(** ** C43 *)

(** Two heaps with the same edges at the given places *)
Definition agree (H H' : heap) (ids : list nat) : Prop := forall i, In i ids -> nth_error H' i = nth_error H i.

Lemma fold_res_same {A B} (f g : B -> A -> res B) l : forall b, (forall a b, In a l -> f b a = g b a) -> fold_res f l b = fold_res g l b.
Proof. induction l as [|a l IH]; intros b E; [reflexivity|]. cbn [fold_res]. rewrite (E a b (or_introl eq_refl)). destruct (g b a); [|reflexivity]. cbn [bind]. apply IH. intros. apply E. right. assumption. Qed.
Lemma agree_param H H' k : agree H H' (k_edges k) -> all_param H' k = all_param H k.
Proof. unfold agree, all_param. intros A. induction (k_edges k) as [|i l IH]; [reflexivity|]. cbn [forallb]. rewrite (A i (or_introl eq_refl)), IH; [reflexivity|]. intros j Ij. apply A. right. exact Ij. Qed.
Lemma agree_guard H H' k : agree H H' (k_edges k) -> guard H' k = guard H k.
Proof. intros A. unfold guard. rewrite (agree_param _ _ _ A). reflexivity. Qed.
Lemma agree_fill H H' k f : agree H H' (k_edges k) -> fill H' k f = fill H k f.
Proof.
  intros A. unfold fill. destruct (attr (k_npts k)); [|reflexivity]. cbn [bind]. apply fold_res_same. intros [j i] y I. apply in_combine_r in I. cbn [fst snd]. unfold deref. rewrite (A i I). reflexivity.
Qed.
Lemma agree_comp H H' c k : agree H H' (cell_edges c) -> In k (c_comps c) -> agree H H' (k_edges k).
Proof. intros A I i Ii. apply A. unfold cell_edges. apply in_concat. exists (k_edges k). split; [apply in_map, I|exact Ii]. Qed.
Lemma agree_cell_guard H H' c : agree H H' (cell_edges c) -> cell_guard H' c = cell_guard H c.
Proof.
  intros A. unfold cell_guard. replace (forallb (all_param H') (c_comps c)) with (forallb (all_param H) (c_comps c)); [reflexivity|]. assert (G : forall k, In k (c_comps c) -> all_param H' k = all_param H k) by (intros k I; apply agree_param; eapply agree_comp; eassumption). clear A. induction (c_comps c) as [|k l IH]; [reflexivity|]. cbn [forallb]. rewrite (G k (or_introl eq_refl)), IH; [reflexivity|]. intros. apply G. right. assumption.
Qed.
Lemma cell_fill_same c f g : (forall k a b, In k (c_comps c) -> f k a b = g k a b) -> cell_fill c f = cell_fill c g.
Proof.
  intros E. unfold cell_fill. destruct (attr (c_npts c)); [|reflexivity]. cbn [bind]. apply fold_res_same. intros i y _. destruct (attr (c_start c)); [|reflexivity]. cbn [bind]. destruct (geti _ i); [|reflexivity]. cbn [bind]. destruct (geti _ (S i)); [|reflexivity]. cbn [bind]. unfold geti. destruct (nth_error (c_comps c) i) as [k|] eqn:Ek; [|reflexivity]. cbn [bind]. rewrite (E k _ _ (nth_error_In _ _ Ek)). reflexivity.
Qed.
Lemma agree_eval H H' c g : agree H H' (cell_edges c) -> eval_on_boundary g H' c = eval_on_boundary g H c.
Proof.
  intros A. unfold eval_on_boundary. rewrite (agree_cell_guard _ _ _ A). destruct (cell_guard H c); [|reflexivity]. cbn [bind]. apply cell_fill_same. intros k _ _ I. pose proof (agree_comp _ _ _ _ A I) as Ak. unfold eval_on_contour. rewrite (agree_guard _ _ _ Ak), (agree_fill _ _ _ _ Ak). reflexivity.
Qed.
Lemma agree_dot H H' c d c1 c2 : agree H H' (cell_edges c) -> cell_dot d c1 c2 H' c = cell_dot d c1 c2 H c.
Proof.
  intros A. unfold cell_dot. rewrite (agree_cell_guard _ _ _ A). destruct (cell_guard H c); [|reflexivity]. cbn [bind]. destruct (attr (c_npts c)); [|reflexivity]. cbn [bind]. destruct (andb _ _); [|reflexivity]. apply cell_fill_same. intros k a' b' I. pose proof (agree_comp _ _ _ _ A I) as Ak. unfold contour_dot. rewrite (agree_guard _ _ _ Ak), (agree_fill _ _ _ _ Ak). reflexivity.
Qed.
Lemma agree_norm H H' c v : agree H H' (cell_edges c) -> cell_dx_norm v H' c = cell_dx_norm v H c.
Proof.
  intros A. unfold cell_dx_norm. rewrite (agree_cell_guard _ _ _ A). destruct (cell_guard H c); [|reflexivity]. cbn [bind]. destruct (attr (c_npts c)); [|reflexivity]. cbn [bind]. destruct (Z.eqb _ _); [|reflexivity]. apply cell_fill_same. intros k a' b' I. pose proof (agree_comp _ _ _ _ A I) as Ak. unfold contour_dx_norm. rewrite (agree_guard _ _ _ Ak), (agree_fill _ _ _ _ Ak). reflexivity.
Qed.
Lemma agree_integrate H H' c v : agree H H' (cell_edges c) -> cell_integrate v H' c = cell_integrate v H c.
Proof. intros A. unfold cell_integrate. rewrite (agree_norm _ _ _ _ A). unfold cell_integrate_preweighted. rewrite (agree_cell_guard _ _ _ A). reflexivity. Qed.

(** Cells without common edges: parameterizing the second leaves every edge of the first as it was,
    so values, dot products and integrals over its boundary are the same as before. *)
Theorem C43_disjoint_partial contains contains' H c H0 z ids mesh rtol atol d n p qd w H' d' : ready contains H c -> mk_cell H0 z ids mesh rtol atol = Ok d -> get_quad_dict n p = Ok qd -> param_cell contains' qd w H d = Ok (H', d') ->
  (forall i, In i (cell_edges c) -> ~ In i (cell_edges d)) ->
  (forall i, In i (cell_edges c) -> nth_error H' i = nth_error H i) /\ (forall g, eval_on_boundary g H' c = eval_on_boundary g H c) /\
  (forall f c1 c2, cell_dot f c1 c2 H' c = cell_dot f c1 c2 H c) /\ (forall v, cell_integrate v H' c = cell_integrate v H c).
Proof.
  intros _ B Q P D. pose proof (built_wf _ _ _ _ _ _ _ B) as W. destruct (param_cell_ok contains' (fun _ _ => True) (fun _ _ _ _ _ _ => I) qd n p w H d H' d' Q W P) as (ess & ess' & Pr). assert (F : agree H H' (cell_edges c)) by (intros i Ii; apply (p_frame _ _ _ _ _ _ _ _ _ Pr), D, Ii). split; [exact F|]. split; [intros; apply agree_eval, F|]. split; [intros; apply agree_dot, F|]. intros. apply agree_integrate, F.
Qed.
Print Assumptions C43_disjoint_partial.

(** A shared edge. Its samples after the first cell has been parameterized are turned around when
    the second cell uses the other orientation, and kept when it uses the same one. *)
Theorem C43_shared_edge_partial contains contains' n p qd w w' c d H0 z ids mesh rtol atol H0' z' ids' mesh' rtol' atol' H H1 H2 c' d' k k' j j' i o o' e :
  mk_cell H0 z ids mesh rtol atol = Ok c -> mk_cell H0' z' ids' mesh' rtol' atol' = Ok d -> get_quad_dict n p = Ok qd -> param_cell contains qd w H c = Ok (H1, c') -> param_cell contains' qd w' H1 d = Ok (H2, d') ->
  In k (c_comps c) -> nth_error (k_edges k) j = Some i -> nth_error (k_orients k) j = Some o -> In k' (c_comps d) -> nth_error (k_edges k') j' = Some i -> nth_error (k_orients k') j' = Some o' ->
  nth_error H i = Some e -> last_join (e_diary e) = None ->
  exists e1 e2, nth_error H1 i = Some e1 /\ nth_error H2 i = Some e2 /\ e2 = (if Bool.eqb (Z.eqb o (-1)) (Z.eqb o' (-1)) then e1 else reverse_orientation e1).
Proof.
  intros B B' Q P P' Ik Ej Eo Ik' Ej' Eo' Ee LJ. destruct (param_edge _ _ _ _ _ _ _ _ _ _ _ _ _ Q (built_wf _ _ _ _ _ _ _ B) P Ik Ej Eo) as (b & e1 & Eb & E1 & (f & F & Rf)). assert (b = e) by congruence. subst b. destruct (param_edge _ _ _ _ _ _ _ _ _ _ _ _ _ Q (built_wf _ _ _ _ _ _ _ B') P' Ik' Ej' Eo') as (b & e2 & Eb' & E2 & (f2 & F2 & Rf2)). assert (b = e1) by congruence. subst b. exists e1, e2. split; [exact E1|]. split; [exact E2|].
  pose proof (C29_no_join _ _ _ _ _ Q LJ F) as St. assert (f2 = f). { assert (X : parameterize qd e1 = parameterize qd f) by (apply parameterize_depends; rewrite Rf; destruct (Z.eqb o (-1)); [|reflexivity]; unfold reverse_orientation; destruct (e_param f); reflexivity). congruence. } subst f2. rewrite Rf2, Rf. destruct (Z.eqb o (-1)), (Z.eqb o' (-1)); cbn [Bool.eqb]; try reflexivity. symmetry. apply C27_involution.
Qed.
Print Assumptions C43_shared_edge_partial.

(** The annulus and the disc that fills its hole share edge 0. After the disc has been parameterized
    the third sample of the hole of the annulus has moved from [(1, -1)] to [(1, 1)]: the boundary of
    the hole runs the wrong way round. *)
Theorem C43_refuted : exists c d H1 c' H2 d' k, mk_cell rings 1 [1; 0]%nat (5, 5)%Z 1 1 = Ok c /\ mk_cell rings 2 [0]%nat (5, 5)%Z 1 1 = Ok d /\ param_cell disc dict4 false rings c = Ok (H1, c') /\ param_cell disc dict4 false H1 d = Ok (H2, d') /\
  In k (c_comps c') /\ k_edges k = [0%nat] /\ nth_error (polygon H1 (k_edges k)) 2 = Some (1, -1) /\ nth_error (polygon H2 (k_edges k)) 2 = Some (1, 1).
Proof.
  pose proof (ring_cell_outer (5, 5)%Z 1 ltac:(lra)) as B. set (c := made _ _ _ _ _) in B. assert (An : annulus c) by (exists 1%Z, [1; -1]%Z, (5, 5)%Z, 1; right; reflexivity). destruct (circles_param rings c rings_like (annulus_circles _ An)) as (H1 & c' & P).
  pose proof (disc_cell (5, 5)%Z 1 ltac:(lra)) as B'. set (d := made 2 _ _ _ _) in B'. destruct (annulus_after _ _ _ _ _ rings_like An P) as (e0 & e1 & E0 & E1 & L0 & L1 & M0 & M1 & S0 & S1). assert (LR : like_rings H1) by (exists e0, e1; auto).
  assert (Cd : circles d) by (exists 2%Z, [1]%Z, (5, 5)%Z, 1; auto). destruct (circles_param H1 d LR Cd) as (H2 & d' & P'). destruct (disc_after _ _ _ _ _ _ _ _ LR P') as (e0' & E0' & M0' & S0').
  destruct (param_cell_ok disc (fun _ _ => True) (fun _ _ _ _ _ _ => I) dict4 _ _ _ _ _ _ _ dict4_ok (circles_wf _ (annulus_circles _ An)) P) as (ess & ess' & Pr). pose proof (Permutation_map fst (p_edges _ _ _ _ _ _ _ _ _ Pr)) as PE. rewrite !map_map in PE. cbn [fst] in PE. change (map (fun x => k_edges x) (c_comps c)) with [[1%nat]; [0%nat]] in PE.
  assert (I0 : In [0%nat] (map (fun x => k_edges x) (c_comps c'))) by (eapply Permutation_in; [symmetry; exact PE|right; left; reflexivity]). apply in_map_iff in I0. destruct I0 as (k & Ek & Ik).
  exists c, d, H1, c', H2, d', k. repeat (split; [assumption|]). rewrite Ek, (polygon_one _ _ _ _ _ _ E0 S0), (polygon_one _ _ _ _ _ _ E0' S0'). cbn [oct firstn nth_error]. split; f_equal; f_equal; ring.
Qed.
Print Assumptions C43_refuted.
