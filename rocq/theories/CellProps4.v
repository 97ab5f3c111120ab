(** Interior points (C41) and edges shared by cells (C43). *)
From Coq Require Import List ZArith Reals Lia Lra Bool Permutation String.
From Verif Require Import PyBase PolyModel BaryModel BBoxModel QuadModel VertModel EdgeModel EdgeSpec EdgeProofs EdgeProps EdgeProps3 ContourModel CellModel CellSpec CellProofs CellProps ContourProofs ContourProofs2 ContourProofs3 InteriorProofs ContourProofs4 VertProps EdgeProps4 ContourProps CellProofs2 Annulus CellProps2 CellProps3.
Import List ListNotations.
Open Scope R_scope.

(** ** C41 *)

(** [p] is inside the first component and outside all others. *)
Definition in_cell (contains : R -> list pt -> pt -> bool) (H : heap) (c : cell) (p : pt) : Prop :=
  match c_comps c with
  | [] => False
  | k :: ks => contains 0 (polygon H (k_edges k)) p = true /\ Forall (fun h => contains 0 (polygon H (k_edges h)) p = false) ks
  end.
(** A sample of some edge of the cell *)
Definition on_edge (H : heap) (ids : list nat) (q : pt) : Prop := exists i e s, In i ids /\ nth_error H i = Some e /\ In s (e_smp e) /\ sx s = q.
(** [m] evenly spaced numbers from [a] to [b] *)
Definition spaced (a b : R) (m : nat) (x : R) : Prop := exists i, (i < m)%nat /\ x = a + INR i * ((b - a) / INR (m - 1)).
(** The smallest box around the polygons of the cell *)
Definition tight (H : heap) (c : cell) (x0 x1 y0 y1 : R) : Prop :=
  let qs := concat (map (fun k => polygon H (k_edges k)) (c_comps c)) in
  (forall q, In q qs -> x0 <= fst q <= x1 /\ y0 <= snd q <= y1) /\
  exists a b u v, In a qs /\ In b qs /\ In u qs /\ In v qs /\ fst a = x0 /\ fst b = x1 /\ snd u = y0 /\ snd v = y1.

Lemma comps_polygons H c ess : cell_fresh H c ess -> map (fun k => polygon H (k_edges k)) (c_comps c) = map path_of ess.
Proof. intros (F & _). induction F as [|k es ks ess (R & _) F IH]; [reflexivity|]. cbn [map]. rewrite (polygon_refs _ _ _ R), IH. reflexivity. Qed.
Lemma inside_spec contains H c ess p : cell_fresh H c ess -> inside_cell contains ess p = true <-> in_cell contains H c p.
Proof.
  intros (F & _). unfold inside_cell, in_cell. destruct F as [|k es ks ess (R & _) F]; [split; [discriminate|tauto]|]. rewrite andb_true_iff, (polygon_refs _ _ _ R). apply and_iff_compat_l. induction F as [|k' es' ks ess (R' & _) F IH]; [split; [constructor|reflexivity]|]. cbn [forallb]. rewrite andb_true_iff, IH. rewrite Forall_cons_iff, (polygon_refs _ _ _ R'), negb_true_iff. reflexivity.
Qed.
Lemma samples_spec H c ess q : cell_fresh H c ess -> (exists s, In s (all_smp ess) /\ sx s = q) <-> on_edge H (cell_edges c) q.
Proof.
  intros (F & _). unfold all_smp, cell_edges, on_edge. assert (G : forall ids es, refs H ids es -> (exists s, In s (concat (map e_smp es)) /\ sx s = q) <-> (exists i e s, In i ids /\ nth_error H i = Some e /\ In s (e_smp e) /\ sx s = q)).
  { intros ids es R. unfold refs in R. split.
    - intros (s & I & E). apply in_concat in I. destruct I as (l & I & Is). apply in_map_iff in I. destruct I as (e & <- & Ie). apply In_nth_error in Ie. destruct Ie as (j & Ej). assert (Lj : (j < List.length ids)%nat) by (rewrite (Forall2_len _ _ _ R); apply nth_error_Some; congruence). destruct (nth_error ids j) as [i|] eqn:Ei; [|apply nth_error_None in Ei; lia]. exists i, e, s. split; [eapply nth_error_In, Ei|]. split; [exact (Forall2_nth _ _ _ R _ _ _ Ei Ej)|auto].
    - intros (i & e & s & Ii & Ee & Is & E). exists s. split; [|exact E]. apply In_nth_error in Ii. destruct Ii as (j & Ej). assert (Lj : (j < List.length es)%nat) by (rewrite <- (Forall2_len _ _ _ R); apply nth_error_Some; congruence). destruct (nth_error es j) as [e'|] eqn:Ee'; [|apply nth_error_None in Ee'; lia]. pose proof (Forall2_nth _ _ _ R _ _ _ Ej Ee') as X. cbn beta in X. assert (e' = e) by congruence. subst e'. apply in_concat. exists (e_smp e). split; [apply in_map, (nth_error_In _ _ Ee')|exact Is]. }
  rewrite <- (G (concat (map k_edges (c_comps c))) (concat ess)).
  - assert (E : concat (map (fun es => concat (map e_smp es)) ess) = concat (map e_smp (concat ess))) by (clear; induction ess as [|es ess IH]; [reflexivity|]; cbn [map concat]; rewrite map_app, concat_app, IH; reflexivity). rewrite E. reflexivity.
  - unfold refs. clear -F. induction F as [|k es ks ess (R & _) F IH]; [constructor|]. cbn [map concat]. apply Forall2_app; assumption.
Qed.
Lemma spaced_spec a b m xs : (2 <= m)%nat -> np_linspace a b (Z.of_nat m) = Ok xs -> forall x, In x xs <-> spaced a b m x.
Proof.
  intros Hm E x. unfold np_linspace in E. destruct (Z.ltb_spec (Z.of_nat m) 0); [lia|]. rewrite Nat2Z.id in E. destruct m as [|[|m]]; try lia. apply Ok_inj in E. subst xs. unfold linspace, spaced. rewrite in_map_iff. cbn [Nat.sub]. split.
  - intros (i & <- & I). apply in_seq in I. exists i. split; [lia|reflexivity].
  - intros (i & L & ->). exists i. split; [reflexivity|apply in_seq; lia].
Qed.

(** On a square grid the interior points are exactly the grid points that lie in the cell and are
    no closer to a sample than the tolerance. *)
Theorem C41_interior_points_partial contains H0 z ids m rtol atol c n p qd H H' c' : mk_cell H0 z ids (Z.of_nat m, Z.of_nat m) rtol atol = Ok c -> (2 <= m)%nat -> get_quad_dict n p = Ok qd -> param_cell contains qd true H c = Ok (H', c') ->
  exists x0 x1 y0 y1 pts, tight H' c' x0 x1 y0 y1 /\ c_int c' = Some pts /\
    forall q, In q pts <-> (spaced x0 x1 m (fst q) /\ spaced y0 y1 m (snd q) /\ in_cell contains H' c' q /\ forall s, on_edge H' (cell_edges c') s -> Rmax atol (rtol * Rmin (x1 - x0) (y1 - y0)) <= pdist s q).
Proof.
  intros B Hm Q P. rewrite param_cell_split in P. destruct (param_cell contains qd false H c) as [[H1 c1]|] eqn:E1; [|discriminate]. cbn [bind] in P. destruct (interior_points contains H1 c1) as [c2|] eqn:E2; [|discriminate]. cbn [bind] in P. apply Ok_inj in P. injection P as -> ->.
  pose proof (built_wf _ _ _ _ _ _ _ B) as W. destruct (param_cell_ok contains (fun _ _ => True) (fun _ _ _ _ _ _ => I) qd n p false H c H1 c1 Q W E1) as (ess & ess' & Pr). pose proof (p_fresh _ _ _ _ _ _ _ _ _ Pr) as F. pose proof (p_nonempty _ _ _ _ _ _ _ _ _ Pr) as NE. destruct (p_interior _ _ _ _ _ _ _ _ _ Pr) as (EM & ER & EA).
  assert (K : c_mesh c = (Z.of_nat m, Z.of_nat m) /\ c_rtol c = rtol /\ c_atol c = atol). { clear -B. unfold mk_cell in B. destruct (cell_idx z); [|discriminate]. cbn [bind] in B. destruct (map_res _ _); [|discriminate]. cbn [bind] in B. destruct (orientations _ _); [|discriminate]. cbn [bind] in B. destruct (boundary_components _ _ _ _); [|discriminate]. cbn [bind] in B. destruct (Rle_dec atol 0); [discriminate|]. destruct (Rle_dec rtol 0); [discriminate|]. apply Ok_inj in B. subst c. auto. }
  destruct K as (KM & KR & KA).
  assert (NC : ess' <> []). { intros ->. destruct F as (F & _). inversion F as [X|]; subst. destruct (p_outer _ _ _ _ _ _ _ _ _ Pr) as (u1 & u2 & v1 & Fu & _ & _ & _ & Fo & Ec). destruct (find_outer_swap _ _ _ _ Fo) as (o & k0 & ko & A0 & Ao & ->). cbn [with_comps c_comps] in Ec. pose proof (swap0_length _ _ _ _ A0 Ao) as L. rewrite <- Ec, <- X in L. destruct (c_comps u1); [discriminate|discriminate]. }
  assert (EM1 : c_mesh c1 = (Z.of_nat m, Z.of_nat m)) by congruence. destruct (interior_square contains H1 c1 ess' (Z.of_nat m) F NE NC EM1 ltac:(lia)) as (x0 & x1 & y0 & y1 & xs & ys & Bx & X & Y & EI). rewrite EI in E2. apply Ok_inj in E2. subst c2.
  destruct (cell_box_ok H1 c1 ess' F NE NC) as (a0 & a1 & b0 & b1 & Bx' & T1 & T2). rewrite Bx in Bx'. apply Ok_inj in Bx'. injection Bx' as -> -> -> ->. exists x0, x1, y0, y1. eexists. split; [|split; [reflexivity|]].
  - unfold tight. cbn [with_int c_comps]. rewrite (comps_polygons _ _ _ F). assert (E : concat (map path_of ess') = map sx (cell_smp ess')) by (unfold cell_smp, path_of; rewrite concat_map, map_map; reflexivity). rewrite E. split.
    + intros q I. apply in_map_iff in I. destruct I as (s & <- & I). apply T1, I.
    + destruct T2 as (s0 & s1 & s2 & s3 & I0 & I1 & I2 & I3 & V). exists (sx s0), (sx s1), (sx s2), (sx s3). repeat (split; [apply in_map; assumption|]). exact V.
  - intros q. rewrite filter_In, andb_true_iff, far_spec. rewrite (inside_spec contains H1 c1 ess' q F). unfold minimal_distance. rewrite ER, EA, KR, KA.
    assert (G : In q (concat (meshgrid xs ys)) <-> spaced x0 x1 m (fst q) /\ spaced y0 y1 m (snd q)).
    { rewrite <- (spaced_spec _ _ _ _ Hm X), <- (spaced_spec _ _ _ _ Hm Y). unfold meshgrid. rewrite in_concat. split.
      - intros (l & Il & Iq). apply in_map_iff in Il. destruct Il as (y & <- & Iy). apply in_map_iff in Iq. destruct Iq as (x & <- & Ix). auto.
      - intros [Ix Iy]. exists (map (fun x => (x, snd q)) xs). split; [apply in_map_iff; exists (snd q); auto|]. apply in_map_iff. exists (fst q). split; [symmetry; apply surjective_pairing|exact Ix]. }
    rewrite G. assert (S : (forall s, In s (all_smp ess') -> Rmax atol (rtol * Rmin (x1 - x0) (y1 - y0)) <= pdist (sx s) q) <-> (forall s, on_edge H1 (cell_edges (with_int c1 (Some (filter (fun p => inside_cell contains ess' p && far_from (all_smp ess') (minimal_distance c1 (x0, x1, y0, y1)) p) (concat (meshgrid xs ys)))))) s -> Rmax atol (rtol * Rmin (x1 - x0) (y1 - y0)) <= pdist s q)).
    { split.
      - intros A s I. change (on_edge H1 (cell_edges c1) s) in I. apply (samples_spec _ _ _ _ F) in I. destruct I as (t & It & <-). apply A, It.
      - intros A s I. apply A. change (on_edge H1 (cell_edges c1) (sx s)). apply (samples_spec _ _ _ _ F). eauto. }
    change (in_cell contains H1 (with_int c1 _) q) with (in_cell contains H1 c1 q). unfold minimal_distance in S. rewrite ER, EA, KR, KA in S. rewrite <- S. tauto.
Qed.
Print Assumptions C41_interior_points_partial.

(** On a grid with different numbers of rows and columns every cell fails, whatever its boundary:
    the loop runs over the transposed index range. *)
Theorem C41_oblong_refuted contains H0 z ids rows cols rtol atol c n p qd H H' c' : mk_cell H0 z ids (rows, cols) rtol atol = Ok c -> (0 < rows)%Z -> (0 < cols)%Z -> rows <> cols -> get_quad_dict n p = Ok qd ->
  param_cell contains qd false H c = Ok (H', c') -> param_cell contains qd true H c = Err IndexError.
Proof.
  intros B Hr Hc D Q E1. rewrite param_cell_split, E1. cbn [bind]. pose proof (built_wf _ _ _ _ _ _ _ B) as W. destruct (param_cell_ok contains (fun _ _ => True) (fun _ _ _ _ _ _ => I) qd n p false H c H' c' Q W E1) as (ess & ess' & Pr). pose proof (p_fresh _ _ _ _ _ _ _ _ _ Pr) as F. pose proof (p_nonempty _ _ _ _ _ _ _ _ _ Pr) as NE. destruct (p_interior _ _ _ _ _ _ _ _ _ Pr) as (EM & ER & EA).
  assert (KM : c_mesh c = (rows, cols)). { clear -B. unfold mk_cell in B. destruct (cell_idx z); [|discriminate]. cbn [bind] in B. destruct (map_res _ _); [|discriminate]. cbn [bind] in B. destruct (orientations _ _); [|discriminate]. cbn [bind] in B. destruct (boundary_components _ _ _ _); [|discriminate]. cbn [bind] in B. destruct (Rle_dec atol 0); [discriminate|]. destruct (Rle_dec rtol 0); [discriminate|]. apply Ok_inj in B. subst c. auto. }
  assert (NC : ess' <> []). { intros ->. destruct F as (F & _). inversion F as [X|]; subst. destruct (p_outer _ _ _ _ _ _ _ _ _ Pr) as (u1 & u2 & v1 & Fu & _ & _ & _ & Fo & Ec). destruct (find_outer_swap _ _ _ _ Fo) as (o & k0 & ko & A0 & Ao & ->). cbn [with_comps c_comps] in Ec. pose proof (swap0_length _ _ _ _ A0 Ao) as L. rewrite <- Ec, <- X in L. destruct (c_comps u1); [discriminate|discriminate]. }
  assert (EM1 : c_mesh c' = (rows, cols)) by congruence. rewrite (interior_oblong contains H' c' ess' rows cols F NE NC EM1 Hr Hc D). reflexivity.
Qed.
Print Assumptions C41_oblong_refuted.

(** The interior point of each component: inside its polygon and away from its samples by one
    hundredth of the smaller side of its box, for every component whose box is not degenerate. *)
Theorem C41_component_points contains H c i k : ready contains H c -> nth_error (c_comps c) i = Some k ->
  exists x0 x1 y0 y1, bounding_box TOL (map fst (polygon H (k_edges k))) (map snd (polygon H (k_edges k))) = Ok (x0, x1, y0, y1) /\
    (0 < Rmin (x1 - x0) (y1 - y0) -> exists v, k_int k = Some v /\ contains 0 (polygon H (k_edges k)) (vx v, vy v) = true /\
      forall q, on_edge H (k_edges k) q -> 1 / 100 * Rmin (x1 - x0) (y1 - y0) <= pdist q (vx v, vy v)).
Proof.
  intros Rd Ek. destruct (ready_fresh _ _ _ Rd) as (ess & F & FI & _ & NE). pose proof (Forall2_len _ _ _ (proj1 F)) as L. assert (Li : (i < List.length (c_comps c))%nat) by (apply nth_error_Some; congruence). destruct (nth_error ess i) as [es|] eqn:Ee; [|apply nth_error_None in Ee; lia]. pose proof (Forall2_nth _ _ _ (proj1 F) _ _ _ Ek Ee) as Fk. destruct (Forall2_nth _ _ _ FI _ _ _ Ek Ee) as [_ I]. assert (Ne : es <> []) by (rewrite Forall_forall in NE; apply NE, (nth_error_In _ _ Ee)).
  pose proof Fk as (R & _). rewrite (polygon_refs _ _ _ R). destruct (find_interior_form contains H k es Fk Ne) as ([[[x0 x1] y0] y1] & Bx & _). unfold path_of. rewrite !map_map. fold (xs_of (contour_smp es)) (ys_of (contour_smp es)). exists x0, x1, y0, y1. split; [exact Bx|]. intros C. destruct (I _ Bx) as (q & Ki & (Ac & Ad) & _); [unfold clearance; lra|]. exists (mkvert (fst q) (snd q)). split; [exact Ki|]. unfold mkvert. cbn [vx vy]. rewrite <- surjective_pairing. split; [exact Ac|].
  intros t (j & e & s & Ij & Ej & Is & <-). apply Ad. unfold refs in R. apply In_nth_error in Ij. destruct Ij as (m & Em). assert (Lm : (m < List.length es)%nat) by (rewrite <- (Forall2_len _ _ _ R); apply nth_error_Some; congruence). destruct (nth_error es m) as [e'|] eqn:Ee'; [|apply nth_error_None in Ee'; lia]. pose proof (Forall2_nth _ _ _ R _ _ _ Em Ee') as X. cbn beta in X. assert (e' = e) by congruence. subst e'. apply in_concat. exists (e_smp e). split; [apply in_map, (nth_error_In _ _ Ee')|exact Is].
Qed.
Print Assumptions C41_component_points.

(** The search succeeds exactly when a grid with 9, 17, ..., 257 points per side has such a point. *)
Theorem C41_component_search contains H k es : fresh H k es -> es <> [] -> exists x0 x1 y0 y1, bounding_box TOL (map fst (polygon H (k_edges k))) (map snd (polygon H (k_edges k))) = Ok (x0, x1, y0, y1) /\
  let d := 1 / 100 * Rmin (x1 - x0) (y1 - y0) in
  let found := exists m q, In m [9; 17; 33; 65; 129; 257]%nat /\ spaced x0 x1 m (fst q) /\ spaced y0 y1 m (snd q) /\ contains 0 (polygon H (k_edges k)) q = true /\ forall t, on_edge H (k_edges k) t -> d <= pdist t q in
  0 < d -> (found -> exists k', find_interior_point contains H k = Ok k') /\ (~ found -> find_interior_point contains H k = Err InteriorPointError).
Proof.
  intros F NE. destruct (find_interior_total contains H k es F NE) as ([[[x0 x1] y0] y1] & Bx & T & _). pose proof F as (R & _). exists x0, x1, y0, y1. rewrite (polygon_refs _ _ _ R). split; [unfold path_of; rewrite !map_map; exact Bx|]. intros d found D. destruct (T D) as [T1 T2].
  assert (Eq : found <-> exists a q, In a usable /\ In q (grid (x0, x1, y0, y1) a) /\ acceptable contains es (clearance (x0, x1, y0, y1)) q).
  { assert (GS : forall a q, In q (grid (x0, x1, y0, y1) a) <-> spaced x0 x1 (S a) (fst q) /\ spaced y0 y1 (S a) (snd q)).
    { intros a q. assert (LS : forall u v x, In x (linspace u v a) <-> spaced u v (S a) x). { intros u v x. unfold linspace, spaced. rewrite in_map_iff. replace (S a - 1)%nat with a by lia. split; [intros (j & <- & J); apply in_seq in J; exists j; split; [lia|reflexivity]|intros (j & J & ->); exists j; split; [reflexivity|apply in_seq; lia]]. }
      rewrite <- !LS. unfold grid, meshgrid. rewrite in_concat. split.
      - intros (l & Il & Iq). apply in_map_iff in Il. destruct Il as (y & <- & Iy). apply in_map_iff in Iq. destruct Iq as (x & <- & Ix). auto.
      - intros [Ix Iy]. exists (map (fun x => (x, snd q)) (linspace x0 x1 a)). split; [apply in_map_iff; exists (snd q); auto|]. apply in_map_iff. exists (fst q). split; [symmetry; apply surjective_pairing|exact Ix]. }
    assert (OE : forall q, (forall t, on_edge H (k_edges k) t -> d <= pdist t q) <-> (forall s, In s (concat (map e_smp es)) -> d <= pdist (sx s) q)).
    { intros q. split.
      - intros A s Is. apply A. apply in_concat in Is. destruct Is as (l & Il & Is). apply in_map_iff in Il. destruct Il as (e & <- & Ie). apply In_nth_error in Ie. destruct Ie as (j & Ej). unfold refs in R. assert (Lj : (j < List.length (k_edges k))%nat) by (rewrite (Forall2_len _ _ _ R); apply nth_error_Some; congruence). destruct (nth_error (k_edges k) j) as [i|] eqn:Ei; [|apply nth_error_None in Ei; lia]. exists i, e, s. split; [eapply nth_error_In, Ei|]. split; [exact (Forall2_nth _ _ _ R _ _ _ Ei Ej)|auto].
      - intros A t (j & e & s & Ij & Ej & Is & <-). apply A. unfold refs in R. apply In_nth_error in Ij. destruct Ij as (m & Em). assert (Lm : (m < List.length es)%nat) by (rewrite <- (Forall2_len _ _ _ R); apply nth_error_Some; congruence). destruct (nth_error es m) as [e'|] eqn:Ee'; [|apply nth_error_None in Ee'; lia]. pose proof (Forall2_nth _ _ _ R _ _ _ Em Ee') as X. cbn beta in X. assert (e' = e) by congruence. subst e'. apply in_concat. exists (e_smp e). split; [apply in_map, (nth_error_In _ _ Ee')|exact Is]. }
    assert (US : forall m, In m [9; 17; 33; 65; 129; 257]%nat <-> exists a, In a usable /\ m = S a).
    { intros m. unfold usable. split.
      - cbn [In]. intros I. exists (pred m). destruct I as [<-|[<-|[<-|[<-|[<-|[<-|[]]]]]]]; (split; [cbn [In pred]; tauto|reflexivity]).
      - intros (a & I & ->). cbn [In] in *. destruct I as [<-|[<-|[<-|[<-|[<-|[<-|[]]]]]]]; tauto. }
    unfold found, acceptable. fold d. change (clearance (x0, x1, y0, y1)) with d. split.
    - intros (m & q & Im & Sx & Sy & C & A). apply US in Im. destruct Im as (a & Ia & ->). exists a, q. split; [exact Ia|]. split; [apply GS; auto|]. split; [exact C|apply OE, A].
    - intros (a & q & Ia & Iq & C & A). exists (S a), q. apply GS in Iq. split; [apply US; eauto|]. split; [apply Iq|]. split; [apply Iq|]. split; [exact C|apply OE, A]. }
  rewrite Eq. split; assumption.
Qed.
Print Assumptions C41_component_search.
