(** C83: what a cell, its contours and its edges are after a sampling that raised. *)
From Coq Require Import String List ZArith Reals Lia Lra Bool.
From Verif Require Import PyBase PolyModel BaryModel BBoxModel QuadModel QuadSpec CurveModel VertModel EdgeModel EdgeSpec EdgeProofs EdgeProofs2 EdgeProps3 ContourModel CellModel CellSpec CellProofs CellProofs2 ContourProofs ContourProofs2 ContourProofs3 ContourProofs4 CellProps CellProps4 CellProps5 DeparamProps FaultModel FaultProofs EdgeProps InteriorProofs Annulus DiscCell CellFaultModel CellFaultSpec CellFaultProofs.
Import List ListNotations.
Open Scope R_scope.

(** The two models raise the same exceptions and agree when there is none. *)
Theorem C83_outcome contains qd w H c :
  match st_cell contains qd w H c with
  | (H', c', None) => param_cell contains qd w H c = Ok (H', c')
  | (_, _, Some x) => param_cell contains qd w H c = Err x
  end.
Proof. pose proof (st_cell_out contains qd w H c) as X. destruct (st_cell contains qd w H c) as [[H' c'] [x|]]; symmetry; exact X. Qed.
Print Assumptions C83_outcome.

Lemma nodup_parts {A} (l l' : list A) : NoDup (l ++ l') -> NoDup l /\ NoDup l'.
Proof. induction l as [|x l IH]; cbn; intros D; [split; [constructor|exact D]|]. inversion D as [|? ? N D']; subst. destruct (IH D') as (A1 & A2). split; [|exact A2]. constructor; [|exact A1]. intros I. apply N, in_or_app. left. exact I. Qed.
(** Where a sampling without interior points stops: the contours before are sampled, those after are untouched, and the
    contour in question is untouched, because one of its edges raised, or has all its tables and lacks a point inside. *)
Theorem C83_left contains n p qd H0 z ids mesh rtol atol H c H' c' x : get_quad_dict n p = Ok qd -> mk_cell H0 z ids mesh rtol atol = Ok c -> ids <> [] ->
  st_cell contains qd false H c = (H', c', Some x) ->
  exists a k b a' k' H1, c_comps c = a ++ k :: b /\ c' = with_comps c (a' ++ k' :: b) /\ param_comps contains qd H a = Ok (H1, a') /\
    ((param_edges qd H1 k = Err x /\ k' = k) \/
     exists es q, param_edges qd H1 k = Ok H' /\ refs H' (k_edges k) es /\ Forall well_sampled es /\
       k' = Contour (k_cell k) (k_edges k) (k_orients k) (Some (total (map open_num es))) (offsets (map open_num es)) (Some (closest es)) q /\
       find_interior_point contains H' (Contour (k_cell k) (k_edges k) (k_orients k) (Some (total (map open_num es))) (offsets (map open_num es)) (Some (closest es)) (k_int k)) = Err x).
Proof.
  intros Q B N E. pose proof (built_wf _ _ _ _ _ _ _ B) as W. assert (NE : c_comps c <> []).
  { destruct (C36_contours _ _ _ _ _ _ _ B) as (_ & P & _). intros C. unfold cell_edges in P. rewrite C in P. apply N. apply Permutation.Permutation_nil in P. exact P. }
  destruct (st_cell_where contains n p qd Q H c H' c' x W NE E) as (ks & K & ->). destruct (st_comps_where contains qd _ _ _ _ _ K) as (a & k & b & a' & k' & H1 & A & -> & PA & S). destruct W as (ND & _ & WF). unfold cell_edges in ND. rewrite A in ND, WF. rewrite map_app in ND. cbn [map] in ND. rewrite concat_app in ND. cbn [concat] in ND. apply nodup_parts in ND. destruct ND as (_ & ND). apply nodup_parts in ND. destruct ND as (ND & _). apply Forall_app in WF. destruct WF as (_ & WF). inversion WF as [|? ? (Wk & _) _]; subst.
  exists a, k, b, a', k', H1. split; [exact A|]. split; [reflexivity|]. split; [exact PA|]. destruct (st_contour_where contains n p qd Q H1 k H' k' x Wk ND S) as [L|(es & q & P1 & P2 & P3 & P4 & P5)]; [left; exact L|right]. exists es, q. repeat split; auto.
Qed.
Print Assumptions C83_left.

(** A sampling without interior points that raised can be repeated, with other parameters, as if it had not been tried:
    the edges outside the cell are as they were, and the second attempt raises the same exception as on the untouched
    cell or gives the same edges and the same cell. The edges must be such that sampling does not move them. *)
Theorem C83_retry contains n p qd H0 z ids mesh rtol atol H c H' c' x : get_quad_dict n p = Ok qd -> mk_cell H0 z ids mesh rtol atol = Ok c ->
  (forall i e, In i (cell_edges c) -> nth_error H i = Some e -> calm e) -> st_cell contains qd false H c = (H', c', Some x) ->
  (forall i, ~ In i (cell_edges c) -> nth_error H' i = nth_error H i) /\ (forall i, option_map deparameterize (nth_error H' i) = option_map deparameterize (nth_error H i)) /\
  forall contains' qd' w', same_sampling (param_cell contains' qd' w' H c) (param_cell contains' qd' w' H' c').
Proof.
  intros Q B C E. pose proof (built_wf _ _ _ _ _ _ _ B) as W.
  assert (X : only_samples (cell_edges c) H H' /\ Forall2 same_place (c_comps c) (c_comps c') /\ exists n s cl ks, bare_cell c' = bare_cell (with_tables (with_comps c ks) n s cl)).
  { destruct (c_comps c) as [|k0 ks0] eqn:K.
    - destruct (st_empty contains qd false H c K) as (m & y & E1). rewrite E1 in E. injection E as <- <- <-. split; [apply only_refl|]. cbn [c_comps with_tables]. rewrite K. split; [constructor|]. exists m, (c_start c), (c_closest c), []. replace (with_comps c []) with c by (destruct c; cbn in *; rewrite K; reflexivity). reflexivity.
    - rewrite <- K in *. destruct (st_cell_where contains n p qd Q H c H' c' x W) as (ks & S & ->); [rewrite K; discriminate|exact E|]. destruct W as (_ & _ & WF).
      destruct (st_comps_only contains n p qd Q (c_comps c) H H' ks (Some x)) as (O & P); [eapply Forall_impl; [|exact WF]; cbn; tauto|exact C|exact S|]. split; [exact O|]. split; [exact P|]. exists (c_npts c), (c_start c), (c_closest c), ks. reflexivity. }
  destruct X as ((SB & F) & P & (n1 & s1 & cl1 & ks1 & D)). split; [exact F|]. split; [exact SB|]. intros contains' qd' w'.
  assert (Wc : Forall wf_contour (c_comps (bare_cell c))). { destruct W as (_ & _ & WF). cbn [c_comps bare_cell]. apply Forall_forall. intros k Ik. apply in_map_iff in Ik. destruct Ik as (k1 & <- & Ik). rewrite Forall_forall in WF. exact (proj1 (WF k1 Ik)). }
  assert (CE : cell_edges (bare_cell c) = cell_edges c) by (unfold cell_edges; cbn [c_comps bare_cell]; rewrite map_map; reflexivity).
  assert (SC : same_cell (bare_cell c) (bare_cell c')).
  { assert (FF : Forall2 same_contour (c_comps (bare_cell c)) (c_comps (bare_cell c'))). { cbn [c_comps bare_cell]. clear - P. induction P as [|k k' l l' (A1 & A2 & A3) P IH]; [constructor|]. cbn [map]. constructor; [|exact IH]. repeat split; assumption. }
    unfold same_cell. rewrite D in *. repeat split. exact FF. }
  pose proof (C29_cell_depends contains' qd' w' H H' (bare_cell c) (bare_cell c') SB ltac:(rewrite CE; exact F) Wc SC) as X.
  assert (I : forall c, bare_cell (bare_cell c) = bare_cell c) by (intros d; destruct d; unfold bare_cell; cbn; rewrite map_map; reflexivity).
  pose proof (cell_cong contains' qd' w' H c (bare_cell c) (eq_sym (I c))) as Y1. pose proof (cell_cong contains' qd' w' H' (bare_cell c') c' (I c')) as Y2. rewrite X in Y2. clear - Y1 Y2. unfold same_sampling in *. destruct (param_cell contains' qd' w' H c) as [[G1 d1]|], (param_cell contains' qd' w' H (bare_cell c)) as [[G2 d2]|], (param_cell contains' qd' w' H' c') as [[G3 d3]|]; try contradiction; [|congruence]. destruct Y1, Y2. split; congruence.
Qed.
Print Assumptions C83_retry.

(** With interior points the sampling can also stop behind the end of the sampling without them. The cell is then the
    sampled one, with the points of the whole grid or the former ones in place of the interior points. *)
Theorem C83_interior contains qd H c H' c' x : st_cell contains qd true H c = (H', c', Some x) ->
  st_cell contains qd false H c = (H', c', Some x) \/
  exists c1, param_cell contains qd false H c = Ok (H', c1) /\ interior_points contains H' c1 = Err x /\
    (c' = c1 \/ exists x0 x1 y0 y1 xs ys, cell_box H' c1 = Ok (x0, x1, y0, y1) /\ np_linspace x0 x1 (fst (c_mesh c1)) = Ok xs /\ np_linspace y0 y1 (snd (c_mesh c1)) = Ok ys /\
       c' = with_int c1 (Some (concat (map (fun y => map (fun x => (x, y)) xs) ys)))).
Proof.
  intros E. pose proof (st_cell_out contains qd false H c) as O. unfold st_cell in E, O |- *. destruct (st_comps contains qd H (c_comps c)) as [[H1 ks] [y|]]; [left; exact E|]. destruct (stage _ _) as [c1 [y|]]; [left; exact E|]. cbn [out3 out snd fst] in O. right. unfold st_points in E. destruct (interior_points contains H1 c1) as [c2|y] eqn:I; [discriminate|]. destruct (c_mesh c1) as [r cl] eqn:M.
  destruct (cell_box H1 c1) as [[[[x0 x1] y0] y1]|] eqn:Bx; cbn [bind] in E; [|injection E as <- <- <-; exists c1; auto]. destruct (np_linspace x0 x1 r) as [xs|] eqn:X; cbn [bind] in E; [|injection E as <- <- <-; exists c1; auto]. destruct (np_linspace y0 y1 cl) as [ys|] eqn:Y; cbn [bind] in E; injection E as <- <- <-; exists c1; [|auto].
  split; [symmetry; exact O|]. split; [exact I|]. right. exists x0, x1, y0, y1, xs, ys. rewrite M. repeat split; assumption.
Qed.
Print Assumptions C83_interior.

(** A cell whose outer boundary lacks a point inside is refused, and its guard lets it pass afterwards: its methods find
    all edges sampled and go on to read num_pts, which is not there. *)
Theorem C83_flag_refuted contains n p qd H0 z ids mesh rtol atol H c k H1 x : get_quad_dict n p = Ok qd -> mk_cell H0 z ids mesh rtol atol = Ok c -> c_comps c = [k] ->
  param_edges qd H k = Ok H1 -> param_contour contains qd H k = Err x ->
  exists c', st_cell contains qd false H c = (H1, c', Some x) /\ cell_guard H1 c' = Ok tt /\ boundary_points H1 c' = Err AttributeError /\ forall g, eval_on_boundary g H1 c' = Err AttributeError.
Proof.
  intros Q B K P E. pose proof (built_wf _ _ _ _ _ _ _ B) as (ND & _ & WF). rewrite K in WF. inversion WF as [|? ? (Wk & NE) _]; subst. unfold cell_edges in ND. rewrite K in ND. cbn [map concat] in ND. rewrite app_nil_r in ND.
  assert (NP : c_npts c = None). { unfold mk_cell in B. destruct (cell_idx z); [|discriminate]. cbn [bind] in B. destruct (map_res _ _); [|discriminate]. cbn [bind] in B. destruct (orientations _ _); [|discriminate]. cbn [bind] in B. destruct (boundary_components _ _ _ _); [|discriminate]. cbn [bind] in B. destruct (Rle_dec atol 0); [discriminate|]. destruct (Rle_dec rtol 0); [discriminate|]. apply Ok_inj in B. subst. reflexivity. }
  pose proof (st_contour_out contains qd H k) as O. rewrite E in O. destruct (st_contour contains qd H k) as [[H2 k2] [y|]] eqn:S; cbn [out3 out snd] in O; [|discriminate]. assert (y = x) by congruence. subst y. destruct (st_contour_where contains n p qd Q H k H2 k2 x Wk ND S) as [(P1 & _)|(es & q & P1 & Rf & Ws & _ & Ek)]; [congruence|]. assert (H2 = H1) by (rewrite P in P1; apply Ok_inj in P1; congruence). subst H2.
  unfold st_cell. rewrite K. cbn [st_comps]. rewrite S. eexists. split; [reflexivity|]. assert (G : cell_guard H1 (with_comps c [k2]) = Ok tt). { unfold cell_guard. cbn [c_comps with_comps forallb]. rewrite Ek. change (all_param H1 (tables_of k es q)) with (all_param H1 k). rewrite (refs_guard H1 k es Rf Ws). reflexivity. }
  split; [exact G|]. unfold boundary_points, eval_on_boundary. rewrite G. cbn [bind]. unfold cell_fill. cbn [c_npts with_comps]. rewrite NP. cbn [attr bind]. split; reflexivity.
Qed.
Print Assumptions C83_flag_refuted.

(** On a grid with different numbers of rows and columns the sampled cell takes all points of the grid over its box for
    interior points, the corners of the box too. *)
Theorem C83_grid_refuted contains H0 z ids rows cols rtol atol c n p qd H H' c1 : mk_cell H0 z ids (rows, cols) rtol atol = Ok c -> (0 < rows)%Z -> (0 < cols)%Z -> rows <> cols -> get_quad_dict n p = Ok qd ->
  param_cell contains qd false H c = Ok (H', c1) ->
  exists x0 x1 y0 y1 xs ys, cell_box H' c1 = Ok (x0, x1, y0, y1) /\ np_linspace x0 x1 rows = Ok xs /\ np_linspace y0 y1 cols = Ok ys /\
    st_cell contains qd true H c = (H', with_int c1 (Some (concat (map (fun y => map (fun x => (x, y)) xs) ys))), Some IndexError) /\
    In (x0, y0) (concat (map (fun y => map (fun x => (x, y)) xs) ys)).
Proof.
  intros B Hr Hc D Q P. pose proof (C41_oblong_refuted contains H0 z ids rows cols rtol atol c n p qd H H' c1 B Hr Hc D Q P) as O. pose proof (built_wf _ _ _ _ _ _ _ B) as W. destruct (param_cell_ok contains (fun _ _ => True) (fun _ _ _ _ _ _ => I) qd n p false H c H' c1 Q W P) as (ess & ess' & Pr). pose proof (p_fresh _ _ _ _ _ _ _ _ _ Pr) as F. pose proof (p_nonempty _ _ _ _ _ _ _ _ _ Pr) as NE. destruct (p_interior _ _ _ _ _ _ _ _ _ Pr) as (EM & _).
  assert (KM : c_mesh c = (rows, cols)). { clear -B. unfold mk_cell in B. destruct (cell_idx z); [|discriminate]. cbn [bind] in B. destruct (map_res _ _); [|discriminate]. cbn [bind] in B. destruct (orientations _ _); [|discriminate]. cbn [bind] in B. destruct (boundary_components _ _ _ _); [|discriminate]. cbn [bind] in B. destruct (Rle_dec atol 0); [discriminate|]. destruct (Rle_dec rtol 0); [discriminate|]. apply Ok_inj in B. subst c. auto. }
  rewrite KM in EM. assert (NC : ess' <> []). { intros ->. destruct F as (F & _). inversion F as [X|]; subst. destruct (p_outer _ _ _ _ _ _ _ _ _ Pr) as (u1 & u2 & v1 & Fu & _ & _ & _ & Fo & Ec). destruct (find_outer_swap _ _ _ _ Fo) as (o & k0 & ko & A0 & Ao & ->). cbn [with_comps c_comps] in Ec. pose proof (swap0_length _ _ _ _ A0 Ao) as L. rewrite <- Ec, <- X in L. destruct (c_comps u1); [discriminate|discriminate]. }
  destruct (cell_box_ok H' c1 ess' F NE NC) as (x0 & x1 & y0 & y1 & Bx & _). destruct (np_linspace_total x0 x1 rows ltac:(lia)) as (xs & Xs). destruct (np_linspace_total y0 y1 cols ltac:(lia)) as (ys & Ys). exists x0, x1, y0, y1, xs, ys. split; [exact Bx|]. split; [exact Xs|]. split; [exact Ys|]. split.
  - pose proof (C83_outcome contains qd true H c) as X. destruct (st_cell contains qd true H c) as [[H2 c2] [x|]] eqn:S; [|congruence]. assert (x = IndexError) by congruence. subst x. pose proof (st_cell_out contains qd false H c) as Y. rewrite P in Y. unfold st_cell in S, Y. destruct (st_comps contains qd H (c_comps c)) as [[H3 ks] [y|]]; [discriminate|]. destruct (stage _ _) as [c3 [y|]]; [discriminate|]. cbn [out3 out snd fst] in Y. apply Ok_inj in Y. injection Y as -> ->.
    unfold st_points in S. destruct (interior_points contains _ c3); [discriminate|]. rewrite EM, Bx in S. cbn [bind] in S. rewrite Xs in S. cbn [bind] in S. rewrite Ys in S. cbn [bind] in S. injection S as <- <- ->. reflexivity.
  - assert (Fst : forall a b m l, (0 < m)%Z -> np_linspace a b m = Ok l -> In a l). { intros a b m l M E. unfold np_linspace in E. destruct (Z.ltb_spec m 0); [lia|]. destruct (Z.to_nat m) as [|[|m']] eqn:Em; [lia|apply Ok_inj in E; subst; left; reflexivity|]. apply Ok_inj in E. subst. apply in_map_iff. exists 0%nat. split; [cbn; lra|apply in_seq; lia]. }
    apply in_concat. exists (map (fun x => (x, y0)) xs). split; [apply in_map_iff; exists y0; split; [reflexivity|exact (Fst _ _ _ _ Hc Ys)]|]. apply in_map_iff. exists x0. split; [reflexivity|exact (Fst _ _ _ _ Hr Xs)].
Qed.
Print Assumptions C83_grid_refuted.

(** A containment test that finds nothing inside, as for a boundary that runs along itself *)
Definition nowhere : R -> list pt -> pt -> bool := fun _ _ _ => false.
(** The disc under [nowhere]: refused with InteriorPointError; afterwards the guard lets it pass and its boundary points
    are an AttributeError; another attempt under the right test is as if there had been no first one. *)
Example C83_example : exists c H' c', mk_cell rings 2 [0]%nat (5, 5)%Z 1 1 = Ok c /\ (forall i e, In i (cell_edges c) -> nth_error rings i = Some e -> calm e) /\
  st_cell nowhere dict4 false rings c = (H', c', Some InteriorPointError) /\ cell_guard H' c' = Ok tt /\ boundary_points H' c' = Err AttributeError /\
  nth_error H' 1 = nth_error rings 1 /\ (exists e, nth_error H' 0 = Some e /\ e_param e = true) /\ cell_guard rings c = Err NotParameterizedError /\
  exists H1 c1 H2 c2, param_cell disc dict4 false rings c = Ok (H1, c1) /\ param_cell disc dict4 false H' c' = Ok (H2, c2) /\ H2 = H1 /\ bare_cell c2 = bare_cell c1.
Proof.
  pose proof (disc_cell (5, 5)%Z 1 ltac:(lra)) as B. set (c := made _ _ _ _ _) in B. assert (Ci : circles c) by (exists 2%Z, [1]%Z, (5, 5)%Z, 1; right; right; reflexivity). destruct (circles_param rings c rings_like Ci) as (H1 & c1 & P).
  assert (Cm : forall i e, In i (cell_edges c) -> nth_error rings i = Some e -> calm e). { intros i e [<-|[]] E. cbn in E. injection E as <-. left. reflexivity. }
  destruct (ring_param 1 1 2 1) as (e1 & E & Pe & N & S). assert (PE : param_edges dict4 rings (unset 2 0 1) = Ok (hset rings 0 e1)). { unfold param_edges. cbn [unset k_edges k_orients combine fold_res fst snd]. change (deref rings 0) with (Ok (ring 1 1 2 1)). cbn [bind]. rewrite E. reflexivity. }
  assert (RS : resampled dict4 1 (ring 1 1 2 1) e1) by (exists e1; split; [exact E|reflexivity]). destruct (ring_resampled _ _ _ _ _ _ _ (like_self 1 1 2 1) RS) as [N1 S1]. pose proof (reversed_sampled _ _ _ _ _ _ dict4_ok RS) as W. cbn [Z.eqb] in S1.
  assert (Rf : refs (hset rings 0 e1) [0%nat] [e1]) by (constructor; [reflexivity|constructor]). assert (Wl : Forall well_sampled [e1]) by (constructor; [exact W|constructor]).
  assert (PC : param_contour nowhere dict4 rings (unset 2 0 1) = Err InteriorPointError).
  { unfold param_contour. rewrite PE. cbn [bind]. pose proof (tables_ok (hset rings 0 e1) (unset 2 0 1) [e1] Rf Wl) as T. destruct (find_num_pts (hset rings 0 e1) (unset 2 0 1)) as [k1|]; [|discriminate]. cbn [bind] in *. destruct (find_local_vert_idx (hset rings 0 e1) k1) as [k2|]; [|discriminate]. cbn [bind] in *. rewrite T. cbn [bind].
    set (k := with_ktables _ _ _ _). assert (F : fresh (hset rings 0 e1) k [e1]) by (split; [exact Rf|split; [exact Wl|split; reflexivity]]). destruct (find_interior_total nowhere (hset rings 0 e1) k [e1] F ltac:(discriminate)) as (box & Bx & A & _). destruct (ring_accept e1 1 1 1 ltac:(lra) (or_introl eq_refl) S1) as (B' & Cl & _). rewrite Bx in B'. apply Ok_inj in B'. subst box. rewrite Cl in A. destruct (A ltac:(lra)) as [_ No]. rewrite No; [reflexivity|]. intros (a & q & _ & _ & (Z & _)). discriminate Z. }
  destruct (C83_flag_refuted nowhere (PInt 4) 7 dict4 rings 2 [0]%nat (5, 5)%Z 1 1 rings c (unset 2 0 1) _ _ dict4_ok B eq_refl PE PC) as (c' & St & G & Bp & _). destruct (C83_retry nowhere (PInt 4) 7 dict4 rings 2 [0]%nat (5, 5)%Z 1 1 rings c _ c' _ dict4_ok B Cm St) as (_ & _ & Rt). specialize (Rt disc dict4 false). rewrite P in Rt.
  exists c, (hset rings 0 e1), c'. split; [exact B|]. split; [exact Cm|]. split; [exact St|]. split; [exact G|]. split; [exact Bp|]. split; [reflexivity|]. split; [exists e1; split; [reflexivity|exact Pe]|]. split; [reflexivity|]. unfold same_sampling in Rt. destruct (param_cell disc dict4 false (hset rings 0 e1) c') as [[H2 c2]|]; [|contradiction]. destruct Rt as (R1 & R2). exists H1, c1, H2, c2. auto.
Qed.

(** The ring with 5 rows and 7 columns keeps 35 interior points. *)
Example C83_grid_example : exists c H' c1 l, mk_cell rings 1 [1; 0]%nat (5, 7)%Z 1 1 = Ok c /\ param_cell disc dict4 false rings c = Ok (H', c1) /\
  st_cell disc dict4 true rings c = (H', with_int c1 (Some l), Some IndexError) /\ List.length l = 35%nat.
Proof.
  pose proof (ring_cell_outer (5, 7)%Z 1 ltac:(lra)) as B. set (c := made _ _ _ _ _) in B. assert (Ci : circles c) by (exists 1%Z, [1; -1]%Z, (5, 7)%Z, 1; right; left; reflexivity). destruct (circles_param rings c rings_like Ci) as (H' & c1 & P).
  destruct (C83_grid_refuted disc rings 1 [1; 0]%nat 5 7 1 1 c (PInt 4) 7 dict4 rings H' c1 B ltac:(lia) ltac:(lia) ltac:(lia) dict4_ok P) as (x0 & x1 & y0 & y1 & xs & ys & _ & Xs & Ys & St & _). eexists c, H', c1, _. split; [exact B|]. split; [exact P|]. split; [exact St|]. unfold np_linspace in Xs, Ys. cbn in Xs, Ys. apply Ok_inj in Xs. apply Ok_inj in Ys. subst. reflexivity.
Qed.
