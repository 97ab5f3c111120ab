(** Lemmas about split_edge *)
From Coq Require Import List ZArith Reals Lia Lra Psatz Bool String Sorting.Permutation Sorting.Sorted.
From Verif Require Import PyBase PolyModel BaryModel BarySpec QuadModel QuadSpec CurveModel VertModel EdgeModel EdgeSpec EdgeProofs EdgeProofs2 EdgeProps3 SplitModel.
Import List ListNotations.
Open Scope R_scope.

Lemma mv2_sim A p q z : orthogonal A -> mv2 A z = sapp (step_sim p q (SOrtho (Some A))) z.
Proof.
  intros H. assert (R1 : regular (Jet z (1, 0) (0, 0) 0)) by (unfold regular, norm2; cbn; lra).
  pose proof (f_equal sx (ortho_sample_of A _ p q H R1)) as E. destruct A as [[a b] [c d]]. exact E.
Qed.
Lemma tr_ortho_sim A x p q : orthogonal A -> tr_ortho (Some A) x = Ok (map (sapp (step_sim p q (SOrtho (Some A)))) x).
Proof.
  intros H. unfold tr_ortho. rewrite orth_defect_0 by exact H. pose proof TOL_pos. replace (Rltb TOL 0) with false by (symmetry; apply Rltb_false; lra).
  f_equal. apply map_ext. intros z. apply mv2_sim, H.
Qed.
Lemma rot_orth th : orthogonal ((cos th, - sin th), (sin th, cos th)).
Proof. pose proof (sin2_cos2 th) as E. unfold Rsqr in E. unfold orthogonal. repeat split; lra. Qed.
Lemma tr_rotate_sim th x p q : tr_rotate th x = Ok (map (sapp (step_sim p q (SRotate th))) x).
Proof.
  unfold tr_rotate. rewrite (tr_ortho_sim _ _ p q (rot_orth _)). f_equal. apply map_ext. intros z. rewrite <- mv2_sim by apply rot_orth.
  unfold mv2, sapp, lin, pt_mul, pt_add. cbn [step_sim s_c s_d s_flip fst snd]. f_equal; ring.
Qed.
Lemma tr_translate_sim v x : tr_translate v x = map (sapp (Sim (1, 0) (coord v) false)) x.
Proof. apply map_ext. intros z. unfold sapp, lin, pt_mul, pt_add, coord. cbn [s_c s_d s_flip fst snd]. f_equal; ring. Qed.
Lemma tr_dilate_sim al x : TOL <= al -> tr_dilate al x = Ok (map (sapp (Sim (al, 0) (0, 0) false)) x).
Proof.
  intros H. pose proof TOL_pos. unfold tr_dilate. replace (Rltb (Rabs al) TOL) with false by (symmetry; apply Rltb_false; rewrite Rabs_pos_eq; lra).
  apply f_equal, map_ext. intros z. unfold sapp, lin, pt_mul, pt_add. cbn [s_c s_d s_flip fst snd]. f_equal; ring.
Qed.

Lemma last_cons_app {A} (p : A) m q d : last (p :: m ++ [q]) d = q.
Proof. rewrite app_comm_cons. apply last_last. Qed.

Lemma tr_step_sim s p m q : step_fine p q s -> tr_step (p :: m ++ [q]) s = Ok (map (sapp (step_sim p q s)) (p :: m ++ [q])).
Proof.
  intros H. destruct s as [a|a b|th| | |al|[A|]]; cbn [tr_step].
  - rewrite tr_translate_sim. reflexivity.
  - destruct H as (F1 & F2 & F3). pose proof TOL_pos as HT. unfold tr_join. rewrite pdist_pow.
    replace (Rltb (pdist (coord a) (coord b)) TOL) with false by (symmetry; apply Rltb_false; exact F1).
    cbv zeta. rewrite last_cons_app, pdist_pow'. replace (Rltb (pdist p q) TOL) with false by (symmetry; apply Rltb_false; exact F2).
    fold (join_theta p q a b). set (th := join_theta p q a b). rewrite (tr_rotate_sim _ _ (0, 0) (0, 0)). cbn [bind]. rewrite tr_dilate_sim by exact F3. cbn [bind]. rewrite !tr_translate_sim, !map_map. f_equal. apply map_ext. intros z.
    pose proof (f_equal jx (join_motion p q a b th ltac:(lra) ltac:(lra) eq_refl (jat z))) as J. exact J.
  - apply tr_rotate_sim.
  - rewrite (tr_ortho_sim _ _ p q) by (unfold orthogonal; lra). f_equal. apply map_ext. intros z. rewrite <- mv2_sim by (unfold orthogonal; lra).
    unfold mv2, sapp, lin, pt_mul, pt_add, pt_conj. cbn [step_sim s_c s_d s_flip fst snd]. f_equal; ring.
  - rewrite (tr_ortho_sim _ _ p q) by (unfold orthogonal; lra). f_equal. apply map_ext. intros z. rewrite <- mv2_sim by (unfold orthogonal; lra).
    unfold mv2, sapp, lin, pt_mul, pt_add, pt_conj. cbn [step_sim s_c s_d s_flip fst snd]. f_equal; ring.
  - apply tr_dilate_sim. exact H.
  - apply tr_ortho_sim. exact H.
  - contradiction.
Qed.

Lemma tr_diary_sim l : forall p m q, diary_fine p q l ->
  fold_res tr_step l (p :: m ++ [q]) = Ok (map (sapp (diary_sim p q l)) (p :: m ++ [q])).
Proof.
  induction l as [|s l IH]; intros p m q H.
  - cbn [fold_res diary_sim]. f_equal. rewrite <- (map_id (p :: m ++ [q])) at 1. apply map_ext. intros z. symmetry. apply id_app.
  - destruct H as [H1 H2]. cbn [fold_res diary_sim]. rewrite (tr_step_sim _ _ _ _ H1). cbn [bind]. cbn [map]. rewrite map_app. cbn [map]. rewrite (IH _ _ _ H2). f_equal.
    cbn [map]. rewrite !map_app. cbn [map]. rewrite map_map. rewrite !comp_app. f_equal. f_equal. apply map_ext. intros z. symmetry. apply comp_app.
Qed.

Lemma join_sim_self S p q : s_flip S = false -> 0 < pdist p q -> join_sim p q (sapp S p) (sapp S q) = S.
Proof.
  intros F H. assert (N : 0 < norm2 (pt_sub q p)) by (rewrite <- pdist_sq, pdist_sym; nra).
  destruct S as [[c1 c2] [d1 d2] f]. cbn [s_flip] in F. subst f. destruct p as [p1 p2], q as [q1 q2].
  unfold join_sim, sapp, lin, pt_div, norm2, pt_sub in *. cbn [s_c s_d s_flip fst snd] in *. unfold pt_add, pt_sub, pt_scale, pt_mul, pt_conj in *. cbn [fst snd] in *.
  f_equal; f_equal; field; lra.
Qed.

(** The edge built by the constructor *)
Definition built (a b : vert) (p n : Z) (c : curve) (q : string) (tb : R * R) (o : opts) : edge :=
  set_cells (set_verts (Edge a b p n c o q None false false false (-1) [] tb []) a b) p n.
Lemma mk_edge_built a b p n c q tb o : mk_edge a b p n c q None tb o = if Rle_dec (snd tb) (fst tb) then Err ValueError else Ok (built a b p n c q tb o).
Proof. unfold mk_edge, check_idx, check_t_bounds, built. cbn [bind]. destruct (Rle_dec _ _); reflexivity. Qed.

Lemma coord_ptv z : coord (ptv z) = z.
Proof. destruct z. reflexivity. Qed.

Lemma piece_trans e p p' : e_pos p = e_pos e -> e_neg p = e_neg e -> e_curve p = e_curve e -> e_opts p = e_opts e -> piece_of p p' -> piece_of e p'.
Proof. unfold piece_of. intros H1 H2 H3 H4 (A & B & C & D & E). rewrite A, B, C, D. repeat split; try assumption; apply E. Qed.

Lemma split_single_struct e t e1 e2 : split_single e t = Ok (e1, e2) ->
  fst (e_tb e) < t < snd (e_tb e) /\ e_tb e1 = (fst (e_tb e), t) /\ e_tb e2 = (t, snd (e_tb e)) /\ piece_of e e1 /\ piece_of e e2 /\ e_endpnt e1 = e_anchor e2.
Proof.
  unfold split_single. destruct (e_tb e) as [a b]. cbn [fst snd]. destruct (cX _ _) as [X|]; [|discriminate]. cbn [bind]. destruct (fold_res _ _ _) as [z|]; [|discriminate]. cbn [bind].
  destruct z as [|z0 [|z1 [|z2 [|]]]]; try discriminate. rewrite !mk_edge_built. cbn [fst snd]. destruct (Rle_dec t a); [discriminate|]. cbn [bind]. destruct (Rle_dec b t); [discriminate|]. cbn [bind].
  intros E. apply Ok_inj in E. assert (e1 = fst (e1, e2)) as -> by reflexivity. assert (e2 = snd (e1, e2)) as E2 by reflexivity. rewrite E in *. cbn [fst snd] in *. subst e2. clear E.
  split; [lra|]. repeat split.
Qed.

Lemma split_loop_cons e t l o : split_loop e (t :: l) o = do (e1, e2) <- split_single e t; do (es, r) <- split_loop e2 l (Some e2); Ok (e1 :: es, r).
Proof. reflexivity. Qed.
Lemma split_loop_struct l : forall e t o es r, split_loop e (t :: l) o = Ok (es, r) -> exists e2, r = Some e2 /\
  let ps := es ++ [e2] in let ts := fst (e_tb e) :: (t :: l) ++ [snd (e_tb e)] in
  StronglySorted Rlt ts /\ map e_tb ps = pairs ts /\ Forall (piece_of e) ps.
Proof.
  induction l as [|t' l IH]; intros e t o es r H; rewrite split_loop_cons in H; destruct (split_single e t) as [[e1 e2]|] eqn:ES; try discriminate; cbn [bind] in H;
    destruct (split_single_struct _ _ _ _ ES) as (B & T1 & T2 & P1 & P2 & J).
  - cbn [split_loop bind] in H. apply Ok_inj in H. assert (Hes : es = [e1]) by congruence. assert (Hr : r = Some e2) by congruence. subst es r. exists e2. split; [reflexivity|]. cbv zeta. cbn [List.app map pairs]. rewrite T1, T2.
    split; [repeat constructor; lra|]. split; [reflexivity|]. repeat constructor; try apply P1; apply P2.
  - destruct (split_loop e2 (t' :: l) (Some e2)) as [[es' r']|] eqn:EL; [|cbn [bind] in H; discriminate H].
    cbn [bind] in H. apply Ok_inj in H. assert (Hes : es = e1 :: es') by congruence. assert (Hr : r = r') by congruence. subst es r. clear H.
    destruct (IH _ _ _ _ _ EL) as (e3 & -> & SS & MT & PF). cbv zeta in *. exists e3. split; [reflexivity|]. rewrite T2 in SS, MT. cbn [fst snd] in SS, MT. cbn [List.app] in *.
    assert (SS' := SS). inversion SS' as [|x xs S1 S2 Ex]. subst x xs.
    split; [|split].
    + constructor; [exact SS|]. constructor; [lra|]. apply Forall_forall. intros y Iy. rewrite Forall_forall in S2. specialize (S2 y Iy). lra.
    + cbn [map pairs] in *. rewrite T1, MT. reflexivity.
    + constructor; [exact P1|]. destruct P2 as (A1 & A2 & A3 & A4 & _). eapply Forall_impl; [|exact PF]. intros p. apply piece_trans; assumption.
Qed.

Lemma pairs_length {A} (l : list A) x : List.length (pairs (x :: l)) = List.length l.
Proof. revert x. induction l as [|y l IH]; intros x; [reflexivity|]. change (pairs (x :: y :: l)) with ((x, y) :: pairs (y :: l)). cbn [List.length]. rewrite IH. reflexivity. Qed.

Lemma split_multiple_struct e l ps : split_multiple e l = Ok ps ->
  let ts := fst (e_tb e) :: l ++ [snd (e_tb e)] in
  StronglySorted Rlt ts /\ map e_tb ps = pairs ts /\ Forall (piece_of e) ps /\ List.length ps = S (List.length l).
Proof.
  unfold split_multiple. intros H. destruct l as [|t l]; [discriminate|]. destruct (split_loop e (t :: l) None) as [[es r]|] eqn:EL; [|cbn [bind] in H; discriminate H].
  destruct (split_loop_struct _ _ _ _ _ _ EL) as (e2 & -> & SS & MT & PF). cbn [bind] in H. apply Ok_inj in H. subst ps. cbv zeta in *. repeat split; try assumption.
  rewrite <- (map_length e_tb), MT, pairs_length, app_length. cbn [List.length]. lia.
Qed.

(** ** Geometry *)
Lemma built_diary X S a b p n c q tb o : s_flip S = false -> TOL <= norm (s_c S) -> far X (norm (s_c S)) (fst tb) (snd tb) ->
  a = ptv (sapp S (X (fst tb))) -> b = ptv (sapp S (X (snd tb))) -> let e := built a b p n c q tb o in
  e_diary e = [SJoin a b] /\ e_loop e = false /\ diary_fine (X (fst tb)) (X (snd tb)) (e_diary e) /\ diary_sim (X (fst tb)) (X (snd tb)) (e_diary e) = S.
Proof.
  intros HF HK [F1 F2] -> -> e. pose proof TOL_pos as HT. set (p0 := X (fst tb)) in *. set (q0 := X (snd tb)) in *.
  assert (D : pdist (sapp S p0) (sapp S q0) = norm (s_c S) * pdist p0 q0) by apply app_dist.
  assert (V : veqb (ptv (sapp S p0)) (VVert (ptv (sapp S q0))) = false).
  { unfold veqb, vnorm, mkvert. cbn [vx vy]. rewrite pdist_pow, !coord_ptv, D. apply Rltb_false. exact F2. }
  assert (E1 : e_diary e = [SJoin (ptv (sapp S p0)) (ptv (sapp S q0))]) by (unfold e, built, set_cells, set_verts; cbn [e_diary]; rewrite V; reflexivity).
  assert (E2 : e_loop e = false) by (unfold e, built, set_cells, set_verts; cbn [e_loop]; exact V).
  split; [exact E1|]. split; [exact E2|]. rewrite E1. split.
  - split; [|exact I]. cbn [step_fine]. rewrite !coord_ptv, D. split; [exact F2|]. split; [exact F1|]. replace (norm (s_c S) * pdist p0 q0 / pdist p0 q0) with (norm (s_c S)) by (field; lra). exact HK.
  - cbn [diary_sim]. rewrite sim_comp_id_l. cbn [step_sim]. rewrite !coord_ptv. apply join_sim_self; [exact HF|lra].
Qed.

(** A piece that lies on the curve [X] moved by [S] *)
Definition on_curve (X : R -> pt) (S : sim) (p : edge) : Prop :=
  let s := fst (e_tb p) in let t := snd (e_tb p) in
  s < t /\ e_anchor p = ptv (sapp S (X s)) /\ e_endpnt p = ptv (sapp S (X t)) /\ e_loop p = false /\
  diary_fine (X s) (X t) (e_diary p) /\ diary_sim (X s) (X t) (e_diary p) = S.

Lemma split_single_curve X S e t : cX (e_curve e) (e_opts e) = Ok X ->
  diary_fine (X (fst (e_tb e))) (X (snd (e_tb e))) (e_diary e) -> diary_sim (X (fst (e_tb e))) (X (snd (e_tb e))) (e_diary e) = S ->
  s_flip S = false -> TOL <= norm (s_c S) -> fst (e_tb e) < t < snd (e_tb e) ->
  far X (norm (s_c S)) (fst (e_tb e)) t -> far X (norm (s_c S)) t (snd (e_tb e)) ->
  exists e1 e2, split_single e t = Ok (e1, e2) /\ on_curve X S e1 /\ on_curve X S e2.
Proof.
  intros HX HD HS HF HK HT F1 F2. unfold split_single. destruct (e_tb e) as [a b]. cbn [fst snd] in *. rewrite HX. cbn [bind].
  pose proof (tr_diary_sim _ (X a) [X t] (X b) HD) as TD. cbn [List.app] in TD. rewrite TD, HS. cbn [map bind]. rewrite !mk_edge_built. cbn [fst snd].
  destruct (Rle_dec t a); [lra|]. cbn [bind]. destruct (Rle_dec b t); [lra|]. cbn [bind]. do 2 eexists. split; [reflexivity|].
  fold (ptv (sapp S (X a))) (ptv (sapp S (X t))) (ptv (sapp S (X b))). split; unfold on_curve; cbv zeta.
  - destruct (built_diary X S (ptv (sapp S (X a))) (ptv (sapp S (X t))) (e_pos e) (e_neg e) (e_curve e) "kress" (a, t) (e_opts e) HF HK F1 eq_refl eq_refl) as (_ & B & C & D).
    change (e_tb (built _ _ _ _ _ _ _ _)) with (a, t). cbn [fst snd] in *. repeat split; try assumption. lra.
  - destruct (built_diary X S (ptv (sapp S (X t))) (ptv (sapp S (X b))) (e_pos e) (e_neg e) (e_curve e) "kress" (t, b) (e_opts e) HF HK F2 eq_refl eq_refl) as (_ & B & C & D).
    change (e_tb (built _ _ _ _ _ _ _ _)) with (t, b). cbn [fst snd] in *. repeat split; try assumption. lra.
Qed.

Lemma split_loop_curve X S : s_flip S = false -> TOL <= norm (s_c S) -> forall l e t o, cX (e_curve e) (e_opts e) = Ok X ->
  diary_fine (X (fst (e_tb e))) (X (snd (e_tb e))) (e_diary e) -> diary_sim (X (fst (e_tb e))) (X (snd (e_tb e))) (e_diary e) = S ->
  StronglySorted Rlt (fst (e_tb e) :: (t :: l) ++ [snd (e_tb e)]) ->
  Forall (fun st => far X (norm (s_c S)) (fst st) (snd st)) (pairs (fst (e_tb e) :: t :: l)) ->
  Forall (fun s => far X (norm (s_c S)) s (snd (e_tb e))) (t :: l) ->
  exists es e2, split_loop e (t :: l) o = Ok (es, Some e2) /\ Forall (on_curve X S) (es ++ [e2]).
Proof.
  intros HF HK. induction l as [|t' l IH]; intros e t o HX HD HS SS FP FB.
  - inversion SS as [|x xs S1 S2 Ex]. subst x xs. inversion S1 as [|x xs S3 S4 Ex]. subst x xs.
    inversion S2. subst. inversion S4. subst. inversion FP. subst. inversion FB. subst. cbn [fst snd] in *.
    destruct (split_single_curve X _ e t HX HD eq_refl HF HK ltac:(lra) ltac:(assumption) ltac:(assumption)) as (e1 & e2 & E & O1 & O2).
    exists [e1], e2. cbn [split_loop]. rewrite E. split; [reflexivity|]. cbn [List.app]. constructor; [exact O1|constructor; [exact O2|constructor]].
  - cbn [List.app] in SS. inversion SS as [|x xs S1 S2 Ex]. subst x xs. inversion S1 as [|x xs S3 S4 Ex]. subst x xs.
    inversion S2. subst. change (pairs (fst (e_tb e) :: t :: t' :: l)) with ((fst (e_tb e), t) :: pairs (t :: t' :: l)) in FP. inversion FP. subst. inversion FB. subst. cbn [fst snd] in *.
    assert (TB : t < snd (e_tb e)) by (rewrite Forall_forall in S4; apply S4; right; apply in_or_app; right; left; reflexivity).
    destruct (split_single_curve X _ e t HX HD eq_refl HF HK ltac:(lra) ltac:(assumption) ltac:(assumption)) as (e1 & e2 & E & O1 & O2).
    destruct (split_single_struct _ _ _ _ E) as (_ & T1 & T2 & _ & (_ & _ & C2 & P2 & _) & _).
    destruct O2 as (Q1 & Q2 & Q3 & Q4 & Q5 & Q6). rewrite T2 in Q5, Q6. cbn [fst snd] in Q5, Q6.
    destruct (IH e2 t' (Some e2)) as (es & e3 & L & F).
    + rewrite C2, P2. exact HX.
    + rewrite T2. exact Q5.
    + rewrite T2. exact Q6.
    + rewrite T2. exact S1.
    + rewrite T2. cbn [fst]. assumption.
    + rewrite T2. cbn [snd]. assumption.
    + exists (e1 :: es), e3. change (split_loop e (t :: t' :: l) o) with (do (a, b) <- split_single e t; do (es, r) <- split_loop b (t' :: l) (Some b); Ok (a :: es, r)). rewrite E. cbn [bind]. rewrite L. cbn [bind]. split; [reflexivity|]. cbn [List.app]. constructor; assumption.
Qed.

(** ** Sorting *)
Lemma insert_perm t l : Permutation (t :: l) (insert_r t l).
Proof. induction l as [|u l IH]; [reflexivity|]. cbn. destruct (Rle_dec t u); [reflexivity|]. rewrite perm_swap. constructor. exact IH. Qed.
Lemma sort_perm l : Permutation l (sort_r l).
Proof. induction l as [|t l IH]; [constructor|]. cbn. rewrite <- insert_perm. constructor. exact IH. Qed.
Lemma insert_sorted t l : StronglySorted Rle l -> StronglySorted Rle (insert_r t l).
Proof.
  induction 1 as [|u l S1 IH S2]; [repeat constructor|]. cbn. destruct (Rle_dec t u) as [L|L].
  - constructor; [constructor; assumption|]. constructor; [exact L|]. eapply Forall_impl; [|exact S2]. cbn. intros. lra.
  - constructor; [exact IH|]. rewrite Forall_forall in *. intros x Ix. apply (Permutation_in x (Permutation_sym (insert_perm t l))) in Ix. destruct Ix as [-> |Ix]; [lra|apply S2, Ix].
Qed.
Lemma sort_sorted l : StronglySorted Rle (sort_r l).
Proof. induction l as [|t l IH]; [constructor|]. apply insert_sorted, IH. Qed.
Lemma sort_id l : StronglySorted Rle l -> sort_r l = l.
Proof.
  induction 1 as [|t l S1 IH S2]; [reflexivity|]. cbn. fold (sort_r l). rewrite IH. destruct l as [|u l]; [reflexivity|]. cbn. inversion S2. subst. destruct (Rle_dec t u); [reflexivity|lra].
Qed.
Lemma sort_length l : List.length (sort_r l) = List.length l.
Proof. apply Permutation_length, Permutation_sym, sort_perm. Qed.
