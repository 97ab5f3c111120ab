(** Lemmas on cells after an exception. *)
From Coq Require Import String List ZArith Reals Lia Lra Bool.
From Verif Require Import PyBase PolyModel BaryModel BBoxModel QuadModel CurveModel VertModel EdgeModel EdgeSpec EdgeProofs EdgeProofs2 EdgeProps3 ContourModel CellModel CellSpec CellProps CellProofs CellProofs2 ContourProofs ContourProofs2 ContourProofs3 ContourProofs4 CellProps5 DeparamProps FaultModel FaultProofs CellFaultModel CellFaultSpec.
Import List ListNotations.
Open Scope R_scope.

(** ** Edges *)
Lemma calm_bare e : calm (deparameterize e) <-> calm e.
Proof.
  unfold calm. change (e_diary (deparameterize e)) with (e_diary e). change (e_anchor (deparameterize e)) with (e_anchor e). change (e_endpnt (deparameterize e)) with (e_endpnt e).
  assert (X : set_verts (deparameterize e) (e_anchor e) (e_endpnt e) = deparameterize e <-> set_verts e (e_anchor e) (e_endpnt e) = e); [|rewrite X; reflexivity].
  destruct e as [a b p n c o q i bd lo pa np sm tb di]. unfold set_verts, deparameterize, with_param. cbn. split; intros E; injection E as E1 E2; rewrite E2, E1; reflexivity.
Qed.
Lemma calm_same e e' : deparameterize e' = deparameterize e -> calm e -> calm e'.
Proof. intros E C. apply calm_bare. rewrite E. apply calm_bare, C. Qed.

Lemma on_smp_bare f e : deparameterize (on_smp f e) = deparameterize e.
Proof. unfold on_smp. destruct (e_param e); reflexivity. Qed.
Lemma ortho_bare A e : deparameterize (fst (st_ortho false A e)) = deparameterize e.
Proof. unfold st_ortho. destruct A as [M|]; [|reflexivity]. destruct (Rltb TOL _); [reflexivity|]. cbn [fst log]. apply on_smp_bare. Qed.
Lemma dilate_bare al e : deparameterize (fst (st_dilate false al e)) = deparameterize e.
Proof. unfold st_dilate. destruct (Rltb _ TOL); [reflexivity|]. cbn [fst log]. apply on_smp_bare. Qed.
Lemma rotate_bare th e : deparameterize (fst (st_rotate false th e)) = deparameterize e.
Proof. unfold st_rotate. cbn [log]. cbv zeta. destruct (e_param e); [apply ortho_bare|reflexivity]. Qed.
Lemma andthen_bare e r f : deparameterize (fst r) = deparameterize e -> (forall e, deparameterize (fst (f e)) = deparameterize e) -> deparameterize (fst (andthen r f)) = deparameterize e.
Proof. intros E F. destruct r as [e1 [x|]]; cbn in *; [exact E|]. rewrite F. exact E. Qed.
Lemma step_bare s e : (forall a b, s <> SJoin a b) -> deparameterize (fst (st_step false s e)) = deparameterize e.
Proof.
  intros N. destruct s as [a|a b|th| | |al|A]; cbn [st_step].
  - unfold translate. cbn [fst log]. apply on_smp_bare.
  - destruct (N a b eq_refl).
  - apply rotate_bare.
  - unfold st_reflect_x. cbn [log]. cbv zeta. destruct (e_param e); [apply ortho_bare|reflexivity].
  - unfold st_reflect_y. cbn [log]. cbv zeta. destruct (e_param e); [apply ortho_bare|reflexivity].
  - apply dilate_bare.
  - apply ortho_bare.
Qed.
Lemma no_join_cons s l : last_join (s :: l) = None -> (forall a b, s <> SJoin a b) /\ last_join l = None.
Proof. cbn [last_join]. destruct (last_join l) as [[a b]|]; [discriminate|]. intros E. split; [|reflexivity]. intros a b ->. discriminate. Qed.
Lemma run_bare l : forall e, last_join l = None -> deparameterize (fst (st_run l e)) = deparameterize e.
Proof.
  induction l as [|s l IH]; intros e J; [reflexivity|]. apply no_join_cons in J. destruct J as [N J]. rewrite st_run_cons. apply andthen_bare; [apply step_bare, N|]. intros. apply IH, J.
Qed.
Lemma set_verts_same e e' a b : deparameterize e' = deparameterize e -> deparameterize (set_verts e' a b) = deparameterize (set_verts e a b).
Proof. intros E. change (set_verts (deparameterize e') a b = set_verts (deparameterize e) a b). rewrite E. reflexivity. Qed.
Lemma join_bare a b e : deparameterize (set_verts e a b) = deparameterize e -> deparameterize (fst (st_join false a b e)) = deparameterize e.
Proof.
  intros S. unfold st_join. destruct (Rltb _ TOL); [reflexivity|]. cbn [log]. cbv zeta. destruct (e_param e); [|reflexivity]. destruct (nth_error _ 0) as [s0|]; [|reflexivity]. destruct (nth_error _ _) as [s1|]; [|reflexivity]. destruct (Rltb _ TOL); [reflexivity|].
  match goal with |- deparameterize (fst (andthen (andthen ?r ?f) _)) = _ => assert (X : deparameterize (fst (andthen r f)) = deparameterize e); [|destruct (andthen r f) as [e1 [x|]]; cbn [andthen snd fst] in *; [exact X|]] end.
  - apply andthen_bare; [rewrite rotate_bare; unfold translate; cbn [log]; apply on_smp_bare|intros; apply dilate_bare].
  - rewrite <- S. apply set_verts_same. unfold translate. cbn [log]. rewrite on_smp_bare. exact X.
Qed.
Lemma diary_bare e u : calm e -> deparameterize u = deparameterize e -> deparameterize (fst (st_run (e_diary e) u)) = deparameterize e.
Proof.
  intros C U. pose proof (calm_same _ _ U C) as Cu. assert (D : e_diary u = e_diary e) by (change (e_diary (deparameterize u) = e_diary (deparameterize e)); rewrite U; reflexivity). rewrite <- U, <- D. clear U D C. destruct Cu as [J|S]; [apply run_bare, J|].
  assert (D : e_diary u = if veqb (e_anchor u) (VVert (e_endpnt u)) then [STranslate (e_anchor u)] else [SJoin (e_anchor u) (e_endpnt u)]) by (rewrite <- S at 1; reflexivity).
  destruct (veqb _ _) eqn:V; [apply run_bare; rewrite D; reflexivity|]. rewrite D, st_run_cons. apply andthen_bare; [|reflexivity]. cbn [st_step]. apply join_bare. rewrite S. reflexivity.
Qed.

Lemma st_param_outcome qd e : outcome (st_param qd e) = parameterize qd e.
Proof.
  unfold st_param, parameterize. destruct (String.eqb (e_qtype e) "trap"); [|destruct (String.eqb (e_qtype e) "kress"); [|reflexivity]]; cbn [bind]; destruct (e_tb e) as [a b]; (destruct (cX _ _) as [X|]; [|destruct (cDX _ _), (cDDX _ _); reflexivity]); cbn [bind]; (destruct (cDX _ _) as [DX|]; [|destruct (cDDX _ _); reflexivity]); cbn [bind]; (destruct (cDDX _ _) as [DDX|]; [|reflexivity]); cbn [bind]; unfold run_diary; cbn [e_diary with_param];
    match goal with |- context [st_run ?l ?u] => pose proof (st_run_outcome l u) as X1; destruct (st_run l u) as [e2 [x|]] end; cbn [outcome snd fst] in *; match goal with |- context [fold_res ?f ?l ?u] => destruct (fold_res f l u) end; try discriminate; try (apply Ok_inj in X1; subst; reflexivity); injection X1 as ->; reflexivity.
Qed.
Lemma st_param_bare n p qd e : get_quad_dict n p = Ok qd -> calm e -> deparameterize (fst (st_param qd e)) = deparameterize e.
Proof.
  intros Q C. unfold st_param. assert (P : match (if String.eqb (e_qtype e) "trap" then Some (fst qd) else if String.eqb (e_qtype e) "kress" then Some (snd qd) else None) with Some q => q_type q = e_qtype e | None => True end).
  { pose proof (fun q => pick_ok n p qd e q Q) as K. unfold EdgeProofs2.pick in K. destruct (String.eqb _ "trap"); [apply (K _ eq_refl)|]. destruct (String.eqb _ "kress"); [apply (K _ eq_refl)|exact I]. }
  destruct (if String.eqb _ _ then _ else _) as [q|]; [|reflexivity]. destruct (e_tb e) as [a b]. destruct (cX _ _) as [X|]; [|reflexivity]. destruct (cDX _ _) as [DX|]; [|reflexivity]. destruct (cDDX _ _) as [DDX|]; [|reflexivity]. cbv zeta.
  match goal with |- context [st_run ?l ?u] => pose proof (diary_bare e u C eq_refl) as D; pose proof (run_keeps l u) as (_ & _ & _ & _ & _ & K & _); destruct (st_run l u) as [e2 [x|]] end; cbn [fst] in *; [exact D|]. cbn [e_qtype with_param] in K. rewrite P, <- K. rewrite <- D. reflexivity.
Qed.
Lemma reverse_bare e : deparameterize (reverse_orientation e) = deparameterize e.
Proof. unfold reverse_orientation. destruct (e_param e); reflexivity. Qed.

(** ** The edges of a contour *)
Definition out {A} (r : A * option exc) : res A := match snd r with None => Ok (fst r) | Some x => Err x end.
Lemma st_edge_stop qd l H x : fold_left (st_edge qd) l (H, Some x) = (H, Some x).
Proof. induction l as [|io l IH]; [reflexivity|exact IH]. Qed.
Lemma st_edges_outcome qd l : forall H, out (fold_left (st_edge qd) l (H, None)) = fold_res (edge_step qd) l H.
Proof.
  induction l as [|io l IH]; intros H; [reflexivity|]. cbn [fold_left fold_res]. unfold st_edge at 2, edge_step at 1. cbn [fst snd]. destruct (deref H (fst io)) as [e|]; [|rewrite st_edge_stop; reflexivity]. cbn [bind]. pose proof (st_param_outcome qd e) as X. destruct (st_param qd e) as [e' [x|]]; cbn [outcome fst snd] in X; rewrite <- X; cbn [bind]; [rewrite st_edge_stop; reflexivity|apply IH].
Qed.
(** What a step may change: samples of the edges at the places in [l] *)
Definition only_samples (l : list nat) (H H' : heap) : Prop := same_bare H H' /\ forall i, ~ In i l -> nth_error H' i = nth_error H i.
Lemma only_refl l H : only_samples l H H. Proof. split; [intros i; reflexivity|auto]. Qed.
Lemma only_trans l l1 l2 H H1 H2 : incl l1 l -> incl l2 l -> only_samples l1 H H1 -> only_samples l2 H1 H2 -> only_samples l H H2.
Proof. intros I1 I2 [B1 F1] [B2 F2]. split; [intros i; rewrite B2; apply B1|]. intros i N. rewrite F2, F1; auto. Qed.
Definition calm_at (H : heap) (l : list nat) : Prop := forall i e, In i l -> nth_error H i = Some e -> calm e.
Lemma calm_follow H H' l : same_bare H H' -> calm_at H l -> calm_at H' l.
Proof. intros B C i e' Ii E'. specialize (B i). rewrite E' in B. destruct (nth_error H i) as [e|] eqn:E; [|discriminate]. assert (B1 : deparameterize e' = deparameterize e) by (cbn [option_map] in B; congruence). exact (calm_same _ _ B1 (C i e Ii E)). Qed.
Lemma st_edges_only n p qd (Q : get_quad_dict n p = Ok qd) l : forall H r, calm_at H (map fst l) -> fold_left (st_edge qd) l (H, None) = r -> only_samples (map fst l) H (fst r).
Proof.
  induction l as [|[i o] l IH]; intros H r C E; cbn [fold_left map fst] in *; [subst; apply only_refl|]. unfold st_edge at 2 in E. cbn [fst snd] in E. unfold deref in E. destruct (nth_error H i) as [e|] eqn:Ei; [|rewrite st_edge_stop in E; subst r; apply only_refl].
  pose proof (st_param_bare n p qd e Q (C i e (or_introl eq_refl) Ei)) as B. destruct (st_param qd e) as [e' x]. cbn [fst] in B. assert (L : (i < List.length H)%nat) by (apply nth_error_Some; congruence).
  set (f := match x with None => if Z.eqb o (-1) then reverse_orientation e' else e' | Some _ => e' end) in *. assert (Bf : deparameterize f = deparameterize e) by (unfold f; destruct x; [exact B|]; destruct (Z.eqb o (-1)); [rewrite reverse_bare|]; exact B).
  assert (O : only_samples [i] H (hset H i f)). { split; [|intros j N; apply hset_other; [exact L|intros ->; apply N; left; reflexivity]]. intros j. destruct (Nat.eq_dec i j) as [<-|Ne]; [rewrite hset_same, Ei by exact L; cbn; rewrite Bf; reflexivity|rewrite hset_other by assumption; reflexivity]. }
  destruct x as [x|]; [rewrite st_edge_stop in E; subst r; cbn [fst]; eapply only_trans; [|apply incl_refl|exact O|apply only_refl]; intros j [<-|[]]; left; reflexivity|].
  eapply only_trans; [| |exact O|eapply IH; [|exact E]].
  - intros j [<-|[]]. left. reflexivity.
  - intros j Ij. right. exact Ij.
  - eapply calm_follow; [apply O|]. intros j e1 Ij. apply C. right. exact Ij.
Qed.

(** ** Contours *)
Lemma stage_out {A} (f : A -> res A) r : out (stage f r) = do a <- out r; f a.
Proof. destruct r as [a [x|]]; [reflexivity|]. unfold stage. cbn. destruct (f a); reflexivity. Qed.
Section Inside.
Variable contains : R -> list pt -> pt -> bool.
Lemma st_loop_out H k box t : forall n M d cur, out (st_loop contains n H k box t M d cur) = interior_loop contains n H k box t M d cur.
Proof.
  induction n as [|n IH]; intros M d cur; cbn [st_loop interior_loop]; (destruct (Rlt_dec d t); [|reflexivity]); [reflexivity|]. destruct box as [[[x0 x1] y0] y1]. cbv zeta.
  destruct (np_linspace x0 x1 M); [|reflexivity]. cbn [bind]. destruct (np_linspace y0 y1 M); [|reflexivity]. cbn [bind]. destruct (inside2 _ _ _ _); [|reflexivity]. cbn [bind]. destruct (map_res _ _); [|reflexivity]. cbn [bind]. destruct (argmax _); [|reflexivity]. cbn [bind]. destruct (geti _ _); [|reflexivity]. cbn [bind]. destruct (geti _ _); [|reflexivity]. cbn [bind]. destruct (geti _ _); [|reflexivity]. cbn [bind]. destruct (geti _ _); [|reflexivity]. cbn [bind]. destruct (Z.ltb _ _); [reflexivity|]. apply IH.
Qed.
Lemma st_interior_out H k : out (st_interior contains H k) = find_interior_point contains H k.
Proof.
  unfold st_interior, find_interior_point. destruct (guard H k); [|reflexivity]. cbn [bind]. destruct (contour_points H k) as [[x y]|]; [|reflexivity]. cbn [bind]. destruct (bounding_box _ x y) as [[[[x0 x1] y0] y1]|]; [|reflexivity]. cbn [bind].
  match goal with |- context [st_loop ?a ?b ?c ?d ?e ?f ?g ?h ?i] => rewrite <- (st_loop_out c d e f b g h i); destruct (st_loop a b c d e f g h i) as [p [x1'|]] end; reflexivity.
Qed.
Definition out3 {A B} (r : A * B * option exc) : res (A * B) := out r.
Lemma st_contour_out qd H k : out3 (st_contour contains qd H k) = param_contour contains qd H k.
Proof.
  unfold st_contour, st_edges, param_contour, param_edges. fold (edge_step qd). rewrite <- (st_edges_outcome qd). destruct (fold_left (st_edge qd) _ _) as [H1 [x|]]; [reflexivity|]. cbn [out snd fst bind].
  assert (X : out (stage (find_closest_local H1) (stage (find_local_vert_idx H1) (stage (find_num_pts H1) (k, None)))) = do a <- find_num_pts H1 k; do a <- find_local_vert_idx H1 a; find_closest_local H1 a) by (rewrite !stage_out; cbn [out snd fst bind]; rewrite !bind_assoc; reflexivity).
  destruct (stage _ _) as [k1 [x|]]; cbn [out snd fst] in X.
  - cbn [out3 out snd]. destruct (find_num_pts H1 k); cbn [bind] in *; [|congruence]. destruct (find_local_vert_idx H1 _); cbn [bind] in *; [|congruence]. destruct (find_closest_local H1 _); cbn [bind] in *; congruence.
  - destruct (find_num_pts H1 k); cbn [bind] in *; [|discriminate]. destruct (find_local_vert_idx H1 _); cbn [bind] in *; [|discriminate]. destruct (find_closest_local H1 _); cbn [bind] in *; [|discriminate]. apply Ok_inj in X. subst. rewrite <- st_interior_out. destruct (st_interior _ _ _) as [k2 [x|]]; reflexivity.
Qed.
Definition same_place (k k' : contour) : Prop := k_cell k' = k_cell k /\ k_edges k' = k_edges k /\ k_orients k' = k_orients k.
Lemma place_refl k : same_place k k. Proof. repeat split. Qed.
Lemma place_trans k k1 k2 : same_place k k1 -> same_place k1 k2 -> same_place k k2. Proof. unfold same_place. intuition congruence. Qed.
Lemma stage_inv {A} (P : A -> A -> Prop) f r : (forall a, P a a) -> (forall a b, f a = Ok b -> P a b) -> P (fst r) (fst (stage f r)).
Proof. intros Rf F. unfold stage. destruct r as [a [x|]]; [apply Rf|]. cbn [snd fst]. destruct (f a) eqn:E; [apply F, E|apply Rf]. Qed.
Lemma num_place H k k' : find_num_pts H k = Ok k' -> same_place k k'.
Proof. unfold find_num_pts. destruct (guard H k); [|discriminate]. cbn [bind]. destruct (fold_res _ _ _); [|discriminate]. cbn [bind]. intros E. apply Ok_inj in E. subst. repeat split. Qed.
Lemma vidx_place H k k' : find_local_vert_idx H k = Ok k' -> same_place k k'.
Proof. unfold find_local_vert_idx. destruct (guard H k); [|discriminate]. cbn [bind]. destruct (fold_res _ _ _); [|discriminate]. cbn [bind]. intros E. apply Ok_inj in E. subst. repeat split. Qed.
Lemma closest_place H k k' : find_closest_local H k = Ok k' -> same_place k k'.
Proof. unfold find_closest_local. destruct (guard H k); [|discriminate]. cbn [bind]. destruct (map_res _ _); [|discriminate]. cbn [bind]. destruct (attr _); [|discriminate]. cbn [bind]. destruct (fold_res _ _ _); [|discriminate]. cbn [bind]. intros E. apply Ok_inj in E. subst. repeat split. Qed.
Lemma interior_place H k : same_place k (fst (st_interior contains H k)).
Proof. unfold st_interior. destruct (do _ <- guard H k; _) as [[[[x0 x1] y0] y1]|]; [|apply place_refl]. destruct (st_loop _ _ _ _ _ _ _ _ _) as [p x]. repeat split. Qed.
Lemma st_contour_only n p qd (Q : get_quad_dict n p = Ok qd) H k H' k' x : wf_contour k -> calm_at H (k_edges k) -> st_contour contains qd H k = (H', k', x) -> only_samples (k_edges k) H H' /\ same_place k k'.
Proof.
  intros W C E. unfold st_contour, st_edges in E. assert (F : map fst (combine (k_edges k) (k_orients k)) = k_edges k) by (apply fst_combine, W).
  pose proof (fun r => st_edges_only n p qd Q (combine (k_edges k) (k_orients k)) H r) as O. rewrite F in O. specialize (O _ C eq_refl). destruct (fold_left (st_edge qd) _ _) as [H1 [y|]]; cbn [fst] in O; [injection E as <- <- <-; split; [exact O|apply place_refl]|].
  assert (S : same_place k (fst (stage (find_closest_local H1) (stage (find_local_vert_idx H1) (stage (find_num_pts H1) (k, None)))))).
  { eapply place_trans; [eapply place_trans|]; [exact (stage_inv same_place (find_num_pts H1) (k, None) place_refl (num_place H1))|exact (stage_inv same_place _ _ place_refl (vidx_place H1))|exact (stage_inv same_place _ _ place_refl (closest_place H1))]. }
  destruct (stage _ _) as [k1 [y|]]; cbn [fst] in S; [injection E as <- <- <-; split; assumption|]. pose proof (interior_place H1 k1) as S1. destruct (st_interior contains H1 k1) as [k2 y]. injection E as <- <- <-. split; [exact O|exact (place_trans _ _ _ S S1)].
Qed.

(** ** Components *)
Lemma st_comps_out qd ks : forall H done, fold_res (fun Hl k => do (H, k) <- param_contour contains qd (fst Hl) k; Ok (H, snd Hl ++ [k])) ks (H, done) = do (H', ks') <- out3 (st_comps contains qd H ks); Ok (H', done ++ ks').
Proof.
  induction ks as [|k ks IH]; intros H done; cbn [fold_res st_comps]; [cbn; rewrite app_nil_r; reflexivity|]. cbn [fst snd]. rewrite <- st_contour_out. destruct (st_contour contains qd H k) as [[H1 k1] [x|]]; [reflexivity|]. cbn [out3 out snd fst bind]. rewrite IH. destruct (st_comps contains qd H1 ks) as [[H2 ks2] [x|]]; [reflexivity|]. cbn. rewrite <- app_assoc. reflexivity.
Qed.
Lemma param_comps_out qd H ks : param_comps contains qd H ks = out3 (st_comps contains qd H ks).
Proof. unfold param_comps. rewrite st_comps_out. destruct (st_comps contains qd H ks) as [[H' ks'] [x|]]; reflexivity. Qed.
Lemma st_comps_only n p qd (Q : get_quad_dict n p = Ok qd) ks : forall H H' ks' x, Forall wf_contour ks -> calm_at H (concat (map k_edges ks)) -> st_comps contains qd H ks = (H', ks', x) -> only_samples (concat (map k_edges ks)) H H' /\ Forall2 same_place ks ks'.
Proof.
  induction ks as [|k ks IH]; intros H H' ks' x W C E; cbn [st_comps] in E; [injection E as <- <- <-; split; [apply only_refl|constructor]|]. inversion W as [|? ? W1 W2]; subst. cbn [map concat] in *.
  destruct (st_contour contains qd H k) as [[H1 k1] y] eqn:E1. destruct (st_contour_only n p qd Q H k H1 k1 y W1) as (O1 & S1); [intros i e Ii; apply C, in_or_app; left; exact Ii|exact E1|].
  destruct y as [y|].
  - injection E as <- <- <-. split; [eapply only_trans; [|apply incl_refl|exact O1|apply only_refl]; intros i Ii; apply in_or_app; left; exact Ii|]. constructor; [exact S1|]. clear. induction ks; constructor; [apply place_refl|assumption].
  - destruct (st_comps contains qd H1 ks) as [[H2 ks2] y] eqn:E2. injection E as <- <- <-. destruct (IH H1 H2 ks2 y W2) as (O2 & S2); [eapply calm_follow; [apply O1|]; intros i e Ii; apply C, in_or_app; right; exact Ii|exact E2|]. split; [|constructor; assumption]. eapply only_trans; [| |exact O1|exact O2]; intros i Ii; apply in_or_app; auto.
Qed.

(** ** Cells *)
Lemma st_points_out H c : out (st_points contains H c) = interior_points contains H c.
Proof. unfold st_points. destruct (interior_points contains H c); [reflexivity|]. destruct (c_mesh c) as [r cl]. destruct (do (_, _, _, _) <- cell_box H c; _); reflexivity. Qed.
Lemma st_cell_out qd w H c : out3 (st_cell contains qd w H c) = param_cell contains qd w H c.
Proof.
  unfold st_cell, param_cell. rewrite param_comps_out. destruct (st_comps contains qd H (c_comps c)) as [[H1 ks] [x|]]; [reflexivity|]. cbn [out3 out snd fst bind].
  assert (X : out (stage (cell_closest H1) (stage (cell_start_idx H1) (stage (find_outer contains H1) (stage (cell_num_pts H1) (with_comps c ks, None))))) = do a <- cell_num_pts H1 (with_comps c ks); do a <- find_outer contains H1 a; do a <- cell_start_idx H1 a; cell_closest H1 a) by (rewrite !stage_out; cbn [out snd fst bind]; rewrite !bind_assoc; reflexivity).
  destruct (stage _ _) as [c1 [x|]]; cbn [out snd fst] in X.
  - cbn [out3 out snd]. destruct (cell_num_pts H1 _); cbn [bind] in *; [|congruence]. destruct (find_outer _ H1 _); cbn [bind] in *; [|congruence]. destruct (cell_start_idx H1 _); cbn [bind] in *; [|congruence]. destruct (cell_closest H1 _); cbn [bind] in *; congruence.
  - destruct (cell_num_pts H1 _); cbn [bind] in *; [|discriminate]. destruct (find_outer _ H1 _); cbn [bind] in *; [|discriminate]. destruct (cell_start_idx H1 _); cbn [bind] in *; [|discriminate]. destruct (cell_closest H1 _); cbn [bind] in *; [|discriminate]. apply Ok_inj in X. subst. destruct w; [|reflexivity]. rewrite <- st_points_out. destruct (st_points _ _ _) as [c2 [x|]]; reflexivity.
Qed.
End Inside.

(** ** Interior points are not read *)
Definition rmap {A B} (f : A -> B) (r : res A) : res B := do a <- r; Ok (f a).
Lemma geti_map {A B} (f : A -> B) l i : geti (map f l) i = rmap f (geti l i).
Proof. unfold geti. rewrite nth_error_map. destruct (nth_error l i); reflexivity. Qed.
Lemma fold_res_map {A B C} (f : C -> B -> res C) (g : A -> B) l : forall a, fold_res f (map g l) a = fold_res (fun c x => f c (g x)) l a.
Proof. induction l as [|x l IH]; intros a; [reflexivity|]. cbn [map fold_res]. destruct (f a (g x)); [apply IH|reflexivity]. Qed.
Lemma fold_res_eq {A C} (f g : C -> A -> res C) (E : forall c x, f c x = g c x) l : forall a, fold_res f l a = fold_res g l a.
Proof. induction l as [|x l IH]; intros a; [reflexivity|]. cbn [fold_res]. rewrite E. destruct (g a x); [apply IH|reflexivity]. Qed.
Notation bk := bare_contour.
Notation bc := bare_cell.
Lemma num_bare H k : find_num_pts H (bk k) = rmap bk (find_num_pts H k).
Proof. unfold find_num_pts, rmap. change (guard H (bk k)) with (guard H k). change (k_edges (bk k)) with (k_edges k). destruct (guard H k); [|reflexivity]. cbn [bind]. destruct (fold_res _ _ _); reflexivity. Qed.
Lemma vidx_bare H k : find_local_vert_idx H (bk k) = rmap bk (find_local_vert_idx H k).
Proof. unfold find_local_vert_idx, rmap. change (guard H (bk k)) with (guard H k). change (k_edges (bk k)) with (k_edges k). destruct (guard H k); [|reflexivity]. cbn [bind]. destruct (fold_res _ _ _); reflexivity. Qed.
Lemma closest_bare H k : find_closest_local H (bk k) = rmap bk (find_closest_local H k).
Proof.
  unfold find_closest_local, rmap. change (guard H (bk k)) with (guard H k). change (k_edges (bk k)) with (k_edges k). change (k_num (bk k)) with (k_num k). change (k_vidx (bk k)) with (k_vidx k). change (k_npts (bk k)) with (k_npts k). destruct (guard H k); [|reflexivity]. cbn [bind]. destruct (map_res _ _); [|reflexivity]. cbn [bind]. destruct (attr _); [|reflexivity]. cbn [bind]. destruct (fold_res _ _ _); reflexivity.
Qed.
Section Bare.
Variable contains : R -> list pt -> pt -> bool.
Lemma loop_bare H k box t : forall n M d cur cur', rmap (fun _ => tt) (interior_loop contains n H (bk k) box t M d cur') = rmap (fun _ => tt) (interior_loop contains n H k box t M d cur).
Proof.
  induction n as [|n IH]; intros M d cur cur'; cbn [interior_loop]; (destruct (Rlt_dec d t); [|reflexivity]); [reflexivity|]. destruct box as [[[x0 x1] y0] y1]. cbv zeta. change (inside2 contains H (bk k)) with (inside2 contains H k). change (contour_distance H (bk k)) with (contour_distance H k).
  destruct (np_linspace x0 x1 M); [|reflexivity]. cbn [bind]. destruct (np_linspace y0 y1 M); [|reflexivity]. cbn [bind]. destruct (inside2 _ _ _ _); [|reflexivity]. cbn [bind]. destruct (map_res _ _); [|reflexivity]. cbn [bind]. destruct (argmax _); [|reflexivity]. cbn [bind]. destruct (geti _ _); [|reflexivity]. cbn [bind]. destruct (geti _ _); [|reflexivity]. cbn [bind]. destruct (geti _ _); [|reflexivity]. cbn [bind]. destruct (geti _ _); [|reflexivity]. cbn [bind]. destruct (Z.ltb _ _); [reflexivity|]. apply IH.
Qed.
Lemma interior_bare H k : rmap bk (find_interior_point contains H (bk k)) = rmap bk (find_interior_point contains H k).
Proof.
  unfold find_interior_point, rmap. change (guard H (bk k)) with (guard H k). change (contour_points H (bk k)) with (contour_points H k). destruct (guard H k); [|reflexivity]. cbn [bind]. destruct (contour_points H k) as [[x y]|]; [|reflexivity]. cbn [bind]. destruct (bounding_box _ x y) as [[[[x0 x1] y0] y1]|]; [|reflexivity]. cbn [bind].
  pose proof (loop_bare H k (x0, x1, y0, y1) (1 / 100 * Rmin (x1 - x0) (y1 - y0)) 8 9 0 (k_int k) (k_int (bk k))) as X. unfold rmap in X. destruct (interior_loop contains 8 H (bk k) _ _ _ _ _), (interior_loop contains 8 H k _ _ _ _ _); cbn [bind] in *; try discriminate; [reflexivity|congruence].
Qed.
Lemma interior_cong H k k' : bk k = bk k' -> rmap bk (find_interior_point contains H k) = rmap bk (find_interior_point contains H k').
Proof. intros E. rewrite <- (interior_bare H k), E, interior_bare. reflexivity. Qed.
Definition rmap2 {A B C} (f : B -> C) (r : res (A * B)) : res (A * C) := do x <- r; Ok (fst x, f (snd x)).
Lemma contour_bare qd H k : rmap2 bk (param_contour contains qd H (bk k)) = rmap2 bk (param_contour contains qd H k).
Proof.
  unfold param_contour. change (param_edges qd H (bk k)) with (param_edges qd H k). destruct (param_edges qd H k) as [H1|]; [|reflexivity]. cbn [bind]. rewrite num_bare. destruct (find_num_pts H1 k) as [k1|]; [|reflexivity]. cbn [rmap bind]. rewrite vidx_bare. destruct (find_local_vert_idx H1 k1) as [k2|]; [|reflexivity]. cbn [rmap bind]. rewrite closest_bare. destruct (find_closest_local H1 k2) as [k3|]; [|reflexivity]. cbn [rmap bind]. pose proof (interior_bare H1 k3) as X. destruct (find_interior_point contains H1 (bk k3)), (find_interior_point contains H1 k3); cbn in *; congruence.
Qed.
Lemma contour_cong qd H k k' : bk k = bk k' -> rmap2 bk (param_contour contains qd H k) = rmap2 bk (param_contour contains qd H k').
Proof. intros E. rewrite <- (contour_bare qd H k), E, contour_bare. reflexivity. Qed.
Lemma comps_cong qd ks : forall H ks' done done', map bk ks = map bk ks' -> map bk done = map bk done' ->
  let f := fun Hl k => do (H, k) <- param_contour contains qd (fst Hl) k; Ok (H, snd Hl ++ [k]) in
  rmap2 (map bk) (fold_res f ks (H, done)) = rmap2 (map bk) (fold_res f ks' (H, done')).
Proof.
  induction ks as [|k ks IH]; intros H ks' done done' E D; destruct ks' as [|k' ks']; try discriminate; cbv zeta in *; cbn [fold_res]; [cbn; rewrite D; reflexivity|]. assert (E1 : bk k = bk k') by (cbn [map] in E; congruence). assert (E2 : map bk ks = map bk ks') by (cbn [map] in E; congruence). clear E. cbn [fst snd]. pose proof (contour_cong qd H k k' E1) as X.
  destruct (param_contour contains qd H k) as [[H1 k1]|], (param_contour contains qd H k') as [[H1' k1']|]; cbn [rmap2 bind fst snd] in X; try discriminate; cbn [bind]; [|cbn; congruence]. assert (H1 = H1') by congruence. assert (bk k1 = bk k1') by congruence. subst H1'. apply IH; [exact E2|]. rewrite !map_app. cbn [map]. congruence.
Qed.

Lemma guard_bare H c : cell_guard H (bc c) = cell_guard H c.
Proof. unfold cell_guard. cbn [c_comps bare_cell]. assert (X : forallb (all_param H) (map bk (c_comps c)) = forallb (all_param H) (c_comps c)) by (induction (c_comps c) as [|k l IH]; [reflexivity|]; cbn [map forallb]; rewrite IH; reflexivity). rewrite X. reflexivity. Qed.
Lemma cnum_bare H c : cell_num_pts H (bc c) = rmap bc (cell_num_pts H c).
Proof. unfold cell_num_pts, rmap. rewrite guard_bare. destruct (cell_guard H c); [|reflexivity]. cbn [bind c_comps bare_cell]. rewrite fold_res_map. change (fun (c0 : Z) x => do m <- attr (k_npts (bk x)); Ok (c0 + m)%Z) with (fun (n : Z) k => do m <- attr (k_npts k); Ok (n + m)%Z). destruct (fold_res _ _ _); reflexivity. Qed.
Lemma cstart_bare H c : cell_start_idx H (bc c) = rmap bc (cell_start_idx H c).
Proof. unfold cell_start_idx, rmap. rewrite guard_bare. destruct (cell_guard H c); [|reflexivity]. cbn [bind c_comps bare_cell]. rewrite fold_res_map. change (fun (li : list Z * Z) x => do m <- attr (k_npts (bk x)); Ok (fst li ++ [snd li], (snd li + m)%Z)) with (fun (li : list Z * Z) k => do m <- attr (k_npts k); Ok (fst li ++ [snd li], (snd li + m)%Z)). destruct (fold_res _ _ _) as [[l i]|]; reflexivity. Qed.
Lemma cclosest_bare H c : cell_closest H (bc c) = rmap bc (cell_closest H c).
Proof.
  unfold cell_closest, rmap. rewrite guard_bare. destruct (cell_guard H c); [|reflexivity]. cbn [bind]. change (c_npts (bc c)) with (c_npts c). destruct (attr (c_npts c)); [|reflexivity]. cbn [bind]. change (comp_range (bc c)) with (comp_range c). change (c_start (bc c)) with (c_start c).
  erewrite (fold_res_eq _ (fun l i => do s <- attr (c_start c); do a <- geti s i; do b <- geti s (S i); do k <- geti (c_comps c) i; do v <- attr (k_closest k); set_slice l a b v)); [destruct (fold_res _ _ _); reflexivity|]. intros l i. cbn [c_comps bare_cell]. rewrite geti_map. destruct (geti (c_comps c) i); reflexivity.
Qed.
Lemma hset_map {A B} (f : A -> B) l i a : hset (map f l) i (f a) = map f (hset l i a).
Proof. unfold hset. rewrite map_app. cbn [map]. rewrite firstn_map, skipn_map. reflexivity. Qed.
Lemma outer_bare H c : find_outer contains H (bc c) = rmap bc (find_outer contains H c).
Proof.
  unfold find_outer, rmap. rewrite guard_bare. destruct (cell_guard H c); [|reflexivity]. cbn [bind]. cbv zeta. change (comp_range (bc c)) with (comp_range c). cbn [c_comps bare_cell].
  erewrite (fold_res_eq _ (fun o i => fold_res (fun o j => do kj <- geti (c_comps c) j; do (x1, x2) <- contour_points H kj; do ki <- geti (c_comps c) i; do ins <- inside1 contains H ki x1 x2; Ok (if forallb (fun b => b) ins then i else o)) (filter (Nat.ltb i) (comp_range c)) o)).
  - destruct (fold_res _ _ _) as [o|]; [|reflexivity]. cbn [bind]. rewrite !geti_map. destruct (geti (c_comps c) 0) as [k0|]; [|reflexivity]. cbn [rmap bind]. destruct (geti (c_comps c) o) as [ko|]; [|reflexivity]. cbn [rmap bind]. rewrite !hset_map. reflexivity.
  - intros o i. apply fold_res_eq. intros o' j. rewrite !geti_map. destruct (geti (c_comps c) j) as [kj|]; [|reflexivity]. cbn [rmap bind]. change (contour_points H (bk kj)) with (contour_points H kj). destruct (contour_points H kj) as [[x1 x2]|]; [|reflexivity]. cbn [bind]. destruct (geti (c_comps c) i); reflexivity.
Qed.
Lemma fill_bare c f g : (forall k a b, f (bk k) a b = g k a b) -> cell_fill (bc c) f = cell_fill c g.
Proof.
  intros E. unfold cell_fill. change (c_npts (bc c)) with (c_npts c). change (comp_range (bc c)) with (comp_range c). change (c_start (bc c)) with (c_start c). destruct (attr (c_npts c)); [|reflexivity]. cbn [bind]. apply fold_res_eq. intros y i. destruct (attr (c_start c)) as [l|]; [|reflexivity]. cbn [bind]. destruct (geti l i); [|reflexivity]. cbn [bind]. destruct (geti l (S i)); [|reflexivity]. cbn [bind c_comps bare_cell]. rewrite geti_map. destruct (geti (c_comps c) i); [|reflexivity]. cbn [rmap bind]. rewrite E. reflexivity.
Qed.
Lemma box_bare H c : cell_box H (bc c) = cell_box H c.
Proof.
  unfold cell_box, boundary_points. rewrite !guard_bare. rewrite (fill_bare c _ (fun k _ _ => do (x1, _) <- contour_points H k; Ok x1)) by reflexivity. rewrite (fill_bare c _ (fun k _ _ => do (_, x2) <- contour_points H k; Ok x2)) by reflexivity. reflexivity.
Qed.
Lemma distance_bare H c p : cell_distance H (bc c) p = cell_distance H c p.
Proof. unfold cell_distance. rewrite guard_bare. destruct (cell_guard H c); [|reflexivity]. cbn [bind]. apply fold_res_eq. intros d i. cbn [c_comps bare_cell]. rewrite geti_map. destruct (geti (c_comps c) i); reflexivity. Qed.
Lemma inside_bare H c g : cell_inside contains H (bc c) g = cell_inside contains H c g.
Proof.
  unfold cell_inside. rewrite guard_bare. destruct (cell_guard H c); [|reflexivity]. cbn [bind c_comps bare_cell]. rewrite geti_map. destruct (geti (c_comps c) 0) as [k0|]; [|reflexivity]. cbn [rmap bind]. change (inside2 contains H (bk k0) g) with (inside2 contains H k0 g). destruct (inside2 contains H k0 g); [|reflexivity]. cbn [bind]. apply fold_res_eq. intros ins i. rewrite geti_map. destruct (geti (c_comps c) i); reflexivity.
Qed.
Lemma points_bare H c : rmap bc (interior_points contains H (bc c)) = rmap bc (interior_points contains H c).
Proof.
  unfold interior_points, rmap. change (c_mesh (bc c)) with (c_mesh c). destruct (c_mesh c) as [rows cols]. rewrite box_bare. destruct (cell_box H c) as [[[[x0 x1] y0] y1]|]; [|reflexivity]. cbn [bind]. destruct (np_linspace x0 x1 rows); [|reflexivity]. cbn [bind]. destruct (np_linspace y0 y1 cols); [|reflexivity]. cbn [bind]. cbv zeta. rewrite inside_bare. destruct (cell_inside contains H c _); [|reflexivity]. cbn [bind]. change (c_atol (bc c)) with (c_atol c). change (c_rtol (bc c)) with (c_rtol c).
  match goal with |- context [fold_res ?f (seq 0 (Z.to_nat rows)) ?z] => match goal with |- (do _ <- (do _ <- _; _); _) = (do _ <- (do _ <- fold_res ?g _ _; _); _) => rewrite (fold_res_eq f g) end end.
  - destruct (fold_res _ _ _); [|reflexivity]. cbn [bind]. unfold bare_cell, with_int. cbn [c_comps c_idx c_holes c_nedges c_orients c_mesh c_rtol c_atol c_npts c_start c_closest]. rewrite map_map. reflexivity.
  - intros ins i. apply fold_res_eq. intros ins' j. destruct (geti ins' i); [|reflexivity]. cbn [bind]. destruct (geti _ j) as [[|]|]; [|reflexivity|reflexivity]. cbn [bind]. destruct (geti _ i); [|reflexivity]. cbn [bind]. destruct (geti _ j); [|reflexivity]. cbn [bind]. rewrite distance_bare. reflexivity.
Qed.
Lemma cell_cong qd w H c c' : bc c = bc c' -> same_sampling (param_cell contains qd w H c) (param_cell contains qd w H c').
Proof.
  intros E. assert (M : map bk (c_comps c) = map bk (c_comps c')) by (change (c_comps (bc c) = c_comps (bc c')); rewrite E; reflexivity). unfold param_cell, param_comps. pose proof (comps_cong qd (c_comps c) H (c_comps c') [] [] M eq_refl) as X. cbv zeta in X.
  destruct (fold_res _ (c_comps c) _) as [[H1 ks]|], (fold_res _ (c_comps c') _) as [[H1' ks']|]; cbn [rmap2 bind fst snd] in X; try discriminate; cbn [bind]; [|cbn; congruence]. assert (H1 = H1') by congruence. assert (K : map bk ks = map bk ks') by congruence. subst H1'. clear X M.
  assert (C0 : bc (with_comps c ks) = bc (with_comps c' ks')). { destruct c, c'. unfold bare_cell, with_comps in *. cbn in *. rewrite K. congruence. } revert C0. generalize (with_comps c ks) (with_comps c' ks'). clear. intros c c' E.
  pose proof (cnum_bare H1 c) as A. pose proof (cnum_bare H1 c') as B. rewrite E in A. rewrite A in B. clear A E. destruct (cell_num_pts H1 c) as [c1|], (cell_num_pts H1 c') as [c1'|]; cbn [rmap bind] in *; try discriminate; [|cbn; congruence]. assert (E : bc c1 = bc c1') by congruence. clear B c c'.
  pose proof (outer_bare H1 c1) as A. pose proof (outer_bare H1 c1') as B. rewrite E in A. rewrite A in B. clear A E. destruct (find_outer contains H1 c1) as [c2|], (find_outer contains H1 c1') as [c2'|]; cbn [rmap bind] in *; try discriminate; [|cbn; congruence]. assert (E : bc c2 = bc c2') by congruence. clear B c1 c1'.
  pose proof (cstart_bare H1 c2) as A. pose proof (cstart_bare H1 c2') as B. rewrite E in A. rewrite A in B. clear A E. destruct (cell_start_idx H1 c2) as [c3|], (cell_start_idx H1 c2') as [c3'|]; cbn [rmap bind] in *; try discriminate; [|cbn; congruence]. assert (E : bc c3 = bc c3') by congruence. clear B c2 c2'.
  pose proof (cclosest_bare H1 c3) as A. pose proof (cclosest_bare H1 c3') as B. rewrite E in A. rewrite A in B. clear A E. destruct (cell_closest H1 c3) as [c4|], (cell_closest H1 c3') as [c4'|]; cbn [rmap bind] in *; try discriminate; [|cbn; congruence]. assert (E : bc c4 = bc c4') by congruence. clear B c3 c3'.
  destruct w; cbn [bind]; [|split; [reflexivity|symmetry; exact E]].
  pose proof (points_bare H1 c4) as A. pose proof (points_bare H1 c4') as B. rewrite E in A. rewrite A in B. destruct (interior_points contains H1 c4) as [c5|], (interior_points contains H1 c4') as [c5'|]; cbn [rmap bind] in *; try discriminate; [|cbn; congruence]. split; [reflexivity|congruence].
Qed.
End Bare.

(** ** Where a sampling stops *)
Section Where.
Variable contains : R -> list pt -> pt -> bool.
Definition tables_of (k : contour) (es : list edge) (p : option vert) : contour := Contour (k_cell k) (k_edges k) (k_orients k) (Some (total (map open_num es))) (offsets (map open_num es)) (Some (closest es)) p.
Lemma st_contour_where n p qd (Q : get_quad_dict n p = Ok qd) H k H' k' x : wf_contour k -> NoDup (k_edges k) -> st_contour contains qd H k = (H', k', Some x) ->
  (param_edges qd H k = Err x /\ k' = k) \/
  exists es q, param_edges qd H k = Ok H' /\ refs H' (k_edges k) es /\ Forall well_sampled es /\ find_interior_point contains H' (tables_of k es (k_int k)) = Err x /\ k' = tables_of k es q.
Proof.
  intros W ND E. unfold st_contour, st_edges in E. assert (P : out (fold_left (st_edge qd) (combine (k_edges k) (k_orients k)) (H, None)) = param_edges qd H k) by exact (st_edges_outcome qd _ H).
  destruct (fold_left (st_edge qd) _ _) as [H1 [y|]]; cbn [out snd fst] in P; [left; injection E as <- <- <-; split; [symmetry; exact P|reflexivity]|]. right.
  destruct (param_edges_ok qd n p H k H1 Q ND W (eq_sym P)) as (_ & es & _ & R & _ & Ws & _). pose proof (tables_ok H1 k es R Ws) as T.
  assert (X : out (stage (find_closest_local H1) (stage (find_local_vert_idx H1) (stage (find_num_pts H1) (k, None)))) = Ok (tables_of k es (k_int k))) by (rewrite !stage_out; cbn [out snd fst bind]; rewrite !bind_assoc; exact T).
  destruct (stage _ _) as [k1 [y|]]; [discriminate|]. cbn [out snd fst] in X. apply Ok_inj in X. subst k1. pose proof (st_interior_out contains H1 (tables_of k es (k_int k))) as Y. unfold st_interior in E, Y.
  destruct (do _ <- guard H1 _; _) as [[[[x0 x1] y0] y1]|]; cbn [out snd] in Y.
  - destruct (st_loop _ _ _ _ _ _ _ _ _) as [q [y|]]; [|discriminate]. injection E as <- <- <-. exists es, q. repeat split; auto.
  - injection E as <- <- <-. exists es, (k_int k). repeat split; auto.
Qed.
Lemma st_comps_where qd ks : forall H H' ks' x, st_comps contains qd H ks = (H', ks', Some x) ->
  exists a k b a' k' H1, ks = a ++ k :: b /\ ks' = a' ++ k' :: b /\ param_comps contains qd H a = Ok (H1, a') /\ st_contour contains qd H1 k = (H', k', Some x).
Proof.
  induction ks as [|k ks IH]; intros H H' ks' x E; cbn [st_comps] in E; [discriminate|]. destruct (st_contour contains qd H k) as [[H1 k1] [y|]] eqn:E1.
  - injection E as <- <- <-. exists [], k, ks, [], k1, H. repeat split. exact E1.
  - destruct (st_comps contains qd H1 ks) as [[H2 ks2] y] eqn:E2. injection E as <- <- ->. destruct (IH _ _ _ _ E2) as (a & k0 & b & a' & k0' & H3 & -> & -> & A & B). exists (k :: a), k0, b, (k1 :: a'), k0', H3. repeat split; [|exact B].
    rewrite param_comps_out in A |- *. cbn [st_comps]. rewrite E1. destruct (st_comps contains qd H1 a) as [[H4 a4] [z|]]; [discriminate|]. cbn in A |- *. apply Ok_inj in A. injection A as -> ->. reflexivity.
Qed.
Lemma st_cell_where n p qd (Q : get_quad_dict n p = Ok qd) H c H' c' x : wf_cell c -> c_comps c <> [] -> st_cell contains qd false H c = (H', c', Some x) ->
  exists ks, st_comps contains qd H (c_comps c) = (H', ks, Some x) /\ c' = with_comps c ks.
Proof.
  intros W N E. pose proof (st_cell_out contains qd false H c) as O. rewrite E in O. cbn [out3 out snd] in O. pose proof (param_cell_total contains qd n p H c Q W N) as T. rewrite param_comps_out in T. unfold st_cell in E. destruct (st_comps contains qd H (c_comps c)) as [[H1 ks] [y|]]; [injection E as <- <- <-; exists ks; auto|]. destruct (T eq_refl) as (H2 & c2 & X). congruence.
Qed.
Lemma st_empty qd w H c : c_comps c = [] -> exists n y, st_cell contains qd w H c = (H, with_tables c n (c_start c) (c_closest c), Some y).
Proof.
  intros N. unfold st_cell. rewrite N. cbn [st_comps]. assert (D : with_comps c [] = c) by (destruct c; cbn in *; rewrite N; reflexivity). rewrite D. unfold stage at 4. cbn [snd fst]. unfold cell_num_pts, cell_guard. rewrite N. cbn [forallb bind fold_res]. unfold stage at 3. cbn [snd fst]. unfold find_outer, cell_guard. cbn [c_comps with_tables]. rewrite N. cbn [forallb bind]. cbv zeta.
  destruct (fold_res _ _ _); cbn [bind geti nth_error stage snd fst]; do 2 eexists; reflexivity.
Qed.
End Where.
