(** Lemmas about runs: sampling keeps the topology of a mesh; functions of a space can be evaluated. *)
From Coq Require Import List ZArith Reals Lia Lra Bool String.
From Verif Require Import PyBase PolyModel PolySpec PolyProofs BaryModel QuadModel VertModel EdgeModel EdgeSpec EdgeProofs ContourModel CellModel CellSpec ContourProofs ContourProofs2 ContourProps CellProps3 MeshModel TraceModel TraceSpec TraceProofs LocalModel LocalSpec LocalProofs LocalProofs2 LocalProofs3 LocalProofs4 LocalProofs5 LocalProps LocalProps2 NystromModel EdgeSpaceModel GlobModel GlobProps SolverModel SolverSpec LocSpaceModel LocSpaceProofs LocSpaceProofs2 AsmModel AsmSpec.
Import List ListNotations.
Open Scope R_scope.

(** ** Sampling keeps cells and vertices *)
Definition keeps (e e' : edge) : Prop := e_pos e' = e_pos e /\ e_neg e' = e_neg e /\ vidx (e_anchor e') = vidx (e_anchor e) /\ vidx (e_endpnt e') = vidx (e_endpnt e).
Definition stays (e e' : edge) : Prop := keeps e e' /\ settled e'.
Lemma keeps_refl e : keeps e e.
Proof. repeat split. Qed.
Lemma keeps_trans e f g : keeps e f -> keeps f g -> keeps e g.
Proof. intros (A & B & C & D) (A' & B' & C' & D'). repeat split; congruence. Qed.
(** Operations that touch samples only *)
Definition same_but_smp (e e' : edge) : Prop := keeps e e' /\ e_diary e' = e_diary e.
Lemma same_trans e f g : same_but_smp e f -> same_but_smp f g -> same_but_smp e g.
Proof. intros (A & B) (C & D). split; [eapply keeps_trans; eassumption|congruence]. Qed.
Lemma on_smp_same f e : same_but_smp e (on_smp f e).
Proof. unfold on_smp. destruct (e_param e); repeat split. Qed.
Lemma ortho_same A e e' : apply_ortho false A e = Ok e' -> same_but_smp e e'.
Proof. unfold apply_ortho. destruct A as [M|]; [|discriminate]. destruct (Rltb TOL _); [discriminate|]. intros E. apply Ok_inj in E. subst e'. apply on_smp_same. Qed.
Lemma rotate_same th e e' : rotate false th e = Ok e' -> same_but_smp e e'.
Proof. unfold rotate. cbn [log]. destruct (e_param e); intros E; [exact (ortho_same _ _ _ E)|apply Ok_inj in E; subst e'; repeat split]. Qed.
Lemma dilate_same k e e' : dilate false k e = Ok e' -> same_but_smp e e'.
Proof. unfold dilate. destruct (Rltb _ _); [discriminate|]. intros E. apply Ok_inj in E. subst e'. apply on_smp_same. Qed.
Lemma same_stays e e' : same_but_smp e e' -> settled e -> stays e e'.
Proof. intros (K & D) S. split; [exact K|]. destruct K as (_ & _ & A & B). intros a b I. rewrite D in I. rewrite A, B. apply S, I. Qed.
Lemma step_stays s e e' : (forall a b, s = SJoin a b -> vidx a = vidx (e_anchor e) /\ vidx b = vidx (e_endpnt e)) -> settled e -> apply_step false s e = Ok e' -> stays e e'.
Proof.
  intros J S E. destruct s as [a0|a0 b0|th| | |al|A0]; cbn [apply_step] in E.
  - apply Ok_inj in E. subst e'. apply same_stays; [|exact S]. apply on_smp_same.
  - destruct (J _ _ eq_refl) as [Ja Jb]. unfold join_points in E. cbv zeta in E. destruct (Rltb _ TOL); [discriminate|]. cbn [log] in E. destruct (e_param e); [|apply Ok_inj in E; subst e'; apply same_stays; [repeat split|exact S]].
    destruct (nth_error _ _) as [s0|]; [|discriminate]. destruct (nth_error _ _) as [s1|]; [|discriminate]. destruct (Rltb _ TOL); [discriminate|].
    match type of E with bind (rotate false ?t ?x) _ = _ => set (e1 := x) in *; destruct (rotate false t e1) as [e2|] eqn:E2; [|discriminate] end. cbn [bind] in E. match type of E with bind (dilate false ?t ?x) _ = _ => destruct (dilate false t x) as [e3|] eqn:E3; [|discriminate] end. cbn [bind] in E. apply Ok_inj in E. subst e'.
    assert (Q : same_but_smp e (translate false a0 e3)). { assert (T : forall v x, same_but_smp x (translate false v x)) by (intros v x; unfold translate; apply on_smp_same). exact (same_trans _ _ _ (same_trans _ _ _ (same_trans _ _ _ (T _ e) (rotate_same _ _ _ E2)) (dilate_same _ _ _ E3)) (T a0 e3)). }
    destruct Q as ((A & B & _) & _). split; [repeat split; cbn; assumption|]. intros a b I. cbn [e_diary set_verts] in I. destruct (veqb _ _); destruct I as [I|[]]; [discriminate|]. injection I as <- <-. split; reflexivity.
  - apply same_stays; [exact (rotate_same _ _ _ E)|exact S].
  - apply same_stays; [|exact S]. unfold reflect_x in E. cbn [log] in E. destruct (e_param e); [exact (ortho_same _ _ _ E)|apply Ok_inj in E; subst e'; repeat split].
  - apply same_stays; [|exact S]. unfold reflect_y in E. cbn [log] in E. destruct (e_param e); [exact (ortho_same _ _ _ E)|apply Ok_inj in E; subst e'; repeat split].
  - apply same_stays; [exact (dilate_same _ _ _ E)|exact S].
  - apply same_stays; [exact (ortho_same _ _ _ E)|exact S].
Qed.
Lemma diary_stays l : forall e e', (forall a b, In (SJoin a b) l -> vidx a = vidx (e_anchor e) /\ vidx b = vidx (e_endpnt e)) -> settled e -> fold_res (fun e s => apply_step false s e) l e = Ok e' -> stays e e'.
Proof.
  induction l as [|s l IH]; intros e e' J S E; [cbn in E; apply Ok_inj in E; subst e'; split; [apply keeps_refl|exact S]|]. cbn [fold_res] in E. destruct (apply_step false s e) as [e1|] eqn:E1; [|discriminate]. cbn [bind] in E.
  destruct (step_stays s e e1) as [K S1]; [intros a b ->; apply J; left; reflexivity|exact S|exact E1|]. destruct (IH e1 e') as [K' S']; [|exact S1|exact E|split; [exact (keeps_trans _ _ _ K K')|exact S']]. intros a b I. destruct K as (_ & _ & A & B). rewrite A, B. apply J. right. exact I.
Qed.
Lemma parameterize_stays qd e e' : settled e -> parameterize qd e = Ok e' -> stays e e'.
Proof.
  intros S E. unfold parameterize in E. match type of E with bind ?x _ = _ => destruct x as [q|]; [|discriminate] end. cbn [bind] in E. destruct (e_tb e) as [a b]. do 3 (match type of E with bind ?x _ = _ => destruct x; [|discriminate] end; cbn [bind] in E).
  match type of E with bind (run_diary ?x) _ = _ => set (e0 := x) in E end. destruct (run_diary e0) as [e1|] eqn:E1; [|discriminate]. cbn [bind] in E. apply Ok_inj in E. subst e'. destruct (diary_stays (e_diary e0) e0 e1) as [K S']; [exact S|exact S|exact E1|]. split; [exact K|exact S'].
Qed.
Lemma reverse_same e : same_but_smp e (reverse_orientation e).
Proof. unfold reverse_orientation. destruct (e_param e); repeat split. Qed.

Definition hstays (H H' : heap) : Prop := Forall2 stays H H'.
Lemma hstays_refl H : Forall settled H -> hstays H H.
Proof. intros F. induction F as [|e l S F IH]; constructor; [split; [apply keeps_refl|exact S]|exact IH]. Qed.
Lemma hstays_trans H1 H2 H3 : hstays H1 H2 -> hstays H2 H3 -> hstays H1 H3.
Proof. intros A. revert H3. induction A as [|e e' l l' [K S] A IH]; intros H3 B; inversion B as [|? ? ? ? [K' S'] B']; subst; constructor; [split; [exact (keeps_trans _ _ _ K K')|exact S']|apply IH, B']. Qed.
Lemma hstays_right H H' : hstays H H' -> Forall settled H'.
Proof. intros A. induction A as [|e e' l l' [_ S] A IH]; constructor; assumption. Qed.
Lemma hstays_set H i e e' : Forall settled H -> nth_error H i = Some e -> stays e e' -> hstays H (hset H i e').
Proof.
  intros F. revert i. induction F as [|x l S F IH]; intros [|i] E K; try discriminate; cbn in E.
  - injection E as ->. unfold hset. cbn. constructor; [exact K|apply hstays_refl, F].
  - change (hstays (x :: l) (x :: hset l i e')). constructor; [split; [apply keeps_refl|exact S]|apply IH; assumption].
Qed.
Lemma fold_hstays {T} (f : heap -> T -> res heap) l : (forall H a H', In a l -> Forall settled H -> f H a = Ok H' -> hstays H H') -> forall H H', Forall settled H -> fold_res f l H = Ok H' -> hstays H H'.
Proof.
  induction l as [|x l IH]; intros G H H' S E; [cbn in E; apply Ok_inj in E; subst; apply hstays_refl, S|]. cbn [fold_res] in E. destruct (f H x) as [H1|] eqn:E1; [|discriminate]. cbn [bind] in E. pose proof (G H x H1 (or_introl eq_refl) S E1) as A.
  eapply hstays_trans; [exact A|]. apply IH; [intros; eapply G; [right|..]; eassumption|exact (hstays_right _ _ A)|exact E].
Qed.
Lemma edges_stays qd H k H' : Forall settled H -> param_edges qd H k = Ok H' -> hstays H H'.
Proof.
  unfold param_edges. apply fold_hstays. intros G [i o] G' _ S E. cbn [fst snd] in E. unfold deref in E. destruct (nth_error G i) as [e|] eqn:Ei; [|discriminate]. cbn [bind] in E. destruct (parameterize qd e) as [e1|] eqn:E1; [|discriminate]. cbn [bind] in E. apply Ok_inj in E. subst G'.
  apply (hstays_set G i e); [exact S|exact Ei|]. assert (Se : settled e) by (rewrite Forall_forall in S; apply S, (nth_error_In _ _ Ei)). destruct (parameterize_stays _ _ _ Se E1) as [K S1]. destruct (Z.eqb o (-1)); [|split; assumption]. destruct (same_stays _ _ (reverse_same e1) S1) as [K2 S2]. split; [exact (keeps_trans _ _ _ K K2)|exact S2].
Qed.
Lemma comps_stays contains qd l : forall H done H1 ks, Forall settled H -> fold_res (fun Hl k => do (H, k) <- param_contour contains qd (fst Hl) k; Ok (H, snd Hl ++ [k])) l (H, done) = Ok (H1, ks) -> hstays H H1.
Proof.
  induction l as [|k l IH]; intros G done H1 ks S E; [cbn in E; apply Ok_inj in E; injection E as -> ->; apply hstays_refl, S|]. cbn [fold_res fst snd] in E. destruct (param_contour contains qd G k) as [[G1 k1]|] eqn:Ek; [|discriminate]. cbn [bind] in E.
  assert (A : hstays G G1). { unfold param_contour in Ek. inv_as Ek G2 Y. inv_as Ek k2 Y2. inv_as Ek k3 Y3. inv_as Ek k4 Y4. inv_as Ek k5 Y5. apply Ok_inj in Ek. injection Ek as -> ->. exact (edges_stays _ _ _ _ S Y). }
  eapply hstays_trans; [exact A|]. eapply IH; [exact (hstays_right _ _ A)|exact E].
Qed.
Lemma cell_stays contains qd b H c H' c' : Forall settled H -> param_cell contains qd b H c = Ok (H', c') -> hstays H H'.
Proof.
  intros S E. unfold param_cell in E. destruct (param_comps contains qd H (c_comps c)) as [[H1 ks]|] eqn:E1; [|discriminate]. cbn [bind] in E. inv_as E c1 X1. inv_as E c2 X2. inv_as E c3 X3. inv_as E c4 X4. inv_as E c5 X5. apply Ok_inj in E. injection E as -> ->. exact (comps_stays _ _ _ _ _ _ _ S E1).
Qed.
Lemma spaces_stays low_rank qd is deg : forall H done H' l, Forall settled H -> fold_res (fun Hl i => do e <- deref (fst Hl) i; do e <- parameterize qd e; do b <- mk_espace low_rank e deg; Ok (hset (fst Hl) i (deparameterize e), snd Hl ++ [b])) is (H, done) = Ok (H', l) -> hstays H H'.
Proof.
  induction is as [|i is IH]; intros H done H' l S E; [cbn in E; apply Ok_inj in E; injection E as -> ->; apply hstays_refl, S|]. cbn [fold_res fst snd] in E. unfold deref at 1 in E. destruct (nth_error H i) as [e|] eqn:Ei; [|discriminate]. cbn [bind] in E. destruct (parameterize qd e) as [e1|] eqn:E1; [|discriminate]. cbn [bind] in E. destruct (mk_espace low_rank e1 deg) as [b|]; [|discriminate]. cbn [bind] in E.
  assert (Se : settled e) by (rewrite Forall_forall in S; apply S, (nth_error_In _ _ Ei)). assert (A : hstays H (hset H i (deparameterize e1))). { apply (hstays_set H i e); [exact S|exact Ei|]. destruct (parameterize_stays _ _ _ Se E1) as [K S1]. split; [exact K|exact S1]. }
  eapply hstays_trans; [exact A|]. eapply IH; [exact (hstays_right _ _ A)|exact E].
Qed.

(** ** Boundary tests do not see the sampling *)
Lemma deref_stays H H' i : hstays H H' -> match deref H i, deref H' i with Ok e, Ok e' => keeps e e' | Err x, Err y => x = y | _, _ => False end.
Proof. intros A. unfold deref. revert i. induction A as [|e e' l l' [K S] A IH]; intros [|i]; cbn; auto. apply IH. Qed.
Lemma derefs_stays H H' is : hstays H H' -> match map_res (deref H) is, map_res (deref H') is with Ok l, Ok l' => Forall2 keeps l l' | Err x, Err y => x = y | _, _ => False end.
Proof.
  intros A. induction is as [|i is IH]; [constructor|]. cbn [map_res]. pose proof (deref_stays H H' i A) as D. destruct (deref H i), (deref H' i); try contradiction; cbn [bind]; [|exact D]. destruct (map_res (deref H) is), (map_res (deref H') is); try contradiction; cbn [bind]; [constructor; assumption|exact IH].
Qed.
Lemma boundary_stays H H' p k : hstays H H' -> fun_is_on_boundary H' p k = fun_is_on_boundary H p k.
Proof.
  intros A. unfold fun_is_on_boundary. destruct (String.eqb _ _); [reflexivity|]. destruct (String.eqb _ _); [|destruct (String.eqb _ _); [|reflexivity]].
  - unfold vert_is_on_boundary. pose proof (derefs_stays H H' (m_edges (p_mesh p)) A) as D. destruct (map_res (deref H) _) as [l|], (map_res (deref H') _) as [l'|]; try contradiction; cbn [bind]; [|congruence]. f_equal. induction D as [|e e' l l' (K1 & K2 & K3 & K4) D IH]; [reflexivity|]. cbn [existsb]. rewrite K1, K2, K3, K4, IH. reflexivity.
  - unfold edge_is_on_boundary. destruct (pyget _ _) as [r|]; [|reflexivity]. cbn [bind]. pose proof (deref_stays H H' r A) as D. destruct (deref H r), (deref H' r); try contradiction; cbn [bind]; [|congruence]. destruct D as (-> & -> & _). reflexivity.
Qed.
Lemma register_stays H H' p a ks : hstays H H' -> register H' p a ks = register H p a ks.
Proof.
  intros A. unfold register. replace (map_res (number_key H' p (Z.of_nat a)) ks) with (map_res (number_key H p (Z.of_nat a)) ks); [reflexivity|]. induction ks as [|k ks IH]; [reflexivity|]. cbn [map_res]. rewrite IH. unfold number_key at 1 3. destruct (get_global_idx p k (Z.of_nat a)) as [g|]; [|reflexivity]. cbn [bind]. match goal with |- bind (bind ?x _) _ = _ => destruct x; [|reflexivity] end. cbn [bind]. rewrite (boundary_stays H H' p _ A). reflexivity.
Qed.
