(** Properties of the setters (C80) *)
From Coq Require Import List ZArith Reals Bool String Lia.
From Verif Require Import PyBase SetterModel SetterSpec SetterProofs.
Import List ListNotations.
Open Scope string_scope.

(** ** One call *)
(** A setter accepts exactly the values it is for. The setters of the indices of a key need to know the kind of function. *)
Theorem C80_accepted s o v : (of_key s <> None -> getattr o "fun_type" <> None) -> (snd (run s o v) = None <-> wanted s v).
Proof.
  intros T. rewrite <- checks_iff. destruct (checks s v) eqn:C.
  - rewrite (run_ok s o v T C). split; reflexivity.
  - destruct (run_bad s o v C) as (e & -> & _). split; discriminate.
Qed.
Print Assumptions C80_accepted.
(** Any other value is refused with the right exception, and the object stays as it is. *)
Theorem C80_refused s o v : ~ wanted s v -> exists e, run s o v = (o, Some e) /\ complaint s v e.
Proof. intros W. apply run_bad. destruct (checks s v) eqn:C; [exfalso; apply W, checks_iff, C|reflexivity]. Qed.
Print Assumptions C80_refused.
(** Whatever the exception, the object stays as it is. *)
Theorem C80_unchanged s o v e : snd (run s o v) = Some e -> fst (run s o v) = o.
Proof. destruct (run_cases s o v) as [(_ & _ & ->)|(e' & ->)]; [discriminate|reflexivity]. Qed.
Print Assumptions C80_unchanged.
(** An accepted value is stored. *)
Theorem C80_stored s o v : plain s v -> wanted s v -> run s o v = (fst (run s o v), None) /\ getattr (fst (run s o v)) (target s) = Some v.
Proof.
  intros (K & E & N) W. apply checks_iff in W. rewrite (run_ok s o v) by (try exact W; intros X; congruence). split; [reflexivity|]. cbn [fst done]. unfold after. rewrite K.
  destruct s; try apply get_same; [contradiction|]. destruct v; try apply get_same. exfalso. apply N; reflexivity.
Qed.
Print Assumptions C80_stored.
(** The edges of a trace: those of the list or of the cell, and their number *)
Theorem C80_stored_edges o v l : (edges_list v /\ v = OList l) \/ (exists mro id, instance "MeshCell" v /\ v = OInst mro id l) ->
  exists o', run STraceEdges o v = (o', None) /\ getattr o' "edges" = Some (OList l) /\ getattr o' "num_edges" = Some (OInt (Z.of_nat (List.length l))).
Proof.
  intros W. assert (C : checks STraceEdges v = true) by (apply checks_iff; destruct W as [(W & _)|(mro & id & W & _)]; [right|left]; exact W). rewrite (run_ok STraceEdges o v (fun X => False_ind _ (X eq_refl)) C). eexists. split; [reflexivity|].
  destruct W as [(_ & ->)|(mro & id & _ & ->)]; split; reflexivity.
Qed.
Print Assumptions C80_stored_edges.
(** No key given: nothing happens. *)
Theorem C80_no_key o : run SKey o ONone = (o, None).
Proof. reflexivity. Qed.
Print Assumptions C80_no_key.
(** The index of a key is stored if it belongs to the kind of function, otherwise -1 is. *)
Theorem C80_stored_index s ty o t v : of_key s = Some ty -> getattr o "fun_type" = Some t -> wanted s v ->
  exists o', run s o v = (o', None) /\ (t = OStr ty -> getattr o' (target s) = Some v) /\ (t <> OStr ty -> getattr o' (target s) = Some (OInt (-1))).
Proof.
  intros K T W. apply checks_iff in W. rewrite (run_ok s o v) by (try exact W; intros _; congruence). eexists. split; [reflexivity|]. unfold after. rewrite K. rewrite get_same. unfold key_value. rewrite T. split.
  - intros ->. cbn [is_string]. rewrite String.eqb_refl. reflexivity.
  - intros N. destruct (is_string t ty) eqn:E; [apply is_string_iff in E; contradiction|reflexivity].
Qed.
Print Assumptions C80_stored_index.
(** Before the kind of function is known an index cannot be set. *)
Theorem C80_untyped s o v : of_key s <> None -> getattr o "fun_type" = None -> wanted s v -> run s o v = (o, Some AttributeError).
Proof. intros K T W. apply run_untyped; try assumption. apply checks_iff in W. destruct s; try (exfalso; apply K; reflexivity); exact W. Qed.
Print Assumptions C80_untyped.
(** No setter touches an attribute it is not for. *)
Theorem C80_frame s o v a : a <> target s -> (s = STraceEdges -> a <> "num_edges") -> getattr (fst (run s o v)) a = getattr o a.
Proof. apply run_frame. Qed.
Print Assumptions C80_frame.
Example C80_example_calls :
  run SDegree [("deg", OInt 2)] (OInt 0) = ([("deg", OInt 2)], Some ValueError) /\ run SDegree [("deg", OInt 2)] (OFloat 3) = ([("deg", OInt 2)], Some TypeError) /\
  run SDegree [("deg", OInt 2)] (ONpInt 3) = ([("deg", OInt 2)], Some TypeError) /\ wanted SDegree (OBool true) /\ getattr (fst (run SDegree [("deg", OInt 2)] (OBool true))) "deg" = Some (OBool true) /\
  wanted SForm (OInst ["BilinearForm"; "object"] 7 []) /\ ~ wanted SGrid (OInt 1) /\ run SGrid [] (OInt 1) = ([], Some TypeError).
Proof.
  repeat (split; [reflexivity|]). split; [exists 1%Z; split; [right; left; auto|lia]|]. split; [reflexivity|]. split; [exists ["BilinearForm"; "object"], 7%nat, []; split; [reflexivity|left; reflexivity]|]. split; [|reflexivity]. intros [X|X]; discriminate X.
Qed.

(** ** Many calls *)
(** Whoever catches the exceptions and goes on finds in an attribute the last value that was accepted for it. *)
Theorem C80_history h1 s v h2 o : plain s v -> wanted s v ->
  (forall s' v', In (s', v') h2 -> wanted s' v' -> target s' <> target s /\ (s' = STraceEdges -> target s <> "num_edges")) ->
  getattr (calls (h1 ++ (s, v) :: h2) o) (target s) = Some v.
Proof.
  intros P W L. unfold calls. rewrite fold_left_app. cbn [fold_left fst snd]. set (o1 := fold_left _ h1 o). destruct (C80_stored s o1 v P W) as (_ & G). revert G. generalize (fst (run s o1 v)). clear -L.
  induction h2 as [|(s', v') h2 IH]; intros o2 G; [exact G|]. cbn [fold_left fst snd]. apply IH; [intros s1 v1 I1 W1; apply (L s1 v1); [right; exact I1|exact W1]|]. destruct (checks s' v') eqn:C.
  - destruct (L s' v' (or_introl eq_refl)) as (N & M); [apply checks_iff, C|]. rewrite run_frame; [exact G|congruence|exact M].
  - destruct (run_bad s' o2 v' C) as (e & -> & _). exact G.
Qed.
Print Assumptions C80_history.
(** ... and without one the value it had before. *)
Theorem C80_history_none h o a : (forall s v, In (s, v) h -> wanted s v -> target s <> a /\ (s = STraceEdges -> a <> "num_edges")) -> getattr (calls h o) a = getattr o a.
Proof.
  intros L. unfold calls. revert o. induction h as [|(s, v) h IH]; intros o; [reflexivity|]. cbn [fold_left fst snd]. rewrite IH by (intros s1 v1 I1 W1; apply (L s1 v1); [right; exact I1|exact W1]). destruct (checks s v) eqn:C.
  - destruct (L s v (or_introl eq_refl)) as (N & M); [apply checks_iff, C|]. apply run_frame; [congruence|exact M].
  - destruct (run_bad s o v C) as (e & -> & _). reflexivity.
Qed.
Print Assumptions C80_history_none.
Example C80_example_history : getattr (calls [(SDegree, OInt 2); (SDegree, OInt 3); (SMesh, OInt 1); (SDegree, OInt 0); (STitle, OStr "u")] []) "deg" = Some (OInt 3).
Proof. apply (C80_history [(SDegree, OInt 2)] SDegree (OInt 3) [(SMesh, OInt 1); (SDegree, OInt 0); (STitle, OStr "u")] []); [split; [reflexivity|]; split; discriminate|exists 3%Z; split; [left; reflexivity|lia]|]. intros s v [E|[E|[E|[]]]] W; injection E as <- <-; [split; discriminate| |split; discriminate]. destruct W as (z & I & L). destruct I as [I|[[I _]|[I _]]]; try discriminate. injection I as <-. lia. Qed.

(** ** Keys *)
Lemma consistent_run s o v : s <> SFunType -> consistent o -> consistent (fst (run s o v)).
Proof.
  intros N C s' ty K T. assert (FT : getattr (fst (run s o v)) "fun_type" = getattr o "fun_type") by (apply run_frame; [destruct s; discriminate || contradiction|intros _; discriminate]). rewrite FT in T.
  destruct (string_dec (target s') (target s)) as [Q|Q].
  - assert (s' = s) by (destruct s'; try discriminate K; destruct s; try discriminate Q; reflexivity). subst s'. destruct (run_cases s o v) as [(Ty & Ck & ->)|(e & ->)]; [|apply (C s ty K T)]. cbn [fst done]. unfold after. rewrite K, get_same. unfold key_value. destruct (getattr o "fun_type") as [t|] eqn:E; [|exfalso; apply Ty; [congruence|exact E]].
    destruct (is_string t ty) eqn:X; [|reflexivity]. apply is_string_iff in X. subst t. contradiction.
  - rewrite run_frame; [apply (C s' ty K T)|exact Q|]. intros ->. destruct s'; discriminate K || discriminate.
Qed.
(** A key stays consistent whatever setters are called, apart from the one for the kind of function. *)
Theorem C80_key_kept h o : (forall v, ~ In (SFunType, v) h) -> consistent o -> consistent (calls h o).
Proof.
  unfold calls. revert o. induction h as [|(s, v) h IH]; intros o N C; [exact C|]. cbn [fold_left fst snd]. apply IH; [intros v' I; apply (N v'); right; exact I|]. apply consistent_run; [intros ->; apply (N v); left; reflexivity|exact C].
Qed.
Print Assumptions C80_key_kept.
(** Setting the four indices makes any key consistent again. *)
Theorem C80_key_reset o v e s b : getattr o "fun_type" <> None -> wanted SVertIdx v -> wanted SEdgeIdx e -> wanted SEdgeSpaceIdx s -> wanted SBubbSpaceIdx b -> consistent (calls [(SVertIdx, v); (SEdgeIdx, e); (SEdgeSpaceIdx, s); (SBubbSpaceIdx, b)] o).
Proof.
  intros T W1 W2 W3 W4 s' ty K X. unfold calls in *. cbn [fold_left fst snd] in *.
  set (o1 := fst (run SVertIdx o v)) in *. assert (T1 : getattr o1 "fun_type" = getattr o "fun_type") by (apply run_frame; discriminate).
  set (o2 := fst (run SEdgeIdx o1 e)) in *. assert (T2 : getattr o2 "fun_type" = getattr o "fun_type") by (rewrite <- T1; apply run_frame; discriminate).
  set (o3 := fst (run SEdgeSpaceIdx o2 s)) in *. assert (T3 : getattr o3 "fun_type" = getattr o "fun_type") by (rewrite <- T2; apply run_frame; discriminate).
  set (o4 := fst (run SBubbSpaceIdx o3 b)) in *. assert (T4 : getattr o4 "fun_type" = getattr o "fun_type") by (rewrite <- T3; apply run_frame; discriminate). rewrite T4 in X.
  assert (G : forall s0 o0 w, of_key s0 = Some ty -> getattr o0 "fun_type" = getattr o "fun_type" -> wanted s0 w -> getattr (fst (run s0 o0 w)) (target s0) = Some (OInt (-1))).
  { intros s0 o0 w K0 T0 C0. destruct (getattr o "fun_type") as [t|] eqn:Et; [|contradiction]. destruct (C80_stored_index s0 ty o0 t w K0 T0 C0) as (o' & -> & _ & G2). apply G2. congruence. }
  destruct s'; try discriminate K; cbn [target].
  - unfold o4. rewrite run_frame by discriminate. unfold o3. rewrite run_frame by discriminate. unfold o2. rewrite run_frame by discriminate. apply (G SVertIdx); auto.
  - unfold o4. rewrite run_frame by discriminate. unfold o3. rewrite run_frame by discriminate. apply (G SEdgeIdx); auto.
  - unfold o4. rewrite run_frame by discriminate. apply (G SEdgeSpaceIdx); auto.
  - apply (G SBubbSpaceIdx); auto.
Qed.
Print Assumptions C80_key_reset.
Lemma init_calls ty e v b s o : key_init ty e v b s = (o, None) -> (wanted SFunType ty /\ wanted SVertIdx v /\ wanted SEdgeIdx e /\ wanted SEdgeSpaceIdx s /\ wanted SBubbSpaceIdx b) /\ o = calls [(SVertIdx, v); (SEdgeIdx, e); (SEdgeSpaceIdx, s); (SBubbSpaceIdx, b)] [("fun_type", ty)].
Proof.
  rewrite <- !checks_iff. unfold key_init, andthen, calls. cbn [fold_left fst snd].
  change (set_fun_type [] ty) with (run SFunType [] ty). destruct (checks SFunType ty) eqn:C0; [|destruct (run_bad SFunType [] ty C0) as (x & -> & _); discriminate]. rewrite (run_ok SFunType [] ty (fun X => False_ind _ (X eq_refl)) C0). cbn [snd fst done]. change (after SFunType [] ty) with [("fun_type", ty)]. set (o1 := [("fun_type", ty)]). assert (T1 : getattr o1 "fun_type" <> None) by discriminate.
  change (set_vert_idx o1 v) with (run SVertIdx o1 v). destruct (checks SVertIdx v) eqn:C1; [|destruct (run_bad SVertIdx o1 v C1) as (x & -> & _); discriminate]. rewrite (run_ok SVertIdx o1 v (fun _ => T1) C1). cbn [snd fst done]. set (o2 := after SVertIdx o1 v). assert (T2 : getattr o2 "fun_type" <> None) by discriminate.
  change (set_edge_idx o2 e) with (run SEdgeIdx o2 e). destruct (checks SEdgeIdx e) eqn:C2; [|destruct (run_bad SEdgeIdx o2 e C2) as (x & -> & _); discriminate]. rewrite (run_ok SEdgeIdx o2 e (fun _ => T2) C2). cbn [snd fst done]. set (o3 := after SEdgeIdx o2 e). assert (T3 : getattr o3 "fun_type" <> None) by discriminate.
  change (set_edge_space_idx o3 s) with (run SEdgeSpaceIdx o3 s). destruct (checks SEdgeSpaceIdx s) eqn:C3; [|destruct (run_bad SEdgeSpaceIdx o3 s C3) as (x & -> & _); discriminate]. rewrite (run_ok SEdgeSpaceIdx o3 s (fun _ => T3) C3). cbn [snd fst done]. set (o4 := after SEdgeSpaceIdx o3 s). assert (T4 : getattr o4 "fun_type" <> None) by discriminate.
  change (set_bubb_space_idx o4 b) with (run SBubbSpaceIdx o4 b). destruct (checks SBubbSpaceIdx b) eqn:C4; [|destruct (run_bad SBubbSpaceIdx o4 b C4) as (x & -> & _); discriminate]. rewrite (run_ok SBubbSpaceIdx o4 b (fun _ => T4) C4). intros E. injection E as <-. cbn [fst done]. auto 10.
Qed.
(** The constructor makes consistent keys of the kind given, with the indices given where they belong to the kind. *)
Theorem C80_key_init ty e v b s o : key_init ty e v b s = (o, None) -> consistent o /\ getattr o "fun_type" = Some ty /\
  (ty = OStr "vert" -> getattr o "vert_idx" = Some v) /\ (ty = OStr "edge" -> getattr o "edge_idx" = Some e /\ getattr o "edge_space_idx" = Some s) /\ (ty = OStr "bubb" -> getattr o "bubb_space_idx" = Some b).
Proof.
  intros I. destruct (init_calls _ _ _ _ _ _ I) as ((W0 & W1 & W2 & W3 & W4) & E). split; [rewrite E; apply C80_key_reset; [discriminate|assumption..]|].
  destruct W1 as (z1 & W1), W2 as (z2 & W2), W3 as (z3 & W3), W4 as (z4 & W4). apply int_of_iff in W1, W2, W3, W4. destruct W1 as (W1 & _), W2 as (W2 & _), W3 as (W3 & _), W4 as (W4 & _).
  rewrite E. unfold calls, run, set_vert_idx, set_edge_idx, set_edge_space_idx, set_bubb_space_idx, set_key_idx. cbn [fold_left fst snd]. rewrite W1, W2, W3, W4. cbn [negb].
  destruct W0 as [->|[->| ->]]; cbn; (split; [reflexivity|]); (split; [intros X; try discriminate X; reflexivity|]); (split; intros X; try discriminate X; try split; reflexivity).
Qed.
Print Assumptions C80_key_init.
(** It succeeds for a kind of function and four integers, and for nothing else. *)
Theorem C80_key_init_accepts ty e v b s : (exists o, key_init ty e v b s = (o, None)) <-> wanted SFunType ty /\ wanted SVertIdx v /\ wanted SEdgeIdx e /\ wanted SEdgeSpaceIdx s /\ wanted SBubbSpaceIdx b.
Proof.
  split; [intros (o & E); apply (init_calls _ _ _ _ _ _ E)|]. rewrite <- !checks_iff. intros (C0 & C1 & C2 & C3 & C4). unfold key_init, andthen. unfold set_fun_type. cbn [checks] in C0. rewrite C0. cbn [negb snd fst done].
  unfold set_vert_idx. rewrite key_run by (discriminate || exact C1). cbn [snd fst done]. unfold set_edge_idx. rewrite key_run by (discriminate || exact C2). cbn [snd fst done]. unfold set_edge_space_idx. rewrite key_run by (discriminate || exact C3). cbn [snd fst done]. unfold set_bubb_space_idx. rewrite key_run by (discriminate || exact C4). eexists. reflexivity.
Qed.
Print Assumptions C80_key_init_accepts.
(** The setter for the kind of function leaves the indices of the former kind. *)
Theorem C80_key_refuted : exists o o', key_init (OStr "vert") (OInt (-1)) (OInt 3) (OInt (-1)) (OInt (-1)) = (o, None) /\ run SFunType o (OStr "edge") = (o', None) /\ consistent o /\ ~ consistent o' /\ getattr o' "vert_idx" = Some (OInt 3) /\ getattr o' "edge_idx" = Some (OInt (-1)).
Proof.
  do 2 eexists. split; [reflexivity|]. split; [reflexivity|]. split; [apply (C80_key_init (OStr "vert") (OInt (-1)) (OInt 3) (OInt (-1)) (OInt (-1))); reflexivity|]. split; [|split; reflexivity]. intros C. specialize (C SVertIdx "vert" eq_refl). cbn in C. discriminate C. discriminate.
Qed.
Print Assumptions C80_key_refuted.
