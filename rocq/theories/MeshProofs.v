(** Lemmas about the mesh tables. *)
From Coq Require Import List ZArith Reals Lia Lra Bool String Sorted Permutation.
From Verif Require Import PyBase PolyModel BaryModel QuadModel CurveModel VertModel EdgeModel ContourModel CellModel CellProofs MeshModel MeshSpec.
Import List ListNotations.

Lemma memb_true i l : memb i l = true <-> In i l.
Proof. unfold memb. rewrite existsb_exists. split; [intros (x & I & E); apply Nat.eqb_eq in E; subst; exact I|intros I; exists i; split; [exact I|apply Nat.eqb_refl]]. Qed.
Lemma zmemb_true i l : zmemb i l = true <-> In i l.
Proof. unfold zmemb. rewrite existsb_exists. split; [intros (x & I & E); apply Z.eqb_eq in E; subst; exact I|intros I; exists i; split; [exact I|apply Z.eqb_refl]]. Qed.

Lemma firsts_in l i : In i (firsts l) <-> In i l.
Proof.
  induction l as [|x l IH]; [tauto|]. cbn [firsts In]. rewrite filter_In, IH. destruct (Nat.eq_dec i x) as [->|N]; [tauto|]. assert (E : negb (Nat.eqb i x) = true) by (apply negb_true_iff, Nat.eqb_neq, N). rewrite E. intuition congruence.
Qed.
Lemma firsts_nodup l : NoDup (firsts l).
Proof. induction l as [|x l IH]; [constructor|]. cbn. constructor; [|apply NoDup_filter, IH]. rewrite filter_In. intros [_ E]. rewrite Nat.eqb_refl in E. discriminate. Qed.

(** The accumulating loop *)
Lemma firsts_app l : forall acc, NoDup acc -> fold_left (fun a i => if memb i a then a else a ++ [i]) l acc = acc ++ filter (fun y => negb (memb y acc)) (firsts l).
Proof.
  induction l as [|x l IH]; intros acc ND; cbn [fold_left firsts filter]; [rewrite app_nil_r; reflexivity|]. destruct (memb x acc) eqn:M.
  - cbn [negb]. rewrite (IH acc ND). f_equal. assert (G : forall k, filter (fun y => negb (memb y acc)) k = filter (fun y => negb (memb y acc)) (filter (fun y => negb (Nat.eqb y x)) k)).
    { induction k as [|y k IHk]; [reflexivity|]. cbn [filter]. destruct (Nat.eqb_spec y x) as [->|N]; cbn [negb filter]; [rewrite M; exact IHk|]. rewrite IHk. reflexivity. }
    apply G.
  - cbn [negb]. rewrite IH; [|].
    + rewrite <- app_assoc. cbn [app]. do 2 f_equal. assert (G : forall k, filter (fun y => negb (memb y (acc ++ [x]))) k = filter (fun y => negb (memb y acc)) (filter (fun y => negb (Nat.eqb y x)) k)).
      { induction k as [|y k IHk]; [reflexivity|]. cbn [filter]. unfold memb in *. rewrite existsb_app. cbn [existsb]. rewrite orb_false_r. destruct (Nat.eqb_spec y x) as [->|N]; cbn [negb filter]; [rewrite orb_true_r; exact IHk|]. rewrite orb_false_r, IHk. reflexivity. }
      apply G.
    + assert (NI : ~ In x acc) by (intros I; apply memb_true in I; congruence). apply Permutation_NoDup with (l := x :: acc); [apply Permutation_cons_append|constructor; assumption].
Qed.
Lemma add_edges_ok H l : forall m, Forall (fun i => exists e, nth_error H i = Some e /\ embedded e) l ->
  mesh_add_edges H m l = Ok (Mesh (fold_left (fun a i => if memb i a then a else a ++ [i]) l (m_edges m))
    (m_num m + Z.of_nat (List.length (fold_left (fun a i => if memb i a then a else a ++ [i]) l (m_edges m))) - Z.of_nat (List.length (m_edges m))) (m_cells m) (m_ncells m) (m_verts m) (m_nverts m)).
Proof.
  induction l as [|i l IH]; intros [es n cs nc vs nv] F; unfold mesh_add_edges in *; cbn [fold_res fold_left m_edges m_num m_cells m_ncells m_verts m_nverts].
  - do 2 f_equal. lia.
  - inversion F as [|? ? (e & E & Em) F']; subst. unfold mesh_add_edge at 1. rewrite E. assert (B : andb (Z.ltb (e_neg e) 0) (Z.ltb (e_pos e) 0) = false) by (unfold embedded in Em; destruct (Z.ltb_spec (e_neg e) 0), (Z.ltb_spec (e_pos e) 0); cbn; reflexivity || lia). rewrite B. cbn [m_edges]. destruct (memb i es).
    + cbn [bind]. rewrite (IH _ F'). reflexivity.
    + cbn [bind]. rewrite (IH _ F'). cbn [m_edges m_num m_cells m_ncells m_verts m_nverts]. rewrite app_length. cbn [List.length]. do 2 f_equal. lia.
Qed.
Lemma add_edges_err H l i r : forall m, Forall (fun i => exists e, nth_error H i = Some e /\ embedded e) l -> (forall m, mesh_add_edge H m i = Err r) -> forall l', mesh_add_edges H m (l ++ i :: l') = Err r.
Proof.
  induction l as [|j l IH]; intros m F E l'; unfold mesh_add_edges in *; cbn [app fold_res].
  - rewrite E. reflexivity.
  - inversion F as [|? ? (e & Ee & Em) F']; subst. unfold mesh_add_edge at 1. rewrite Ee. assert (B : andb (Z.ltb (e_neg e) 0) (Z.ltb (e_pos e) 0) = false) by (unfold embedded in Em; destruct (Z.ltb_spec (e_neg e) 0), (Z.ltb_spec (e_pos e) 0); cbn; reflexivity || lia). rewrite B. destruct (memb j (m_edges m)); cbn [bind]; apply IH; assumption.
Qed.

(** Numbering *)
Lemma number_edges_ok H l : NoDup l -> Forall (fun i => (i < List.length H)%nat) l -> exists H', number_edges H l = Ok H' /\ List.length H' = List.length H /\
  (forall k i e, nth_error l k = Some i -> nth_error H i = Some e -> nth_error H' i = Some (with_idx e (Some (Z.of_nat k)))) /\ (forall j, ~ In j l -> nth_error H' j = nth_error H j).
Proof.
  unfold number_edges. assert (G : forall l s H, NoDup l -> Forall (fun i => (i < List.length H)%nat) l -> exists H', fold_res (fun H ki => do e <- deref H (snd ki); do i <- check_idx (Some (PInt (Z.of_nat (fst ki)))); Ok (hset H (snd ki) (with_idx e i))) (combine (seq s (List.length l)) l) H = Ok H' /\ List.length H' = List.length H /\
    (forall k i e, nth_error l k = Some i -> nth_error H i = Some e -> nth_error H' i = Some (with_idx e (Some (Z.of_nat (s + k))))) /\ (forall j, ~ In j l -> nth_error H' j = nth_error H j)).
  { clear H l. induction l as [|i l IH]; intros s H ND F; cbn [List.length seq combine fold_res fst snd].
    - exists H. split; [reflexivity|]. split; [reflexivity|]. split; [intros [|k] ? ? D; discriminate|reflexivity].
    - inversion ND as [|? ? NI ND']; subst. inversion F as [|? ? Li F']; subst. unfold deref at 1. destruct (nth_error H i) as [e|] eqn:E; [|apply nth_error_None in E; lia]. cbn [bind check_idx]. destruct (Z.ltb_spec (Z.of_nat s) 0) as [X|_]; [lia|]. cbn [bind].
      set (H1 := hset H i (with_idx e (Some (Z.of_nat s)))). assert (L1 : List.length H1 = List.length H) by (apply hset_length; exact Li). destruct (IH (S s) H1 ND') as (H' & E' & L' & A & B); [rewrite L1; exact F'|]. exists H'. split; [exact E'|]. split; [lia|]. split.
      + intros [|k] j e' Ej Ee'; cbn in Ej.
        * injection Ej as <-. rewrite (B i NI). unfold H1. rewrite hset_same by exact Li. rewrite E in Ee'. injection Ee' as <-. rewrite Nat.add_0_r. reflexivity.
        * rewrite (A k j e' Ej); [do 3 f_equal; lia|]. unfold H1. rewrite hset_other; [exact Ee'|exact Li|]. intros ->. apply NI, (nth_error_In _ _ Ej).
      + intros j NI'. cbn in NI'. rewrite B by tauto. unfold H1. apply hset_other; [exact Li|tauto]. }
  intros ND F. destruct (G l 0%nat H ND F) as (H' & A). exists H'. exact A.
Qed.

(** Sorting *)
Lemma zinsert_perm z l : Permutation (zinsert z l) (z :: l).
Proof. induction l as [|x l IH]; [reflexivity|]. cbn. destruct (Z.leb z x); [reflexivity|]. rewrite IH. apply perm_swap. Qed.
Lemma zsort_perm l : Permutation (zsort l) l.
Proof. induction l as [|x l IH]; [reflexivity|]. cbn. rewrite zinsert_perm, IH. reflexivity. Qed.
Lemma zinsert_sorted z l : ~ In z l -> StronglySorted Z.lt l -> StronglySorted Z.lt (zinsert z l).
Proof.
  induction l as [|x l IH]; intros N S; cbn; [constructor; [constructor|constructor]|]. inversion S as [|? ? S' F]; subst. destruct (Z.leb_spec z x).
  - constructor; [exact S|]. assert (z < x)%Z by (assert (z <> x) by (intros ->; apply N; left; reflexivity); lia). constructor; [assumption|]. eapply Forall_impl; [|exact F]. cbn. lia.
  - constructor; [apply IH; [intros I; apply N; right; exact I|exact S']|]. rewrite Forall_forall in *. intros y I. apply (Permutation_in _ (zinsert_perm z l)) in I. destruct I as [<-|I]; [assumption|apply F, I].
Qed.
Lemma zsort_sorted l : NoDup l -> StronglySorted Z.lt (zsort l).
Proof. induction l as [|x l IH]; intros N; [constructor|]. inversion N; subst. cbn. apply zinsert_sorted; [|apply IH; assumption]. intros I. apply (Permutation_in _ (zsort_perm l)) in I. contradiction. Qed.

(** Collecting *)
Lemma collect_spec l z : NoDup l -> NoDup (collect l z) /\ forall x, In x (collect l z) <-> In x l \/ (x = z /\ 0 <= z)%Z.
Proof.
  intros N. unfold collect. destruct (Z.leb_spec 0 z); cbn [andb]; [|split; [exact N|intros; split; [auto|intros [I|[_ X]]; [exact I|lia]]]]. destruct (zmemb z l) eqn:M; cbn [negb].
  - apply zmemb_true in M. split; [exact N|]. intros x. split; [auto|intros [I|[-> _]]; assumption].
  - assert (NI : ~ In z l) by (intros I; apply zmemb_true in I; congruence). split.
    + apply Permutation_NoDup with (l := z :: l); [apply Permutation_cons_append|constructor; assumption].
    + intros x. rewrite in_app_iff. cbn. intuition congruence.
Qed.
Lemma collect_all es : forall (f : edge -> list Z) l, NoDup l ->
  NoDup (fold_left (fun l e => fold_left collect (f e) l) es l) /\ forall x, In x (fold_left (fun l e => fold_left collect (f e) l) es l) <-> In x l \/ ((0 <= x)%Z /\ exists e, In e es /\ In x (f e)).
Proof.
  intros f. assert (G : forall zs l, NoDup l -> NoDup (fold_left collect zs l) /\ forall x, In x (fold_left collect zs l) <-> In x l \/ ((0 <= x)%Z /\ In x zs)).
  { induction zs as [|z zs IH]; intros l N; cbn [fold_left]; [split; [exact N|cbn; tauto]|]. destruct (collect_spec l z N) as [N' C]. destruct (IH _ N') as [N2 C2]. split; [exact N2|]. intros x. rewrite C2, C. cbn. intuition (subst; auto). }
  induction es as [|e es IH]; intros l N; cbn [fold_left]; [split; [exact N|]; intros x; split; [auto|intros [I|(_ & e & [] & _)]; exact I]|]. destruct (G (f e) l N) as [N' C]. destruct (IH _ N') as [N2 C2]. split; [exact N2|]. intros x. rewrite C2, C. split.
  - intros [[I|[P I]]|(P & e' & I & I')]; [auto|right; split; [exact P|exists e; cbn; auto]|right; split; [exact P|exists e'; cbn; auto]].
  - intros [I|(P & e' & [<-|I] & I')]; [auto|auto|right; eauto].
Qed.
Lemma cell_list_spec es : increasing (cell_list es) /\ forall z, In z (cell_list es) <-> (0 <= z)%Z /\ exists e, In e es /\ borders z e.
Proof.
  unfold cell_list. destruct (collect_all es (fun e => [e_pos e; e_neg e]) [] (NoDup_nil _)) as [N C]. split; [apply zsort_sorted, N|]. intros z. assert (P : forall l, In z (zsort l) <-> In z l) by (intros l; split; apply Permutation_in; [apply zsort_perm|symmetry; apply zsort_perm]). rewrite P, C. unfold borders. cbn [In]. split.
  - intros [[]|(P0 & e & I & [E|[E|[]]])]; split; eauto.
  - intros (P0 & e & I & E). right. split; [exact P0|]. exists e. tauto.
Qed.
Lemma vert_list_spec es : increasing (vert_list es) /\ forall v, In v (vert_list es) <-> (0 <= v)%Z /\ exists e, In e es /\ e_loop e = false /\ ends_at v e.
Proof.
  unfold vert_list. assert (E : forall l, fold_left (fun l e => if e_loop e then l else fold_left collect [vidx (e_anchor e); vidx (e_endpnt e)] l) es l = fold_left (fun l e => fold_left collect (if e_loop e then [] else [vidx (e_anchor e); vidx (e_endpnt e)]) l) es l).
  { induction es as [|e es IH]; intros l; [reflexivity|]. cbn [fold_left]. rewrite IH. destruct (e_loop e); reflexivity. }
  rewrite E. destruct (collect_all es (fun e => if e_loop e then [] else [vidx (e_anchor e); vidx (e_endpnt e)]) [] (NoDup_nil _)) as [N C]. split; [apply zsort_sorted, N|]. intros z. assert (P : forall l, In z (zsort l) <-> In z l) by (intros l; split; apply Permutation_in; [apply zsort_perm|symmetry; apply zsort_perm]). rewrite P, C. unfold ends_at. split.
  - intros [[]|(P0 & e & I & J)]. split; [exact P0|]. exists e. destruct (e_loop e); cbn in J; [contradiction|]. tauto.
  - intros (P0 & e & I & L & J). right. split; [exact P0|]. exists e. rewrite L. cbn. tauto.
Qed.

Lemma map_deref H l es : map_res (deref H) l = Ok es <-> Forall2 (fun i e => nth_error H i = Some e) l es.
Proof.
  revert es. induction l as [|i l IH]; intros es; cbn [map_res].
  - split; [intros X; apply Ok_inj in X; subst; constructor|intros F; inversion F; reflexivity].
  - unfold deref at 1. destruct (nth_error H i) as [e|] eqn:E; cbn [bind].
    + destruct (map_res (deref H) l) as [es'|]; cbn [bind].
      * split; [intros X; apply Ok_inj in X; subst; constructor; [exact E|apply IH; reflexivity]|]. intros F. inversion F as [|? e' ? es2 E' F']; subst. apply IH in F'. apply Ok_inj in F'. congruence.
      * split; [discriminate|]. intros F. inversion F as [|? e' ? es2 E' F']; subst. apply IH in F'. discriminate.
    + split; [discriminate|]. intros F. inversion F; congruence.
Qed.
Lemma map_deref_total H l : Forall (fun i => (i < List.length H)%nat) l -> exists es, map_res (deref H) l = Ok es.
Proof.
  induction l as [|i l IH]; intros F; [eexists; reflexivity|]. inversion F as [|? ? Li F']; subst. destruct (IH F') as (es & E). cbn [map_res]. unfold deref at 1. destruct (nth_error H i) as [e|] eqn:Ee; [|apply nth_error_None in Ee; lia]. rewrite E. cbn. eauto.
Qed.

(** The whole constructor *)
Lemma mk_mesh_ok H is : Forall (fun i => exists e, nth_error H i = Some e /\ embedded e) is -> exists H' es,
  mk_mesh H is = Ok (H', Mesh (firsts is) (Z.of_nat (List.length (firsts is))) (cell_list es) (Z.of_nat (List.length (cell_list es))) (vert_list es) (Z.of_nat (List.length (vert_list es)))) /\
  List.length H' = List.length H /\ Forall2 (fun i e => nth_error H' i = Some e) (firsts is) es /\
  (forall k i e, nth_error (firsts is) k = Some i -> nth_error H i = Some e -> nth_error H' i = Some (with_idx e (Some (Z.of_nat k)))) /\ (forall j, ~ In j is -> nth_error H' j = nth_error H j).
Proof.
  intros F. unfold mk_mesh. rewrite (add_edges_ok H is _ F). cbn [bind m_edges m_num m_cells m_ncells m_verts m_nverts]. rewrite (firsts_app is [] (NoDup_nil _)). cbn [app]. assert (E0 : filter (fun y => negb (memb y [])) (firsts is) = firsts is) by (clear; induction (firsts is) as [|x l IH]; [reflexivity|cbn in *; rewrite IH; reflexivity]). rewrite E0.
  assert (FL : Forall (fun i => (i < List.length H)%nat) (firsts is)). { apply Forall_forall. intros i I. apply (firsts_in is i) in I. rewrite Forall_forall in F. destruct (F i I) as (e & E & _). apply nth_error_Some. congruence. }
  destruct (number_edges_ok H (firsts is) (firsts_nodup is) FL) as (H' & E1 & L & A & B). rewrite E1. cbn [bind]. destruct (map_deref_total H' (firsts is)) as (es & E2); [rewrite L; exact FL|]. rewrite E2. cbn [bind]. exists H', es. split; [do 3 f_equal; cbn [List.length]; lia|]. split; [exact L|]. split; [apply map_deref, E2|]. split; [exact A|]. intros j NJ. apply B. rewrite firsts_in. exact NJ.
Qed.
