(** Lemmas for C84: a run on edges in another state of sampling. *)
From Coq Require Import List ZArith Reals Lia Bool String.
From Verif Require Import PyBase PolyModel BaryModel QuadModel VertModel EdgeModel ContourModel CellModel MeshModel TraceModel LocalModel NystromModel EdgeSpaceModel GlobModel GlobProps SolverModel SolverProofs LocSpaceModel AsmModel CellSpec CellProofs ContourProofs ContourProofs2 ContourProofs4 CellProps5 DeparamProps AsmProps LocSpaceProps4 AsmProofs3 BoardProofs AgainProofs.
Import List ListNotations.
Open Scope R_scope.

Lemma same_bare_map X Y : map deparameterize X = map deparameterize Y -> same_bare X Y.
Proof. intros E i. rewrite <- !nth_error_map, E. reflexivity. Qed.
Lemma map_same_bare X Y : same_bare X Y -> map deparameterize X = map deparameterize Y.
Proof. intros E. apply nth_error_ext'. intros i. rewrite !nth_error_map. symmetry. apply E. Qed.

(** ** Sampling a cell *)
Lemma agree_incl H H' l l' : (forall i, In i l' -> In i l) -> agree H H' l -> agree H H' l'.
Proof. intros I A i J. apply A, I, J. Qed.
Lemma in_hset {B} (x : B) l i a : In x (hset l i a) -> x = a \/ In x l.
Proof.
  unfold hset. intros I. apply in_app_or in I. destruct I as [I|[I|I]]; [right|left; congruence|right].
  - rewrite <- (firstn_skipn i l). apply in_or_app. left. exact I.
  - rewrite <- (firstn_skipn (S i) l). apply in_or_app. right. exact I.
Qed.
Lemma comps_edges contains qd ks : forall H done H1 l, fold_res (fun Hl k => do (H, k) <- param_contour contains qd (fst Hl) k; Ok (H, snd Hl ++ [k])) ks (H, done) = Ok (H1, l) -> exists l', l = done ++ l' /\ map k_edges l' = map k_edges ks.
Proof.
  induction ks as [|k ks IH]; intros H done H1 l E; [cbn in E; apply Ok_inj in E; injection E as _ ->; exists []; rewrite app_nil_r; auto|].
  cbn [fold_res fst snd] in E. destruct (param_contour contains qd H k) as [[H2 k2]|] eqn:P; [|discriminate]. cbn [bind] in E. destruct (IH _ _ _ _ E) as (l' & -> & M). exists (k2 :: l'). rewrite <- app_assoc. split; [reflexivity|]. cbn [map]. rewrite M. f_equal.
  rewrite param_steps in P. destruct (param_edges qd H k) as [h|]; [|discriminate]. cbn [bind] in P. destruct (table_steps contains h k) as [k3|] eqn:T; [|discriminate]. cbn [bind] in P. apply Ok_inj in P. injection P as _ ->. exact (steps_edges _ _ _ _ T).
Qed.
Lemma same_res_refl {B} (Q : B -> B -> Prop) r : (forall a, r = Ok a -> Q a a) -> same_res Q r r.
Proof. intros E. destruct r; [apply E; reflexivity|reflexivity]. Qed.
Lemma same_bind {B D} (Q : B -> B -> Prop) (P : D -> D -> Prop) r r' k k' : same_res Q r r' -> (forall a a', r = Ok a -> r' = Ok a' -> Q a a' -> same_res P (k a) (k' a')) -> same_res P (bind r k) (bind r' k').
Proof. intros S E. destruct r, r'; cbn [same_res bind] in *; try contradiction; [apply E; auto|congruence]. Qed.
Lemma same_after {B D} (P : D -> D -> Prop) (r r' : res B) k k' : r' = r -> (forall a, r = Ok a -> same_res P (k a) (k' a)) -> same_res P (bind r k) (bind r' k').
Proof. intros -> E. destruct r; cbn [bind]; [apply E; reflexivity|reflexivity]. Qed.

Definition alike {B} (a b : heap * cell * B) : Prop := let '(X, c, y) := a in let '(Y, c', y') := b in same_bare X Y /\ agree X Y (cell_edges c) /\ c' = c /\ y' = y.
Lemma cell_alike contains qd w X Y c : same_bare X Y -> Forall wf_contour (c_comps c) ->
  same_res (fun a b => same_bare (fst a) (fst b) /\ agree (fst a) (fst b) (cell_edges (snd a)) /\ snd b = snd a) (param_cell contains qd w X c) (param_cell contains qd w Y c).
Proof.
  intros B W. unfold param_cell, param_comps. pose proof (comps_follow contains qd (c_comps c) X Y (c_comps c) [] B W) as F. cbv zeta in F.
  eapply same_bind; [apply F|]. { clear. induction (c_comps c); constructor; [repeat split|assumption]. }
  intros [X1 l] [Y1 l'] E _. cbn [fst snd]. intros [[B1 A1] ->]. destruct (comps_edges _ _ _ _ _ _ _ E) as (l' & -> & M). cbn [app].
  assert (A : agree X1 Y1 (cell_edges (with_comps c l'))) by (intros i I; apply A1; left; unfold cell_edges in I; cbn [with_comps c_comps] in I; rewrite M in I; exact I).
  clear E A1 F. apply same_after; [apply a_numpts, A|]. intros c1 E1. assert (C1 : c_comps c1 = l').
  { unfold cell_num_pts in E1. destruct (cell_guard _ _); [|discriminate]. cbn [bind] in E1. destruct (fold_res _ _ _); [|discriminate]. cbn [bind] in E1. apply Ok_inj in E1. subst c1. reflexivity. }
  assert (A1 : agree X1 Y1 (cell_edges c1)) by (unfold cell_edges in *; rewrite C1; exact A).
  apply same_after; [apply a_outer, A1|]. intros c2 E2. assert (A2 : agree X1 Y1 (cell_edges c2)).
  { revert A1. apply agree_incl. intros i I. unfold find_outer in E2. destruct (cell_guard _ _); [|discriminate]. cbn [bind] in E2. destruct (fold_res _ _ _) as [o|]; [|discriminate]. cbn [bind] in E2. unfold geti in E2. destruct (nth_error (c_comps c1) 0) as [k0|] eqn:N0; [|discriminate]. cbn [bind] in E2. destruct (nth_error (c_comps c1) o) as [ko|] eqn:No; [|discriminate]. cbn [bind] in E2. apply Ok_inj in E2. subst c2.
    unfold cell_edges in *. cbn [with_comps c_comps] in I. apply in_concat in I. destruct I as (es & I & J). apply in_map_iff in I. destruct I as (k & <- & I). apply in_concat. exists (k_edges k). split; [|exact J]. apply in_map. apply nth_error_In in N0, No. apply in_hset in I. destruct I as [->|I]; [exact N0|]. apply in_hset in I. destruct I as [->|I]; assumption. }
  apply same_after; [apply a_start, A2|]. intros c3 E3. assert (C3 : c_comps c3 = c_comps c2).
  { unfold cell_start_idx in E3. destruct (cell_guard _ _); [|discriminate]. cbn [bind] in E3. destruct (fold_res _ _ _) as [[u v]|]; [|discriminate]. cbn [bind] in E3. apply Ok_inj in E3. subst c3. reflexivity. }
  assert (A3 : agree X1 Y1 (cell_edges c3)) by (unfold cell_edges in *; rewrite C3; exact A2).
  apply same_after; [apply a_closest, A3|]. intros c4 E4. assert (C4 : c_comps c4 = c_comps c3).
  { unfold cell_closest in E4. destruct (cell_guard _ _); [|discriminate]. cbn [bind] in E4. destruct (attr _); [|discriminate]. cbn [bind] in E4. destruct (fold_res _ _ _); [|discriminate]. cbn [bind] in E4. apply Ok_inj in E4. subst c4. reflexivity. }
  assert (A4 : agree X1 Y1 (cell_edges c4)) by (unfold cell_edges in *; rewrite C4; exact A3).
  apply same_after; [destruct w; [apply a_ipoints, A4|reflexivity]|]. intros c5 E5. assert (C5 : c_comps c5 = c_comps c4).
  { destruct w; [|apply Ok_inj in E5; congruence]. unfold interior_points in E5. destruct (c_mesh c4). repeat match type of E5 with bind ?r _ = _ => destruct r as [?x|]; [cbn [bind] in E5|discriminate] | (let '(_, _) := ?y in _) = _ => destruct y end. apply Ok_inj in E5. subst c5. reflexivity. }
  cbn [same_res fst snd]. split; [exact B1|]. split; [|reflexivity]. unfold cell_edges in *. rewrite C5. exact A4.
Qed.

(** ** The space of a cell, its keys and its rows *)
Section Run.
Variable contains : R -> list pt -> pt -> bool.
Variable low_rank : nat -> matrix -> matrix.
Variable gmres : (list R -> res (list R)) -> list R -> (list R -> res (list R)) -> res (list R).
Variable set_iter : list Z -> list Z.
Variable qd : quad * quad.
Variable B : bform.
Notation step := (run_step contains low_rank gmres set_iter qd B).
Notation local := (build_local contains low_rank gmres set_iter qd).

Lemma get_cell_same X Y m z : same_bare X Y -> get_cell Y m z = get_cell X m z.
Proof. intros S. rewrite <- (get_cell_bare Y), <- (get_cell_bare X), (map_same_bare _ _ S). reflexivity. Qed.
Lemma got_wf H m z c : get_cell H m z = Ok c -> wf_cell c.
Proof. intros E. destruct (get_cell_built _ _ _ _ E) as (ids & M & _). exact (built_wf _ _ _ _ _ _ _ M). Qed.
Lemma local_alike X Y p l all z iv gv : same_bare X Y -> same_res alike (local X p all z iv gv) (local Y (with_dofs p l) all z iv gv).
Proof.
  intros S. unfold build_local. cbn [with_dofs p_mesh p_deg]. apply same_after; [apply get_cell_same, S|]. intros c G. eapply same_bind.
  { apply cell_alike; [exact S|]. destruct (got_wf _ _ _ _ G) as (_ & _ & W). eapply Forall_impl; [|exact W]. cbn. tauto. }
  intros [X1 c1] [Y1 c1'] _ _. cbn [fst snd]. intros (S1 & A & ->). apply same_after; [apply a_kedges, A|]. intros es _. apply same_after; [reflexivity|]. intros sp _. apply same_after; [apply a_lspace, A|]. intros L _. cbn. auto.
Qed.
Lemma deref_same {D} (f : edge -> res D) X Y i : same_bare X Y -> (forall e e', deparameterize e' = deparameterize e -> f e' = f e) -> bind (deref Y i) f = bind (deref X i) f.
Proof. intros S E. specialize (S i). unfold deref. destruct (nth_error X i), (nth_error Y i); try discriminate; [|reflexivity]. cbn [option_map bind] in *. apply E. congruence. Qed.
Lemma boundary_same X Y p k : same_bare X Y -> fun_is_on_boundary Y p k = fun_is_on_boundary X p k.
Proof.
  intros S. unfold fun_is_on_boundary. destruct (String.eqb _ _); [reflexivity|]. destruct (String.eqb _ _); [|destruct (String.eqb _ _); [|reflexivity]].
  - unfold vert_is_on_boundary. enough (T : same_res (fun l l' => map deparameterize l' = map deparameterize l) (map_res (deref X) (m_edges (p_mesh p))) (map_res (deref Y) (m_edges (p_mesh p)))).
    { destruct (map_res (deref X) _) as [l|], (map_res (deref Y) _) as [l'|]; cbn [same_res bind] in *; try contradiction; [|congruence]. f_equal. revert l' T. induction l as [|e l IH]; intros [|e' l'] T; try discriminate; [reflexivity|]. cbn [map existsb] in *. injection T; intros. match goal with Q : map deparameterize l' = _ |- _ => rewrite (IH _ Q) end. repeat match goal with Q : ?f e' = ?f e |- _ => rewrite Q; clear Q end. reflexivity. }
    induction (m_edges (p_mesh p)) as [|i l IH]; [reflexivity|]. cbn [map_res]. pose proof (S i) as Si. unfold deref at 1 3. destruct (nth_error X i) as [e|], (nth_error Y i) as [e'|]; try discriminate; [|reflexivity]. cbn [option_map bind] in *. eapply same_bind; [exact IH|]. intros a a' _ _ E. cbn [same_res map]. rewrite E. f_equal. congruence.
  - unfold edge_is_on_boundary. destruct (pyget _ _) as [r|]; [|reflexivity]. cbn [bind]. apply deref_same; [exact S|]. intros e e' D. assert (V : (e_pos e', e_neg e') = (e_pos (deparameterize e'), e_neg (deparameterize e'))) by reflexivity. rewrite D in V. injection V as -> ->. reflexivity.
Qed.
Lemma number_same X Y p l a ks : same_bare X Y -> map_res (number_key Y (with_dofs p l) a) ks = map_res (number_key X p a) ks.
Proof. intros S. apply map_res_ext. intros k. rewrite number_key_dofs. unfold number_key. apply bind_ext; [reflexivity|]. intros g. apply bind_ext; [reflexivity|]. intros k'. apply bind_ext; [apply boundary_same, S|reflexivity]. Qed.

(** Spaces that differ in the keys registered earlier: [l] holds what [p] has registered and the keys of [T]. *)
Definition more (P0 T p p' : gspace) : Prop := exists l, p' = with_dofs p l /\ List.length l = List.length (p_dofs p) /\
  (forall c, exists s, nth c (p_dofs p) [] = nth c (p_dofs P0) [] ++ s /\ nth c l [] = nth c (p_dofs T) [] ++ s) /\
  forall c k, (In k (nth c (p_dofs p) []) -> In k (nth c l [])) /\ (In k (nth c l []) -> In k (nth c (p_dofs p) []) \/ In k (nth c (p_dofs T) [])).
Lemma nth_hset {D} (l : list D) i a j d : (i < List.length l)%nat -> nth j (hset l i a) d = if Nat.eqb i j then a else nth j l d.
Proof.
  intros L. destruct (Nat.eqb_spec i j) as [<-|N]; [apply nth_error_nth, hset_same, L|]. pose proof (hset_other l i j a L N) as O. destruct (nth_error l j) as [x|] eqn:E; [rewrite (nth_error_nth _ _ _ O), (nth_error_nth _ _ _ E); reflexivity|]. apply nth_error_None in O, E. rewrite !nth_overflow by assumption. reflexivity.
Qed.
Lemma register_alike P0 T X Y p p' a keys : same_bare X Y -> more P0 T p p' -> same_res (fun r r' => more P0 T (fst r) (fst r') /\ snd r' = snd r) (register X p a keys) (register Y p' a keys).
Proof.
  intros S (l & -> & Ll & Q & M). unfold register. apply same_after; [apply number_same, S|]. intros ks _. cbn [with_dofs p_dofs].
  destruct (nth_error (p_dofs p) a) as [d|] eqn:E, (nth_error l a) as [d'|] eqn:E'; [| | |].
  - assert (La : (a < List.length (p_dofs p))%nat) by (apply nth_error_Some; congruence). cbn [same_res fst snd]. split; [|reflexivity]. exists (hset l a (d' ++ ks)). split; [reflexivity|]. cbn [with_dofs p_dofs]. split; [rewrite !hset_length by lia; exact Ll|].
    split; [intros c; destruct (Q c) as (s & Q1 & Q2); rewrite !nth_hset by lia; destruct (Nat.eqb_spec a c) as [<-|]; [|exists s; auto]; rewrite (nth_error_nth _ _ [] E) in Q1; rewrite (nth_error_nth _ _ [] E') in Q2; exists (s ++ ks); rewrite Q1, Q2, !app_assoc; auto|].
    intros c k. rewrite !nth_hset by lia. destruct (Nat.eqb_spec a c) as [<-|]; [|apply M]. destruct (M a k) as [M1 M2]. rewrite (nth_error_nth _ _ [] E) in *. rewrite (nth_error_nth _ _ [] E') in *. rewrite !in_app_iff. tauto.
  - apply nth_error_None in E'. assert (La : (a < List.length (p_dofs p))%nat) by (apply nth_error_Some; congruence). lia.
  - apply nth_error_None in E. assert (La : (a < List.length l)%nat) by (apply nth_error_Some; congruence). lia.
  - destruct keys; [|reflexivity]. cbn [same_res fst snd]. split; [|reflexivity]. exists l. auto.
Qed.

Definition near (P0 T : gspace) (a b : heap * @work lpois) : Prop :=
  same_bare (fst a) (fst b) /\ more P0 T (w_space (snd a)) (w_space (snd b)) /\ w_entries (snd b) = w_entries (snd a) /\ w_rhs (snd b) = w_rhs (snd a) /\ w_local (snd b) = w_local (snd a).
Lemma step_near P0 T all iv gv a b k : near P0 T a b -> same_res (near P0 T) (step all iv gv a k) (step all iv gv b k).
Proof.
  destruct a as [X [p es rh lo]], b as [Y [p' es' rh' lo']]. intros (S & M & E1 & E2 & E3). cbn [fst snd w_space w_entries w_rhs w_local] in *. subst es' rh' lo'. unfold run_step. cbn [w_space w_entries w_rhs w_local]. cbv zeta. pose proof M as (l & Ep & _). rewrite Ep. cbn [with_dofs p_mesh].
  apply same_after; [reflexivity|]. intros z _. apply same_after; [reflexivity|]. intros abs _. eapply same_bind; [apply local_alike, S|].
  intros [[X1 c] L] [[Y1 c'] L'] _ _ (S1 & A & -> & ->). eapply same_bind; [apply (register_alike P0 T X1 Y1 p (with_dofs p l)); [exact S1|rewrite <- Ep; exact M]|].
  intros r r' _ _ [Mr ->]. apply same_after; [apply map_res_ext; intros i; apply a_form_row, A|]. intros rows _. repeat split; cbn [fst snd w_space w_entries w_rhs w_local]; auto.
Qed.
Lemma fold_near P0 T all iv gv ks : forall a b, near P0 T a b -> same_res (near P0 T) (fold_res (step all iv gv) ks a) (fold_res (step all iv gv) ks b).
Proof. induction ks as [|k ks IH]; intros a b N; [exact N|]. cbn [fold_res]. eapply same_bind; [apply step_near, N|]. intros a1 b1 _ _. apply IH. Qed.

(** ** Keys that a run has registered stay registered *)
Definition grows (p p' : gspace) : Prop := (forall c k, In k (nth c (p_dofs p) []) -> In k (nth c (p_dofs p') [])) /\ List.length (p_dofs p') = List.length (p_dofs p) /\ exists l, p' = with_dofs p l.
Lemma with_same p : with_dofs p (p_dofs p) = p.
Proof. destruct p; reflexivity. Qed.
Lemma grows_refl p : grows p p.
Proof. split; [auto|]. split; [reflexivity|]. exists (p_dofs p). symmetry. apply with_same. Qed.
Lemma grows_trans p q r : grows p q -> grows q r -> grows p r.
Proof. intros (A & B1 & l & ->) (A' & B' & l' & ->). split; [auto|]. split; [congruence|]. exists l'. reflexivity. Qed.
Lemma register_grows H p a keys r : register H p a keys = Ok r -> grows p (fst r).
Proof.
  unfold register. destruct (map_res _ keys) as [ks|]; [|discriminate]. cbn [bind]. destruct (nth_error (p_dofs p) a) as [d|] eqn:E; [|destruct keys; [|discriminate]; intros F; apply Ok_inj in F; subst r; apply grows_refl].
  intros F. apply Ok_inj in F. subst r. cbn [fst]. assert (La : (a < List.length (p_dofs p))%nat) by (apply nth_error_Some; congruence). split; [|split; [apply hset_length, La|eexists; reflexivity]]. intros c k I. cbn [with_dofs p_dofs]. rewrite nth_hset by exact La. destruct (Nat.eqb_spec a c) as [<-|]; [|exact I]. rewrite (nth_error_nth _ _ _ E) in I. apply in_or_app. left. exact I.
Qed.
Definition numbered (p : gspace) : Prop := forall c k, In k (nth c (p_dofs p) []) -> exists g b, g_glob k = Some g /\ g_bdry k = Some b.
Lemma number_numbered H p a keys : forall ks, map_res (number_key H p a) keys = Ok ks -> forall k, In k ks -> exists g b, g_glob k = Some g /\ g_bdry k = Some b.
Proof.
  induction keys as [|x keys IH]; intros ks E k I; [cbn in E; apply Ok_inj in E; subst; destruct I|]. cbn [map_res] in E. destruct (number_key H p a x) as [x'|] eqn:N; [|discriminate]. cbn [bind] in E. destruct (map_res _ keys) as [ks'|]; [|discriminate]. cbn [bind] in E. apply Ok_inj in E. subst ks. destruct I as [<-|I]; [|eapply IH; eauto].
  unfold number_key in N. destruct (get_global_idx p x a) as [g|]; [|discriminate]. cbn [bind] in N. unfold set_glob_idx in N. destruct (Z.ltb g 0); [discriminate|]. cbn [bind] in N. destruct (fun_is_on_boundary _ _ _) as [bb|]; [|discriminate]. cbn [bind] in N. apply Ok_inj in N. subst x'. exists g, bb. split; reflexivity.
Qed.
Lemma register_numbered H p a keys r : numbered p -> register H p a keys = Ok r -> numbered (fst r).
Proof.
  intros N. unfold register. destruct (map_res _ keys) as [ks|] eqn:K; [|discriminate]. cbn [bind]. destruct (nth_error (p_dofs p) a) as [d|] eqn:E; [|destruct keys; [|discriminate]; intros F; apply Ok_inj in F; subst r; exact N].
  intros F. apply Ok_inj in F. subst r. cbn [fst]. assert (La : (a < List.length (p_dofs p))%nat) by (apply nth_error_Some; congruence). intros c k I. cbn [with_dofs p_dofs] in I. rewrite nth_hset in I by exact La. destruct (Nat.eqb_spec a c) as [<-|]; [|exact (N c k I)]. apply in_app_or in I. destruct I as [I|I]; [apply (N a); rewrite (nth_error_nth _ _ _ E); exact I|exact (number_numbered _ _ _ _ _ K k I)].
Qed.
(** What a pass of the loop does with the space *)
Lemma step_inv all iv gv X w k X' w' : step all iv gv (X, w) k = Ok (X', w') -> exists z abs X1 c L r, geti (m_cells (p_mesh (w_space w))) k = Ok z /\ get_abs_cell_idx (p_mesh (w_space w)) z = Ok abs /\
  local X (w_space w) all z iv gv = Ok (X1, c, L) /\ register X1 (w_space w) (Z.to_nat abs) (map key_of (get_basis L)) = Ok r /\ w_space w' = fst r /\ X' = X1.
Proof.
  unfold run_step. destruct (geti _ k) as [z|] eqn:Ez; [|discriminate]. cbn [bind]. destruct (get_abs_cell_idx _ z) as [abs|] eqn:Ea; [|discriminate]. cbn [bind]. destruct (local X _ all z iv gv) as [[[X1 c] L]|] eqn:El; [|discriminate]. cbn [bind]. destruct (register X1 _ _ _) as [r|] eqn:Er; [|discriminate]. cbn [bind]. destruct (map_res _ _) as [rows|]; [|discriminate]. cbn [bind]. intros E. apply Ok_inj in E. injection E as -> ->. exists z, abs, X1, c, L, r. repeat (split; [solve [assumption | reflexivity]|]). reflexivity.
Qed.
Lemma fold_grows all iv gv ks : forall X w X' w', fold_res (step all iv gv) ks (X, w) = Ok (X', w') -> grows (w_space w) (w_space w') /\ (numbered (w_space w) -> numbered (w_space w')).
Proof.
  induction ks as [|k ks IH]; intros X w X' w' E; [cbn in E; apply Ok_inj in E; injection E as -> ->; split; [apply grows_refl|auto]|]. cbn [fold_res] in E. destruct (step all iv gv (X, w) k) as [[X1 w1]|] eqn:Es; [|discriminate]. cbn [bind] in E. destruct (IH _ _ _ _ E) as [G N]. destruct (step_inv _ _ _ _ _ _ _ _ Es) as (z & abs & X2 & c & L & r & _ & _ & _ & Er & Ew & _). rewrite Ew in *.
  split; [eapply grows_trans; [exact (register_grows _ _ _ _ _ Er)|exact G]|]. intros Np. apply N. exact (register_numbered _ _ _ _ _ Np Er).
Qed.

(** ** Boundary conditions see the set of keys *)
Lemma impose_ok ks : (forall k, In k ks -> exists g b, g_glob k = Some g /\ g_bdry k = Some b) -> forall sys, exists r, fold_res impose_key ks sys = Ok r.
Proof.
  induction ks as [|k ks IH]; intros N sys; [eexists; reflexivity|]. cbn [fold_res]. destruct (N k (or_introl eq_refl)) as (g & b & E1 & E2). unfold impose_key at 1, on_boundary, glob. rewrite E1, E2. cbn [bind]. assert (N' : forall k, In k ks -> exists g b, g_glob k = Some g /\ g_bdry k = Some b) by (intros; apply N; right; assumption). destruct b; cbn [bind]; apply IH, N'.
Qed.
Lemma zmem_same z l l' : (forall x, In x l <-> In x l') -> zmem z l = zmem z l'.
Proof. intros E. unfold zmem. apply Bool.eq_iff_eq_true. rewrite !existsb_exists. split; intros (x & I & F); exists x; (split; [apply E, I|exact F]). Qed.
Lemma impose_same ks ks' sys : (forall k, In k ks <-> In k ks') -> (forall k, In k ks -> exists g b, g_glob k = Some g /\ g_bdry k = Some b) -> fold_res impose_key ks' sys = fold_res impose_key ks sys.
Proof.
  intros E N. destruct (impose_ok ks N sys) as [r Er]. destruct (impose_ok ks' (fun k I => N k (proj2 (E k) I)) sys) as [r' Er']. rewrite Er, Er'. destruct sys as [es rhs]. apply impose_all in Er, Er'. subst r r'.
  assert (G : forall x, In x (bnd_globs ks') <-> In x (bnd_globs ks)). { intros x. unfold bnd_globs. rewrite !in_concat. split; intros (l & I & J); apply in_map_iff in I; destruct I as (k & <- & I); eexists; (split; [apply in_map, E, I|exact J]). }
  f_equal. f_equal; apply map_ext; intros t; [unfold bc_entry|unfold bc_rhs]; rewrite (zmem_same _ _ _ G); reflexivity.
Qed.
Lemma getis {D} (l : list D) (d : D) is : map_res (geti l) is = if forallb (fun i => Nat.ltb i (List.length l)) is then Ok (map (fun i => nth i l d) is) else Err IndexError.
Proof.
  induction is as [|i is IH]; [reflexivity|]. cbn [map_res forallb map]. unfold geti at 1. destruct (nth_error l i) as [x|] eqn:E.
  - assert (L : (i < List.length l)%nat) by (apply nth_error_Some; congruence). destruct (Nat.ltb_spec i (List.length l)); [|lia]. cbn [bind andb]. rewrite IH. destruct (forallb _ is); [|reflexivity]. cbn [bind]. rewrite (nth_error_nth _ _ _ E). reflexivity.
  - apply nth_error_None in E. destruct (Nat.ltb_spec i (List.length l)); [lia|]. reflexivity.
Qed.
Lemma impose_more P0 T p p' sys : more P0 T p p' -> (forall c k, In k (nth c (p_dofs T) []) -> In k (nth c (p_dofs p) [])) -> numbered p -> impose_bc p' sys = impose_bc p sys.
Proof.
  intros (l & -> & Ll & _ & M) G N. unfold impose_bc. cbn [with_dofs p_dofs p_mesh]. rewrite !(getis _ []), Ll. destruct (forallb _ _); [|reflexivity]. cbn [bind]. apply impose_same.
  - intros k. rewrite !in_concat. split; intros (d & I & J); apply in_map_iff in I; destruct I as (c & <- & I); eexists; (split; [apply in_map, I|]); cbn beta; destruct (M c k) as [M1 M2]; specialize (G c k); tauto.
  - intros k I. apply in_concat in I. destruct I as (d & I & J). apply in_map_iff in I. destruct I as (c & <- & _). exact (N c k J).
Qed.

(** ** The same space *)
Lemma step_same all iv gv X Y w k : same_bare X Y -> same_res (fun a b => same_bare (fst a) (fst b) /\ snd b = snd a) (step all iv gv (X, w) k) (step all iv gv (Y, w) k).
Proof.
  intros S. unfold run_step. cbv zeta. apply same_after; [reflexivity|]. intros z _. apply same_after; [reflexivity|]. intros abs _. eapply same_bind; [rewrite <- (with_same (w_space w)) at 2; apply local_alike, S|].
  intros [[X1 c] L] [[Y1 c'] L'] _ _ (S1 & A & -> & ->). apply same_after; [unfold register; apply bind_ext; [|reflexivity]; rewrite <- (with_same (w_space w)) at 1; apply number_same, S1|].
  intros r _. apply same_after; [apply map_res_ext; intros i; apply a_form_row, A|]. intros rows _. cbn. auto.
Qed.
Lemma fold_same all iv gv ks : forall X Y w, same_bare X Y -> same_res (fun a b => same_bare (fst a) (fst b) /\ snd b = snd a) (fold_res (step all iv gv) ks (X, w)) (fold_res (step all iv gv) ks (Y, w)).
Proof. induction ks as [|k ks IH]; intros X Y w S; [split; [exact S|reflexivity]|]. cbn [fold_res]. eapply same_bind; [apply step_same, S|]. intros [X1 w1] [Y1 w1'] _ _ [S1 E]. cbn [fst snd] in *. subst w1'. apply IH, S1. Qed.
(** ** A run leaves the edges as they are but for the samples *)
Lemma local_bare n q X p all z iv gv X1 c L : get_quad_dict n q = Ok qd -> Forall new_edge (map deparameterize X) -> local X p all z iv gv = Ok (X1, c, L) -> map deparameterize X1 = map deparameterize X.
Proof.
  intros Q N E. unfold build_local in E. destruct (get_cell X (p_mesh p) z) as [c0|] eqn:G; [|discriminate]. cbn [bind] in E. destruct (param_cell contains qd (iv || gv) X c0) as [[X2 c2]|] eqn:P; [|discriminate]. cbn [bind] in E. destruct (kedges X2 c2); [|discriminate]. cbn [bind] in E. destruct (cell_spaces all _); [|discriminate]. cbn [bind] in E. destruct (mk_lspace _ _ _ _ _ _ _ _ _); [|discriminate]. cbn [bind] in E. apply Ok_inj in E. injection E as -> _ _. exact (proj1 (cell_bare contains n q qd _ _ _ _ _ Q (got_wf _ _ _ _ G) N P)).
Qed.
Lemma fold_bare n q all iv gv ks : get_quad_dict n q = Ok qd -> forall X w X' w', Forall new_edge (map deparameterize X) -> fold_res (step all iv gv) ks (X, w) = Ok (X', w') -> map deparameterize X' = map deparameterize X.
Proof.
  intros Q. induction ks as [|k ks IH]; intros X w X' w' N E; [cbn in E; apply Ok_inj in E; injection E as -> _; reflexivity|]. cbn [fold_res] in E. destruct (step all iv gv (X, w) k) as [[X1 w1]|] eqn:Es; [|discriminate]. cbn [bind] in E. destruct (step_inv _ _ _ _ _ _ _ _ Es) as (z & abs & X2 & c & L & r & _ & _ & El & _ & _ & ->). pose proof (local_bare _ _ _ _ _ _ _ _ _ _ _ Q N El) as D. rewrite <- D. apply (IH _ _ _ _ ltac:(rewrite D; exact N) E).
Qed.
Lemma fold_res_app {S' T'} (f : S' -> T' -> res S') l l' s : fold_res f (l ++ l') s = do s <- fold_res f l s; fold_res f l' s.
Proof. revert s. induction l as [|a l IH]; intros s; [reflexivity|]. cbn [app fold_res]. destruct (f s a); [apply IH|reflexivity]. Qed.
End Run.
