(** C29 for whole cells: discarding the samples of a cell and sampling it again. *)
From Coq Require Import List ZArith Reals Lia Lra Bool Permutation.
From Verif Require Import PyBase PolyModel BaryModel BBoxModel QuadModel VertModel EdgeModel ContourModel CellModel CellSpec CellProofs EdgeSpec EdgeProofs EdgeProps EdgeProps3 ContourProofs ContourProofs2 ContourProofs3 ContourProofs4 ContourProps Annulus CellProps CellProps2 CellProps5.
Import ListNotations.
Open Scope R_scope.

(** Two heaps with the same descriptions of the edges; only samples may differ. *)
Definition same_bare (H H' : heap) : Prop := forall i, option_map deparameterize (nth_error H' i) = option_map deparameterize (nth_error H i).
(** Contours and cells that differ only in the tables that sampling computes *)
Definition same_contour (k k' : contour) : Prop := k_cell k' = k_cell k /\ k_edges k' = k_edges k /\ k_orients k' = k_orients k /\ k_int k' = k_int k.
Definition same_res {A} (Q : A -> A -> Prop) (r r' : res A) : Prop := match r, r' with Ok a, Ok a' => Q a a' | Err x, Err y => x = y | _, _ => False end.

Lemma same_bare_param qd H H' i : same_bare H H' -> (do e <- deref H' i; parameterize qd e) = (do e <- deref H i; parameterize qd e).
Proof.
  intros B. specialize (B i). unfold deref. destruct (nth_error H i) as [e|], (nth_error H' i) as [e'|]; try discriminate; [|reflexivity]. cbn [option_map bind] in *. apply parameterize_depends. congruence.
Qed.

Lemma bind_assoc {A B C} (r : res A) (f : A -> res B) (g : B -> res C) : (do b <- (do a <- r; f a); g b) = (do a <- r; do b <- f a; g b).
Proof. destruct r; reflexivity. Qed.

(** ** Edges *)
Definition follow (H H' : heap) (l : list nat) (H1 H1' : heap) : Prop :=
  same_bare H1 H1' /\ forall i, In i l \/ nth_error H' i = nth_error H i -> nth_error H1' i = nth_error H1 i.
Definition edge_step (qd : quad * quad) (H : heap) (io : nat * Z) : res heap :=
  do e <- deref H (fst io); do e <- parameterize qd e; Ok (hset H (fst io) (if Z.eqb (snd io) (-1) then reverse_orientation e else e)).
Lemma edges_follow qd l : forall H H', same_bare H H' ->
  same_res (follow H H' (map fst l)) (fold_res (edge_step qd) l H) (fold_res (edge_step qd) l H').
Proof.
  induction l as [|[i o] l IH]; intros H H' B; cbn [fold_res map]; [split; [exact B|]; intros i [[]|E]; exact E|].
  unfold edge_step at 1 3. cbn [fst snd]. assert (P := same_bare_param qd H H' i B). pose proof (B i) as Bi. unfold deref in P |- *. destruct (nth_error H i) as [e|] eqn:E, (nth_error H' i) as [e'|] eqn:E'; try discriminate; [|reflexivity]. cbn [bind] in *. rewrite P. destruct (parameterize qd e) as [f|x]; [|reflexivity]. cbn [bind].
  assert (L : (i < List.length H)%nat) by (apply nth_error_Some; congruence). assert (L' : (i < List.length H')%nat) by (apply nth_error_Some; congruence).
  set (g := if Z.eqb o (-1) then reverse_orientation f else f). assert (B' : same_bare (hset H i g) (hset H' i g)) by (intros j; destruct (Nat.eq_dec i j) as [<-|Ne]; [rewrite !hset_same by assumption; reflexivity|rewrite !hset_other by assumption; apply B]).
  specialize (IH _ _ B'). unfold same_res in *. destruct (fold_res (edge_step qd) l (hset H i g)) as [H1|], (fold_res (edge_step qd) l (hset H' i g)) as [H1'|]; try exact IH. destruct IH as [IB IA]. split; [exact IB|]. intros j [[<-|Ij]|Ej]; apply IA.
  - right. rewrite !hset_same by assumption. reflexivity.
  - left. exact Ij.
  - right. destruct (Nat.eq_dec i j) as [<-|Ne]; [rewrite !hset_same by assumption; reflexivity|rewrite !hset_other by assumption; exact Ej].
Qed.

(** ** Contours *)
Lemma fst_combine {A B} (l : list A) : forall (l' : list B), List.length l = List.length l' -> map fst (combine l l') = l.
Proof. induction l as [|a l IH]; intros [|b l'] E; try discriminate; [reflexivity|]. cbn. rewrite IH by (cbn in E; lia). reflexivity. Qed.
Lemma agree_num H H' k : agree H H' (k_edges k) -> find_num_pts H' k = find_num_pts H k.
Proof. intros A. unfold find_num_pts. rewrite (agree_guard _ _ _ A). destruct (guard H k); [|reflexivity]. cbn [bind]. erewrite (fold_res_same (fun n i => do e <- deref H' i; Ok (n + (e_npts e - 1))%Z)); [reflexivity|]. intros i n I. unfold deref. rewrite (A i I). reflexivity. Qed.
Lemma agree_vidx H H' k : agree H H' (k_edges k) -> find_local_vert_idx H' k = find_local_vert_idx H k.
Proof. intros A. unfold find_local_vert_idx. rewrite (agree_guard _ _ _ A). destruct (guard H k); [|reflexivity]. cbn [bind]. erewrite (fold_res_same (fun v i => do e <- deref H' i; Ok (v ++ [(last v 0 + e_npts e - 1)%Z]))); [reflexivity|]. intros i n I. unfold deref. rewrite (A i I). reflexivity. Qed.
Lemma map_res_same' {A B} (f g : A -> res B) l : (forall x, In x l -> f x = g x) -> map_res f l = map_res g l.
Proof. induction l as [|x l IH]; intros E; [reflexivity|]. cbn [map_res]. rewrite (E x (or_introl eq_refl)), IH; [reflexivity|]. intros. apply E. right. assumption. Qed.
Lemma agree_closest H H' k : agree H H' (k_edges k) -> find_closest_local H' k = find_closest_local H k.
Proof. intros A. unfold find_closest_local. rewrite (agree_guard _ _ _ A). destruct (guard H k); [|reflexivity]. cbn [bind]. erewrite (map_res_same' (fun ii => do e <- deref H' (snd ii); do v <- geti (k_vidx k) (fst ii); Ok (v + e_npts e / 2)%Z)); [reflexivity|]. intros [j i] I. apply in_combine_r in I. cbn [fst snd]. unfold deref. rewrite (A i I). reflexivity. Qed.
Lemma agree_points H H' k : agree H H' (k_edges k) -> contour_points H' k = contour_points H k.
Proof. intros A. unfold contour_points, eval_on_contour. rewrite (agree_guard _ _ _ A), !(agree_fill _ _ _ _ A). reflexivity. Qed.
Lemma agree_distance H H' k p : agree H H' (k_edges k) -> contour_distance H' k p = contour_distance H k p.
Proof.
  intros A. unfold contour_distance. rewrite (agree_guard _ _ _ A). destruct (guard H k); [|reflexivity]. cbn [bind]. match goal with |- (do d <- fold_res ?f _ _; _) = (do d <- fold_res ?g _ _; _) => rewrite (fold_res_same f g) end; [reflexivity|]. intros i n I. unfold deref. rewrite (A i I). reflexivity.
Qed.
Lemma agree_loop contains H H' k box t : agree H H' (k_edges k) -> forall n M d cur, interior_loop contains n H' k box t M d cur = interior_loop contains n H k box t M d cur.
Proof.
  intros A. induction n as [|n IH]; intros M d cur; cbn [interior_loop]; [reflexivity|]. destruct (Rlt_dec d t); [|reflexivity]. destruct box as [[[x0 x1] y0] y1]. destruct (np_linspace x0 x1 M); [|reflexivity]. cbn [bind]. destruct (np_linspace y0 y1 M); [|reflexivity]. cbn [bind]. unfold inside2. rewrite (agree_points _ _ _ A). destruct (contour_points H k) as [[u v]|]; [|reflexivity]. cbn [bind].
  match goal with |- (do d <- map_res ?f _; _) = (do d <- map_res ?g _; _) => rewrite (map_res_same' f g) end; [|intros [row b] _; cbn [fst snd]; apply map_res_same'; intros [q bb] _; cbn [fst snd]; rewrite (agree_distance _ _ _ _ A); reflexivity].
  destruct (map_res _ _); [|reflexivity]. cbn [bind]. destruct (argmax _); [|reflexivity]. cbn [bind]. destruct (geti _ _); [|reflexivity]. cbn [bind]. destruct (geti _ _); [|reflexivity]. cbn [bind]. destruct (geti _ _); [|reflexivity]. cbn [bind]. destruct (geti _ _); [|reflexivity]. cbn [bind]. destruct (Z.ltb _ _); [reflexivity|]. apply IH.
Qed.
Lemma agree_interior contains H H' k : agree H H' (k_edges k) -> find_interior_point contains H' k = find_interior_point contains H k.
Proof.
  intros A. unfold find_interior_point. rewrite (agree_guard _ _ _ A), (agree_points _ _ _ A). destruct (guard H k); [|cbn [bind]; reflexivity]. cbn [bind]. destruct (contour_points H k) as [[u v]|]; [|cbn [bind]; reflexivity]. cbn [bind]. destruct (bounding_box _ u v) as [[[[x0 x1] y0] y1]|]; [|cbn [bind]; reflexivity]. cbn [bind]. rewrite (agree_loop _ _ _ _ _ _ A). reflexivity.
Qed.

Definition table_steps contains (H : heap) (k : contour) : res contour :=
  do k <- find_num_pts H k; do k <- find_local_vert_idx H k; do k <- find_closest_local H k; find_interior_point contains H k.
Lemma steps_edges contains H k k1 : table_steps contains H k = Ok k1 -> k_edges k1 = k_edges k.
Proof.
  unfold table_steps, find_num_pts, find_local_vert_idx, find_closest_local, find_interior_point. intros E.
  repeat match goal with
  | E : bind ?r _ = Ok _ |- _ => let X := fresh "X" in destruct r eqn:X; cbn [bind] in E; [|discriminate]
  | E : Ok _ = Ok _ |- _ => apply Ok_inj in E; subst
  | p : (_ * _)%type |- _ => destruct p
  end; reflexivity.
Qed.
Lemma agree_steps contains H H' k k' : agree H H' (k_edges k) -> same_contour k k' -> table_steps contains H' k' = table_steps contains H k.
Proof.
  intros A (E1 & E2 & E3 & E4). destruct k as [z es os n v cl p], k' as [z' es' os' n' v' cl' p']. cbn in *. subst. unfold table_steps.
  replace (find_num_pts H' (Contour z es os n' v' cl' p)) with (do k <- find_num_pts H (Contour z es os n v cl p); Ok (Contour z es os (k_npts k) v' cl' p)).
  2:{ rewrite (agree_num H H' (Contour z es os n' v' cl' p) A). unfold find_num_pts, guard, all_param. cbn [k_edges k_cell k_orients k_vidx k_closest k_int]. destruct (forallb _ es); [|cbn [bind]; reflexivity]. cbn [bind]. destruct (fold_res _ es _); reflexivity. }
  unfold find_num_pts, guard, all_param. cbn [k_edges k_cell k_orients k_vidx k_closest k_int]. destruct (forallb _ es) eqn:G; [|cbn [bind]; reflexivity]. cbn [bind]. destruct (fold_res _ es _) as [N|]; [|cbn [bind]; reflexivity]. cbn [bind k_npts].
  replace (find_local_vert_idx H' (Contour z es os (Some N) v' cl' p)) with (do k <- find_local_vert_idx H (Contour z es os (Some N) v cl p); Ok (Contour z es os (Some N) (k_vidx k) cl' p)).
  2:{ rewrite (agree_vidx H H' (Contour z es os (Some N) v' cl' p) A). unfold find_local_vert_idx, guard, all_param. cbn [k_edges k_cell k_orients k_npts k_closest k_int]. destruct (forallb _ es); [|cbn [bind]; reflexivity]. cbn [bind]. destruct (fold_res _ es _); reflexivity. }
  unfold find_local_vert_idx, guard, all_param. cbn [k_edges k_cell k_orients k_npts k_closest k_int]. rewrite G. cbn [bind]. destruct (fold_res _ es _) as [V|]; [|cbn [bind]; reflexivity]. cbn [bind k_vidx].
  rewrite (agree_closest H H' (Contour z es os (Some N) V cl' p) A). unfold find_closest_local, guard, all_param, k_num. cbn [k_edges k_cell k_orients k_npts k_vidx k_closest k_int]. rewrite G. cbn [bind]. destruct (map_res _ _); [|cbn [bind]; reflexivity]. cbn [bind attr]. destruct (fold_res _ _ _); [|cbn [bind]; reflexivity]. cbn [bind]. apply agree_interior. exact A.
Qed.
Lemma param_steps contains qd H k : param_contour contains qd H k = do H <- param_edges qd H k; do k <- table_steps contains H k; Ok (H, k).
Proof. unfold param_contour, table_steps. destruct (param_edges qd H k); [|cbn [bind]; reflexivity]. cbn [bind]. rewrite !bind_assoc. destruct (find_num_pts _ _); [|cbn [bind]; reflexivity]. cbn [bind]. rewrite !bind_assoc. destruct (find_local_vert_idx _ _); [|cbn [bind]; reflexivity]. cbn [bind]. rewrite !bind_assoc. destruct (find_closest_local _ _); reflexivity. Qed.

Lemma contour_follow contains qd H H' k k' : same_bare H H' -> wf_contour k -> same_contour k k' ->
  same_res (fun a a' => follow H H' (k_edges k) (fst a) (fst a') /\ snd a' = snd a) (param_contour contains qd H k) (param_contour contains qd H' k').
Proof.
  intros B W S. rewrite !param_steps. unfold param_edges. fold (edge_step qd). pose proof S as (_ & E2 & E3 & _). rewrite E2, E3. pose proof (edges_follow qd (combine (k_edges k) (k_orients k)) H H' B) as X. destruct (fold_res (edge_step qd) _ H) as [H1|], (fold_res (edge_step qd) _ H') as [H1'|]; cbn [bind same_res] in *; try contradiction; try exact X. cbn [same_res] in X. rewrite fst_combine in X by exact W.
  assert (A : agree H1 H1' (k_edges k)) by (intros i I; apply (proj2 X); left; exact I). rewrite (agree_steps contains H1 H1' k k' A S). destruct (table_steps contains H1 k); [|cbn [bind]; reflexivity]. cbn. split; [exact X|reflexivity].
Qed.

(** ** Cells *)
Lemma comps_follow contains qd ks : forall H H' ks' done, same_bare H H' -> Forall wf_contour ks -> Forall2 same_contour ks ks' ->
  let f := fun Hl k => do (H, k) <- param_contour contains qd (fst Hl) k; Ok (H, snd Hl ++ [k]) in
  same_res (fun a a' => follow H H' (concat (map k_edges ks)) (fst a) (fst a') /\ snd a' = snd a) (fold_res f ks (H, done)) (fold_res f ks' (H', done)).
Proof.
  induction ks as [|k ks IH]; intros H H' ks' done B W S; inversion S as [|? k' ? ks1 Sk Ss]; subst; cbv zeta in *; cbn [fold_res map concat].
  - split; [|cbn [bind]; reflexivity]. split; [exact B|]. intros i [[]|E]; exact E.
  - inversion W as [|? ? Wk Ws]; subst. cbn [fst snd]. pose proof (contour_follow contains qd H H' k k' B Wk Sk) as X. destruct (param_contour contains qd H k) as [[H1 k1]|], (param_contour contains qd H' k') as [[H1' k1']|]; cbn [bind same_res] in *; try contradiction; try exact X. destruct X as [[B1 A1] E]. cbn in E. subst k1'. specialize (IH H1 H1' ks1 (done ++ [k1]) B1 Ws Ss). unfold same_res in *. destruct (fold_res _ ks _) as [[H2 l]|], (fold_res _ ks1 _) as [[H2' l']|]; try exact IH. destruct IH as [[B2 A2] E]. split; [|exact E]. split; [exact B2|]. intros i [I|I]; apply A2; [|right; apply A1; right; exact I]. apply in_app_iff in I. destruct I as [I|I]; [right; apply A1; left; exact I|left; exact I].
Qed.

Definition same_cell (c c' : cell) : Prop :=
  c_idx c' = c_idx c /\ Forall2 same_contour (c_comps c) (c_comps c') /\ c_holes c' = c_holes c /\ c_nedges c' = c_nedges c /\ c_orients c' = c_orients c /\ c_mesh c' = c_mesh c /\ c_rtol c' = c_rtol c /\ c_atol c' = c_atol c /\ c_int c' = c_int c.
(** Sampling a cell depends on the descriptions of its edges and on nothing else. *)
Theorem C29_cell_depends contains qd w H H' c c' : same_bare H H' -> (forall i, ~ In i (cell_edges c) -> nth_error H' i = nth_error H i) -> Forall wf_contour (c_comps c) -> same_cell c c' ->
  param_cell contains qd w H' c' = param_cell contains qd w H c.
Proof.
  intros B O W (E1 & E2 & E3 & E4 & E5 & E6 & E7 & E8 & E9). unfold param_cell, param_comps. pose proof (comps_follow contains qd (c_comps c) H H' (c_comps c') [] B W E2) as X. cbv zeta in X.
  destruct (fold_res _ (c_comps c) _) as [[H1 l]|] eqn:F, (fold_res _ (c_comps c') _) as [[H1' l']|] eqn:F'; cbn [same_res fst snd] in X; try contradiction; cbn [bind]; [|congruence]. destruct X as [[_ A] ->].
  assert (H1' = H1) as ->. { apply nth_error_ext'. intros i. apply A. destruct (in_dec Nat.eq_dec i (cell_edges c)) as [I|I]; [left; exact I|right; apply O, I]. }
  destruct c as [z ks ho ne os me rt at_ np st cl ip], c' as [z' ks' ho' ne' os' me' rt' at' np' st' cl' ip']. cbn in E1, E3, E4, E5, E6, E7, E8, E9. subst. clear.
  unfold cell_num_pts, find_outer, cell_start_idx, cell_closest, cell_guard, with_comps, with_tables, comp_range. cbn [c_idx c_comps c_holes c_nedges c_orients c_mesh c_rtol c_atol c_npts c_start c_closest c_int].
  destruct (forallb _ l) eqn:G; [|cbn [bind]; reflexivity]. cbn [bind]. destruct (fold_res _ l 0%Z); [|cbn [bind]; reflexivity]. cbn [bind c_idx c_comps c_holes c_nedges c_orients c_mesh c_rtol c_atol c_npts c_start c_closest c_int]. rewrite G. cbn [bind]. destruct (fold_res _ (seq _ _) _) as [o|]; [|cbn [bind]; reflexivity]. cbn [bind]. destruct (geti l 0); [|cbn [bind]; reflexivity]. cbn [bind]. destruct (geti l o); [|cbn [bind]; reflexivity]. cbn [bind c_idx c_comps c_holes c_nedges c_orients c_mesh c_rtol c_atol c_npts c_start c_closest c_int].
  destruct (forallb _ (hset _ _ _)) eqn:G'; [|cbn [bind]; reflexivity]. cbn [bind]. destruct (fold_res _ (hset _ _ _) _) as [[u v]|]; [|cbn [bind]; reflexivity]. cbn [bind c_idx c_comps c_holes c_nedges c_orients c_mesh c_rtol c_atol c_npts c_start c_closest c_int]. rewrite G'. reflexivity.
Qed.
Print Assumptions C29_cell_depends.

(** ** Discarding the samples *)
Definition bare_at (H : heap) (l : list nat) (H' : heap) : Prop := forall i, nth_error H' i = if existsb (Nat.eqb i) l then option_map deparameterize (nth_error H i) else nth_error H i.
Definition bare_step (H : heap) (i : nat) : heap := match nth_error H i with Some e => hset H i (deparameterize e) | None => H end.
Lemma bare_step_at H i j : nth_error (bare_step H i) j = if Nat.eqb j i then option_map deparameterize (nth_error H j) else nth_error H j.
Proof.
  unfold bare_step. destruct (Nat.eqb_spec j i) as [->|Ne]; destruct (nth_error H i) as [e|] eqn:E; cbn [option_map].
  - apply hset_same. apply nth_error_Some. congruence.
  - exact E.
  - apply hset_other; [apply nth_error_Some; congruence|congruence].
  - reflexivity.
Qed.
Lemma deparam_twice o : option_map deparameterize (option_map deparameterize o) = option_map deparameterize o.
Proof. destruct o; reflexivity. Qed.
Lemma bare_fold l : forall H, bare_at H l (fold_left bare_step l H).
Proof.
  induction l as [|i l IH]; intros H j; [reflexivity|]. cbn [fold_left existsb]. rewrite IH, bare_step_at. destruct (Nat.eqb j i), (existsb (Nat.eqb j) l); cbn [orb]; rewrite ?deparam_twice; reflexivity.
Qed.
Definition reset_contour (k : contour) : contour := Contour (k_cell k) (k_edges k) (k_orients k) (Some 0%Z) (k_vidx k) (Some []) (k_int k).
Lemma deparam_cell_eq H c : deparam_cell H c = (fold_left bare_step (cell_edges c) H, with_tables (with_comps c (map reset_contour (c_comps c))) (Some 0%Z) (Some []) (c_closest c)).
Proof.
  unfold deparam_cell, cell_edges. assert (X : forall ks H done, fold_left (fun Hl k => let (H, k) := deparam_contour (fst Hl) k in (H, snd Hl ++ [k])) ks (H, done) = (fold_left bare_step (concat (map k_edges ks)) H, done ++ map reset_contour ks)).
  { induction ks as [|k ks IH]; intros G done; cbn [fold_left map concat]; [rewrite app_nil_r; reflexivity|]. unfold deparam_contour at 2. cbn [fst snd]. rewrite IH, fold_left_app, <- app_assoc. reflexivity. }
  rewrite X. reflexivity.
Qed.
Lemma existsb_nat i l : existsb (Nat.eqb i) l = true <-> In i l.
Proof. rewrite existsb_exists. split; [intros (x & I & E); apply Nat.eqb_eq in E; subst; exact I|intros I; exists i; split; [exact I|apply Nat.eqb_refl]]. Qed.

(** A cell that was built and sampled. After its samples are discarded every edge of the cell and no
    other edge has lost them, the cell refuses to be used, its point counts are zero, and sampling it
    again, with any quadrature, gives what sampling it without discarding would give. *)
Theorem C29_cell_again contains H1 c1 H2 c2 : ready contains H1 c1 -> deparam_cell H1 c1 = (H2, c2) ->
  (forall i, In i (cell_edges c1) -> nth_error H2 i = option_map deparameterize (nth_error H1 i)) /\ (forall i, ~ In i (cell_edges c1) -> nth_error H2 i = nth_error H1 i) /\
  cell_guard H2 c2 = Err NotParameterizedError /\ c_npts c2 = Some 0%Z /\ Forall (fun k => k_npts k = Some 0%Z /\ k_closest k = Some []) (c_comps c2) /\
  forall contains' qd w, param_cell contains' qd w H2 c2 = param_cell contains' qd w H1 c1.
Proof.
  intros Rd D. rewrite deparam_cell_eq in D. injection D as <- <-. pose proof (bare_fold (cell_edges c1) H1) as B.
  pose proof Rd as (H0 & z & ids & mesh & rtol & atol & c0 & n & p & qd & w & H & Bu & Q & P). pose proof (built_wf _ _ _ _ _ _ _ Bu) as W. destruct (param_cell_ok contains (fun _ _ => True) (fun _ _ _ _ _ _ => I) qd n p w H c0 H1 c1 Q W P) as (ess & ess' & Pr).
  assert (Wc : Forall (fun k => wf_contour k /\ k_edges k <> []) (c_comps c1)).
  { pose proof (p_edges _ _ _ _ _ _ _ _ _ Pr) as PE. destruct W as (_ & _ & W). rewrite Forall_forall in *. intros k I. apply (in_map (fun k => (k_edges k, k_orients k))) in I. eapply Permutation.Permutation_in in I; [|exact PE]. apply in_map_iff in I. destruct I as (k0 & E & I). destruct (W k0 I) as [W1 W2]. injection E as E1 E2. unfold wf_contour in *. rewrite <- E1, <- E2. split; assumption. }
  assert (I1 : forall i, In i (cell_edges c1) -> nth_error (fold_left bare_step (cell_edges c1) H1) i = option_map deparameterize (nth_error H1 i)) by (intros i I; rewrite B, (proj2 (existsb_nat _ _) I); reflexivity).
  assert (I2 : forall i, ~ In i (cell_edges c1) -> nth_error (fold_left bare_step (cell_edges c1) H1) i = nth_error H1 i). { intros i I. rewrite B. destruct (existsb _ _) eqn:X; [apply existsb_nat in X; contradiction|reflexivity]. }
  split; [exact I1|]. split; [exact I2|]. split; [|split; [reflexivity|split]].
  - assert (Ne : c_comps c1 <> []).
    { intros X. pose proof (p_edges _ _ _ _ _ _ _ _ _ Pr) as PE. rewrite X in PE. apply Permutation.Permutation_nil in PE. apply map_eq_nil in PE. destruct (p_outer _ _ _ _ _ _ _ _ _ Pr) as (d1 & d2 & es & _ & Em & _ & _ & Fo & _). apply find_outer_swap in Fo. destruct Fo as (o & k0 & ko & K0 & _). rewrite PE in Em. apply map_eq_nil in Em. rewrite Em in K0. discriminate. }
    destruct (c_comps c1) as [|k ks] eqn:Ec; [contradiction|]. inversion Wc as [|? ? [_ Wk] _]; subst. destruct (k_edges k) as [|i l] eqn:Ek; [contradiction|]. unfold cell_guard. cbn [with_tables with_comps c_comps map forallb]. unfold all_param at 1. cbn [reset_contour k_edges]. rewrite Ek. cbn [forallb]. rewrite I1 by (unfold cell_edges; rewrite Ec; cbn [map concat]; rewrite Ek; left; reflexivity). destruct (nth_error H1 i); reflexivity.
  - cbn [with_tables with_comps c_comps]. apply Forall_forall. intros k I. apply in_map_iff in I. destruct I as (k0 & <- & _). split; reflexivity.
  - intros contains' qd' w'. apply C29_cell_depends; [|exact I2|eapply Forall_impl; [|exact Wc]; cbn; tauto|].
    + intros i. rewrite B. destruct (existsb _ _); [apply deparam_twice|reflexivity].
    + repeat split; try reflexivity. cbn [with_tables with_comps c_comps]. clear. induction (c_comps c1); constructor; [repeat split|assumption].
Qed.
Print Assumptions C29_cell_again.

(** The annulus, sampled with inner circle first *)
Example C29_cell_example : exists H1 c1 H2 c2, ready disc H1 c1 /\ deparam_cell H1 c1 = (H2, c2) /\ cell_guard H1 c1 = Ok tt /\ cell_guard H2 c2 = Err NotParameterizedError /\
  (exists e, nth_error H1 0 = Some e /\ e_npts e = 9%Z) /\ (exists e, nth_error H2 0 = Some e /\ e_npts e = (-1)%Z) /\ c_npts c1 = Some 16%Z /\ c_npts c2 = Some 0%Z.
Proof.
  pose proof (ring_cell_inner (5, 5)%Z 1 ltac:(lra)) as B. set (c := made _ _ _ _ _) in B. assert (An : annulus c) by (exists 1%Z, [-1; 1]%Z, (5, 5)%Z, 1; left; reflexivity). destruct (circles_param rings c rings_like (annulus_circles _ An)) as (H1 & c1 & P).
  assert (Rd : ready disc H1 c1) by (exists rings, 1%Z, [0; 1]%nat, (5, 5)%Z, 1, 1, c, (PInt 4), 7%Z, dict4, false, rings; split; [exact B|]; split; [exact dict4_ok|exact P]).
  destruct (deparam_cell H1 c1) as [H2 c2] eqn:D. destruct (C29_cell_again _ _ _ _ _ Rd D) as (I1 & _ & G & N & _). destruct (annulus_after _ _ _ _ _ rings_like An P) as (e0 & e1 & E0 & E1 & _ & _ & M0 & M1 & _).
  destruct (param_cell_ok disc (fun _ _ => True) (fun _ _ _ _ _ _ => I) dict4 _ _ _ _ _ _ _ dict4_ok (circles_wf _ (annulus_circles _ An)) P) as (ess & ess' & Pr). pose proof (p_edges _ _ _ _ _ _ _ _ _ Pr) as PE. pose proof (p_fresh _ _ _ _ _ _ _ _ _ Pr) as (F & _ & EN & _).
  apply Permutation_map with (f := fst) in PE. rewrite !map_map in PE. cbn [fst] in PE. change (map (fun k => k_edges k) (c_comps c)) with [[0%nat]; [1%nat]] in PE.
  exists H1, c1, H2, c2. split; [exact Rd|]. split; [exact D|]. split; [exact (comps_guard _ _ _ F)|]. split; [exact G|]. split; [eauto|]. split; [|split; [|exact N]].
  - exists (deparameterize e0). split; [|reflexivity]. rewrite I1; [rewrite E0; reflexivity|]. unfold cell_edges. apply in_concat. exists [0%nat]. split; [|left; reflexivity]. eapply Permutation_in; [symmetry; exact PE|left; reflexivity].
  - rewrite EN. f_equal. assert (L : map (fun k => k_edges k) (c_comps c1) = [[0%nat]; [1%nat]] \/ map (fun k => k_edges k) (c_comps c1) = [[1%nat]; [0%nat]]) by (apply Permutation_length_2_inv; symmetry; exact PE).
    destruct (c_comps c1) as [|k [|k' [|? ?]]]; destruct L as [L|L]; try discriminate; cbn [map] in L; injection L as L1 L2; inversion F as [|? es ? l F0 Fs]; subst; inversion Fs as [|? es' ? l' F1 F2]; subst; inversion F2; subst; destruct F0 as (R0 & _), F1 as (R1 & _); rewrite L1 in R0; rewrite L2 in R1; inversion R0 as [|? x ? y Y Y']; subst; inversion Y'; subst; inversion R1 as [|? x' ? y' Z Z']; subst; inversion Z'; subst; cbn [map total fold_right]; unfold csize, open_num; cbn [map total fold_right]; assert (e_npts x = 9%Z) by congruence; assert (e_npts x' = 9%Z) by congruence; lia.
Qed.
