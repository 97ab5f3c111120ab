(** Lemmas on the outer boundary and the interior points of cells. *)
From Coq Require Import List ZArith Reals Lia Lra Bool Permutation String.
From Verif Require Import PyBase PolyModel BaryModel BBoxModel QuadModel VertModel EdgeModel EdgeSpec ContourModel CellModel CellSpec CellProofs CellProps ContourProofs ContourProofs2 ContourProofs3 InteriorProofs ContourProofs4 EdgeProps4.
Import List ListNotations.
Open Scope R_scope.

Section Inside.
Variable contains : R -> list pt -> pt -> bool.

(** ** The outer boundary *)

Definition encl (a b : list edge) : bool := forallb (contains 0 (path_of a)) (path_of b).
(** The last component before some component that it contains, or 0 *)
Definition pick (ess : list (list edge)) : nat :=
  fold_left (fun o i => fold_left (fun o j => if encl (nth i ess []) (nth j ess []) then i else o) (filter (Nat.ltb i) (seq 0 (List.length ess))) o) (seq 0 (List.length ess)) O.

Lemma fold_res_pure {A B} (f : A -> B -> res A) (g : A -> B -> A) l : (forall x a, In x l -> f a x = Ok (g a x)) -> forall a, fold_res f l a = Ok (fold_left g l a).
Proof. induction l as [|x l IH]; intros E a; [reflexivity|]. cbn. rewrite E by (left; reflexivity). cbn. apply IH. intros y b Hy. apply E. right. exact Hy. Qed.

Lemma forallb_id_map {A} (f : A -> bool) l : forallb (fun b => b) (map f l) = forallb f l.
Proof. induction l as [|a l IH]; [reflexivity|]. cbn. rewrite IH. reflexivity. Qed.
Lemma inside1_ok H k k' es es' : fresh H k es -> fresh H k' es' -> (do (x1, x2) <- contour_points H k'; inside1 contains H k x1 x2) = Ok (map (contains 0 (path_of es)) (path_of es')).
Proof.
  intros F F'. rewrite (contour_points_ok H k' es' F'). cbn [bind]. unfold inside1. rewrite !map_length, Nat.eqb_refl, (contour_points_ok H k es F). cbn [bind]. rewrite !combine_points. reflexivity.
Qed.

Lemma find_outer_ok H c ess : Forall2 (fresh H) (c_comps c) ess -> c_holes c = (Z.of_nat (List.length (c_comps c)) - 1)%Z -> c_comps c <> [] ->
  exists k0 ko, nth_error (c_comps c) 0 = Some k0 /\ nth_error (c_comps c) (pick ess) = Some ko /\ find_outer contains H c = Ok (with_comps c (swap0 (c_comps c) (pick ess) k0 ko)).
Proof.
  intros F EH NE. pose proof (Forall2_len _ _ _ F) as L. unfold find_outer. rewrite (comps_guard _ _ _ F). cbn [bind]. cbv zeta. rewrite (comp_range_ok c EH).
  assert (G : forall i j o, (i < List.length ess)%nat -> (j < List.length ess)%nat -> (do kj <- geti (c_comps c) j; do (x1, x2) <- contour_points H kj; do ki <- geti (c_comps c) i; do ins <- inside1 contains H ki x1 x2; Ok (if forallb (fun b => b) ins then i else o)) = Ok (if encl (nth i ess []) (nth j ess []) then i else o)).
  { intros i j o Hi Hj. destruct (nth_error (c_comps c) i) as [ki|] eqn:Ei; [|apply nth_error_None in Ei; lia]. destruct (nth_error (c_comps c) j) as [kj|] eqn:Ej; [|apply nth_error_None in Ej; lia]. destruct (nth_error ess i) as [ei|] eqn:Ai; [|apply nth_error_None in Ai; lia]. destruct (nth_error ess j) as [ej|] eqn:Aj; [|apply nth_error_None in Aj; lia].
    unfold geti. rewrite Ei, Ej. cbn [bind]. pose proof (inside1_ok H ki kj ei ej (Forall2_nth _ _ _ F _ _ _ Ei Ai) (Forall2_nth _ _ _ F _ _ _ Ej Aj)) as X. destruct (contour_points H kj) as [[x1 x2]|]; [|discriminate]. cbn [bind] in *. rewrite X. cbn [bind]. rewrite forallb_id_map. rewrite (nth_error_nth _ _ [] Ai), (nth_error_nth _ _ [] Aj). reflexivity. }
  assert (E : fold_res (fun o i => fold_res (fun o j => do kj <- geti (c_comps c) j; do (x1, x2) <- contour_points H kj; do ki <- geti (c_comps c) i; do ins <- inside1 contains H ki x1 x2; Ok (if forallb (fun b => b) ins then i else o)) (filter (Nat.ltb i) (seq 0 (List.length (c_comps c)))) o) (seq 0 (List.length (c_comps c))) O = Ok (pick ess)).
  { unfold pick. rewrite L. apply fold_res_pure. intros i o Hi. apply in_seq in Hi. apply fold_res_pure. intros j o' Hj. apply filter_In in Hj. destruct Hj as [Hj _]. apply in_seq in Hj. apply G; lia. }
  rewrite E. cbn [bind].
  assert (B : (pick ess < List.length ess)%nat).
  { unfold pick. assert (L0 : (0 < List.length ess)%nat) by (destruct (c_comps c); [congruence|cbn in L; lia]). clear -L0.
    assert (X : forall l o, (forall i, In i l -> (i < List.length ess)%nat) -> (o < List.length ess)%nat -> (fold_left (fun o i => fold_left (fun o j => if encl (nth i ess []) (nth j ess []) then i else o) (filter (Nat.ltb i) (seq 0 (List.length ess))) o) l o < List.length ess)%nat).
    { induction l as [|i l IH]; intros o Hl Ho; [exact Ho|]. cbn [fold_left]. apply IH; [intros x Hx; apply Hl; right; exact Hx|]. assert (Hi : (i < List.length ess)%nat) by (apply Hl; left; reflexivity). generalize (filter (Nat.ltb i) (seq 0 (List.length ess))). intros l2. revert o Ho. induction l2 as [|j l2 IH2]; intros o Ho; [exact Ho|]. cbn [fold_left]. apply IH2. destruct (encl _ _); assumption. }
    apply X; [intros i Hi; apply in_seq in Hi; lia|exact L0]. }
  destruct (nth_error (c_comps c) 0) as [k0|] eqn:E0; [|apply nth_error_None in E0; destruct (c_comps c); [congruence|cbn in E0; lia]]. destruct (nth_error (c_comps c) (pick ess)) as [ko|] eqn:Eo; [|apply nth_error_None in Eo; lia].
  exists k0, ko. unfold geti. rewrite E0, Eo. cbn [bind]. auto.
Qed.

(** [b] contains the later components and no other pair is nested. *)
Lemma inner_pick (q : nat -> bool) (i : nat) (l : list nat) : forall o : nat, fold_left (fun o j => if q j then i else o) l o = if existsb q l then i else o.
Proof. induction l as [|j l IH]; intros o; [reflexivity|]. cbn [fold_left existsb]. rewrite IH. destruct (q j), (existsb q l); reflexivity. Qed.
Lemma pick_only ess b : (b < List.length ess)%nat ->
  (forall j, (j < List.length ess)%nat -> j <> b -> encl (nth b ess []) (nth j ess []) = true) ->
  (forall i j, (i < List.length ess)%nat -> (j < List.length ess)%nat -> i <> j -> i <> b -> encl (nth i ess []) (nth j ess []) = false) ->
  pick ess = if Nat.ltb (S b) (List.length ess) then b else O.
Proof.
  intros Hb E N. unfold pick. set (n := List.length ess) in *.
  assert (G : forall l o, (forall i, In i l -> (i < n)%nat) -> fold_left (fun o i => fold_left (fun o j => if encl (nth i ess []) (nth j ess []) then i else o) (filter (Nat.ltb i) (seq 0 n)) o) l o = if andb (existsb (Nat.eqb b) l) (Nat.ltb (S b) n) then b else o).
  { induction l as [|i l IH]; intros o Hl; [reflexivity|]. cbn [fold_left existsb]. rewrite inner_pick. rewrite IH by (intros x Hx; apply Hl; right; exact Hx). assert (Hi : (i < n)%nat) by (apply Hl; left; reflexivity).
    destruct (Nat.eqb_spec b i) as [<-|D].
    - cbn [orb]. assert (X : existsb (fun j => encl (nth b ess []) (nth j ess [])) (filter (Nat.ltb b) (seq 0 n)) = Nat.ltb (S b) n).
      { destruct (Nat.ltb_spec (S b) n) as [L|L].
        - apply existsb_exists. exists (S b). split; [apply filter_In; split; [apply in_seq; lia|apply Nat.ltb_lt; lia]|apply E; lia].
        - apply not_true_is_false. intros T. apply existsb_exists in T. destruct T as (j & Hj & _). apply filter_In in Hj. destruct Hj as [Hj Lj]. apply in_seq in Hj. apply Nat.ltb_lt in Lj. lia. }
      rewrite X. destruct (existsb (Nat.eqb b) l), (Nat.ltb (S b) n); reflexivity.
    - cbn [orb]. assert (X : existsb (fun j => encl (nth i ess []) (nth j ess [])) (filter (Nat.ltb i) (seq 0 n)) = false).
      { apply not_true_is_false. intros T. apply existsb_exists in T. destruct T as (j & Hj & T). apply filter_In in Hj. destruct Hj as [Hj Lj]. apply in_seq in Hj. apply Nat.ltb_lt in Lj. rewrite N in T by lia. discriminate. }
      rewrite X. reflexivity. }
  rewrite G by (intros i Hi; apply in_seq in Hi; lia). replace (existsb (Nat.eqb b) (seq 0 n)) with true; [reflexivity|]. symmetry. apply existsb_exists. exists b. split; [apply in_seq; lia|apply Nat.eqb_refl].
Qed.

(** ** Interior points *)

(** No sample of the boundary is closer than [d]. *)
Definition far_from (l : list sample) (d : R) (p : pt) : bool := forallb (fun s => negb (Rltb (pdist (sx s) p) d)) l.
Lemma far_spec l d p : far_from l d p = true <-> forall s, In s l -> d <= pdist (sx s) p.
Proof.
  unfold far_from. rewrite forallb_forall. split; intros F s Hs; specialize (F s Hs).
  - unfold Rltb in F. destruct (Rlt_dec (pdist (sx s) p) d); [discriminate|lra].
  - unfold Rltb. destruct (Rlt_dec (pdist (sx s) p) d); [lra|reflexivity].
Qed.
Lemma least_far l d x p : least_distance l p x -> olt (Some x) d = negb (far_from l d p).
Proof.
  intros (A & s & B & C). cbn. destruct (far_from l d p) eqn:E.
  - rewrite far_spec in E. specialize (E s B). destruct (Rlt_dec x d); [lra|reflexivity].
  - destruct (Rlt_dec x d) as [L|L]; [reflexivity|]. exfalso. assert (far_from l d p = true); [|congruence]. apply far_spec. intros t Ht. specialize (A t Ht). lra.
Qed.

Definition minimal_distance (c : cell) (box : R * R * R * R) : R := let '(x0, x1, y0, y1) := box in Rmax (c_atol c) (c_rtol c * Rmin (x1 - x0) (y1 - y0)).

Lemma meshgrid_shape xs ys : List.length (meshgrid xs ys) = List.length ys /\ Forall (fun r => List.length r = List.length xs) (meshgrid xs ys).
Proof. unfold meshgrid. split; [apply map_length|]. apply Forall_map, Forall_forall. intros y _. apply map_length. Qed.

Lemma interior_square H c ess m : cell_fresh H c ess -> Forall (fun es => es <> []) ess -> ess <> [] -> c_mesh c = (m, m) -> (0 <= m)%Z ->
  exists x0 x1 y0 y1 xs ys, cell_box H c = Ok (x0, x1, y0, y1) /\ np_linspace x0 x1 m = Ok xs /\ np_linspace y0 y1 m = Ok ys /\
    interior_points contains H c = Ok (with_int c (Some (filter (fun p => inside_cell contains ess p && far_from (all_smp ess) (minimal_distance c (x0, x1, y0, y1)) p) (concat (meshgrid xs ys))))).
Proof.
  intros F NE NC EM Hm. destruct (cell_box_ok H c ess F NE NC) as (x0 & x1 & y0 & y1 & EB & _). destruct (np_linspace_total x0 x1 m Hm) as (xs & EX). destruct (np_linspace_total y0 y1 m Hm) as (ys & EY).
  exists x0, x1, y0, y1, xs, ys. split; [exact EB|]. split; [exact EX|]. split; [exact EY|]. unfold interior_points. rewrite EM, EB. cbn [bind]. rewrite EX. cbn [bind]. rewrite EY. cbn [bind]. cbv zeta. rewrite (cell_inside_ok contains H c ess F NE NC). cbn [bind].
  apply np_linspace_length in EX. apply np_linspace_length in EY. destruct (meshgrid_shape xs ys) as [S1 S2].
  set (far := far_from (all_smp ess) (Rmax (c_atol c) (c_rtol c * Rmin (x1 - x0) (y1 - y0)))).
  rewrite (prune_ok (cell_distance H c) far (Rmax (c_atol c) (c_rtol c * Rmin (x1 - x0) (y1 - y0)))) with (n := Z.to_nat m).
  - cbn [bind]. do 3 f_equal.
    assert (X : concat (map (fun rb => map (fun pb => snd pb && far (fst pb)) (combine (fst rb) (snd rb))) (combine (meshgrid xs ys) (map (map (inside_cell contains ess)) (meshgrid xs ys)))) = map (fun p => inside_cell contains ess p && far p) (concat (meshgrid xs ys))).
    { generalize (meshgrid xs ys). intros g. induction g as [|r g IH]; [reflexivity|]. cbn [map combine concat fst snd]. rewrite IH, map_app. f_equal. clear. induction r as [|p r IH]; [reflexivity|]. cbn [map combine fst snd]. rewrite IH. reflexivity. }
    rewrite X. apply filter_pairs.
  - intros p. destruct (cell_distance_ok H c ess F NE NC p) as (d & Ed & Ld). exists (Some d). split; [exact Ed|]. unfold far. apply least_far, Ld.
  - rewrite S1. lia.
  - eapply Forall_impl; [|exact S2]. cbn. intros r ->. lia.
  - generalize (meshgrid xs ys). intros g. induction g as [|r g IH]; constructor; [rewrite map_length; reflexivity|exact IH].
Qed.

(** Folding a step that either keeps an invariant or fails *)
Lemma fold_res_bad {A B} (f : A -> B -> res A) (I : A -> Prop) (good : B -> bool) (x : exc) :
  (forall a b, I a -> if good b then exists a', f a b = Ok a' /\ I a' else f a b = Err x) ->
  forall l a, I a -> if forallb good l then exists a', fold_res f l a = Ok a' /\ I a' else fold_res f l a = Err x.
Proof.
  intros St. induction l as [|b l IH]; intros a Ia; [exists a; auto|]. cbn [forallb fold_res]. specialize (St a b Ia). destruct (good b); cbn [andb]; [|rewrite St; reflexivity]. destruct St as (a' & -> & Ia'). cbn [bind]. apply IH, Ia'.
Qed.

Lemma interior_oblong H c ess rows cols : cell_fresh H c ess -> Forall (fun es => es <> []) ess -> ess <> [] -> c_mesh c = (rows, cols) -> (0 < rows)%Z -> (0 < cols)%Z -> rows <> cols ->
  interior_points contains H c = Err IndexError.
Proof.
  intros F NE NC EM Hr Hc D. destruct (cell_box_ok H c ess F NE NC) as (x0 & x1 & y0 & y1 & EB & _). destruct (np_linspace_total x0 x1 rows ltac:(lia)) as (xs & EX). destruct (np_linspace_total y0 y1 cols ltac:(lia)) as (ys & EY).
  unfold interior_points. rewrite EM, EB. cbn [bind]. rewrite EX. cbn [bind]. rewrite EY. cbn [bind]. cbv zeta. rewrite (cell_inside_ok contains H c ess F NE NC). cbn [bind].
  apply np_linspace_length in EX. apply np_linspace_length in EY. destruct (meshgrid_shape xs ys) as [S1 S2].
  set (g := meshgrid xs ys) in *. set (mind := Rmax _ _).
  set (inner := fun (i : nat) (ins : list (list bool)) (j : nat) => do row <- geti ins i; do b <- geti row j; if b : bool then do prow <- geti g i; do p <- geti prow j; do d <- cell_distance H c p; if olt d mind then Ok (hset ins i (hset row j false)) else Ok ins else Ok ins).
  set (shape := fun ins : list (list bool) => List.length ins = Z.to_nat cols /\ Forall (fun r => List.length r = Z.to_nat rows) ins).
  assert (St : forall i ins j, shape ins -> if andb (Nat.ltb i (Z.to_nat cols)) (Nat.ltb j (Z.to_nat rows)) then exists ins', inner i ins j = Ok ins' /\ shape ins' else inner i ins j = Err IndexError).
  { intros i ins j [L1 L2]. unfold inner, geti. destruct (Nat.ltb_spec i (Z.to_nat cols)) as [Hi|Hi]; cbn [andb].
    - destruct (nth_error ins i) as [row|] eqn:Ei; [|apply nth_error_None in Ei; lia]. cbn [bind]. assert (Lr : List.length row = Z.to_nat rows) by (rewrite Forall_forall in L2; apply L2; eapply nth_error_In, Ei).
      destruct (Nat.ltb_spec j (Z.to_nat rows)) as [Hj|Hj].
      + destruct (nth_error row j) as [b|] eqn:Ej; [|apply nth_error_None in Ej; lia]. cbn [bind]. destruct b; [|exists ins; split; [reflexivity|split; assumption]].
        destruct (nth_error g i) as [prow|] eqn:Eg; [|apply nth_error_None in Eg; lia]. cbn [bind]. assert (Lp : List.length prow = List.length xs) by (rewrite Forall_forall in S2; apply S2; eapply nth_error_In, Eg). destruct (nth_error prow j) as [p|] eqn:Ep; [|apply nth_error_None in Ep; lia]. cbn [bind].
        destruct (cell_distance_ok H c ess F NE NC p) as (d & -> & _). cbn [bind]. destruct (olt (Some d) mind); [|exists ins; split; [reflexivity|split; assumption]]. eexists. split; [reflexivity|]. split; [rewrite hset_length by lia; exact L1|].
        rewrite Forall_forall in *. intros r Hr'. unfold hset in Hr'. apply in_app_or in Hr'. destruct Hr' as [Hr'|[<-|Hr']].
        * apply L2. rewrite <- (firstn_skipn i ins). apply in_or_app. left. exact Hr'.
        * change (List.length (hset row j false) = Z.to_nat rows). rewrite hset_length by lia. exact Lr.
        * apply L2. rewrite <- (firstn_skipn (S i) ins). apply in_or_app. right. exact Hr'.
      + destruct (nth_error row j) as [b|] eqn:Ej; [assert (j < List.length row)%nat by (apply nth_error_Some; congruence); lia|]. reflexivity.
    - destruct (nth_error ins i) as [row|] eqn:Ei; [assert (i < List.length ins)%nat by (apply nth_error_Some; congruence); lia|]. reflexivity. }
  assert (Out : forall i ins, shape ins -> if forallb (fun j => andb (Nat.ltb i (Z.to_nat cols)) (Nat.ltb j (Z.to_nat rows))) (seq 0 (Z.to_nat cols)) then exists ins', fold_res (inner i) (seq 0 (Z.to_nat cols)) ins = Ok ins' /\ shape ins' else fold_res (inner i) (seq 0 (Z.to_nat cols)) ins = Err IndexError).
  { intros i ins Sh. apply (fold_res_bad (inner i) shape); [|exact Sh]. intros a b Sa. apply St, Sa. }
  pose proof (fold_res_bad (fun ins i => fold_res (inner i) (seq 0 (Z.to_nat cols)) ins) shape (fun i => forallb (fun j => andb (Nat.ltb i (Z.to_nat cols)) (Nat.ltb j (Z.to_nat rows))) (seq 0 (Z.to_nat cols))) IndexError (fun a b Sa => Out b a Sa) (seq 0 (Z.to_nat rows)) (map (map (inside_cell contains ess)) g)) as X.
  assert (Sh0 : shape (map (map (inside_cell contains ess)) g)). { split; [rewrite map_length, S1; lia|]. apply Forall_map. eapply Forall_impl; [|exact S2]. cbn. intros r Lr. rewrite map_length, Lr. lia. }
  specialize (X Sh0).
  assert (B : forallb (fun i => forallb (fun j => andb (Nat.ltb i (Z.to_nat cols)) (Nat.ltb j (Z.to_nat rows))) (seq 0 (Z.to_nat cols))) (seq 0 (Z.to_nat rows)) = false).
  { apply not_true_is_false. intros T. rewrite forallb_forall in T. destruct (Z.lt_total rows cols) as [L|[L|L]]; [| lia |].
    - specialize (T O ltac:(apply in_seq; lia)). rewrite forallb_forall in T. specialize (T (Z.to_nat rows) ltac:(apply in_seq; lia)). apply andb_prop in T. destruct T as [_ T]. apply Nat.ltb_lt in T. lia.
    - specialize (T (Z.to_nat cols) ltac:(apply in_seq; lia)). rewrite forallb_forall in T. specialize (T O ltac:(apply in_seq; lia)). apply andb_prop in T. destruct T as [T _]. apply Nat.ltb_lt in T. lia. }
  rewrite B in X. unfold inner in X. rewrite X. reflexivity.
Qed.

(** ** When parameterizing succeeds *)

Lemma param_cell_split qd H c : param_cell contains qd true H c = (do (H', c') <- param_cell contains qd false H c; do c' <- interior_points contains H' c'; Ok (H', c')).
Proof.
  unfold param_cell. destruct (param_comps contains qd H (c_comps c)) as [[H1 ks]|]; [|reflexivity]. cbn [bind]. destruct (cell_num_pts _ _); [|reflexivity]. cbn [bind]. destruct (find_outer _ _ _); [|reflexivity]. cbn [bind]. destruct (cell_start_idx _ _); [|reflexivity]. cbn [bind]. destruct (cell_closest _ _); [|reflexivity]. reflexivity.
Qed.

Lemma param_cell_total qd n p H c : get_quad_dict n p = Ok qd -> wf_cell c -> c_comps c <> [] -> is_ok (param_comps contains qd H (c_comps c)) = true -> exists H' c', param_cell contains qd false H c = Ok (H', c').
Proof.
  intros Q (ND & EH & WF) NE OK. unfold param_cell. destruct (param_comps contains qd H (c_comps c)) as [[H1 ks]|] eqn:E1; [|discriminate]. cbn [bind]. clear OK. unfold param_comps in E1.
  destruct (param_comps_gen contains (fun _ _ => True) (fun _ _ _ _ _ _ => I) qd n p Q (c_comps c) H [] [] H1 ks) as (new & ess & ess' & A1 & A2 & A3 & A4 & _); [exact ND|eapply Forall_impl; [|exact WF]; cbn; tauto|constructor|constructor|exact E1|]. cbn [app] in *. subst ks.
  assert (LK : List.length new = List.length (c_comps c)) by (rewrite <- (map_length k_edges new), A4, map_length; reflexivity).
  rewrite (cell_num_ok H1 (with_comps c new) ess' A2). cbn [bind]. destruct (find_outer_ok H1 (with_tables (with_comps c new) (Some (total (map csize ess'))) (c_start (with_comps c new)) (c_closest (with_comps c new))) ess' A2) as (k0 & ko & K0 & Ko & ->).
  { cbn. rewrite EH, LK. reflexivity. }
  { cbn. intros ->. destruct (c_comps c); [congruence|discriminate]. }
  cbn [bind c_comps with_tables with_comps] in *. set (o := pick ess') in *.
  destruct (swap0_Forall2 (fresh H1) new ess' o k0 ko A2 K0 Ko) as (e0 & eo & B0 & Bo & F2). destruct (swap0_Forall2 (fun k es => k_closest k = Some (closest es) /\ True) new ess' o k0 ko A3 K0 Ko) as (e0' & eo' & B0' & Bo' & C2). assert (e0' = e0) by congruence. assert (eo' = eo) by congruence. subst e0' eo'.
  set (nks := swap0 new o k0 ko) in *. set (ness := swap0 ess' o e0 eo) in *. assert (LN : List.length nks = List.length new) by (apply swap0_length; assumption).
  set (c3 := with_comps (with_tables (with_comps c new) (Some (total (map csize ess'))) (c_start (with_comps c new)) (c_closest (with_comps c new))) nks) in *.
  rewrite (cell_start_ok H1 c3 ness F2). cbn [bind].
  set (c4 := with_tables c3 (c_npts c3) (Some (offsets (map csize ness))) (c_closest c3)) in *.
  assert (F4 : cell_fresh H1 c4 ness).
  { split; [exact F2|]. split; [cbn; change (c_holes c = (Z.of_nat (List.length nks) - 1)%Z); rewrite EH, LN, LK; reflexivity|]. split; [|reflexivity]. change (Some (total (map csize ess')) = Some (total (map csize ness))). f_equal.
    assert (PT : forall l l', Permutation l l' -> total l = total l') by (unfold total; induction 1; cbn [fold_right]; lia). apply PT, Permutation_map. symmetry. apply swap0_perm; assumption. }
  rewrite (cell_closest_ok H1 c4 ness F4 (Forall2_impl _ _ _ _ (fun k es X => proj1 X) C2)). cbn [bind]. eexists. eexists. reflexivity.
Qed.
End Inside.
