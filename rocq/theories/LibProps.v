(** C69: the meshes of the library are the figures they are named after. *)
From Coq Require Import List ZArith Reals Lia Lra Bool String Permutation.
From Coquelicot Require Import Coquelicot.
From Verif Require Import PyBase PolyModel BaryModel QuadModel CurveModel CurveSpec VertModel EdgeModel EdgeSpec ContourModel CellModel CellProofs MeshModel PegProofs LibModel LibSpec LibProofs LibProofs2 LibProofs3 LibProofs4.
Import List ListNotations.
Open Scope R_scope.

(** A mesh is given by a table of curves and a table of cells with contours, the outer contour
    first: edge [i] has the samples of curve [i] for every pair of quadratures, the cells are the
    numbers of the table, and each has the contours of its entry. *)
Definition realises (H : heap) (m : mesh) (shapes : list shape) (cells : list (list ring)) (verts : list Z) : Prop :=
  List.length H = List.length shapes /\ m_edges m = seq 0 (List.length shapes) /\
  (forall i s, nth_error shapes i = Some s -> exists e, nth_error H i = Some e /\ e_idx e = Some (Z.of_nat i) /\
    forall n p qd, get_quad_dict n p = Ok qd -> exists e' q, q = (if String.eqb (e_qtype e) "trap" then fst qd else snd qd) /\ parameterize qd e = Ok e' /\
      e_smp e' = map (fun tw => sample_of (shape_jet s (fst tw) (snd tw))) (combine (q_t q) (q_wgt q)) /\ List.length (e_smp e') = (2 * q_n q + 1)%nat) /\
  m_cells m = map Z.of_nat (seq 0 (List.length cells)) /\ m_ncells m = Z.of_nat (List.length cells) /\ m_verts m = verts /\ m_nverts m = Z.of_nat (List.length verts) /\
  (forall z rs, nth_error cells z = Some rs -> exists c, get_cell H m (Z.of_nat z) = Ok c /\ c_idx c = Z.of_nat z /\ c_holes c = (Z.of_nat (List.length rs) - 1)%Z /\
    map k_edges (c_comps c) = map (fun r => map fst (r_edges r)) rs /\ map k_orients (c_comps c) = map (fun r => map snd (r_edges r)) rs).

(** ** Any list of vertices and edges between them *)

(** Vertices at least [TOL] apart and edges with a cell on some side: the mesh is built; edge [i]
    is the [i]-th call, between the vertices with the numbers of the call. *)
Theorem C69_builder vs ks : (forall i j v w, i <> j -> nth_error vs i = Some v -> nth_error vs j = Some w -> TOL <= pdist (coord v) (coord w)) ->
  (forall k, In k ks -> (0 <= l_from k < Z.of_nat (List.length vs))%Z /\ (0 <= l_to k < Z.of_nat (List.length vs))%Z /\ (0 <= l_pos k \/ 0 <= l_neg k)%Z) ->
  exists H m, mesh_builder vs (edge_calls ks) = Ok (H, m) /\ List.length H = List.length ks /\ m_edges m = seq 0 (List.length ks) /\
    forall i k, nth_error ks i = Some k -> exists e va vb, nth_error H i = Some e /\ e_idx e = Some (Z.of_nat i) /\ e_pos e = l_pos k /\ e_neg e = l_neg k /\ e_curve e = l_curve k /\ e_qtype e = l_quad k /\
      nth_error vs (Z.to_nat (l_from k)) = Some va /\ nth_error vs (Z.to_nat (l_to k)) = Some vb /\ coord (e_anchor e) = coord va /\ coord (e_endpnt e) = coord vb /\
      vidx (e_anchor e) = l_from k /\ vidx (e_endpnt e) = l_to k /\ e_loop e = Z.eqb (l_from k) (l_to k).
Proof.
  intros A F. assert (NV : forall i v, nth_error vs i = Some v -> numbered vs i = nth i (number_verts vs) (mkvert 0 0) /\ coord (numbered vs i) = coord v /\ vidx (numbered vs i) = Z.of_nat i).
  { intros i v E. unfold numbered. rewrite (nth_error_nth _ _ _ (number_verts_nth _ _ _ E)). split; [reflexivity|]. split; reflexivity. }
  assert (G : forall i, (i < List.length vs)%nat -> exists v, nth_error vs i = Some v) by (intros i L; destruct (nth_error vs i) as [v|] eqn:E; [eauto|apply nth_error_None in E; lia]).
  assert (AP : apart_by TOL (List.length vs) (numbered vs)). { intros a b La Lb N. destruct (G a La) as [va Ea]. destruct (G b Lb) as [vb Eb]. rewrite (proj1 (proj2 (NV _ _ Ea))), (proj1 (proj2 (NV _ _ Eb))). exact (A a b va vb N Ea Eb). }
  destruct (builder_ok vs ks TOL (Rle_refl _) AP) as (H & m & EQ & HH & ME & _).
  - apply forallb_forall. intros k I. destruct (F k I) as (F1 & F2 & _). unfold call_fits. rewrite !andb_true_iff, !Z.leb_le, !Z.ltb_lt. lia.
  - apply forallb_forall. intros k I. destruct (F k I) as (_ & _ & F3). unfold call_embedded. rewrite orb_true_iff, !Z.leb_le. exact F3.
  - exists H, m. split; [exact EQ|]. split; [rewrite HH, map_length, seq_length; reflexivity|]. split; [exact ME|].
    intros i k Ek. destruct (F k (nth_error_In _ _ Ek)) as (F1 & F2 & _). destruct (G (Z.to_nat (l_from k)) ltac:(lia)) as [va Ea]. destruct (G (Z.to_nat (l_to k)) ltac:(lia)) as [vb Eb].
    exists (with_idx (made_edge (numbered vs) k) (Some (Z.of_nat i))), va, vb. split.
    { rewrite HH, nth_error_tab by (apply nth_error_Some; rewrite Ek; discriminate). rewrite (at_call_nth _ _ _ _ Ek). reflexivity. }
    destruct (NV _ _ Ea) as (_ & C1 & I1). destruct (NV _ _ Eb) as (_ & C2 & I2).
    cbn [with_idx made_edge e_idx e_pos e_neg e_curve e_qtype e_anchor e_endpnt e_loop]. rewrite C1, C2, I1, I2, !Z2Nat.id by lia. repeat split; assumption || reflexivity.
Qed.

(** ** The three meshes *)
Lemma realised vs ks shapes cells verts : apart_by (1 / 25) (List.length vs) (numbered vs) -> forallb (call_fits (List.length vs)) ks = true -> forallb call_embedded ks = true ->
  table_fits (numbered vs) ks shapes -> (forall H, H = map (at_call (numbered vs) ks) (seq 0 (List.length ks)) -> cell_list H = map Z.of_nat (seq 0 (List.length cells)) /\ vert_list H = verts) ->
  (forall z rs, nth_error cells z = Some rs -> plan ks (Z.of_nat z) = Some (map r_edges rs)) ->
  exists H m, mesh_builder vs (edge_calls ks) = Ok (H, m) /\ realises H m shapes cells verts.
Proof.
  intros A F E T C P. assert (D : TOL <= 1 / 25) by (unfold TOL; lra). destruct (builder_ok vs ks (1 / 25) D A F E) as (H & m & EQ & HH & ME & MN & MC & MV & NC & NV). exists H, m. split; [exact EQ|].
  destruct (C H HH) as [C1 C2]. pose proof (Forall2_len _ _ _ T) as LT. assert (LH : List.length H = List.length ks) by (rewrite HH, map_length, seq_length; reflexivity).
  split; [congruence|]. split; [congruence|]. split.
  { intros i s Es. assert (Li : (i < List.length ks)%nat) by (rewrite LT; apply nth_error_Some; rewrite Es; discriminate). destruct (nth_error ks i) as [k|] eqn:Ek; [|apply nth_error_None in Ek; lia].
    exists (edge_num (numbered vs) k i). split; [rewrite HH, nth_error_tab by exact Li; f_equal; exact (at_call_nth _ _ _ _ Ek)|]. split; [reflexivity|]. intros n p qd Q.
    destruct (Forall2_nth _ _ _ T i _ _ Ek Es i n p qd Q) as (e' & q & X1 & X2 & X3 & X4 & X5 & X6 & _). exists e', q. auto. }
  split; [congruence|]. split; [rewrite NC, C1, map_length, seq_length; reflexivity|]. split; [congruence|]. split; [rewrite NV, C2; reflexivity|].
  intros z rs Ez. assert (Lz : (z < List.length cells)%nat) by (apply nth_error_Some; rewrite Ez; discriminate).
  destruct (plan_cell vs ks (1 / 25) H m (Z.of_nat z) (map r_edges rs) ltac:(lra) A F E EQ ltac:(lia)) as (c & c1 & c2 & c3 & c4 & c5).
  - rewrite C1. unfold zmemb. apply existsb_exists. exists (Z.of_nat z). split; [apply in_map, in_seq; lia|apply Z.eqb_refl].
  - exact (P z rs Ez).
  - exists c. rewrite map_length in c5. rewrite !map_map in c3, c4. auto.
Qed.

(** [vert_list] and [cell_list] only look at numbers. *)
Lemma heap_of pnt ks : map (at_call pnt ks) (seq 0 (List.length ks)) = map (fun ik => with_idx (made_edge pnt (snd ik)) (Some (Z.of_nat (fst ik)))) (combine (seq 0 (List.length ks)) ks).
Proof.
  apply ContourProofs2.nth_error_ext'. intros i. destruct (Nat.lt_ge_cases i (List.length ks)) as [Li|Li].
  - rewrite nth_error_tab by exact Li. destruct (nth_error ks i) as [k|] eqn:Ek; [|apply nth_error_None in Ek; lia]. rewrite nth_error_map, (at_call_nth _ _ _ _ Ek), ContourProofs.nth_error_combine, Ek, (nth_error_seq _ _ Li). reflexivity.
  - rewrite (proj2 (nth_error_None _ _)), (proj2 (nth_error_None _ _)); [reflexivity|rewrite map_length, combine_length, seq_length; lia|rewrite map_length, seq_length; lia].
Qed.
Lemma cells_of pnt ks : cell_list (map (at_call pnt ks) (seq 0 (List.length ks))) = zsort (fold_left (fun l k => fold_left collect [l_pos k; l_neg k] l) ks []).
Proof.
  rewrite heap_of. unfold cell_list. f_equal. set (f1 := fun (l : list Z) (e : edge) => fold_left collect [e_pos e; e_neg e] l). set (g1 := fun (l : list Z) (k : call) => fold_left collect [l_pos k; l_neg k] l). generalize (@nil Z) as acc. generalize 0%nat. induction ks as [|k ks IH]; intros n acc; [reflexivity|].
  cbn [List.length seq combine map fst snd]. change (fold_left ?f (?a :: ?l) ?x) with (fold_left f l (f x a)). apply IH.
Qed.
Lemma verts_of vs ks : forallb (call_fits (List.length vs)) ks = true ->
  vert_list (map (at_call (numbered vs) ks) (seq 0 (List.length ks))) = zsort (fold_left (fun l k => if Z.eqb (l_from k) (l_to k) then l else fold_left collect [l_from k; l_to k] l) ks []).
Proof.
  intros F. rewrite heap_of. unfold vert_list. f_equal. set (f1 := fun (l : list Z) (e : edge) => if e_loop e then l else _). set (g1 := fun (l : list Z) (k : call) => if Z.eqb (l_from k) (l_to k) then l else _). generalize (@nil Z) as acc. generalize 0%nat. induction ks as [|k ks IH]; intros n acc; [reflexivity|]. cbn [forallb] in F. apply andb_true_iff in F as [F1 F2].
  assert (V : forall z, (0 <= z < Z.of_nat (List.length vs))%Z -> vidx (numbered vs (Z.to_nat z)) = z).
  { intros z Lz. destruct (nth_error vs (Z.to_nat z)) as [v|] eqn:E; [|apply nth_error_None in E; lia]. unfold numbered. rewrite (nth_error_nth _ _ _ (number_verts_nth _ _ _ E)). cbn [vidx]. lia. }
  unfold call_fits in F1. rewrite !andb_true_iff, !Z.leb_le, !Z.ltb_lt in F1. destruct F1 as [[] []].
  cbn [List.length seq combine map fst snd]. change (fold_left ?f (?a :: ?l) ?x) with (fold_left f l (f x a)). unfold f1 at 2. cbn [with_idx made_edge e_anchor e_endpnt e_loop]. rewrite !V by lia. apply (IH F2).
Qed.
Ltac realise A T := apply realised; [exact A|reflexivity|reflexivity|exact T| |];
  [intros H ->; rewrite cells_of, verts_of by reflexivity; split; reflexivity|].

Theorem C69_square : exists H m, square_circular_hole = Ok (H, m) /\ realises H m square_shapes square_cells [0; 1; 2; 3]%Z.
Proof. realise square_apart square_fits. intros z rs E. do 2 (destruct z as [|z]; [injection E as <-; reflexivity|]). destruct z; discriminate. Qed.
Theorem C69_pacman : exists H m, pacman = Ok (H, m) /\ realises H m pacman_shapes pacman_cells [0; 1; 2; 3; 4; 5; 6; 7; 8; 9; 10; 15; 16; 17; 18]%Z.
Proof. realise pacman_apart pacman_fits. intros z rs E. do 11 (destruct z as [|z]; [injection E as <-; reflexivity|]). destruct z; discriminate. Qed.
Theorem C69_subdiv : exists H m, pacman_subdiv = Ok (H, m) /\ realises H m subdiv_shapes subdiv_cells [0; 1; 2; 3; 4; 5; 6; 7; 8; 9; 10; 15; 16; 17; 18; 21; 22]%Z.
Proof. realise subdiv_apart subdiv_fits. intros z rs E. do 11 (destruct z as [|z]; [injection E as <-; reflexivity|]). destruct z; discriminate. Qed.

(** ** The tables describe plane figures *)

(** The derivatives in the samples are those of the curves. *)
Theorem C69_curves s (u : R) : is_derive (fun u : R => fst (point s u)) u (fst (speed s u)) /\ is_derive (fun u : R => snd (point s u)) u (snd (speed s u)) /\
  is_derive (fun u : R => fst (speed s u)) u (fst (bend s u)) /\ is_derive (fun u : R => snd (speed s u)) u (snd (bend s u)).
Proof. destruct (speed_ok s u) as [A B], (bend_ok s u) as [C D]. split; [exact A|]. split; [exact B|]. split; [exact C|exact D]. Qed.

(** Each cell is what its outer contour encloses without its holes: the contour closes and goes
    counterclockwise around a point of the region, the holes close, go clockwise, stay in the open
    region and apart from each other. *)
Theorem C69_laid i rs region :
  (nth_error square_cells i = Some rs -> nth_error square_regions i = Some region -> well_laid square_shapes region rs) /\
  (nth_error pacman_cells i = Some rs -> nth_error game_regions i = Some region -> well_laid pacman_shapes region rs) /\
  (nth_error subdiv_cells i = Some rs -> nth_error game_regions i = Some region -> well_laid subdiv_shapes region rs).
Proof. split; [apply square_laid|split; [apply pacman_laid|apply subdiv_laid]]. Qed.

(** Every edge is travelled forwards by one cell, and backwards by another one unless it is on the
    outside. *)
Definition uses (cells : list (list ring)) (ko : nat * Z) : list nat :=
  flat_map (fun zc => flat_map (fun r => flat_map (fun a => if andb (Nat.eqb (fst a) (fst ko)) (Z.eqb (snd a) (snd ko)) then [fst zc] else []) (r_edges r)) (snd zc)) (combine (seq 0 (List.length cells)) cells).
Definition matched (cells : list (list ring)) (outside n : nat) : Prop :=
  (forall rs r k o, In rs cells -> In r rs -> In (k, o) (r_edges r) -> (k < n)%nat /\ (o = 1 \/ o = -1)%Z) /\
  forall k, (k < n)%nat -> exists a, uses cells (k, 1%Z) = [a] /\ if Nat.ltb k outside then uses cells (k, (-1)%Z) = [] else exists b, uses cells (k, (-1)%Z) = [b] /\ a <> b.
Lemma matched_check cells outside n :
  forallb (fun rs => forallb (fun r => forallb (fun a => andb (Nat.ltb (fst a) n) (orb (Z.eqb (snd a) 1) (Z.eqb (snd a) (-1)))) (r_edges r)) rs) cells = true ->
  forallb (fun k => match uses cells (k, 1%Z), uses cells (k, (-1)%Z) with [_], [] => Nat.ltb k outside | [a], [b] => andb (negb (Nat.ltb k outside)) (negb (Nat.eqb a b)) | _, _ => false end) (seq 0 n) = true -> matched cells outside n.
Proof.
  intros A B. split.
  - intros rs r k o I1 I2 I3. rewrite forallb_forall in A. specialize (A rs I1). rewrite forallb_forall in A. specialize (A r I2). rewrite forallb_forall in A. specialize (A _ I3). cbn [fst snd] in A. rewrite andb_true_iff, orb_true_iff, Nat.ltb_lt, !Z.eqb_eq in A. exact A.
  - intros k Lk. rewrite forallb_forall in B. specialize (B k ltac:(apply in_seq; lia)). destruct (uses cells (k, 1%Z)) as [|a [|]]; try discriminate. exists a. split; [reflexivity|].
    destruct (uses cells (k, (-1)%Z)) as [|b [|]]; try discriminate; [rewrite B; reflexivity|]. apply andb_true_iff in B as [B1 B2]. apply negb_true_iff in B1, B2. rewrite B1. exists b. split; [reflexivity|apply Nat.eqb_neq, B2].
Qed.
Theorem C69_matched : matched square_cells 4 5 /\ matched pacman_cells 8 23 /\ matched subdiv_cells 8 25.
Proof. split; [|split]; apply matched_check; reflexivity. Qed.

(** ** Cases *)

(** Two vertices and one segment, which is not a boundary of anything closed, still make a mesh. *)
Example C69_example_builder : exists H m e, mesh_builder [mkvert 0 0; mkvert 3 4] (edge_calls [line_call 0 1 5 (-1)]) = Ok (H, m) /\ H = [e] /\ e_pos e = 5%Z /\ coord (e_endpnt e) = (3, 4).
Proof.
  destruct (C69_builder [mkvert 0 0; mkvert 3 4] [line_call 0 1 5 (-1)]) as (H & m & EQ & LH & _ & F).
  - intros i j v w N Ei Ej. destruct i as [|[|[|i]]], j as [|[|[|j]]]; cbn in Ei, Ej; try discriminate; try contradiction; injection Ei as <-; injection Ej as <-; apply pdist_x; unfold TOL; cbn; lra.
  - intros k [<-|[]]. cbn. lia.
  - destruct (F 0%nat _ eq_refl) as (e & va & vb & E1 & _ & E3 & _ & _ & _ & _ & E8 & _ & E10 & _). destruct H as [|e' [|]]; try discriminate. injection E1 as <-. injection E8 as <-. exists [e'], m, e'. split; [exact EQ|]. split; [reflexivity|]. split; [exact E3|exact E10].
Qed.
(** Pac-Man's mouth opens to the right: a quarter of the way around the head is above. *)
Example C69_example_mouth : ~ pac_region (8 / 10, 1 / 2) /\ pac_region (2 / 10, 1 / 2) /\ nth_error pacman_shapes 11 = Some (Arc (1 / 2, 1 / 2) (2 / 5) (PI / 6) (5 * PI / 3)) /\ point (Arc (1 / 2, 1 / 2) (2 / 5) (PI / 6) (5 * PI / 3)) (1 / 2) = (1 / 10, 1 / 2).
Proof.
  pose proof root3. unfold pac_region, oval. cbn [fst snd]. rewrite Rminus_eq_0, Rabs_R0. split; [lra|]. split; [lra|]. split; [reflexivity|].
  cbn [point fst snd]. replace (PI / 6 + 5 * PI / 3 * (1 / 2)) with PI by field. rewrite cos_PI, sin_PI. f_equal; field.
Qed.
(** Cell 3 with three dots has four contours. *)
Example C69_example_dots : exists H m c, pacman = Ok (H, m) /\ get_cell H m 3 = Ok c /\ c_holes c = 3%Z /\ map k_edges (c_comps c) = [[1; 9; 5; 8]; [14]; [15]; [16]]%nat /\ map k_orients (c_comps c) = [[1; 1; 1; -1]; [-1]; [-1]; [-1]]%Z.
Proof.
  destruct C69_pacman as (H & m & EQ & _ & _ & _ & _ & _ & _ & _ & C). destruct (C 3%nat _ eq_refl) as (c & c1 & _ & c3 & c4 & c5). exists H, m, c. split; [exact EQ|]. split; [exact c1|]. split; [exact c3|]. split; [exact c4|exact c5].
Qed.

Print Assumptions C69_builder.
Print Assumptions C69_square.
Print Assumptions C69_pacman.
Print Assumptions C69_subdiv.
Print Assumptions C69_curves.
Print Assumptions C69_laid.
Print Assumptions C69_matched.
