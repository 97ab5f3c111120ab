(** C82 on pegboards: the script ends on every pegboard up to the size that C46 allows, and on no larger one. *)
From Coq Require Import List ZArith Reals Lia Lra Bool String Permutation.
From Verif Require Import PyBase PolyModel PolySpec PolyProofs PolyProps BaryModel QuadModel QuadProps VertModel EdgeModel EdgeSpec ContourModel CellModel CellSpec CellProofs MeshModel MeshSpec MeshProofs MeshProps NystromModel NystromSpec EdgeSpaceModel GlobModel SolverModel LocSpaceModel LocSpaceSpec LocSpaceProps4 AsmModel PegSpec PegProofs PegProps PegProps2 BoardProofs BoardProofs3 BoardProps.
From Verif Require ConvProofs5.
Import List ListNotations.
Open Scope R_scope.

Lemma board_new M N radius : (1 <= N)%nat -> Forall new_edge (peg_list M N radius).
Proof.
  intros HN. apply Forall_forall. intros e Ie. apply In_nth_error in Ie. destruct Ie as (k & Ek). assert (Lk : (k < List.length (peg_list M N radius))%nat) by (apply nth_error_Some; congruence). rewrite peg_list_length in Lk. destruct (place_cover M N (holes_of radius) k HN Lk) as (s & P & <-). rewrite (peg_list_nth _ _ _ _ P) in Ek. injection Ek as <-. pose proof (made_ok M N radius s) as E. unfold new_edge. destruct s; cbn [made_for] in E; do 9 eexists; exact E.
Qed.

(** [H0] is the list of edges that the construction of the board passes to the mesh. With holes the radius must be less than half the
    spacing, so that they stay inside their squares, and at least the tolerance. Containment is tested by [within]. *)
Theorem C82_pegboard low_rank gmres set_iter B M N radius n p d interior gradient : solves_sizes gmres -> (forall l, Permutation (set_iter l) l) -> canonical (bf_rhs B) -> (1 <= M)%nat -> (1 <= N)%nat -> (2 <= p)%Z -> (4 <= n <= 10000000)%Z -> (1 <= d)%Z ->
  (Z.of_nat (Nat.max M N) <= (if Rltb 0 radius then 707106 else 1000000))%Z -> (0 < radius -> TOL <= radius * spacing M N /\ radius < 1 / 2) ->
  exists qd H0 H m H2 v edges all, get_quad_dict (PInt n) p = Ok qd /\ pegboard (Z.of_nat M, Z.of_nat N) radius = Ok (H, m) /\ mk_mesh H0 (seq 0 (List.length H0)) = Ok (H, m) /\
    script ConvProofs5.within low_rank gmres set_iter qd B H0 (seq 0 (List.length H0)) (PInt d) interior gradient = Ok (H2, v) /\
    map_res (deref H) (m_edges m) = Ok edges /\ mesh_spaces low_rank qd edges (PInt d) = Ok all /\
    v_num v = (Z.of_nat (S M * S N) + CellModel.zsum (map (fun b => Z.of_nat (List.length (sp_edge b))) all) + Z.of_nat (M * N * if Rltb 0 radius then 2 else 1) * (d * (d - 1) / 2))%Z.
Proof.
  intros G Or Cn HM HN Hp Hn Hd HS HR. assert (HQ : Rltb 0 radius = holes_of radius) by (unfold holes_of; destruct (Rle_dec radius 0); [apply Rltb_false|apply Rltb_true]; lra). rewrite HQ in *. assert (HS' : (Z.of_nat (Nat.max M N) <= side_bound (holes_of radius))%Z) by (destruct (holes_of radius); exact HS). clear HS HQ. rename HS' into HS.
  destruct (C19_dict n p ltac:(lia) Hp) as (a & b & Q & _). destruct (pegboard_ok M N radius HM HN) as (H & m & E & LH & ME & ND & MK). set (H0 := peg_list M N radius) in *. set (is := seq 0 (List.length H0)) in *.
  assert (Cov : forall i, In i is -> exists s, present M N (holes_of radius) s /\ place M N s = i). { intros i Ii. apply in_seq in Ii. unfold H0 in Ii. rewrite peg_list_length in Ii. apply place_cover; [exact HN|lia]. }
  assert (Hn4 : (4 <= n)%Z) by lia.
  destruct (C82_total ConvProofs5.within low_rank gmres set_iter (a, b) B n p H0 is d interior gradient H m G Or Cn Q ltac:(lia) Hd (board_new M N radius HN)) as (H2 & v & edges & all & Es & De & Ms & Vn).
  - unfold is, H0. rewrite peg_list_length. destruct (M * S (2 * N) + N + _)%nat eqn:X; [nia|discriminate].
  - exact MK.
  - intros i e Ii Ei. destruct (Cov i Ii) as (s & P & <-). rewrite (ND s P) in Ei. injection Ei as <-. split; [exact (board_param M N radius p n (a, b) HM HN Hp Hn4 Q HS s P)|]. intros Lo. change (e_loop (with_idx (edge_of M N radius s) (Some (Z.of_nat (place M N s))))) with (e_loop (edge_of M N radius s)) in Lo. rewrite (board_loop M N radius HM HN HS s P) in Lo. destruct (edge_of_fields M N radius s) as (_ & _ & Fa & Fb & _). cbn [with_idx e_anchor e_endpnt]. rewrite Fa, Fb. destruct (board_ends M N radius HM HN HS s P) as (A1 & A2 & A3). split; [exact A1|]. split; [exact A2|]. apply A3. destruct s; [exact I|exact I|discriminate].
  - right. assert (P : present M N (holes_of radius) (Hor 0 0)) by (cbn; lia). exists (place M N (Hor 0 0)). eexists. split; [apply in_seq; unfold H0; rewrite peg_list_length; pose proof (place_bound _ _ _ _ HN P); lia|]. split; [apply ND, P|]. exact (board_loop M N radius HM HN HS (Hor 0 0) P).
  - intros z Iz. exact (board_done M N radius H m p n (a, b) HM HN E Hp Hn4 Q HS HR z Iz).
  - exists (a, b), H0, H, m, H2, v, edges, all. split; [exact Q|]. split; [exact E|]. split; [exact MK|]. split; [exact Es|]. split; [exact De|]. split; [exact Ms|]. rewrite Vn. destruct (board_counts M N radius H m HM HN E HS) as (-> & ->). reflexivity.
Qed.
Print Assumptions C82_pegboard.

(** On larger boards it does not end without an exception, whatever the containment test, the solver, the form and the degree. *)
Theorem C82_large contains low_rank gmres set_iter qd B M N radius n p deg interior gradient H0 H m : (1 <= M)%nat -> (1 <= N)%nat -> ((if Rltb 0 radius then 707106 else 1000000) < Z.of_nat (Nat.max M N))%Z -> get_quad_dict n p = Ok qd ->
  pegboard (Z.of_nat M, Z.of_nat N) radius = Ok (H, m) -> Forall new_edge H0 -> mk_mesh H0 (seq 0 (List.length H0)) = Ok (H, m) -> is_ok (script contains low_rank gmres set_iter qd B H0 (seq 0 (List.length H0)) deg interior gradient) = false.
Proof.
  intros HM HN HS Q E Nw MK. assert (HQ : Rltb 0 radius = holes_of radius) by (unfold holes_of; destruct (Rle_dec radius 0); [apply Rltb_false|apply Rltb_true]; lra). rewrite HQ in HS. assert (HS' : (side_bound (holes_of radius) < Z.of_nat (Nat.max M N))%Z) by (destruct (holes_of radius); exact HS).
  destruct (script _ _ _ _ _ _ _ _ _ _ _) as [[H2 v]|] eqn:Es; [|reflexivity]. exfalso.
  destruct (C46_mesh M N radius (holes_of radius) HM HN (holes_of_spec radius)) as (H' & m' & E' & _ & _ & _ & Cs). rewrite E in E'. apply Ok_inj in E'. injection E' as -> ->.
  destruct (C82_cells contains low_rank gmres set_iter qd B n p H0 _ deg interior gradient H m H2 v Q Nw MK Es (square N 0 0)) as (c & _ & _ & _ & Gc & _); [apply Cs; unfold square; destruct (holes_of radius); nia|].
  rewrite (C46_large_refuted M N radius (holes_of radius) H m 0 0 HM HN (holes_of_spec radius) HS' E) in Gc by lia. discriminate.
Qed.
Print Assumptions C82_large.

(** A board of 2 by 3 squares with holes of radius 1/12, degree 2 and the right-hand side x + 1, with values and gradients inside: 12 vertices and 12 cells with one bubble each *)
Example C82_example low_rank : exists qd H0 H m H2 v edges all, get_quad_dict (PInt 16) 7 = Ok qd /\ pegboard (2, 3)%Z (1 / 4) = Ok (H, m) /\ mk_mesh H0 (seq 0 (List.length H0)) = Ok (H, m) /\
  script ConvProofs5.within low_rank (fun _ b _ => Ok b) (fun l => l) qd (BForm 1 1 [rmon 1 0 0; rmon 1 1 0]) H0 (seq 0 (List.length H0)) (PInt 2) true true = Ok (H2, v) /\
  map_res (deref H) (m_edges m) = Ok edges /\ mesh_spaces low_rank qd edges (PInt 2) = Ok all /\ v_num v = (12 + CellModel.zsum (map (fun b => Z.of_nat (List.length (sp_edge b))) all) + 12 * 1)%Z.
Proof.
  pose proof (C82_pegboard low_rank (fun _ b _ => Ok b) (fun l => l) (BForm 1 1 [rmon 1 0 0; rmon 1 1 0]) 2 3 (1 / 4) 16 7 2 true true) as T. assert (X : Rltb 0 (1 / 4) = true) by (apply Rltb_true; lra). rewrite X in T. clear X. cbn [bf_rhs Z.of_nat Pos.of_succ_nat Pos.succ Nat.max] in T. apply T; try lia.
  - intros f b p _ _. exists b. auto.
  - intros l. reflexivity.
  - canon.
  - intros _. unfold spacing, TOL. cbn [Nat.max INR]. lra.
Qed.

(** A strip of 1000001 squares without holes can be meshed, but the script does not end on it. *)
Example C82_large_example contains low_rank gmres set_iter B : exists qd H0 H m, get_quad_dict (PInt 16) 7 = Ok qd /\ pegboard (1, 1000001)%Z 0 = Ok (H, m) /\ Forall new_edge H0 /\ mk_mesh H0 (seq 0 (List.length H0)) = Ok (H, m) /\
  is_ok (script contains low_rank gmres set_iter qd B H0 (seq 0 (List.length H0)) (PInt 1) false false) = false.
Proof.
  destruct (C19_dict 16 7 ltac:(lia) ltac:(lia)) as (a & b & Q & _). assert (X : exists N, Z.of_nat N = 1000001%Z) by (exists (Z.to_nat 1000001); apply Z2Nat.id; lia). destruct X as (N & EN). assert (HN : (1 <= N)%nat) by lia. destruct (pegboard_ok 1 N 0 (le_n 1) HN) as (H & m & E & _ & _ & _ & MK).
  exists (a, b), (peg_list 1 N 0), H, m. split; [exact Q|]. pose proof E as E'. rewrite EN in E'. split; [exact E'|]. split; [apply board_new, HN|]. split; [exact MK|].
  refine (C82_large contains low_rank gmres set_iter (a, b) B 1 N 0 _ _ (PInt 1) false false _ H m (le_n 1) HN _ Q E (board_new 1 N 0 HN) MK). replace (Rltb 0 0) with false by (symmetry; apply Rltb_false; lra). lia.
Qed.
