(** C82 on meshes of rectangles and discs with circular holes: the script ends on every one of them, and so on the library's
    square with a circular hole. *)
From Coq Require Import List ZArith Reals Lia Lra Psatz Bool String Permutation.
From Verif Require Import PyBase PolyModel PolySpec PolyProofs PolyProps BaryModel QuadModel QuadProps VertModel EdgeModel EdgeSpec ContourModel CellModel CellSpec CellProofs MeshModel MeshSpec MeshProofs MeshProps NystromModel NystromSpec EdgeSpaceModel GlobModel SolverModel LocSpaceModel LocSpaceSpec LocSpaceProps4 AsmModel PegSpec PegProofs CurveModel LibModel LibSpec LibProofs LibProofs2 LibProofs3 LibProofs4 LibProps ConvSpec BoardSpec BoardProofs BoardProofs4 BoardProps.
From Verif Require ConvProofs5 LocSpaceProofs2.
Import List ListNotations.
Open Scope R_scope.

(** Non-loops have numbered ends at least the tolerance apart, and every cell is constructible and has the rectangle or circle
    [outer] and the circles [rims] as its contours, in some order of its edges. *)
Theorem C82_shapes low_rank gmres set_iter B n p H0 is d interior gradient H m : solves_sizes gmres -> (forall l, Permutation (set_iter l) l) -> canonical (bf_rhs B) -> (2 <= p)%Z -> (4 <= n <= 10000000)%Z -> (1 <= d)%Z ->
  Forall new_edge H0 -> is <> [] -> mk_mesh H0 is = Ok (H, m) ->
  (forall i e, In i is -> nth_error H i = Some e -> e_loop e = false -> (0 <= vidx (e_anchor e))%Z /\ (0 <= vidx (e_endpnt e))%Z /\ TOL <= pdist (coord (e_endpnt e)) (coord (e_anchor e))) ->
  ((2 <= d)%Z \/ exists i e, In i is /\ nth_error H i = Some e /\ e_loop e = false) ->
  (forall z, In z (m_cells m) -> exists c outer rims, get_cell H m z = Ok c /\ map k_edges (c_comps c) = map outline_ids (outer :: rims) /\ shaped H z outer rims) ->
  exists qd H2 v edges all, get_quad_dict (PInt n) p = Ok qd /\ script ConvProofs5.within low_rank gmres set_iter qd B H0 is (PInt d) interior gradient = Ok (H2, v) /\
    map_res (deref H) (m_edges m) = Ok edges /\ mesh_spaces low_rank qd edges (PInt d) = Ok all /\
    v_num v = (m_nverts m + CellModel.zsum (map (fun b => Z.of_nat (List.length (sp_edge b))) all) + m_ncells m * (d * (d - 1) / 2))%Z.
Proof.
  intros G Or Cn Hp Hn Hd Nw NE M Ed SF Cl. destruct (C19_dict n p ltac:(lia) Hp) as (a & b & Q & _). exists (a, b).
  destruct (C44_tables _ _ _ _ M) as (_ & _ & Ie & _ & T & _ & _ & Cs & _).
  assert (FI : Forall (fun i => (i < List.length H)%nat) (m_edges m)). { apply Forall_forall. intros i Ii. apply In_nth_error in Ii. destruct Ii as (k & Ek). destruct (T k i Ek) as (e & _ & _ & E1). apply nth_error_Some. congruence. }
  destruct (C82_total ConvProofs5.within low_rank gmres set_iter (a, b) B n p H0 is d interior gradient H m G Or Cn Q ltac:(lia) Hd Nw NE M) as (H2 & v & edges & all & Es & De & Ms & Vn).
  - intros i e Ii Ei. split; [|intros L; exact (Ed i e Ii Ei L)]. pose proof (proj2 (Ie i) Ii) as Im. apply In_nth_error in Im. destruct Im as (k & Ek). destruct (T k i Ek) as (e0 & E0 & Em & E1). rewrite E1 in Ei. injection Ei as <-.
    assert (X : exists z, (0 <= z)%Z /\ borders z e0) by (unfold embedded, borders in *; destruct (Z_le_dec 0 (e_pos e0)); [exists (e_pos e0); auto|exists (e_neg e0); split; [lia|auto]]). destruct X as (z & Hz & Bz).
    assert (Iz : In z (m_cells m)) by (apply Cs; split; [exact Hz|eauto]). destruct (Cl z Iz) as (c & outer & rims & Gc & EK & Fo & Fr & _). destruct (proj2 (C45_get_cell H m z FI) Iz) as (ids & _ & In_ids & _ & Pm). specialize (Pm c Gc).
    assert (Ic : In i (cell_edges c)) by (apply (Permutation_in _ (Permutation_sym Pm)), In_ids; split; [apply Ie, Ii|eexists; split; [exact E1|exact Bz]]).
    unfold cell_edges in Ic. rewrite EK in Ic. apply in_concat in Ic. destruct Ic as (l & Il & Iil). apply in_map_iff in Il. destruct Il as (o & <- & Io). destruct Io as [<-|Io].
    + exact (fit_param H z true outer p n (a, b) i _ Hp ltac:(lia) Q Fo Iil E1).
    + rewrite Forall_forall in Fr. exact (fit_param H z false o p n (a, b) i _ Hp ltac:(lia) Q (Fr o Io) Iil E1).
  - exact SF.
  - intros z Iz. destruct (Cl z Iz) as (c & outer & rims & Gc & EK & Sh). exists c. split; [exact Gc|]. exact (shaped_done H m p n (a, b) Hp ltac:(lia) Q z c Gc outer rims EK Sh).
  - exists H2, v, edges, all. auto.
Qed.
Print Assumptions C82_shapes.

(** The mesh of square_circular_hole.py: [H0] is the list of edges its builder passes to the mesh. There are 4 vertices, and the cells are the
    square without the disc and the disc. *)
Theorem C82_square low_rank gmres set_iter B n p d interior gradient : solves_sizes gmres -> (forall l, Permutation (set_iter l) l) -> canonical (bf_rhs B) -> (2 <= p)%Z -> (4 <= n <= 10000000)%Z -> (1 <= d)%Z ->
  exists qd H0 H m H2 v edges all, get_quad_dict (PInt n) p = Ok qd /\ edge_calls square_calls (number_verts square_verts) = Ok H0 /\ square_circular_hole = Ok (H, m) /\ mk_mesh H0 (seq 0 5) = Ok (H, m) /\
    script ConvProofs5.within low_rank gmres set_iter qd B H0 (seq 0 5) (PInt d) interior gradient = Ok (H2, v) /\
    map_res (deref H) (m_edges m) = Ok edges /\ mesh_spaces low_rank qd edges (PInt d) = Ok all /\
    v_num v = (4 + CellModel.zsum (map (fun b => Z.of_nat (List.length (sp_edge b))) all) + 2 * (d * (d - 1) / 2))%Z.
Proof.
  intros G Or Cn Hp Hn Hd. assert (DT : TOL <= 1 / 25) by (unfold TOL; lra). pose (A := square_apart). assert (F : forallb (call_fits (List.length square_verts)) square_calls = true) by reflexivity.
  set (H0 := map (made_edge (numbered square_verts)) square_calls). pose proof (edge_calls_ok square_verts square_calls (1 / 25) DT A F) as EC. fold H0 in EC.
  destruct (builder_ok square_verts square_calls (1 / 25) DT A F eq_refl) as (H & m & EQ & HH & ME & _ & _ & _ & _ & NVm). assert (MK : mk_mesh H0 (seq 0 5) = Ok (H, m)) by (unfold mesh_builder in EQ; rewrite EC in EQ; exact EQ).
  destruct C69_square as (H' & m' & EQ' & _ & _ & _ & MC & NC & MV & NV & Cl). change (square_circular_hole) with (mesh_builder square_verts (edge_calls square_calls)) in EQ'. rewrite EQ in EQ'. apply Ok_inj in EQ'. injection EQ' as -> ->.
  assert (NE : forall i k, nth_error square_calls i = Some k -> nth_error H i = Some (with_idx (made_edge (numbered square_verts) k) (Some (Z.of_nat i)))).
  { intros i k Ek. rewrite HH, nth_error_tab by (apply nth_error_Some; rewrite Ek; discriminate). f_equal. exact (at_call_nth _ _ _ _ Ek). }
  assert (Nw : Forall new_edge H0).
  { apply Forall_forall. intros e Ie. apply In_nth_error in Ie. destruct Ie as (i & Ei). unfold edge_calls in EC. pose proof (LocSpaceProofs2.map_res_F2 _ _ _ EC) as F2. assert (Li : (i < List.length H0)%nat) by (apply nth_error_Some; congruence). unfold H0 in Li. rewrite map_length in Li. destruct (nth_error square_calls i) as [k|] eqn:Ek; [|apply nth_error_None in Ek; lia]. pose proof (Forall2_nth _ _ _ F2 i _ _ Ek Ei) as X. cbn beta in X. unfold edge_call in X. destruct (pyget _ (l_from k)); [|discriminate]. destruct (pyget _ (l_to k)); [|discriminate]. cbn [bind] in X. do 9 eexists. exact X. }
  assert (St : forall i a b z, nth_error square_calls i = Some (line_call a b z (-1)) -> (a <> b)%Z -> exists e, nth_error H i = Some e /\ runs z e (coord (numbered square_verts (Z.to_nat a))) (coord (numbered square_verts (Z.to_nat b)))).
  { intros i a b z Ek Hab. eexists. split; [apply NE, Ek|]. left. split; [reflexivity|]. unfold straight. cbn [with_idx made_edge line_call e_curve e_tb e_diary e_qtype l_curve l_from l_to l_quad]. split; [reflexivity|]. split; [reflexivity|]. split; [|right; reflexivity]. destruct (Z.eqb_spec a b); [contradiction|]. do 2 eexists. split; [reflexivity|]. split; reflexivity. }
  assert (Rd : exists e, nth_error H 4 = Some e /\ round_edge e (1 / 2, 1 / 2) (1 / 4) /\ e_pos e = 1%Z /\ e_qtype e = "trap"%string).
  { eexists. split; [apply NE; reflexivity|]. split; [|split; reflexivity]. unfold round_edge. cbn [with_idx made_edge circle_call e_curve e_tb e_diary e_qtype e_opts l_curve l_from l_to l_quad l_opts]. split; [reflexivity|]. split; [reflexivity|]. split; [unfold circle_R; cbn; lra|]. split; [lra|]. split; [|left; reflexivity]. eexists. split; [reflexivity|]. transitivity (5 / 10, 5 / 10); [reflexivity|]. f_equal; lra. }
  assert (CO : coord (numbered square_verts 0) = (0, 0) /\ coord (numbered square_verts 1) = (1, 0) /\ coord (numbered square_verts 2) = (1, 1) /\ coord (numbered square_verts 3) = (0, 1)) by (repeat split). destruct CO as (C0 & C1 & C2 & C3).
  assert (SQ : shaped H 0 (Box 0 1 0 1 0 1 2 3) [Round (1 / 2, 1 / 2) (1 / 4) 4]).
  { split; [|split].
    - split; [|reflexivity]. split; [unfold TOL; lra|]. split; [unfold TOL; lra|]. destruct (St 0%nat 0%Z 1%Z 0%Z eq_refl ltac:(lia)) as (e1 & N1 & R1). destruct (St 1%nat 1%Z 2%Z 0%Z eq_refl ltac:(lia)) as (e2 & N2 & R2). destruct (St 2%nat 2%Z 3%Z 0%Z eq_refl ltac:(lia)) as (e3 & N3 & R3). destruct (St 3%nat 3%Z 0%Z 0%Z eq_refl ltac:(lia)) as (e4 & N4 & R4).
      exists e1, e2, e3, e4. split; [exact N1|]. split; [exact N2|]. split; [exact N3|]. split; [exact N4|]. cbv zeta. change (Z.to_nat 0) with 0%nat in *. change (Z.to_nat 1) with 1%nat in *. change (Z.to_nat 2) with 2%nat in *. change (Z.to_nat 3) with 3%nat in *. rewrite C0, C1, C2, C3 in *. auto.
    - constructor; [|constructor]. destruct Rd as (e & Ne & Re & Po & Qt). split; [exists e; split; [exact Ne|]; split; [exact Re|]; rewrite Po; split; intros X; discriminate|]. split; [unfold TOL; lra|]. intros e' Ne'. rewrite Ne in Ne'. injection Ne' as <-. exact Qt.
    - constructor; [constructor; [|constructor]|constructor; constructor]. intros [x y]. cbn [outline_curve fst snd]. intros X Y. assert (0 <= (x - 1 / 2) ^ 2 /\ 0 <= (y - 1 / 2) ^ 2) by (split; apply pow2_ge_0). destruct X as [(_ & [->| ->])|(_ & [->| ->])]; nra. }
  assert (DI : shaped H 1 (Round (1 / 2, 1 / 2) (1 / 4) 4) []).
  { destruct Rd as (e & Ne & Re & Po & Qt). split; [|split; [constructor|repeat constructor]]. split; [exists e; split; [exact Ne|]; split; [exact Re|]; rewrite Po; split; reflexivity|]. split; [unfold TOL; lra|]. intros e' Ne'. rewrite Ne in Ne'. injection Ne' as <-. exact Qt. }
  destruct (C82_shapes low_rank gmres set_iter B n p H0 (seq 0 5) d interior gradient H m G Or Cn Hp Hn Hd Nw ltac:(discriminate) MK) as (qd & H2 & v & edges & all & Q & Es & De & Ms & Vn).
  - intros i e Ii Ei Lo. apply in_seq in Ii. destruct (nth_error square_calls i) as [k|] eqn:Ek; [|apply nth_error_None in Ek; cbn in Ek; lia]. rewrite (NE i k Ek) in Ei. injection Ei as <-. cbn [with_idx made_edge e_loop e_anchor e_endpnt] in *. apply Z.eqb_neq in Lo. rewrite forallb_forall in F. pose proof (F k (nth_error_In _ _ Ek)) as Fk. unfold call_fits in Fk. rewrite !andb_true_iff, !Z.leb_le, !Z.ltb_lt in Fk. change (List.length square_verts) with 5%nat in Fk.
    assert (VX : forall z, (0 <= z < 5)%Z -> (0 <= vidx (numbered square_verts (Z.to_nat z)))%Z). { intros z Hz. assert (X : (z = 0 \/ z = 1 \/ z = 2 \/ z = 3 \/ z = 4)%Z) by lia. destruct X as [->|[->|[->|[->| ->]]]]; discriminate. }
    split; [apply VX; lia|]. split; [apply VX; lia|]. apply Rle_trans with (1 / 25); [exact DT|]. apply A; lia.
  - right. exists 0%nat. eexists. split; [left; reflexivity|]. split; [apply NE; reflexivity|reflexivity].
  - intros z Iz. rewrite MC in Iz. cbn in Iz. destruct Iz as [<-|[<-|[]]].
    + destruct (Cl 0%nat _ eq_refl) as (c & Gc & _ & _ & EK & _). exists c. do 2 eexists. split; [exact Gc|]. split; [|exact SQ]. exact EK.
    + destruct (Cl 1%nat _ eq_refl) as (c & Gc & _ & _ & EK & _). exists c. do 2 eexists. split; [exact Gc|]. split; [|exact DI]. exact EK.
  - exists qd, H0, H, m, H2, v, edges, all. split; [exact Q|]. split; [exact EC|]. split; [exact EQ|]. split; [exact MK|]. split; [exact Es|]. split; [exact De|]. split; [exact Ms|]. rewrite Vn, NV, NC. reflexivity.
Qed.
Print Assumptions C82_square.

(** Degree 3 and the right-hand side 1, with values inside *)
Example C82_square_example low_rank : exists qd H0 H m H2 v edges all, get_quad_dict (PInt 32) 7 = Ok qd /\ edge_calls square_calls (number_verts square_verts) = Ok H0 /\ square_circular_hole = Ok (H, m) /\ mk_mesh H0 (seq 0 5) = Ok (H, m) /\
  script ConvProofs5.within low_rank (fun _ b _ => Ok b) (fun l => l) qd (BForm 1 0 [rmon 1 0 0]) H0 (seq 0 5) (PInt 3) true false = Ok (H2, v) /\
  map_res (deref H) (m_edges m) = Ok edges /\ mesh_spaces low_rank qd edges (PInt 3) = Ok all /\ v_num v = (4 + CellModel.zsum (map (fun b => Z.of_nat (List.length (sp_edge b))) all) + 2 * 3)%Z.
Proof. apply (C82_square low_rank (fun _ b _ => Ok b) (fun l => l) (BForm 1 0 [rmon 1 0 0]) 32 7 3 true false); try lia; [intros f b q _ _; exists b; auto|intros l; reflexivity|canon]. Qed.
