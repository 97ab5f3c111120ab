(** Lemmas about the meshes of the library: the cells follow from the numbers of the vertices. *)
From Coq Require Import List ZArith Reals Lia Lra Bool String Sorted Permutation.
From Verif Require Import PyBase PolyModel BaryModel QuadModel CurveModel VertModel EdgeModel ContourModel CellModel CellSpec CellProofs CellProps MeshModel MeshSpec MeshProofs MeshProps PegProofs PegProps Labels TriCell SplitProps ContourProofs2 LibModel.
Import List ListNotations.
Open Scope R_scope.

(** The edge a call makes when different vertices are apart *)
Definition made_edge (pnt : nat -> vert) (k : call) : edge :=
  let a := pnt (Z.to_nat (l_from k)) in let b := pnt (Z.to_nat (l_to k)) in let loop := Z.eqb (l_from k) (l_to k) in
  Edge a b (l_pos k) (l_neg k) (l_curve k) (l_opts k) (l_quad k) None (orb (Z.ltb (l_pos k) 0) (Z.ltb (l_neg k) 0)) loop false (-1) [] (0, 2 * PI) (if loop then [STranslate a] else [SJoin a b]).
Definition apart_by (d : R) (n : nat) (pnt : nat -> vert) : Prop := forall a b, (a < n)%nat -> (b < n)%nat -> a <> b -> d <= pdist (coord (pnt a)) (coord (pnt b)).
Definition call_fits (n : nat) (k : call) : bool := andb (andb (Z.leb 0 (l_from k)) (Z.ltb (l_from k) (Z.of_nat n))) (andb (Z.leb 0 (l_to k)) (Z.ltb (l_to k) (Z.of_nat n))).
Definition call_embedded (k : call) : bool := orb (Z.leb 0 (l_pos k)) (Z.leb 0 (l_neg k)).

Definition numbered (vs : list vert) (i : nat) : vert := nth i (number_verts vs) (mkvert 0 0).
Lemma pyget_numbered vs z : (0 <= z < Z.of_nat (List.length vs))%Z -> pyget (number_verts vs) z = Ok (numbered vs (Z.to_nat z)).
Proof.
  intros Hz. unfold pyget. destruct (Z.ltb_spec z 0); [lia|]. destruct (Z.ltb_spec z 0); [lia|]. unfold geti, numbered. destruct (nth_error vs (Z.to_nat z)) as [v|] eqn:E; [|apply nth_error_None in E; lia]. apply number_verts_nth in E. rewrite (nth_error_nth _ _ _ E), E. reflexivity.
Qed.
Lemma edge_call_ok vs k d : TOL <= d -> apart_by d (List.length vs) (numbered vs) -> call_fits (List.length vs) k = true -> edge_call (number_verts vs) k = Ok (made_edge (numbered vs) k).
Proof.
  intros D A F. unfold call_fits in F. apply andb_true_iff in F. destruct F as [F1 F2]. apply andb_true_iff in F1, F2. rewrite Z.leb_le, Z.ltb_lt in F1, F2. unfold edge_call. rewrite !pyget_numbered by lia. cbn [bind]. unfold mk_edge. cbn [check_idx bind]. unfold check_t_bounds. cbn [fst snd]. destruct (Rle_dec (2 * PI) 0) as [X|X]; [pose proof PI_RGT_0; lra|]. cbn [bind]. unfold made_edge, set_cells, set_verts. cbn [e_pos e_neg e_curve e_opts e_qtype e_idx e_bdry e_param e_npts e_smp e_tb e_diary e_anchor e_endpnt e_loop].
  assert (V : veqb (numbered vs (Z.to_nat (l_from k))) (VVert (numbered vs (Z.to_nat (l_to k)))) = Z.eqb (l_from k) (l_to k)).
  { destruct (Z.eqb_spec (l_from k) (l_to k)) as [->|N]; [apply veqb_self|]. apply far_veqb. apply Rle_trans with d; [exact D|]. apply A; lia. }
  rewrite V. reflexivity.
Qed.
Lemma edge_calls_ok vs ks d : TOL <= d -> apart_by d (List.length vs) (numbered vs) -> forallb (call_fits (List.length vs)) ks = true -> edge_calls ks (number_verts vs) = Ok (map (made_edge (numbered vs)) ks).
Proof.
  intros D A F. unfold edge_calls. apply map_res_ok. intros k I. rewrite forallb_forall in F. apply (edge_call_ok vs k d D A), F, I.
Qed.

(** The heap and the tables of the mesh *)
Definition at_call (pnt : nat -> vert) (ks : list call) (i : nat) : edge := with_idx (nth i (map (made_edge pnt) ks) (made_edge pnt (line_call 0 0 0 0))) (Some (Z.of_nat i)).
Lemma builder_ok vs ks d : TOL <= d -> apart_by d (List.length vs) (numbered vs) -> forallb (call_fits (List.length vs)) ks = true -> forallb call_embedded ks = true ->
  exists H m, mesh_builder vs (edge_calls ks) = Ok (H, m) /\ H = map (at_call (numbered vs) ks) (seq 0 (List.length ks)) /\ m_edges m = seq 0 (List.length ks) /\ m_num m = Z.of_nat (List.length ks) /\
    m_cells m = cell_list H /\ m_verts m = vert_list H /\ m_ncells m = Z.of_nat (List.length (cell_list H)) /\ m_nverts m = Z.of_nat (List.length (vert_list H)).
Proof.
  intros D A F E. unfold mesh_builder. rewrite (edge_calls_ok vs ks d D A F). cbn [bind]. rewrite map_length. set (L := map (made_edge (numbered vs)) ks). assert (LL : List.length L = List.length ks) by apply map_length.
  assert (EM : Forall (fun i => exists e, nth_error L i = Some e /\ embedded e) (seq 0 (List.length ks))).
  { apply Forall_forall. intros i I. apply in_seq in I. destruct (nth_error ks i) as [k|] eqn:Ek; [|apply nth_error_None in Ek; lia]. exists (made_edge (numbered vs) k). split; [unfold L; rewrite nth_error_map, Ek; reflexivity|]. rewrite forallb_forall in E. pose proof (E k (nth_error_In _ _ Ek)) as X. unfold call_embedded in X. apply orb_true_iff in X. rewrite !Z.leb_le in X. exact X. }
  destruct (mk_mesh_ok L _ EM) as (H & es & EQ & LH & F2 & IX & _). rewrite (firsts_id _ (seq_NoDup _ _)) in EQ, F2, IX. rewrite seq_length in EQ.
  assert (HH : H = map (at_call (numbered vs) ks) (seq 0 (List.length ks))).
  { apply nth_error_ext'. intros i. destruct (Nat.lt_ge_cases i (List.length ks)) as [Li|Li].
    - rewrite nth_error_tab by exact Li. destruct (nth_error L i) as [e|] eqn:Ee; [|apply nth_error_None in Ee; lia]. rewrite (IX i i e); [|apply nth_error_seq, Li|exact Ee]. unfold at_call. fold L. rewrite (nth_error_nth _ _ _ Ee). reflexivity.
    - rewrite (proj2 (nth_error_None _ _)), (proj2 (nth_error_None _ _)); [reflexivity|rewrite map_length, seq_length; lia|lia]. }
  assert (ES : es = H).
  { apply nth_error_ext'. intros i. pose proof (Forall2_len _ _ _ F2) as L2. rewrite seq_length in L2. destruct (Nat.lt_ge_cases i (List.length ks)) as [Li|Li].
    - destruct (nth_error es i) as [e|] eqn:Ee; [|apply nth_error_None in Ee; lia]. symmetry. apply (Forall2_nth _ _ _ F2 i i e); [apply nth_error_seq, Li|exact Ee].
    - rewrite (proj2 (nth_error_None _ _)), (proj2 (nth_error_None _ _)); [reflexivity|lia|lia]. }
  subst es. exists H. eexists. split; [exact EQ|]. split; [exact HH|]. cbn [m_edges m_num m_cells m_verts m_ncells m_nverts]. repeat split.
Qed.

(** ** Cells *)
Definition z_borders (z : Z) (k : call) : bool := orb (Z.eqb z (l_pos k)) (Z.eqb z (l_neg k)).
Definition null : call := line_call 0 0 (-1) (-1).
Definition ids_of (ks : list call) (z : Z) : list nat := filter (fun i => z_borders z (nth i ks null)) (seq 0 (List.length ks)).
Definition from_of (z : Z) (k : call) : nat := Z.to_nat (if Z.eqb z (l_pos k) then l_from k else l_to k).
Definition to_of (z : Z) (k : call) : nat := Z.to_nat (if Z.eqb z (l_pos k) then l_to k else l_from k).
Definition sign_of (z : Z) (k : call) : Z := if Z.eqb z (l_pos k) then 1%Z else (-1)%Z.
Fixpoint find_nat (a : nat) (l : list nat) (j : nat) : nat := match l with [] => j | x :: l' => if Nat.eqb a x then j else find_nat a l' (S j) end.
Fixpoint nodupb (l : list nat) : bool := match l with [] => true | x :: l' => andb (negb (memb x l')) (nodupb l') end.
Lemma nodupb_ok l : nodupb l = true -> NoDup l.
Proof. induction l as [|x l IH]; intros E; [constructor|]. cbn in E. apply andb_true_iff in E. destruct E as [E1 E2]. constructor; [|apply IH, E2]. intros I. apply memb_true in I. rewrite I in E1. discriminate. Qed.
Lemma find_nat_ok a l : In a l -> forall j, exists i, find_nat a l j = (j + i)%nat /\ nth_error l i = Some a.
Proof.
  induction l as [|x l IH]; intros I j; [destruct I|]. cbn. destruct (Nat.eqb_spec a x) as [->|N]; [exists 0%nat; split; [lia|reflexivity]|]. destruct I as [->|I]; [contradiction|]. destruct (IH I (Datatypes.S j)) as (i & E & Ei). exists (Datatypes.S i). split; [lia|exact Ei].
Qed.
(** The contours of a cell, computed from the numbers of the vertices *)
Definition plan (ks : list call) (z : Z) : option (list (list (nat * Z))) :=
  let ids := ids_of ks z in let cs := map (fun i => nth i ks null) ids in
  let starts := map (from_of z) cs in let stops := map (to_of z) cs in
  let n := List.length ids in
  match contour_loop n (map (fun a => find_nat a starts 0) stops) n 0 (repeat false n) [] with
  | Ok l =>
      if andb (andb (nodupb starts) (nodupb stops)) (andb (andb (forallb (fun a => memb a starts) stops) (forallb (fun a => memb a stops) starts)) (andb (nodupb (concat l)) (forallb (fun i => Nat.ltb i n) (concat l))))
      then Some (map (map (fun i => (nth i ids 0%nat, nth i (map (sign_of z) cs) 0%Z))) l) else None
  | Err _ => None
  end.

Lemma map_res_deref (H : heap) (f : nat -> edge) n : H = map f (seq 0 n) -> map_res (fun i => do e <- deref H i; Ok (i, e)) (seq 0 n) = Ok (map (fun i => (i, f i)) (seq 0 n)).
Proof. intros ->. apply map_res_ok. intros i I. apply in_seq in I. unfold deref. rewrite nth_error_tab by lia. reflexivity. Qed.
Lemma filter_map {A B} (f : A -> B) (p : B -> bool) l : filter p (map f l) = map f (filter (fun a => p (f a)) l).
Proof. induction l as [|x l IH]; [reflexivity|]. cbn. destruct (p (f x)); cbn; rewrite IH; reflexivity. Qed.
Lemma at_call_nth pnt ks i k : nth_error ks i = Some k -> at_call pnt ks i = with_idx (made_edge pnt k) (Some (Z.of_nat i)).
Proof. intros E. unfold at_call. f_equal. apply nth_error_nth. rewrite nth_error_map, E. reflexivity. Qed.

Lemma plan_cell vs ks d H m z l : 1 / 1000000 <= d -> apart_by d (List.length vs) (numbered vs) -> forallb (call_fits (List.length vs)) ks = true -> forallb call_embedded ks = true ->
  mesh_builder vs (edge_calls ks) = Ok (H, m) -> (0 <= z)%Z -> zmemb z (cell_list H) = true -> plan ks z = Some l ->
  exists c, get_cell H m z = Ok c /\ c_idx c = z /\ map k_edges (c_comps c) = map (map fst) l /\ map k_orients (c_comps c) = map (map snd) l /\ c_holes c = (Z.of_nat (List.length l) - 1)%Z.
Proof.
  intros D A F E EB Hz ZM P. assert (DT : TOL <= d) by (unfold TOL; lra). destruct (builder_ok vs ks d DT A F E) as (H' & m' & EB' & HH & ME & _ & MC & _). rewrite EB' in EB. apply Ok_inj in EB. injection EB as <- <-. clear EB'.
  set (pnt := numbered vs) in *. set (n := List.length ks) in *.
  assert (GK : forall i, In i (seq 0 n) -> exists k, nth_error ks i = Some k /\ nth i ks null = k). { intros i I. apply in_seq in I. destruct (nth_error ks i) as [k|] eqn:Ek; [|apply nth_error_None in Ek; unfold n in I; lia]. exists k. split; [reflexivity|apply nth_error_nth, Ek]. }
  assert (GC : get_cell H m z = mk_cell H z (ids_of ks z) (33, 33)%Z (5 / 100) (5 / 100)).
  { unfold get_cell. rewrite MC, ZM, ME, (map_res_deref H (at_call pnt ks) n HH). cbn [bind]. f_equal. rewrite filter_map, map_map. cbn [fst snd]. rewrite map_id. unfold ids_of. fold n. apply filter_ext_in. intros i I. destruct (GK i I) as (k & Ek & ->). rewrite (at_call_nth _ _ _ _ Ek). reflexivity. }
  rewrite GC. clear GC. unfold plan in P. set (ids := ids_of ks z) in *. set (cs := map (fun i => nth i ks null) ids) in *. set (starts := map (from_of z) cs) in *. set (stops := map (to_of z) cs) in *.
  destruct (contour_loop _ _ _ _ _ _) as [l0|] eqn:CL; [|discriminate]. destruct (andb _ _) eqn:B in P; [|discriminate]. injection P as <-. apply andb_true_iff in B. destruct B as [B1 B2]. apply andb_true_iff in B1. destruct B1 as [N1 N2]. apply andb_true_iff in B2. destruct B2 as [B3 B4]. apply andb_true_iff in B3. destruct B3 as [S1 S2]. apply andb_true_iff in B4. destruct B4 as [N3 L3].
  assert (II : forall i, In i ids -> In i (seq 0 n) /\ z_borders z (nth i ks null) = true) by (intros i I; apply filter_In in I; exact I).
  set (es := map (at_call pnt ks) ids).
  assert (Lids : List.length es = List.length ids) by apply map_length.
  assert (AE : forall i, In i ids -> at_call pnt ks i = with_idx (made_edge pnt (nth i ks null)) (Some (Z.of_nat i))). { intros i I. destruct (II i I) as [I1 _]. destruct (GK i I1) as (k & Ek & ->). apply at_call_nth, Ek. }
  assert (ST : map (stop_pt z) es = map pnt stops).
  { unfold es, stops, cs. rewrite !map_map. apply map_ext_in. intros i I. rewrite (AE i I). unfold stop_pt, to_of, made_edge. cbn [with_idx e_pos e_endpnt e_anchor]. destruct (Z.eqb z _); reflexivity. }
  assert (SA : map (start_pt z) es = map pnt starts).
  { unfold es, starts, cs. rewrite !map_map. apply map_ext_in. intros i I. rewrite (AE i I). unfold start_pt, from_of, made_edge. cbn [with_idx e_pos e_endpnt e_anchor]. destruct (Z.eqb z _); reflexivity. }
  assert (SG : signs z es = map (sign_of z) cs).
  { unfold es, signs, cs. rewrite !map_map. apply map_ext_in. intros i I. rewrite (AE i I). reflexivity. }
  rewrite <- SG. destruct (labelled H z ids es pnt stops starts (map (fun a => find_nat a starts 0) stops) l0 (33, 33)%Z (5 / 100) (5 / 100)) as (c & C1 & C2 & C3 & C4 & C5).
  all: try assumption; try lra.
  - unfold refs, es. clear -II HH. induction ids as [|i ids IH]; [constructor|]. cbn. constructor; [|apply IH; intros; apply II; right; assumption]. destruct (II i (or_introl eq_refl)) as [I _]. apply in_seq in I. rewrite HH. apply nth_error_tab. lia.
  - apply Forall_forall. intros e I. apply in_map_iff in I. destruct I as (i & <- & I). rewrite (AE i I). destruct (II i I) as [_ B]. unfold z_borders in B. apply orb_true_iff in B. rewrite !Z.eqb_eq in B. exact B.
  - apply nodupb_ok, N1.
  - apply nodupb_ok, N2.
  - assert (FIT : forall i, In i ids -> (from_of z (nth i ks null) < List.length vs)%nat /\ (to_of z (nth i ks null) < List.length vs)%nat).
    { intros i I. destruct (II i I) as [I1 _]. destruct (GK i I1) as (k & Ek & ->). rewrite forallb_forall in F. pose proof (F k (nth_error_In _ _ Ek)) as X. unfold call_fits in X. apply andb_true_iff in X. destruct X as [X1 X2]. apply andb_true_iff in X1, X2. rewrite Z.leb_le, Z.ltb_lt in X1, X2. unfold from_of, to_of. destruct (Z.eqb z _); lia. }
    intros a b Ia Ib Nr. destruct (Nat.eq_dec a b) as [->|NE]; [reflexivity|exfalso]. unfold stops, cs in Ia. unfold starts, cs in Ib. rewrite map_map in Ia, Ib. apply in_map_iff in Ia, Ib. destruct Ia as (i & <- & Ii). destruct Ib as (j & <- & Ij). unfold near in Nr. pose proof (A _ _ (proj2 (FIT i Ii)) (proj1 (FIT j Ij)) NE). lra.
  - rewrite map_length. unfold stops, cs. rewrite !map_length. symmetry. exact Lids.
  - intros j a Ej. exists (find_nat a starts 0). rewrite nth_error_map, Ej. split; [reflexivity|]. rewrite forallb_forall in S1. pose proof (S1 a (nth_error_In _ _ Ej)) as X. apply memb_true in X. destruct (find_nat_ok a starts X 0) as (i & Ef & Ei). rewrite Ef. exact Ei.
  - intros a I. rewrite forallb_forall in S2. apply memb_true, S2, I.
  - rewrite Lids. exact CL.
  - apply nodupb_ok, N3.
  - rewrite Lids. apply Forall_forall. intros i I. rewrite forallb_forall in L3. apply Nat.ltb_lt, L3, I.
  - exists c. split; [exact C1|]. split; [exact C2|]. rewrite C3, C4, C5, !map_map, map_length. split; [apply map_ext; intros; rewrite map_map; reflexivity|]. split; [apply map_ext; intros; rewrite map_map; reflexivity|reflexivity].
Qed.
