(** Mesh index tables (C44), cell extraction and boundary tests (C45). *)
From Coq Require Import List ZArith Reals Lia Lra Bool String Sorted Permutation.
From Verif Require Import PyBase PolyModel BaryModel QuadModel CurveModel VertModel EdgeModel ContourModel CellModel CellSpec CellProofs CellProps MeshModel MeshSpec MeshProofs.
Import List ListNotations.

(** ** C44 *)

(** Every listed edge once, in the order of first occurrence, numbered by its position; the heap is
    otherwise unchanged; the lists contain exactly the nonnegative indices, in increasing order. *)
Theorem C44_tables H is H' m : mk_mesh H is = Ok (H', m) ->
  m_edges m = firsts is /\ NoDup (m_edges m) /\ (forall i, In i (m_edges m) <-> In i is) /\ m_num m = Z.of_nat (List.length (m_edges m)) /\
  (forall k i, nth_error (m_edges m) k = Some i -> exists e, nth_error H i = Some e /\ embedded e /\ nth_error H' i = Some (with_idx e (Some (Z.of_nat k)))) /\
  (forall j, ~ In j is -> nth_error H' j = nth_error H j) /\
  increasing (m_cells m) /\ (forall z, In z (m_cells m) <-> (0 <= z)%Z /\ exists i e, In i is /\ nth_error H i = Some e /\ borders z e) /\
  increasing (m_verts m) /\ (forall v, In v (m_verts m) <-> (0 <= v)%Z /\ exists i e, In i is /\ nth_error H i = Some e /\ e_loop e = false /\ ends_at v e) /\
  m_ncells m = Z.of_nat (List.length (m_cells m)) /\ m_nverts m = Z.of_nat (List.length (m_verts m)).
Proof.
  intros E. assert (F : Forall (fun i => exists e, nth_error H i = Some e /\ embedded e) is).
  { unfold mk_mesh in E. destruct (mesh_add_edges H _ is) as [m0|] eqn:E0; [|discriminate]. clear -E0. unfold mesh_add_edges in E0. revert E0. generalize (Mesh [] 0 [] 0 [] 0) as m. induction is as [|i is IH]; intros m E0; [constructor|]. cbn [fold_res] in E0. unfold mesh_add_edge at 1 in E0. destruct (nth_error H i) as [e|] eqn:Ei; [|discriminate]. destruct (andb _ _) eqn:B; [discriminate|]. constructor; [|destruct (memb i (m_edges m)); cbn [bind] in E0; eapply IH; exact E0]. exists e. split; [exact Ei|]. unfold embedded. destruct (Z.ltb_spec (e_neg e) 0), (Z.ltb_spec (e_pos e) 0); try discriminate; lia. }
  destruct (mk_mesh_ok H is F) as (H1 & es & E1 & L & F2 & A & B). rewrite E1 in E. apply Ok_inj in E. injection E as -> ->. cbn [m_edges m_num m_cells m_ncells m_verts m_nverts].
  assert (Es : forall P : edge -> Prop, (forall e k, P (with_idx e k) <-> P e) -> (exists e, In e es /\ P e) <-> (exists i e, In i is /\ nth_error H i = Some e /\ P e)).
  { intros P Inv. split.
    - intros (e' & I & Pe). apply In_nth_error in I. destruct I as (k & Ek). assert (Lk : (k < List.length (firsts is))%nat) by (rewrite (Forall2_len _ _ _ F2); apply nth_error_Some; congruence). destruct (nth_error (firsts is) k) as [i|] eqn:Ei; [|apply nth_error_None in Ei; lia]. pose proof (Forall2_nth _ _ _ F2 _ _ _ Ei Ek) as X. cbn beta in X. assert (Ii : In i is) by (apply firsts_in, (nth_error_In _ _ Ei)). rewrite Forall_forall in F. destruct (F i Ii) as (e & Ee & _). rewrite (A _ _ _ Ei Ee) in X. assert (Y : e' = with_idx e (Some (Z.of_nat k))) by congruence. subst e'. apply Inv in Pe. eauto.
    - intros (i & e & Ii & Ee & Pe). apply firsts_in, In_nth_error in Ii. destruct Ii as (k & Ek). assert (Lk : (k < List.length es)%nat) by (rewrite <- (Forall2_len _ _ _ F2); apply nth_error_Some; congruence). destruct (nth_error es k) as [e'|] eqn:Ee'; [|apply nth_error_None in Ee'; lia]. pose proof (Forall2_nth _ _ _ F2 _ _ _ Ek Ee') as X. cbn beta in X. rewrite (A _ _ _ Ek Ee) in X. assert (Y : e' = with_idx e (Some (Z.of_nat k))) by congruence. exists e'. split; [apply (nth_error_In _ _ Ee')|]. subst e'. apply Inv, Pe. }
  destruct (cell_list_spec es) as [C1 C2]. destruct (vert_list_spec es) as [V1 V2].
  split; [reflexivity|]. split; [apply firsts_nodup|]. split; [apply firsts_in|]. split; [reflexivity|]. split.
  { intros k i Ek. assert (Ii : In i is) by (apply firsts_in, (nth_error_In _ _ Ek)). rewrite Forall_forall in F. destruct (F i Ii) as (e & Ee & Em). exists e. split; [exact Ee|]. split; [exact Em|]. exact (A _ _ _ Ek Ee). }
  split; [exact B|]. split; [exact C1|]. split; [intros z; rewrite C2, (Es (borders z)); [reflexivity|intros; reflexivity]|]. split; [exact V1|]. split; [|auto]. intros v. rewrite V2, (Es (fun e => e_loop e = false /\ ends_at v e)); [reflexivity|intros; reflexivity].
Qed.
Print Assumptions C44_tables.

(** The constructor succeeds exactly when all listed objects are edges with a cell on some side; the
    first that is not decides about the exception. *)
Theorem C44_rejected H is : (Forall (fun i => exists e, nth_error H i = Some e /\ embedded e) is -> exists H' m, mk_mesh H is = Ok (H', m)) /\
  forall l i l', is = l ++ i :: l' -> Forall (fun i => exists e, nth_error H i = Some e /\ embedded e) l ->
    (nth_error H i = None -> mk_mesh H is = Err TypeError) /\ (forall e, nth_error H i = Some e -> ~ embedded e -> mk_mesh H is = Err ValueError).
Proof.
  split; [intros F; destruct (mk_mesh_ok H is F) as (H' & es & E & _); eauto|]. intros l i l' -> F. split.
  - intros E. unfold mk_mesh. rewrite (add_edges_err H l i TypeError _ F); [reflexivity|]. intros m. unfold mesh_add_edge. rewrite E. reflexivity.
  - intros e E N. unfold mk_mesh. rewrite (add_edges_err H l i ValueError _ F); [reflexivity|]. intros m. unfold mesh_add_edge. rewrite E. unfold embedded in N. destruct (Z.ltb_spec (e_neg e) 0), (Z.ltb_spec (e_pos e) 0); cbn; reflexivity || lia.
Qed.
Print Assumptions C44_rejected.

(** An edge added to a finished mesh appears in the list of edges, but is not numbered and the
    other lists do not change. *)
Theorem C44_late_edge_refuted H m i e : nth_error H i = Some e -> embedded e -> ~ In i (m_edges m) -> exists m', mesh_add_edge H m i = Ok m' /\ m_edges m' = m_edges m ++ [i] /\ m_cells m' = m_cells m /\ m_verts m' = m_verts m /\ m_ncells m' = m_ncells m /\ m_nverts m' = m_nverts m.
Proof.
  intros E Em NI. unfold mesh_add_edge. rewrite E. assert (B : andb (Z.ltb (e_neg e) 0) (Z.ltb (e_pos e) 0) = false) by (unfold embedded in Em; destruct (Z.ltb_spec (e_neg e) 0), (Z.ltb_spec (e_pos e) 0); cbn; reflexivity || lia). rewrite B. destruct (memb i (m_edges m)) eqn:M; [apply memb_true in M; contradiction|]. eexists. split; [reflexivity|]. auto.
Qed.
Print Assumptions C44_late_edge_refuted.

(** Two triangles [(0,0),(1,0),(0,1)] and [(1,0),(1,1),(0,1)] with a common edge *)
Definition v00 := Vert 0 0 0. Definition v10 := Vert 1 0 1. Definition v01 := Vert 0 1 2. Definition v11 := Vert 1 1 5.
Definition two_triangles : heap :=
  [plain_edge v00 v10 0 (-1); plain_edge v10 v01 0 4; plain_edge v01 v00 0 (-1); plain_edge v10 v11 4 (-1); plain_edge v01 v11 (-1) 4; plain_edge v00 v11 (-1) (-2)].
Example C44_example : exists H' m, mk_mesh two_triangles [0; 1; 2; 1; 4; 3]%nat = Ok (H', m) /\ m_edges m = [0; 1; 2; 4; 3]%nat /\ m_cells m = [0; 4]%Z /\ m_verts m = [0; 1; 2; 5]%Z /\ map e_idx H' = [Some 0; Some 1; Some 2; Some 4; Some 3; None]%Z /\
  mk_mesh two_triangles [0; 5]%nat = Err ValueError.
Proof. do 2 eexists. split; [vm_compute; reflexivity|]. repeat split; reflexivity. Qed.
(** Edge 3 is added late: it has no index and its vertex 5 is not in the list. *)
Theorem C44_refuted : exists H' m m', mk_mesh two_triangles [0; 1; 2]%nat = Ok (H', m) /\ mesh_add_edge H' m 3 = Ok m' /\ In 3%nat (m_edges m') /\ option_map e_idx (nth_error H' 3) = Some None /\ option_map e_pos (nth_error H' 3) = Some 4%Z /\ option_map (fun e => vidx (e_endpnt e)) (nth_error H' 3) = Some 5%Z /\ ~ In 5%Z (m_verts m').
Proof. do 3 eexists. split; [vm_compute; reflexivity|]. split; [reflexivity|]. split; [cbn; auto|]. repeat (split; [reflexivity|]). cbn. intuition lia. Qed.
Print Assumptions C44_refuted.
(** A second mesh of the same edges in another order renumbers the edges of the first. *)
Theorem C44_two_meshes_refuted : exists H' m H'' m', mk_mesh two_triangles [0; 1]%nat = Ok (H', m) /\ mk_mesh H' [1; 0]%nat = Ok (H'', m') /\ m_edges m = [0; 1]%nat /\ option_map e_idx (nth_error H' 0) = Some (Some 0%Z) /\ option_map e_idx (nth_error H'' 0) = Some (Some 1%Z).
Proof. do 4 eexists. split; [vm_compute; reflexivity|]. split; [vm_compute; reflexivity|]. repeat split. Qed.
Print Assumptions C44_two_meshes_refuted.

(** ** C45 *)

Lemma subseq_filter {A} (f : A -> bool) l : subseq (filter f l) l.
Proof. induction l as [|x l IH]; [constructor|]. cbn. destruct (f x); constructor; exact IH. Qed.
Lemma subseq_map {A B} (f : A -> B) a b : subseq a b -> subseq (map f a) (map f b).
Proof. induction 1; constructor; assumption. Qed.

(** The cell is built from the bordering edges in mesh order, and has exactly these edges. *)
Theorem C45_get_cell H m z : Forall (fun i => (i < List.length H)%nat) (m_edges m) ->
  (~ In z (m_cells m) -> get_cell H m z = Err IndexError) /\
  (In z (m_cells m) -> exists ids, subseq ids (m_edges m) /\ (forall i, In i ids <-> In i (m_edges m) /\ exists e, nth_error H i = Some e /\ borders z e) /\
    get_cell H m z = mk_cell H z ids (33, 33)%Z (5 / 100) (5 / 100) /\ forall c, get_cell H m z = Ok c -> Permutation (cell_edges c) ids).
Proof.
  intros F. unfold get_cell. split.
  - intros N. destruct (zmemb z (m_cells m)) eqn:E; [apply zmemb_true in E; contradiction|reflexivity].
  - intros I. apply zmemb_true in I. rewrite I.
    assert (G : exists l, map_res (fun i => do e <- deref H i; Ok (i, e)) (m_edges m) = Ok l /\ map fst l = m_edges m /\ Forall (fun ie : nat * edge => nth_error H (fst ie) = Some (snd ie)) l).
    { clear I. induction (m_edges m) as [|i l IH]; [exists []; repeat split; constructor|]. inversion F as [|? ? Li F']; subst. destruct (IH F') as (l' & E & M & A). cbn [map_res]. unfold deref at 1. destruct (nth_error H i) as [e|] eqn:Ee; [|apply nth_error_None in Ee; lia]. cbn [bind]. rewrite E. cbn [bind]. exists ((i, e) :: l'). split; [reflexivity|]. split; [cbn; rewrite M; reflexivity|]. constructor; [exact Ee|exact A]. }
    destruct G as (l & E & M & A). rewrite E. cbn [bind]. set (f := fun ie : nat * edge => orb (Z.eqb z (e_pos (snd ie))) (Z.eqb z (e_neg (snd ie)))). exists (map fst (filter f l)). split; [rewrite <- M; apply subseq_map, subseq_filter|]. split.
    + intros i. rewrite in_map_iff. split.
      * intros ([j e] & <- & J). apply filter_In in J. destruct J as [J K]. split; [rewrite <- M; apply in_map, J|]. rewrite Forall_forall in A. exists e. split; [apply (A _ J)|]. unfold f in K. cbn in K. apply orb_true_iff in K. unfold borders. rewrite !Z.eqb_eq in K. intuition congruence.
      * intros [J (e & Ee & Bo)]. rewrite <- M in J. apply in_map_iff in J. destruct J as ([j e'] & Ej & J). cbn in Ej. subst j. exists (i, e'). split; [reflexivity|]. apply filter_In. split; [exact J|]. rewrite Forall_forall in A. pose proof (A _ J) as X. cbn in X. assert (e' = e) by congruence. subst e'. unfold f. cbn. apply orb_true_iff. rewrite !Z.eqb_eq. unfold borders in Bo. intuition congruence.
    + split; [reflexivity|]. intros c Ec. apply (C36_contours _ _ _ _ _ _ _ Ec).
Qed.
Print Assumptions C45_get_cell.

(** The absolute index of a cell is its position in the increasing list. *)
Theorem C45_abs_idx m z : increasing (m_cells m) -> (forall k, get_abs_cell_idx m z = Ok k <-> (0 <= k)%Z /\ nth_error (m_cells m) (Z.to_nat k) = Some z) /\ (~ In z (m_cells m) -> get_abs_cell_idx m z = Err ValueError).
Proof.
  unfold get_abs_cell_idx. intros S. assert (N : NoDup (m_cells m)). { induction S as [|a l S IH F]; [constructor|]. constructor; [|exact IH]. intros I. rewrite Forall_forall in F. specialize (F _ I). lia. }
  assert (G : forall l s k, NoDup l -> index_of z l s = Ok k <-> (s <= k)%Z /\ nth_error l (Z.to_nat (k - s)) = Some z).
  { clear S N. induction l as [|x l IH]; intros s k N; cbn [index_of].
    - split; [discriminate|]. intros [_ E]. destruct (Z.to_nat (k - s)); discriminate.
    - inversion N as [|? ? NI N']; subst. destruct (Z.eqb_spec z x) as [->|D].
      + split; [intros E; apply Ok_inj in E; subst; split; [lia|]; rewrite Z.sub_diag; reflexivity|]. intros [L E]. destruct (Z.to_nat (k - s)) as [|j] eqn:K; [f_equal; lia|]. cbn in E. apply nth_error_In in E. contradiction.
      + rewrite (IH (s + 1)%Z k N'). split.
        * intros [L E]. split; [lia|]. replace (Z.to_nat (k - s)) with (Datatypes.S (Z.to_nat (k - (s + 1)))) by lia. exact E.
        * intros [L E]. destruct (Z.to_nat (k - s)) as [|j] eqn:K; [cbn in E; congruence|]. split; [lia|]. replace (Z.to_nat (k - (s + 1))) with j by lia. exact E. }
  split; [intros k; rewrite (G _ _ _ N), Z.sub_0_r; reflexivity|]. clear. generalize 0%Z. induction (m_cells m) as [|x l IH]; intros s NI; [reflexivity|]. cbn. destruct (Z.eqb_spec z x) as [->|D]; [exfalso; apply NI; left; reflexivity|]. apply IH. intros I. apply NI. right. exact I.
Qed.
Print Assumptions C45_abs_idx.

(** Boundary tests: an edge is on the boundary iff one of its sides has no cell, a vertex iff it is
    an end of such an edge. A negative edge index counts from the end of the list. *)
Theorem C45_edge_boundary H m k : Forall (fun i => (i < List.length H)%nat) (m_edges m) ->
  (forall j i e, (k = Z.of_nat j \/ k + Z.of_nat (List.length (m_edges m)) = Z.of_nat j /\ k < 0)%Z -> nth_error (m_edges m) j = Some i -> nth_error H i = Some e ->
    exists b, edge_is_on_boundary H m k = Ok b /\ (b = true <-> one_sided e)) /\
  (k < - Z.of_nat (List.length (m_edges m)) \/ Z.of_nat (List.length (m_edges m)) <= k -> edge_is_on_boundary H m k = Err IndexError)%Z.
Proof.
  intros F. unfold edge_is_on_boundary, pyget. split.
  - intros j i e K Ej Ee. assert (J : (if Z.ltb k 0 then k + Z.of_nat (List.length (m_edges m)) else k)%Z = Z.of_nat j) by (destruct (Z.ltb_spec k 0); lia). rewrite J. destruct (Z.ltb_spec (Z.of_nat j) 0); [lia|]. rewrite Nat2Z.id. unfold geti. rewrite Ej. cbn [bind]. unfold deref. rewrite Ee. cbn [bind]. eexists. split; [reflexivity|]. unfold one_sided. rewrite orb_true_iff, !Z.ltb_lt. reflexivity.
  - intros K. destruct (Z.ltb_spec k 0).
    + destruct (Z.ltb_spec (k + Z.of_nat (List.length (m_edges m))) 0); [reflexivity|lia].
    + destruct (Z.ltb_spec k 0); [lia|]. unfold geti. replace (nth_error (m_edges m) (Z.to_nat k)) with (@None nat); [reflexivity|]. symmetry. apply nth_error_None. lia.
Qed.
Print Assumptions C45_edge_boundary.
Theorem C45_vert_boundary H m v : Forall (fun i => (i < List.length H)%nat) (m_edges m) ->
  exists b, vert_is_on_boundary H m v = Ok b /\ (b = true <-> exists i e, In i (m_edges m) /\ nth_error H i = Some e /\ ends_at v e /\ one_sided e).
Proof.
  intros F. unfold vert_is_on_boundary. destruct (map_deref_total H (m_edges m) F) as (es & E). rewrite E. cbn [bind]. eexists. split; [reflexivity|]. apply map_deref in E. rewrite existsb_exists. unfold ends_at, one_sided. split.
  - intros (e & I & B). rewrite andb_true_iff, !orb_true_iff, !Z.eqb_eq, !Z.ltb_lt in B. apply In_nth_error in I. destruct I as (k & Ek). assert (Lk : (k < List.length (m_edges m))%nat) by (rewrite (Forall2_len _ _ _ E); apply nth_error_Some; congruence). destruct (nth_error (m_edges m) k) as [i|] eqn:Ei; [|apply nth_error_None in Ei; lia]. exists i, e. split; [apply (nth_error_In _ _ Ei)|]. split; [exact (Forall2_nth _ _ _ E _ _ _ Ei Ek)|]. intuition congruence.
  - intros (i & e & Ii & Ee & En & On). apply In_nth_error in Ii. destruct Ii as (k & Ek). assert (Lk : (k < List.length es)%nat) by (rewrite <- (Forall2_len _ _ _ E); apply nth_error_Some; congruence). destruct (nth_error es k) as [e'|] eqn:Ee'; [|apply nth_error_None in Ee'; lia]. pose proof (Forall2_nth _ _ _ E _ _ _ Ek Ee') as X. cbn beta in X. assert (e' = e) by congruence. subst e'. exists e. split; [apply (nth_error_In _ _ Ee')|]. rewrite andb_true_iff, !orb_true_iff, !Z.eqb_eq, !Z.ltb_lt. intuition congruence.
Qed.
Print Assumptions C45_vert_boundary.

(** Example: in the mesh of two triangles the common edge is interior, all vertices are on the
    boundary, and cell 4 is built from edges 1, 3 and 4 in the order of the mesh. *)
Example C45_example : exists H' m, mk_mesh two_triangles [0; 1; 2; 4; 3]%nat = Ok (H', m) /\ edge_is_on_boundary H' m 1 = Ok false /\ edge_is_on_boundary H' m (-1) = Ok true /\ edge_is_on_boundary H' m 5 = Err IndexError /\
  vert_is_on_boundary H' m 2 = Ok true /\ vert_is_on_boundary H' m 3 = Ok false /\ get_abs_cell_idx m 4 = Ok 1%Z /\ get_abs_cell_idx m 1 = Err ValueError /\ get_cell H' m 4 = mk_cell H' 4 [1; 4; 3]%nat (33, 33)%Z (5 / 100) (5 / 100).
Proof. do 2 eexists. split; [vm_compute; reflexivity|]. repeat split; reflexivity. Qed.
