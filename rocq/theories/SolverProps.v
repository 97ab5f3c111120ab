(** C48-C50: assembly, boundary conditions, access to the solution. *)
From Coq Require Import List ZArith Reals Bool String Lia Lra.
From Verif Require Import PyBase PolyModel VertModel EdgeModel ContourModel CellModel CellProofs MeshModel MeshSpec MeshProofs MeshProps GlobModel GlobSpec GlobProofs GlobProps SolverModel SolverSpec SolverProofs.
Import List ListNotations.
Open Scope R_scope.

(** A global index belongs to the boundary: some cell has a function with this index that lies on
    a vertex or edge of the boundary. *)
Definition boundary_index {Fn} (H : heap) (p : gspace) (basis : nat -> res (list (gkey * Fn))) (g : Z) : Prop :=
  exists c kf a k, (c < List.length (m_cells (p_mesh p)))%nat /\ basis c = Ok kf /\ nth_error kf a = Some k /\ fun_is_on_boundary H p (fst k) = Ok true /\ get_global_idx p (fst k) (Z.of_nat c) = Ok g.

Section S.
Context {Fn : Type}.
Variables (H0 H : heap) (is : list nat) (m : mesh) (deg : pyint) (sizes : list Z) (p : gspace).
Variable basis : nat -> res (list (gkey * Fn)).
Variables (h1 l2 : nat -> nat -> nat -> R) (load : nat -> nat -> R) (D Rc : R) (interior : bool) (v : @solver Fn).
Hypothesis M : mk_mesh H0 is = Ok (H, m).
Hypothesis S : mk_space m deg sizes = Ok p.
Hypothesis B : mk_solver H basis h1 l2 load D Rc p interior = Ok v.
Let n := List.length (m_cells m).
Let g := indices basis p.

Lemma ready : increasing (m_cells (p_mesh p)) /\ m_ncells (p_mesh p) = Z.of_nat (num_cells p) /\ List.length (p_dofs p) = num_cells p /\ p_mesh p = m /\ num_cells p = n /\ (forall c, (c < n)%nat -> nth_error (p_dofs p) c = Some []).
Proof.
  destruct (C44_tables _ _ _ _ M) as (_ & _ & _ & _ & _ & _ & IC & _ & _ & _ & NC & _). destruct (mk_space_fields _ _ _ _ S) as (d0 & _ & _ & Pm & _ & _ & _ & _ & _ & _ & _ & Pf).
  unfold num_cells, n. rewrite Pm. split; [exact IC|]. split; [exact NC|]. split; [rewrite Pf, repeat_length, NC, Nat2Z.id; reflexivity|]. split; [reflexivity|]. split; [reflexivity|]. intros c Lc. rewrite Pf, NC, Nat2Z.id. apply nth_error_repeat, Lc.
Qed.
Lemma built : (forall c, (c < n)%nat -> exists ks kf, local_keys H basis p c = Ok ks /\ basis c = Ok kf /\ List.length kf = List.length ks) /\
  (exists l, v_space v = with_dofs p l /\ List.length l = n /\ forall c, (c < n)%nat -> nth_error l c = Some (lkeys H basis p c)) /\
  (exists L, L = bnd_globs (concat (p_dofs (v_space v))) /\
    v_entries v = map (bc_entry L) (concat (map (fun c => cell_entries h1 l2 D Rc c (g c)) (seq 0 n))) /\
    v_rhs v = map (bc_rhs L) (concat (map (fun c => cell_rhs load c (g c)) (seq 0 n)))) /\
  v_num v = p_num p /\ v_soln v = None /\ List.length (v_local v) = n /\
  (forall c, (c < n)%nat -> nth_error (v_local v) c = Some (if interior then option_map (map snd) (match basis c with Ok kf => Some kf | Err _ => None end) else None)).
Proof.
  destruct ready as (IC & NC & LD & Pm & Nn & Fr). destruct (mk_solver_ok H basis h1 l2 load D Rc p interior v IC NC LD B) as (A & (l & Sp & Ll & Nl) & X). rewrite Nn in *. split; [exact A|]. split; [|exact X].
  exists l. split; [exact Sp|]. split; [exact Ll|]. intros c Lc. destruct (Nl c Lc) as (l0 & E0 & E1). rewrite (Fr c Lc) in E0. injection E0 as <-. exact E1.
Qed.
Lemma indices_ok : forall c, (c < n)%nat -> local_indices basis p c = Ok (g c).
Proof. destruct built as (A & _). intros c Lc. destruct (A c Lc) as (ks & _ & K & _). destruct (local_keys_indices _ _ _ _ _ K) as (gs & E & _). unfold g, indices. rewrite E. reflexivity. Qed.

Lemma boundary_list : forall i, In i (bnd_globs (concat (p_dofs (v_space v)))) <-> boundary_index H p basis i.
Proof.
  destruct built as (A & (l & Sp & Ll & Nl) & _). destruct ready as (_ & _ & _ & Pm & _ & _). intros i. rewrite Sp. cbn [with_dofs p_dofs].
  assert (Num : forall c ks kf, local_keys H basis p c = Ok ks -> basis c = Ok kf -> forall a k, nth_error kf a = Some k -> exists k' g' b, nth_error ks a = Some k' /\ g_glob k' = Some g' /\ g_bdry k' = Some b /\ get_global_idx p (fst k) (Z.of_nat c) = Ok g' /\ fun_is_on_boundary H p (fst k) = Ok b).
  { intros c ks kf K Eb a k Ek. unfold local_keys in K. rewrite Eb in K. cbn [bind] in K. destruct (map_res_nth _ _ _ K a (fst k)) as (k' & N & N'); [rewrite nth_error_map, Ek; reflexivity|]. exists k'. unfold number_key in N. destruct (get_global_idx p (fst k) (Z.of_nat c)) as [g'|]; [|discriminate]. cbn [bind] in N. unfold set_glob_idx in N. destruct (Z.ltb g' 0); [discriminate|]. cbn [bind] in N. replace (fun_is_on_boundary H p _) with (fun_is_on_boundary H p (fst k)) in N by reflexivity. destruct (fun_is_on_boundary H p (fst k)) as [b|]; [|discriminate]. cbn [bind] in N. apply Ok_inj in N. subst k'. exists g', b. cbn. auto. }
  unfold bnd_globs. rewrite in_concat. split.
  - intros (x & Ix & Ii). apply in_map_iff in Ix. destruct Ix as (k & Q & Ik). apply in_concat in Ik. destruct Ik as (lc & Ilc & Ik). apply In_nth_error in Ilc. destruct Ilc as (c & Ec). assert (Lc : (c < n)%nat) by (rewrite <- Ll; apply nth_error_Some; congruence). rewrite (Nl c Lc) in Ec. injection Ec as <-. destruct (A c Lc) as (ks & kf & K & Eb & Lk). unfold lkeys in Ik. rewrite K in Ik. apply In_nth_error in Ik. destruct Ik as (a & Ea).
    assert (La : (a < List.length kf)%nat) by (rewrite Lk; apply nth_error_Some; congruence). destruct (nth_error kf a) as [k0|] eqn:Ek0; [|apply nth_error_None in Ek0; lia]. destruct (Num c ks kf K Eb a k0 Ek0) as (k' & g' & b & N & G & Bd & Gi & Fb). assert (k' = k) by congruence. subst k'. rewrite Bd, G in Q. destruct b; [|subst x; destruct Ii]. subst x. destruct Ii as [->|[]]. exists c, kf, a, k0. rewrite Pm. auto.
  - intros (c & kf & a & k & Lc & Eb & Ek & Fb & Gi). rewrite Pm in Lc. fold n in Lc. destruct (A c Lc) as (ks & kf' & K & Eb' & Lk). assert (kf' = kf) by congruence. subst kf'. destruct (Num c ks kf K Eb a k Ek) as (k' & g' & b & N & G & Bd & Gi' & Fb'). assert (b = true) by congruence. assert (g' = i) by congruence. subst b g'. exists [i]. split; [|left; reflexivity]. apply in_map_iff. exists k'. rewrite Bd, G. split; [reflexivity|]. apply in_concat. exists ks. split; [|exact (nth_error_In _ _ N)]. apply (nth_error_In _ c). rewrite (Nl c Lc). unfold lkeys. rewrite K. reflexivity.
Qed.

Lemma assembled_csr val V : (forall c gi gj i j, val (Entry gi gj (D * h1 c i j + Rc * l2 c i j) (h1 c i j) (l2 c i j)) = V c i j) -> forall i j, csr val (concat (map (fun c => cell_entries h1 l2 D Rc c (g c)) (seq 0 n))) i j = assembled n g (upper V) i j.
Proof. intros E i j. rewrite csr_concat, map_map, rsum_seq. apply Sum_ext. intros c _. apply (cell_csr h1 l2 D Rc val (V c)). intros. apply E. Qed.
Lemma assembled_sym V i j : assembled n g (upper V) i j = assembled n g (upper V) j i.
Proof. apply Sum_ext. intros c _. rewrite Sum_swap. apply Sum_ext. intros a _. apply Sum_ext. intros b _. unfold upper. rewrite (Nat.min_comm b a), (Nat.max_comm b a), andb_comm. reflexivity. Qed.
Lemma assembled_upper V i j : (forall c a b, V c a b = V c b a) -> assembled n g (upper V) i j = assembled n g V i j.
Proof. intros Sy. do 3 (apply Sum_ext; intros ? _). f_equal. unfold upper. match goal with |- V ?c (Nat.min ?a ?b) _ = _ => destruct (Nat.le_ge_cases a b); [rewrite Nat.min_l, Nat.max_r by lia; reflexivity|rewrite Nat.min_r, Nat.max_l by lia; apply Sy] end. Qed.

Lemma matrices_S : (forall c, (c < n)%nat -> local_indices basis p c = Ok (g c)) /\
  (forall i j, stiff_mat v i j = assembled n g (upper h1) i j) /\ (forall i j, mass_mat v i j = assembled n g (upper l2) i j) /\
  (forall i j, stiff_mat v i j = stiff_mat v j i) /\ (forall i j, mass_mat v i j = mass_mat v j i) /\
  ((forall c a b, h1 c a b = h1 c b a) -> forall i j, stiff_mat v i j = assembled n g h1 i j) /\ ((forall c a b, l2 c a b = l2 c b a) -> forall i j, mass_mat v i j = assembled n g l2 i j).
Proof.
  destruct built as (_ & _ & (L & _ & En & _) & _).
  assert (St : forall i j, stiff_mat v i j = assembled n g (upper h1) i j) by (intros; unfold stiff_mat; rewrite En, bc_stiff; apply assembled_csr; reflexivity).
  assert (Ma : forall i j, mass_mat v i j = assembled n g (upper l2) i j) by (intros; unfold mass_mat; rewrite En, bc_mass; apply assembled_csr; reflexivity).
  split; [exact indices_ok|]. split; [exact St|]. split; [exact Ma|]. split; [intros; rewrite !St; apply assembled_sym|]. split; [intros; rewrite !Ma; apply assembled_sym|].
  split; intros Sy i j; [rewrite St|rewrite Ma]; apply assembled_upper, Sy.
Qed.
Lemma assembled_lin i j : assembled n g (upper (fun c a b => D * h1 c a b + Rc * l2 c a b)) i j = D * assembled n g (upper h1) i j + Rc * assembled n g (upper l2) i j.
Proof. unfold assembled. rewrite <- !Sum_scal, <- Sum_plus. apply Sum_ext; intros c _. rewrite <- !Sum_scal, <- Sum_plus. apply Sum_ext; intros a _. rewrite <- !Sum_scal, <- Sum_plus. apply Sum_ext; intros b _. unfold upper, pick. destruct (andb _ _); lra. Qed.
Lemma free_rows_S i : ~ boundary_index H p basis i ->
  (forall j, glob_mat v i j = D * stiff_mat v i j + Rc * mass_mat v i j) /\ glob_rhs v i = assembled_load n g load i.
Proof.
  intros N. destruct built as (_ & _ & (L & EL & En & Er) & _). assert (NL : ~ In i L) by (rewrite EL, boundary_list; exact N). split.
  - intros j. unfold glob_mat, stiff_mat, mass_mat. rewrite En, bc_stiff, bc_mass, (bc_mat_free _ _ _ _ NL). rewrite (assembled_csr t_stiff h1), (assembled_csr t_mass l2), (assembled_csr t_mat (fun c a b => D * h1 c a b + Rc * l2 c a b)) by reflexivity. apply assembled_lin.
  - unfold glob_rhs. change (fold_right Rplus 0 (map snd (filter (fun t : Z * R => Z.eqb (fst t) i) (v_rhs v)))) with (rhs_at (v_rhs v) i). rewrite Er, (rhs_bc_free _ _ _ NL), rhs_at_concat, map_map, rsum_seq. apply Sum_ext. intros c _. apply cell_rhs_at.
Qed.

(** How many entries lie on a diagonal position *)
Definition diagonal (i : Z) : R := Sum n (fun c => INR (occurrences (g c) i) * INR (occurrences (g c) i)).
Lemma occ_sum l i : Sum (List.length l) (fun a => pick (is_at l a i) 1) = INR (occurrences l i).
Proof.
  unfold occurrences. induction l as [|x l IH] using rev_ind; [reflexivity|]. rewrite app_length. cbn [List.length]. rewrite Nat.add_1_r. cbn [Sum]. rewrite count_occ_app, plus_INR, <- IH. f_equal.
  - apply Sum_ext. intros a La. unfold is_at. rewrite nth_error_app1 by exact La. reflexivity.
  - unfold is_at. rewrite nth_error_app2, Nat.sub_diag by lia. cbn. destruct (Z.eq_dec x i) as [->|Dx]; [rewrite Z.eqb_refl; reflexivity|]. rewrite (proj2 (Z.eqb_neq x i) Dx). reflexivity.
Qed.
Lemma ones_diag i : csr (fun _ => 1) (concat (map (fun c => cell_entries h1 l2 D Rc c (g c)) (seq 0 n))) i i = diagonal i.
Proof.
  rewrite (assembled_csr (fun _ => 1) (fun _ _ _ => 1)) by reflexivity. unfold assembled, diagonal. apply Sum_ext. intros c _. rewrite (Sum_ext _ _ (fun a => INR (occurrences (g c) i) * pick (is_at (g c) a i) 1)); [rewrite Sum_scal, occ_sum; reflexivity|]. intros a _. rewrite Rmult_comm, <- (occ_sum (g c) i), <- Sum_scal. apply Sum_ext. intros b _. unfold upper, pick. destruct (is_at (g c) a i), (is_at (g c) b i); cbn [andb]; lra.
Qed.
Lemma boundary_occurs i : boundary_index H p basis i -> exists c, (c < n)%nat /\ (0 < occurrences (g c) i)%nat.
Proof.
  intros (c & kf & a & k & Lc & Eb & Ek & _ & Gi). destruct ready as (_ & _ & _ & Pm & _). rewrite Pm in Lc. fold n in Lc. exists c. split; [exact Lc|]. apply count_occ_In. pose proof (indices_ok c Lc) as I. unfold local_indices in I. rewrite Eb in I. cbn [bind] in I. destruct (map_res_nth _ _ _ I a k Ek) as (y & Ey & Ny). cbn beta in Ey. assert (y = i) by congruence. subst y. exact (nth_error_In _ _ Ny).
Qed.
Lemma bound_rows_S i : boundary_index H p basis i ->
  (forall j, j <> i -> glob_mat v i j = 0) /\ glob_mat v i i = diagonal i /\ 1 <= glob_mat v i i /\ glob_rhs v i = 0.
Proof.
  intros Bd. destruct built as (_ & _ & (L & EL & En & Er) & _). assert (IL : In i L) by (rewrite EL, boundary_list; exact Bd).
  assert (Dg : glob_mat v i i = diagonal i) by (unfold glob_mat; rewrite En, (bc_mat_bound _ _ _ _ IL), Z.eqb_refl; apply ones_diag).
  split; [|split; [exact Dg|split]].
  - intros j N. unfold glob_mat. rewrite En, (bc_mat_bound _ _ _ _ IL). rewrite (proj2 (Z.eqb_neq i j)) by congruence. reflexivity.
  - rewrite Dg. destruct (boundary_occurs i Bd) as (c & Lc & Oc). unfold diagonal. eapply Rle_trans; [|apply (Sum_ge n (fun c => INR (occurrences (g c) i) * INR (occurrences (g c) i)) c Lc)]. 
    + cbn beta. assert (1 <= INR (occurrences (g c) i)) by (apply (le_INR 1); lia). nra.
    + intros. apply Rmult_le_pos; apply pos_INR.
  - change (glob_rhs v i) with (rhs_at (v_rhs v) i). rewrite Er. apply rhs_bc_bound, IL.
Qed.
Lemma solution_S x : solves (Z.to_nat (v_num v)) (glob_mat v) (glob_rhs v) x ->
  (forall i, (0 <= i < v_num v)%Z -> boundary_index H p basis i -> nth (Z.to_nat i) x 0 = 0) /\
  (forall i, (0 <= i < v_num v)%Z -> ~ boundary_index H p basis i ->
    Sum (Z.to_nat (v_num v)) (fun j => (D * stiff_mat v i (Z.of_nat j) + Rc * mass_mat v i (Z.of_nat j)) * nth j x 0) = assembled_load n g load i).
Proof.
  intros [Lx So]. split.
  - intros i Bi Bd. destruct (bound_rows_S i Bd) as (Z0 & _ & P & R0). specialize (So (Z.to_nat i) ltac:(lia)). rewrite Z2Nat.id in So by lia. rewrite R0 in So. rewrite (Sum_one _ _ (Z.to_nat i)) in So; [|lia|].
    + rewrite Z2Nat.id in So by lia. apply Rmult_integral in So. destruct So; [lra|assumption].
    + intros j Lj Nj. rewrite Z0 by lia. lra.
  - intros i Bi Nb. destruct (free_rows_S i Nb) as (Gm & Gr). specialize (So (Z.to_nat i) ltac:(lia)). rewrite Z2Nat.id in So by lia. rewrite <- Gr, <- So. apply Sum_ext. intros j _. rewrite Gm. reflexivity.
Qed.
End S.

(** ** C48
    [indices basis p c] are the global indices of the functions of the cell at position [c]; the
    first conjunct says that they are the values of [get_global_idx]. *)
Theorem C48_matrices {Fn} H0 H is m deg sizes p (basis : nat -> res (list (gkey * Fn))) h1 l2 load D Rc interior v :
  mk_mesh H0 is = Ok (H, m) -> mk_space m deg sizes = Ok p -> mk_solver H basis h1 l2 load D Rc p interior = Ok v ->
  let n := List.length (m_cells m) in let g := indices basis p in
  (forall c, (c < n)%nat -> exists kf, basis c = Ok kf /\ map_res (fun k => get_global_idx p (fst k) (Z.of_nat c)) kf = Ok (g c)) /\
  (forall i j, stiff_mat v i j = assembled n g (upper h1) i j) /\ (forall i j, mass_mat v i j = assembled n g (upper l2) i j) /\
  (forall i j, stiff_mat v i j = stiff_mat v j i) /\ (forall i j, mass_mat v i j = mass_mat v j i) /\
  ((forall c a b, h1 c a b = h1 c b a) -> forall i j, stiff_mat v i j = assembled n g h1 i j) /\ ((forall c a b, l2 c a b = l2 c b a) -> forall i j, mass_mat v i j = assembled n g l2 i j).
Proof.
  intros M S B n g. destruct (matrices_S H0 H is m deg sizes p basis h1 l2 load D Rc interior v M S B) as (A & X). split; [|exact X]. intros c Lc. specialize (A c Lc). unfold local_indices in A. destruct (basis c) as [kf|]; [|discriminate]. exists kf. split; [reflexivity|exact A].
Qed.
Print Assumptions C48_matrices.
Theorem C48_rows {Fn} H0 H is m deg sizes p (basis : nat -> res (list (gkey * Fn))) h1 l2 load D Rc interior v :
  mk_mesh H0 is = Ok (H, m) -> mk_space m deg sizes = Ok p -> mk_solver H basis h1 l2 load D Rc p interior = Ok v ->
  let n := List.length (m_cells m) in let g := indices basis p in
  forall i, ~ boundary_index H p basis i ->
  (forall j, glob_mat v i j = D * stiff_mat v i j + Rc * mass_mat v i j) /\ glob_rhs v i = assembled_load n g load i.
Proof. intros M S B n g. exact (free_rows_S H0 H is m deg sizes p basis h1 l2 load D Rc interior v M S B). Qed.
Print Assumptions C48_rows.

(** ** C49 *)
Theorem C49_rows {Fn} H0 H is m deg sizes p (basis : nat -> res (list (gkey * Fn))) h1 l2 load D Rc interior v :
  mk_mesh H0 is = Ok (H, m) -> mk_space m deg sizes = Ok p -> mk_solver H basis h1 l2 load D Rc p interior = Ok v ->
  let n := List.length (m_cells m) in let g := indices basis p in
  forall i, boundary_index H p basis i ->
  (forall j, j <> i -> glob_mat v i j = 0) /\ glob_mat v i i = Sum n (fun c => INR (occurrences (g c) i) * INR (occurrences (g c) i)) /\ 1 <= glob_mat v i i /\ glob_rhs v i = 0.
Proof. intros M S B n g. exact (bound_rows_S H0 H is m deg sizes p basis h1 l2 load D Rc interior v M S B). Qed.
Print Assumptions C49_rows.
(** Every solution vanishes at the boundary functions and satisfies the interior equations as they
    were assembled. *)
Theorem C49_solution {Fn} H0 H is m deg sizes p (basis : nat -> res (list (gkey * Fn))) h1 l2 load D Rc interior v :
  mk_mesh H0 is = Ok (H, m) -> mk_space m deg sizes = Ok p -> mk_solver H basis h1 l2 load D Rc p interior = Ok v ->
  let n := List.length (m_cells m) in let g := indices basis p in
  forall x, solves (Z.to_nat (v_num v)) (glob_mat v) (glob_rhs v) x ->
  (forall i, (0 <= i < v_num v)%Z -> boundary_index H p basis i -> nth (Z.to_nat i) x 0 = 0) /\
  (forall i, (0 <= i < v_num v)%Z -> ~ boundary_index H p basis i ->
    Sum (Z.to_nat (v_num v)) (fun j => (D * stiff_mat v i (Z.of_nat j) + Rc * mass_mat v i (Z.of_nat j)) * nth j x 0) = assembled_load n g load i).
Proof. intros M S B n g. exact (solution_S H0 H is m deg sizes p basis h1 l2 load D Rc interior v M S B). Qed.
Print Assumptions C49_solution.

(** Two triangles, degree 2, one function on the common edge. The cells list three vertices, the
    edge function and a bubble. Numbers: bubbles 0 and 1, vertices 2 to 5, edge function 6. *)
Definition ex_keys (c : nat) : list (res gkey) :=
  map (fun v => key_of (VertexFun v)) (if Nat.eqb c 0 then [0; 1; 2] else [1; 5; 2])%Z ++ [key_of (EdgeFun 1 0); key_of (Bubble (Z.of_nat c) 0)].
Definition ex_basis (c : nat) : res (list (gkey * R)) := do ks <- map_res (fun k => k) (ex_keys c); Ok (map (fun k => (k, 1)) ks).
Example C48_example h1 l2 load D Rc : exists H m p v, mk_mesh two_triangles [0; 1; 2; 4; 3]%nat = Ok (H, m) /\ mk_space m (PInt 2) [0; 1; 0; 0; 0]%Z = Ok p /\ mk_solver H ex_basis h1 l2 load D Rc p true = Ok v /\
  indices ex_basis p 0 = [2; 3; 4; 6; 0]%Z /\ indices ex_basis p 1 = [3; 5; 4; 6; 1]%Z /\
  stiff_mat v 6 6 = h1 0%nat 3%nat 3%nat + h1 1%nat 3%nat 3%nat /\ stiff_mat v 3 4 = h1 0%nat 1%nat 2%nat + h1 1%nat 0%nat 2%nat /\ stiff_mat v 4 3 = stiff_mat v 3 4 /\
  glob_mat v 6 2 = D * h1 0%nat 0%nat 3%nat + Rc * l2 0%nat 0%nat 3%nat /\ glob_rhs v 6 = load 0%nat 3%nat + load 1%nat 3%nat /\
  glob_mat v 3 4 = 0 /\ glob_rhs v 3 = 0 /\ ~ boundary_index H p ex_basis 6 /\ boundary_index H p ex_basis 3.
Proof.
  do 4 eexists. split; [vm_compute; reflexivity|]. split; [vm_compute; reflexivity|]. split; [vm_compute; reflexivity|].
  split; [vm_compute; reflexivity|]. split; [vm_compute; reflexivity|].
  split; [vm_compute; lra|]. split; [vm_compute; lra|]. split; [vm_compute; lra|]. split; [vm_compute; lra|]. split; [vm_compute; lra|]. split; [vm_compute; lra|]. split; [vm_compute; lra|]. split.
  - intros (c & kf & a & k & Lc & Eb & Ek & Fb & Gi). cbn in Lc. destruct c as [|[|c]]; [| |lia]; vm_compute in Eb; apply Ok_inj in Eb; subst kf; do 5 (destruct a as [|a]; [cbn in Ek; injection Ek as <-; vm_compute in Fb, Gi; congruence|]); destruct a; discriminate.
  - exists 0%nat. do 3 eexists. split; [cbn; lia|]. split; [vm_compute; reflexivity|]. split; [exact (eq_refl : nth_error _ 1%nat = _)|]. split; vm_compute; reflexivity.
Qed.
(** Boundary rows are not identity rows: vertex 1 belongs to two cells and its diagonal entry is 2. *)
Theorem C49_identity_refuted h1 l2 load D Rc : exists H m p v, mk_mesh two_triangles [0; 1; 2; 4; 3]%nat = Ok (H, m) /\ mk_space m (PInt 2) [0; 1; 0; 0; 0]%Z = Ok p /\ mk_solver H ex_basis h1 l2 load D Rc p true = Ok v /\
  boundary_index H p ex_basis 3 /\ glob_mat v 3 3 = 2 /\ boundary_index H p ex_basis 2 /\ glob_mat v 2 2 = 1.
Proof.
  do 4 eexists. split; [vm_compute; reflexivity|]. split; [vm_compute; reflexivity|]. split; [vm_compute; reflexivity|]. split.
  - exists 0%nat. do 3 eexists. split; [cbn; lia|]. split; [vm_compute; reflexivity|]. split; [exact (eq_refl : nth_error _ 1%nat = _)|]. split; vm_compute; reflexivity.
  - split; [vm_compute; lra|]. split; [|vm_compute; lra]. exists 0%nat. do 3 eexists. split; [cbn; lia|]. split; [vm_compute; reflexivity|]. split; [exact (eq_refl : nth_error _ 0%nat = _)|]. split; vm_compute; reflexivity.
Qed.
Print Assumptions C49_identity_refuted.
