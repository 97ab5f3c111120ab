(** A run of the model is a run of SolverModel with the values of its own inner products. *)
From Coq Require Import List ZArith Reals Lia Lra Bool String.
From Verif Require Import PyBase PolyModel PolySpec PolyProofs BaryModel QuadModel VertModel EdgeModel EdgeSpec EdgeProofs ContourModel CellModel CellSpec CellProofs ContourProps MeshModel MeshSpec MeshProofs MeshProps TraceModel LocalModel LocalProofs2 NystromModel EdgeSpaceModel GlobModel GlobSpec GlobProofs GlobProps SolverModel SolverSpec SolverProofs LocSpaceModel AsmModel AsmSpec AsmProofs.
Import List ListNotations.
Open Scope R_scope.

Lemma fold_res_same {S T} (P : S -> Prop) (f g : S -> T -> res S) l : (forall s t, P s -> In t l -> f s t = g s t) -> (forall s t s', P s -> In t l -> g s t = Ok s' -> P s') -> forall s, P s -> fold_res f l s = fold_res g l s.
Proof.
  induction l as [|t l IH]; intros E K s Ps; [reflexivity|]. cbn [fold_res]. rewrite E by (auto; left; reflexivity). destruct (g s t) as [s'|] eqn:G; [|reflexivity]. cbn [bind]. apply IH; [intros; apply E; [|right]; assumption|intros; eapply K; [|right|]; eassumption|eapply K; [exact Ps|left; reflexivity|exact G]].
Qed.
Lemma map_res_same {S T} (f g : S -> res T) l : (forall x, In x l -> f x = g x) -> map_res f l = map_res g l.
Proof. induction l as [|x l IH]; intros E; [reflexivity|]. cbn [map_res]. rewrite E by (left; reflexivity). rewrite IH by (intros; apply E; right; assumption). reflexivity. Qed.
Lemma map_res_impl {S T} (f g : S -> res T) l r : map_res f l = Ok r -> (forall x y, In x l -> f x = Ok y -> g x = Ok y) -> map_res g l = Ok r.
Proof.
  revert r. induction l as [|x l IH]; intros r E K; [exact E|]. cbn [map_res] in *. destruct (f x) as [y|] eqn:Ex; [|discriminate]. cbn [bind] in E. destruct (map_res f l) as [ys|] eqn:El; [|discriminate]. cbn [bind] in E. rewrite (K x y (or_introl eq_refl) Ex). cbn [bind]. rewrite (IH ys eq_refl) by (intros; apply K; [right|]; assumption). exact E.
Qed.

(** The heap keeps its topology when the mesh numbers its edges. *)
Lemma mesh_settled H is H' m : Forall settled H -> mk_mesh H is = Ok (H', m) -> Forall settled H'.
Proof.
  intros S M. destruct (C44_tables _ _ _ _ M) as (_ & _ & I & _ & N & O & _). apply Forall_forall. intros e Ie. apply In_nth_error in Ie. destruct Ie as (j & Ej). rewrite Forall_forall in S. destruct (in_dec Nat.eq_dec j is) as [Ij|Nj].
  - apply I, In_nth_error in Ij. destruct Ij as (k & Ek). destruct (N k j Ek) as (e0 & E0 & _ & E1). rewrite Ej in E1. injection E1 as ->. exact (S e0 (nth_error_In _ _ E0)).
  - rewrite (O j Nj) in Ej. exact (S e (nth_error_In _ _ Ej)).
Qed.

(** ** One row *)
Section Step.
Variable contains : R -> list pt -> pt -> bool.
Variable low_rank : nat -> matrix -> matrix.
Variable gmres : (list R -> res (list R)) -> list R -> (list R -> res (list R)) -> res (list R).
Variable set_iter : list Z -> list Z.
Variable qd : quad * quad.
Variable B : bform.

Definition steps (Hm : heap) (fam : nat -> cellrun) (interior : bool) := @cell_step lpois Hm (run_basis fam) (run_pair h1_inner fam) (run_pair l2_inner fam) (run_load (bf_rhs B) fam) (bf_diffusion B) (bf_reaction B) interior.

Lemma combine_nth {S T} (l : list S) (l' : list T) i x : nth_error (combine l l') i = Some x -> nth_error l i = Some (fst x) /\ nth_error l' i = Some (snd x).
Proof. revert l' i. induction l as [|a l IH]; intros [|b l'] [|i] E; try discriminate; cbn in *; [injection E as <-; auto|apply IH, E]. Qed.
Lemma row_ok H c fam k ks L i row : cr_heap (fam k) = H -> cr_cell (fam k) = c -> cr_space (fam k) = L -> List.length ks = List.length (get_basis L) ->
  form_row B H c (combine ks (map snd (get_basis L))) i = Ok row ->
  row_values (run_pair h1_inner fam) (run_pair l2_inner fam) (run_load (bf_rhs B) fam) (bf_diffusion B) (bf_reaction B) k ks i = Ok row.
Proof.
  intros EH EC EL Ln E. unfold form_row, kfun in *. set (l := combine ks (map snd (get_basis L))) in *. assert (Ll : List.length l = List.length ks) by (unfold l; rewrite combine_length, map_length, Ln; apply Nat.min_id).
  assert (G : forall j w, geti l j = Ok w -> geti ks j = Ok (fst w) /\ exists k0, nth_error (get_basis (cr_space (fam k))) j = Some (k0, snd w)).
  { intros j w Ew. unfold geti in *. destruct (nth_error l j) as [w'|] eqn:El; [|discriminate]. injection Ew as <-. destruct (combine_nth _ _ _ _ El) as [E1 E2]. rewrite E1. split; [reflexivity|]. rewrite nth_error_map in E2. rewrite EL. unfold kfun in *. destruct (@nth_error (gkey * lpois) (get_basis L) j) as [[k0 u]|]; [|discriminate]. cbn in E2. injection E2 as <-. eauto. }
  destruct (geti l i) as [v|] eqn:Ev; [|discriminate]. cbn [bind] in E. destruct (G i v Ev) as (Kv & kv & Bv). destruct (eval_rhs B (snd v) H c) as [f|] eqn:Ef; [|discriminate]. cbn [bind] in E. destruct (glob (fst v)) as [gi|] eqn:Gi; [|discriminate]. cbn [bind] in E.
  match type of E with bind (map_res ?F ?S) _ = _ => destruct (map_res F S) as [es|] eqn:Es; [|discriminate] end. cbn [bind] in E. apply Ok_inj in E. subst row.
  unfold row_values. rewrite Kv. cbn [bind]. rewrite Gi. cbn [bind]. rewrite <- Ll. erewrite map_res_impl; [|exact Es|].
  - cbn [bind]. f_equal. f_equal. f_equal. unfold run_load, kfun in *. rewrite Bv, EH, EC. cbn [snd]. unfold eval_rhs in Ef. rewrite Ef. reflexivity.
  - intros j y _ Ey. cbv beta in Ey. destruct (geti l j) as [w|] eqn:Ew; [|discriminate]. cbn [bind] in Ey. destruct (G j w Ew) as (Kw & kw & Bw). unfold kfun in *. rewrite Kw. cbn [bind]. unfold form_values in Ey. destruct (eval_h1 (snd v) (snd w) H c) as [h|] eqn:Eh; [|discriminate]. cbn [bind] in Ey. destruct (eval_l2 (snd v) (snd w) H c) as [q|] eqn:Eq; [|discriminate]. cbn [bind] in Ey.
    unfold matrix_values, run_pair, kfun in *. rewrite Bv, Bw, EH, EC. cbn [snd]. unfold eval_h1 in Eh. unfold eval_l2 in Eq. rewrite Eh, Eq. cbn [value]. exact Ey.
Qed.
Lemma nums_ok H c given deg i g L : mk_lspace low_rank gmres set_iter H c given deg i g = Ok L -> (let '(_, _, _, n) := l_nums L in n) = List.length (get_basis L).
Proof.
  unfold mk_lspace. intros E. inv_as E d X1. inv_as E cen X2. inv_as E area X3. inv_as E sp X4. inv_as E V X5. cbv zeta in E. inv_as E bs X6. inv_as E vs X7. inv_as E fs X8. apply Ok_inj in E. subst L. cbn [l_nums]. unfold get_basis. cbn [l_vert l_edge l_bubb]. rewrite !app_length. lia.
Qed.
Lemma register_mesh H p a ks r : register H p a ks = Ok r -> p_mesh (fst r) = p_mesh p /\ p_deg (fst r) = p_deg p /\ List.length (snd r) = List.length ks.
Proof.
  unfold register. destruct (map_res _ ks) as [l|] eqn:E; [|discriminate]. cbn [bind]. apply map_res_length in E. destruct (nth_error _ _) as [l0|]; [|destruct ks; [|discriminate]]; intros X; apply Ok_inj in X; subst r; repeat split; exact E.
Qed.

(** A property of heaps that the cells keep *)
Variable Inv : heap -> Prop.
Hypothesis Keep : forall H p all z i g H' c L, Inv H -> build_local contains low_rank gmres set_iter qd H p all z i g = Ok (H', c, L) -> Inv H'.
(** What a cell of the run is *)
Definition is_run (Hm : heap) (p : gspace) (all : list espace) (interior gradient : bool) (r : cellrun) (z : Z) : Prop :=
  exists H, Inv H /\ hstays Hm H /\ build_local contains low_rank gmres set_iter qd H p all z interior gradient = Ok (cr_heap r, cr_cell r, cr_space r) /\ hstays Hm (cr_heap r) /\ Inv (cr_heap r).

Lemma local_stays H p all z i g H' c L : Forall settled H -> build_local contains low_rank gmres set_iter qd H p all z i g = Ok (H', c, L) -> hstays H H'.
Proof.
  intros S E. unfold build_local in E. inv_as E c0 X1. inv_as E Hc X2. destruct Hc as [H1 c1]. inv_as E es X3. inv_as E sp X4. inv_as E L0 X5. apply Ok_inj in E. injection E as -> -> ->. exact (cell_stays _ _ _ _ _ _ _ S X2).
Qed.
Lemma step_ok Hm p fam all interior gradient H w k H' w' : increasing (m_cells (p_mesh p)) -> p_mesh (w_space w) = p_mesh p -> p_deg (w_space w) = p_deg p -> hstays Hm H -> Inv H -> run_step contains low_rank gmres set_iter qd B all interior gradient (H, w) k = Ok (H', w') ->
  exists z r, nth_error (m_cells (p_mesh p)) k = Some z /\ is_run Hm p all interior gradient r z /\ cr_heap r = H' /\ steps Hm (fun c => if Nat.eqb c k then r else fam c) interior w k = Ok w' /\ p_mesh (w_space w') = p_mesh p /\ p_deg (w_space w') = p_deg p.
Proof.
  intros Ic Pm Pd Hs Iv E. unfold run_step in E. rewrite Pm in E. unfold geti at 1 in E. destruct (nth_error (m_cells (p_mesh p)) k) as [z|] eqn:Ez; [|discriminate]. cbn [bind] in E. unfold get_abs_cell_idx in E. rewrite (index_of_nth _ (increasing_nodup _ Ic) _ _ Ez) in E. cbn [bind] in E.
  destruct (build_local contains low_rank gmres set_iter qd H (w_space w) all z interior gradient) as [[[H1 c] L]|] eqn:EL; [|discriminate]. cbn [bind] in E. destruct (register H1 (w_space w) _ _) as [r|] eqn:Er; [|discriminate]. cbn [bind] in E.
  match type of E with bind (map_res ?F ?S) _ = _ => destruct (map_res F S) as [rows|] eqn:Ew; [|discriminate] end. cbn [bind] in E. apply Ok_inj in E. injection E as -> ->.
  pose proof (local_stays _ _ _ _ _ _ _ _ _ (hstays_right _ _ Hs) EL) as Hs1. pose proof (hstays_trans _ _ _ Hs Hs1) as Hs2. replace (Z.to_nat (0 + Z.of_nat k)) with k in Er by lia.
  assert (Nm : (let '(_, _, _, n) := l_nums L in n) = List.length (get_basis L)). { unfold build_local in EL. inv_as EL c0 X1. inv_as EL Hc X2. destruct Hc as [H2 c2]. inv_as EL es X3. inv_as EL sp X4. inv_as EL L0 X5. apply Ok_inj in EL. injection EL as -> -> ->. exact (nums_ok _ _ _ _ _ _ _ X5). }
  exists z, (CellRun H1 c L). split; [reflexivity|]. split; [exists H; split; [exact Iv|]; split; [exact Hs|split; [|split; [exact Hs2|exact (Keep _ _ _ _ _ _ _ _ _ Iv EL)]]]|].
  { cbn [cr_heap cr_cell cr_space]. rewrite <- EL. unfold build_local. rewrite Pm, Pd. reflexivity. }
  split; [reflexivity|]. destruct (register_mesh _ _ _ _ _ Er) as (Rm & Rd & Rl). split; [|split; cbn [w_space]; congruence].
  unfold steps, cell_step. rewrite Pm. unfold geti at 1. rewrite Ez. cbn [bind]. unfold get_abs_cell_idx. rewrite (index_of_nth _ (increasing_nodup _ Ic) _ _ Ez). cbn [bind]. replace (Z.to_nat (0 + Z.of_nat k)) with k by lia. unfold run_basis at 1. rewrite Nat.eqb_refl. cbn [bind cr_space].
  rewrite <- (register_stays Hm H1 _ _ _ Hs2). unfold key_of in Er. change (map (fun u : kfun => fst u) (get_basis L)) with (map fst (get_basis L)) in Er. rewrite Er. cbn [bind]. rewrite Nm in Ew. erewrite map_res_impl; [|exact Ew|].
  - reflexivity.
  - intros i row _ Ei. apply (row_ok H1 c _ k (snd r) L i row); rewrite ?Nat.eqb_refl; try reflexivity; [|exact Ei]. rewrite Rl, map_length. reflexivity.
Qed.
Lemma steps_mesh Hm fam interior w k w' : steps Hm fam interior w k = Ok w' -> p_mesh (w_space w') = p_mesh (w_space w).
Proof.
  unfold steps, cell_step. intros E. inv_as E z X1. inv_as E a X2. inv_as E kf X3. inv_as E r X4. inv_as E rows X5. apply Ok_inj in E. subst w'. cbn [w_space]. apply (register_mesh _ _ _ _ _ X4).
Qed.
Lemma steps_same Hm p fam fam' interior w k : increasing (m_cells (p_mesh p)) -> p_mesh (w_space w) = p_mesh p -> fam' k = fam k -> steps Hm fam' interior w k = steps Hm fam interior w k.
Proof.
  intros Ic Pm Ef. unfold steps, cell_step. rewrite Pm. unfold geti at 1 2. destruct (nth_error (m_cells (p_mesh p)) k) as [z|] eqn:Ez; [|reflexivity]. cbn [bind]. unfold get_abs_cell_idx. rewrite (index_of_nth _ (increasing_nodup _ Ic) _ _ Ez). cbn [bind]. replace (Z.to_nat (0 + Z.of_nat k)) with k by lia. unfold run_basis at 1 2. rewrite Ef. cbn [bind].
  destruct (register Hm _ _ _) as [r|]; [|reflexivity]. cbn [bind]. match goal with |- bind ?x _ = bind ?y _ => assert (X : x = y) end; [|rewrite X; reflexivity]. apply map_res_same. intros i _. unfold row_values. destruct (geti _ i) as [v|]; [|reflexivity]. cbn [bind]. destruct (glob v); [|reflexivity]. cbn [bind].
  match goal with |- bind ?x _ = bind ?y _ => assert (X : x = y) end; [|rewrite X; unfold run_load; rewrite Ef; reflexivity]. apply map_res_same. intros j _. destruct (geti _ j) as [w0|]; [|reflexivity]. cbn [bind]. unfold matrix_values, run_pair. rewrite Ef. reflexivity.
Qed.

Lemma run_fold Hm H1 p all interior gradient w0 : increasing (m_cells (p_mesh p)) -> hstays Hm H1 -> Inv H1 -> p_mesh (w_space w0) = p_mesh p -> p_deg (w_space w0) = p_deg p -> forall n H2 w,
  fold_res (run_step contains low_rank gmres set_iter qd B all interior gradient) (seq 0 n) (H1, w0) = Ok (H2, w) ->
  exists fam, fold_res (steps Hm fam interior) (seq 0 n) w0 = Ok w /\ (forall k, (k < n)%nat -> exists z, nth_error (m_cells (p_mesh p)) k = Some z /\ is_run Hm p all interior gradient (fam k) z) /\ hstays Hm H2 /\ Inv H2 /\ p_mesh (w_space w) = p_mesh p /\ p_deg (w_space w) = p_deg p.
Proof.
  intros Ic Hs Iv Pm Pd. induction n as [|n IH]; intros H2 w E.
  - cbn in E. apply Ok_inj in E. injection E as -> ->. exists (fun _ => CellRun [] (Cell 0 [] 0 0 [] (0, 0)%Z 0 0 None None None None) (LSpace 0 [] [] [] (0, 0, 0, 0)%nat (0, 0) 0)). split; [reflexivity|]. split; [intros; lia|auto].
  - rewrite seq_S, fold_res_snoc in E. destruct (fold_res _ (seq 0 n) (H1, w0)) as [[H3 w3]|] eqn:E3; [|discriminate]. cbn [bind] in E. destruct (IH H3 w3 eq_refl) as (fam & F & C & Hs3 & Iv3 & Pm3 & Pd3). change (0 + n)%nat with n in E.
    destruct (step_ok Hm p fam all interior gradient H3 w3 n H2 w Ic Pm3 Pd3 Hs3 Iv3 E) as (z & r & Ez & Ir & Er & St & Pm' & Pd'). exists (fun c => if Nat.eqb c n then r else fam c). split; [|split; [|split; [|split; [|split; assumption]]]].
    + rewrite seq_S, fold_res_snoc. change (0 + n)%nat with n. rewrite (fold_res_same (fun w => p_mesh (w_space w) = p_mesh p) _ (steps Hm fam interior)); [rewrite F; exact St| |intros s t s' Ps _ Es; rewrite (steps_mesh _ _ _ _ _ _ Es); exact Ps|exact Pm].
      intros s t Ps It. apply in_seq in It. apply (steps_same Hm p); [exact Ic|exact Ps|]. destruct (Nat.eqb_spec t n); [lia|reflexivity].
    + intros k Lk. destruct (Nat.eqb_spec k n) as [->|Nk]; [exists z; auto|]. apply C. lia.
    + rewrite <- Er. destruct Ir as (? & ? & ? & ? & ? & ?). assumption.
    + rewrite <- Er. destruct Ir as (? & ? & ? & ? & ? & ?). assumption.
Qed.
End Step.
