(** C48 (when assembly succeeds) and C50: access to the solution. *)
From Coq Require Import List ZArith Reals Bool String Lia Lra.
From Verif Require Import PyBase PolyModel PolyProofs VertModel EdgeModel ContourModel CellModel CellProofs MeshModel MeshSpec MeshProofs MeshProps GlobModel GlobSpec GlobProofs GlobProps SolverModel SolverSpec SolverProofs SolverProps.
Import List ListNotations.
Open Scope R_scope.

Lemma global_bound m deg sizes p : (0 <= m_ncells m)%Z -> (0 <= m_nverts m)%Z -> mk_space m deg sizes = Ok p -> Forall (Z.le 0) sizes -> forall k c g, get_global_idx p k c = Ok g -> (0 <= g < p_num p)%Z.
Proof.
  intros C0 V0 S F k c g E. destruct (mk_space_fields _ _ _ _ S) as (d0 & _ & D1 & Pm & Pd & Ps & Pv & Pe & Pb & Pn & Pc & _). pose proof (bubbles_nonneg d0 D1). pose proof (zsum_mono _ F O (List.length sizes) ltac:(lia)) as X. rewrite firstn_all in X. cbn [firstn zsum] in X. assert (0 <= p_nbubb p)%Z by (rewrite Pb; nia).
  unfold get_global_idx in E. destruct (String.eqb (g_type k) "bubb"); [|destruct (String.eqb (g_type k) "vert"); [|destruct (String.eqb (g_type k) "edge"); [|discriminate]]].
  - destruct (in_range _ _ _) eqn:I; [|discriminate]. apply Ok_inj in E. subst g. unfold in_range in I. apply andb_true_iff in I. rewrite Z.leb_le, Z.ltb_lt in I. lia.
  - destruct (index_of _ _ _); [|discriminate]. cbn [bind] in E. destruct (in_range _ _ _) eqn:I; [|discriminate]. apply Ok_inj in E. subst g. unfold in_range in I. apply andb_true_iff in I. rewrite Z.leb_le, Z.ltb_lt in I. lia.
  - destruct (pyget _ _); [|discriminate]. cbn [bind] in E. destruct (in_range _ _ _) eqn:I; [|discriminate]. apply Ok_inj in E. subst g. unfold in_range in I. apply andb_true_iff in I. rewrite Z.leb_le, Z.ltb_lt in I. lia.
Qed.
Lemma check_ok num l : l <> [] -> (forall z, In z l -> (z < num)%Z) -> check_indices num l = Ok tt.
Proof.
  intros NE B. destruct l as [|x l]; [congruence|]. cbn. assert (M : forall l x, (x < num)%Z -> (forall z, In z l -> (z < num)%Z) -> (fold_left Z.max l x < num)%Z) by (clear; induction l as [|y l IH]; intros x X B; [exact X|]; cbn; apply IH; [specialize (B y (or_introl eq_refl)); lia|intros; apply B; right; assumption]).
  specialize (M l x (B x (or_introl eq_refl)) ltac:(intros; apply B; right; assumption)). destruct (Z.leb_spec num (fold_left Z.max l x)); [lia|reflexivity].
Qed.
Lemma impose_total ks : (forall k, In k ks -> exists g b, g_glob k = Some g /\ g_bdry k = Some b) -> forall sys, exists r, fold_res impose_key ks sys = Ok r.
Proof.
  induction ks as [|k ks IH]; intros A sys; [eexists; reflexivity|]. cbn [fold_res]. destruct (A k (or_introl eq_refl)) as (g & b & G & B). unfold impose_key at 1, on_boundary, glob. rewrite B. cbn [bind]. destruct b; [rewrite G; cbn [bind]|]; apply IH; intros; apply A; right; assumption.
Qed.

Section S.
Context {Fn : Type}.
Variables (H : heap) (m : mesh) (p : gspace).
Variable basis : nat -> res (list (gkey * Fn)).
Variables (h1 l2 : nat -> nat -> nat -> R) (load : nat -> nat -> R) (D Rc : R) (interior : bool).
Lemma fold_total : increasing (m_cells m) -> p_mesh p = m -> List.length (p_dofs p) = List.length (m_cells m) -> (forall c, (c < List.length (m_cells m))%nat -> is_ok (local_keys H basis p c) = true) ->
  forall n, (n <= List.length (m_cells m))%nat -> exists w, fold_res (cell_step H basis h1 l2 load D Rc interior) (seq 0 n) (Work p [] [] (repeat None (List.length (m_cells m)))) = Ok w.
Proof.
  intros Inc Pm Ld A n. induction n as [|n IH]; intros Ln; [eexists; reflexivity|]. destruct (IH ltac:(lia)) as (w0 & E0). rewrite seq_S, fold_res_snoc, E0. cbn [bind plus].
  destruct (assembly_inv H basis h1 l2 load D Rc m p interior Inc Pm n w0 ltac:(lia) Ld E0) as (_ & (l & Sp & Ll & _) & _). specialize (A n ltac:(lia)). destruct (local_keys H basis p n) as [ks|] eqn:K; [|discriminate]. destruct (local_keys_indices _ _ _ _ _ K) as (gs & Eg & Lg & Ag). unfold local_keys in K. destruct (basis n) as [kf|] eqn:Eb; [|discriminate]. cbn [bind] in K.
  unfold cell_step. rewrite Sp. cbn [with_dofs p_mesh]. rewrite Pm. unfold geti at 1. destruct (nth_error (m_cells m) n) as [z|] eqn:Ez; [|apply nth_error_None in Ez; lia]. cbn [bind]. unfold get_abs_cell_idx. rewrite (index_of_nth _ (increasing_nodup _ Inc) _ _ Ez). cbn [bind]. rewrite Z.add_0_l, Nat2Z.id, Eb. cbn [bind]. unfold register.
  change (map_res (number_key H (with_dofs p l) (Z.of_nat n)) (map fst kf)) with (map_res (number_key H p (Z.of_nat n)) (map fst kf)). rewrite K. cbn [bind with_dofs p_dofs]. destruct (nth_error l n) as [l0|] eqn:El; [|apply nth_error_None in El; lia]. cbn [bind fst snd].
  assert (Lk : List.length kf = List.length ks) by (rewrite (map_res_length _ _ _ K), map_length; reflexivity).
  rewrite (map_res_all _ (fun i => ((znth gs i, load n i), row_entries h1 l2 D Rc n gs i))); [eexists; reflexivity|]. intros i Ii. apply in_seq in Ii. apply row_values_ok; [exact Lg|intros a k Q; apply (Ag a k Q)|lia].
Qed.
End S.
Lemma entries_pos h1 l2 D Rc c gs t : In t (cell_entries h1 l2 D Rc c gs) -> In (t_row t) gs /\ In (t_col t) gs.
Proof.
  unfold cell_entries. rewrite in_concat. intros (r & Ir & It). apply in_map_iff in Ir. destruct Ir as (i & <- & Ii). apply in_seq in Ii. unfold row_entries in It. apply in_concat in It. destruct It as (e & Ie & It). apply in_map_iff in Ie. destruct Ie as (j & <- & Ij). apply in_seq in Ij. assert (Z : forall a, (a < List.length gs)%nat -> In (znth gs a) gs) by (intros; apply nth_In; assumption). unfold pair_entries in It. destruct It as [<-|It]; [cbn; split; apply Z; lia|]. destruct (Nat.ltb i j); [destruct It as [<-|[]]; cbn; split; apply Z; lia|destruct It].
Qed.

(** Assembly succeeds whenever every cell has valid keys and at least one function exists; without
    any function it stops at the maximum of an empty list. *)
Theorem C48_total {Fn} H0 H is m deg sizes p (basis : nat -> res (list (gkey * Fn))) h1 l2 load D Rc interior :
  mk_mesh H0 is = Ok (H, m) -> mk_space m deg sizes = Ok p -> Forall (Z.le 0) sizes ->
  (forall c, (c < List.length (m_cells m))%nat -> exists kf, basis c = Ok kf /\ forall k, In k kf -> is_ok (get_global_idx p (fst k) (Z.of_nat c)) = true /\ is_ok (fun_is_on_boundary H p (fst k)) = true) ->
  ((exists c kf, (c < List.length (m_cells m))%nat /\ basis c = Ok kf /\ kf <> []) -> exists v, mk_solver H basis h1 l2 load D Rc p interior = Ok v) /\
  ((forall c, (c < List.length (m_cells m))%nat -> basis c = Ok []) -> mk_solver H basis h1 l2 load D Rc p interior = Err ValueError).
Proof.
  intros M S F A. destruct (C44_tables _ _ _ _ M) as (_ & _ & _ & _ & _ & _ & _ & _ & _ & _ & NC & NV). destruct (ready H0 H is m deg sizes p M S) as (IC & NC' & LD & Pm & Nn & Fr). pose proof (global_bound m deg sizes p ltac:(lia) ltac:(lia) S F) as GB. rewrite Pm in IC, NC'.
  assert (LK : forall c, (c < List.length (m_cells m))%nat -> is_ok (local_keys H basis p c) = true).
  { intros c Lc. destruct (A c Lc) as (kf & Eb & Ak). unfold local_keys. rewrite Eb. cbn [bind]. clear Eb. induction kf as [|k kf IH]; [reflexivity|]. cbn [map map_res]. destruct (Ak k (or_introl eq_refl)) as [Gk Bk]. unfold number_key. destruct (get_global_idx p (fst k) (Z.of_nat c)) as [g|] eqn:Eg; [|discriminate]. cbn [bind]. unfold set_glob_idx. destruct (Z.ltb_spec g 0); [specialize (GB _ _ _ Eg); lia|]. cbn [bind]. replace (fun_is_on_boundary H p _) with (fun_is_on_boundary H p (fst k)) by reflexivity. destruct (fun_is_on_boundary H p (fst k)); [|discriminate]. cbn [bind]. specialize (IH ltac:(intros; apply Ak; right; assumption)). destruct (map_res _ (map fst kf)); [reflexivity|discriminate]. }
  destruct (fold_total H m p basis h1 l2 load D Rc interior IC Pm ltac:(rewrite LD; exact Nn) LK _ (le_n _)) as (w & Ew).
  destruct (assembly_inv H basis h1 l2 load D Rc m p interior IC Pm _ w (le_n _) ltac:(rewrite LD; exact Nn) Ew) as (Ak & (l & Sp & Ll & Nl) & En & Er & _). set (n := List.length (m_cells m)) in *.
  assert (Nl' : forall c, (c < n)%nat -> nth_error l c = Some (lkeys H basis p c)). { intros c Lc. rewrite Nl, (Fr c Lc). destruct (Nat.ltb_spec c n); [reflexivity|lia]. }
  assert (Bc : exists es rhs, impose_bc (w_space w) (w_entries w, w_rhs w) = Ok (es, rhs) /\ map t_row es = map t_row (w_entries w) /\ map t_col es = map t_col (w_entries w) /\ map fst rhs = map fst (w_rhs w)).
  { unfold impose_bc. rewrite Sp. cbn [with_dofs p_mesh p_dofs]. rewrite Pm, NC, Nat2Z.id. fold n. rewrite (map_res_all _ (fun c => lkeys H basis p c)). 2:{ intros c Ic. apply in_seq in Ic. unfold geti. rewrite Nl' by lia. reflexivity. } cbn [bind].
    destruct (impose_total (concat (map (fun c => lkeys H basis p c) (seq 0 n)))) with (sys := (w_entries w, w_rhs w)) as ([es rhs] & Ei).
    - intros k Ik. apply in_concat in Ik. destruct Ik as (lc & Ilc & Ik). apply in_map_iff in Ilc. destruct Ilc as (c & <- & Ic). apply in_seq in Ic. destruct (Ak c ltac:(lia)) as (ks & kf & K & _). unfold lkeys in Ik. rewrite K in Ik. destruct (local_keys_indices _ _ _ _ _ K) as (gs & _ & _ & Q). apply In_nth_error in Ik. destruct Ik as (a & Ea). destruct (Q a k Ea) as (Gk & b & Bk). eauto.
    - exists es, rhs. split; [exact Ei|]. apply impose_all in Ei. injection Ei as -> ->. rewrite !map_map. repeat split; apply map_ext; intros t; try apply bc_entry_pos. unfold bc_rhs. destruct (zmem _ _); reflexivity. }
  destruct Bc as (es & rhs & Ei & Rw & Cl & Rf).
  assert (Ind : forall c, (c < n)%nat -> local_indices basis p c = Ok (indices basis p c)) by (intros c Lc; destruct (Ak c Lc) as (ks & kf & K & _); destruct (local_keys_indices _ _ _ _ _ K) as (gs & Eg & _); unfold indices; rewrite Eg; reflexivity).
  assert (Bnd : forall c z, (c < n)%nat -> In z (indices basis p c) -> (z < p_num p)%Z). { intros c z Lc I. specialize (Ind c Lc). unfold local_indices in Ind. destruct (basis c) as [kf|]; [|discriminate]. cbn [bind] in Ind. apply In_nth_error in I. destruct I as (a & Ea). assert (La : (a < List.length kf)%nat) by (rewrite <- (map_res_length _ _ _ Ind); apply nth_error_Some; congruence). destruct (nth_error kf a) as [k|] eqn:Ek; [|apply nth_error_None in Ek; lia]. destruct (map_res_nth _ _ _ Ind a k Ek) as (y & Ey & Ny). cbn beta in Ey. assert (y = z) by congruence. subst y. specialize (GB _ _ _ Ey). lia. }
  assert (Step : forall r, (do _ <- check_indices (p_num p) (map fst (w_rhs w)); do _ <- check_indices (p_num p) (map t_row (w_entries w)); do _ <- check_indices (p_num p) (map t_col (w_entries w)); Ok (Solv (w_space w) es rhs (p_num p) (w_local w) None)) = r -> mk_solver H basis h1 l2 load D Rc p interior = r).
  { intros r Er'. unfold mk_solver. rewrite Pm, NC, Nat2Z.id. fold n. rewrite Ew. cbn [bind]. rewrite Ei. cbn [bind fst snd]. rewrite Rw, Cl, Rf. cbv zeta. replace (p_num (w_space w)) with (p_num p) by (rewrite Sp; reflexivity). exact Er'. }
  split.
  - intros (c & kf & Lc & Eb & NE). assert (NEi : indices basis p c <> []). { specialize (Ind c Lc). unfold local_indices in Ind. rewrite Eb in Ind. cbn [bind] in Ind. intros Q. apply map_res_length in Ind. rewrite Q in Ind. destruct kf; [congruence|discriminate]. }
    assert (IE : exists t, In t (w_entries w)). { rewrite En. destruct (indices basis p c) as [|z gs] eqn:Q; [congruence|]. eexists. apply in_concat. exists (cell_entries h1 l2 D Rc c (indices basis p c)). split; [apply in_map_iff; exists c; split; [reflexivity|apply in_seq; lia]|]. rewrite Q. cbn. left. reflexivity. }
    assert (IR : exists t, In t (w_rhs w)). { rewrite Er. destruct (indices basis p c) as [|z gs] eqn:Q; [congruence|]. eexists. apply in_concat. exists (cell_rhs load c (indices basis p c)). split; [apply in_map_iff; exists c; split; [reflexivity|apply in_seq; lia]|]. rewrite Q. cbn. left. reflexivity. }
    assert (PE : forall t, In t (w_entries w) -> (t_row t < p_num p)%Z /\ (t_col t < p_num p)%Z). { intros t It. rewrite En in It. apply in_concat in It. destruct It as (e & Ie & It). apply in_map_iff in Ie. destruct Ie as (c' & <- & Ic). apply in_seq in Ic. apply entries_pos in It. split; apply (Bnd c'); (lia || apply It). }
    assert (PR : forall t, In t (w_rhs w) -> (fst t < p_num p)%Z). { intros t It. rewrite Er in It. apply in_concat in It. destruct It as (e & Ie & It). apply in_map_iff in Ie. destruct Ie as (c' & <- & Ic). apply in_seq in Ic. unfold cell_rhs in It. apply in_map_iff in It. destruct It as (i & <- & Ii). apply in_seq in Ii. cbn. apply (Bnd c'); [lia|]. apply nth_In. lia. }
    eexists. apply Step. destruct IE as (t & It), IR as (t' & It'). rewrite !check_ok; [reflexivity| | | | | |].
    + intros Q. apply map_eq_nil in Q. rewrite Q in It. destruct It.
    + intros z Iz. apply in_map_iff in Iz. destruct Iz as (q & <- & Iq). apply PE, Iq.
    + intros Q. apply map_eq_nil in Q. rewrite Q in It. destruct It.
    + intros z Iz. apply in_map_iff in Iz. destruct Iz as (q & <- & Iq). apply PE, Iq.
    + intros Q. apply map_eq_nil in Q. rewrite Q in It'. destruct It'.
    + intros z Iz. apply in_map_iff in Iz. destruct Iz as (q & <- & Iq). apply PR, Iq.
  - intros Em. apply Step. assert (Wr : w_rhs w = []). { rewrite Er. apply concat_nil_Forall. apply Forall_forall. intros x Ix. apply in_map_iff in Ix. destruct Ix as (c & <- & Ic). apply in_seq in Ic. unfold indices, local_indices. rewrite Em by lia. reflexivity. } rewrite Wr. reflexivity.
Qed.
Print Assumptions C48_total.

(** ** C50 *)
(** A new solver has no solution attribute: [get_solution] raises instead of solving. *)
Theorem C50_unsolved_refuted {Fn} H0 H is m deg sizes p (basis : nat -> res (list (gkey * Fn))) h1 l2 load D Rc interior v :
  mk_mesh H0 is = Ok (H, m) -> mk_space m deg sizes = Ok p -> mk_solver H basis h1 l2 load D Rc p interior = Ok v -> get_solution v = Err AttributeError.
Proof. intros M S B. destruct (built H0 H is m deg sizes p basis h1 l2 load D Rc interior v M S B) as (_ & _ & _ & _ & So & _). unfold get_solution. rewrite So. reflexivity. Qed.
Print Assumptions C50_unsolved_refuted.
(** After [solve] it returns the vector of the linear solver, as often as asked. *)
Theorem C50_solved {Fn} spsolve (v v' : @solver Fn) x : spsolve v = Ok x -> solve spsolve v = Ok v' -> get_solution v' = Ok x /\ v_space v' = v_space v /\ v_local v' = v_local v /\ forall i j, glob_mat v' i j = glob_mat v i j /\ glob_rhs v' i = glob_rhs v i.
Proof. intros E So. unfold solve in So. rewrite E in So. cbn in So. apply Ok_inj in So. subst v'. repeat split. Qed.
Print Assumptions C50_solved.

Lemma coef_map (coef : list R) num ks gs : List.length coef = Z.to_nat num -> List.length ks = List.length gs -> (forall a k, nth_error ks a = Some k -> g_glob k = Some (znth gs a)) -> (forall z, In z gs -> (0 <= z < num)%Z) ->
  map_res (fun k => do g <- glob k; pyget coef g) ks = Ok (map (fun i => nth (Z.to_nat i) coef 0) gs).
Proof.
  intros Lc. revert gs. induction ks as [|k ks IH]; intros [|g gs] L A B; try discriminate; [reflexivity|]. cbn [map_res map]. unfold glob at 1. rewrite (A O k eq_refl). cbn [bind znth nth]. specialize (B g (or_introl eq_refl)) as Bg. rewrite pyget_nat by lia. unfold geti. rewrite (nth_error_nth' coef 0) by lia. cbn [bind]. rewrite (IH gs); [reflexivity|cbn in L; lia|intros a q Q; exact (A (S a) q Q)|intros z I; apply B; right; exact I].
Qed.
(** The coefficients of a cell are those of its functions, in the order of the basis. *)
Theorem C50_coef {Fn} H0 H is m deg sizes p (basis : nat -> res (list (gkey * Fn))) h1 l2 load D Rc interior v :
  mk_mesh H0 is = Ok (H, m) -> mk_space m deg sizes = Ok p -> Forall (Z.le 0) sizes -> mk_solver H basis h1 l2 load D Rc p interior = Ok v ->
  forall coef, List.length coef = Z.to_nat (v_num v) ->
  (forall c z, nth_error (m_cells m) c = Some z -> get_coef (v_space v) z coef = Ok (map (fun i => nth (Z.to_nat i) coef 0) (indices basis p c))) /\
  (forall z, ~ In z (m_cells m) -> get_coef (v_space v) z coef = Err ValueError).
Proof.
  intros M S F B coef Lc. destruct (ready H0 H is m deg sizes p M S) as (IC & NC' & LD & Pm & Nn & Fr). destruct (C44_tables _ _ _ _ M) as (_ & _ & _ & _ & _ & _ & _ & _ & _ & _ & NC & NV). destruct (built H0 H is m deg sizes p basis h1 l2 load D Rc interior v M S B) as (A & (l & Sp & Ll & Nl) & _ & Nu & _). rewrite Nu in Lc. unfold get_coef. rewrite Sp. cbn [with_dofs p_mesh p_dofs]. rewrite Pm in *. unfold get_abs_cell_idx. split.
  - intros c z Ez. assert (Lc' : (c < List.length (m_cells m))%nat) by (apply nth_error_Some; congruence). rewrite (index_of_nth _ (increasing_nodup _ IC) _ _ Ez). cbn [bind]. rewrite pyget_nat by lia. unfold geti. rewrite Z.add_0_l, Nat2Z.id, (Nl c Lc'). cbn [bind]. destruct (A c Lc') as (ks & kf & K & Eb & Lk). unfold lkeys. rewrite K. destruct (local_keys_indices _ _ _ _ _ K) as (gs & Eg & Lg & Ag). unfold indices. rewrite Eg. apply (coef_map coef (p_num p)); [exact Lc|exact Lg|intros a k Q; apply (Ag a k Q)|].
    intros y Iy. unfold local_indices in Eg. rewrite Eb in Eg. cbn [bind] in Eg. apply In_nth_error in Iy. destruct Iy as (a & Ea). assert (La : (a < List.length kf)%nat) by (rewrite <- (map_res_length _ _ _ Eg); apply nth_error_Some; congruence). destruct (nth_error kf a) as [k|] eqn:Ek; [|apply nth_error_None in Ek; lia]. destruct (map_res_nth _ _ _ Eg a k Ek) as (y' & Ey & Ny). cbn beta in Ey. assert (y' = y) by congruence. subst y'. exact (global_bound m deg sizes p ltac:(lia) ltac:(lia) S F _ _ _ Ey).
  - intros z N. rewrite (index_of_out _ _ N). reflexivity.
Qed.
Print Assumptions C50_coef.
(** The linear combination leaves out exactly the coefficients below the cutoff. *)
Definition combine_all {Fn} (fadd : Fn -> Fn -> Fn) (fscale : Fn -> R -> Fn) (w : Fn) (l : list (Fn * R)) : Fn := fold_left (fun w fc => fadd w (fscale (fst fc) (snd fc))) l w.
Lemma combo_fold {Fn} (fadd : Fn -> Fn -> Fn) fscale (lc : list R) : forall fs s w, (s + List.length fs <= List.length lc)%nat ->
  fold_res (fun w ib => do c <- geti lc (fst ib); Ok (if Rltb (Rabs c) CUT then w else fadd w (fscale (snd ib) c))) (combine (seq s (List.length fs)) fs) w =
  Ok (combine_all fadd fscale w (filter (fun fc => negb (Rltb (Rabs (snd fc)) CUT)) (combine fs (skipn s lc)))).
Proof.
  induction fs as [|f fs IH]; intros s w L; [reflexivity|]. cbn [List.length seq combine fold_res fst snd] in *. unfold geti at 1. rewrite (nth_error_nth' lc 0) by lia. cbn [bind]. rewrite IH by lia.
  assert (E : skipn s lc = nth s lc 0 :: skipn (S s) lc). { clear - L. revert lc L. induction s as [|s IH]; intros [|x lc] L; cbn in L; try lia; [reflexivity|]. cbn [skipn nth]. apply IH. lia. }
  rewrite E. cbn [combine filter snd]. destruct (Rltb (Rabs (nth s lc 0)) CUT); reflexivity.
Qed.
Theorem C50_combo {Fn} fzero fadd fscale H0 H is m deg sizes p (basis : nat -> res (list (gkey * Fn))) h1 l2 load D Rc interior v :
  mk_mesh H0 is = Ok (H, m) -> mk_space m deg sizes = Ok p -> Forall (Z.le 0) sizes -> mk_solver H basis h1 l2 load D Rc p interior = Ok v ->
  forall coef c z kf, List.length coef = Z.to_nat (v_num v) -> nth_error (m_cells m) c = Some z -> basis c = Ok kf ->
  let lc := map (fun i => nth (Z.to_nat i) coef 0) (indices basis p c) in
  (interior = true -> linear_combo fzero fadd fscale v z coef = Ok (combine_all fadd fscale (fzero c) (filter (fun fc => negb (Rltb (Rabs (snd fc)) CUT)) (combine (map snd kf) lc)))) /\
  (interior = true -> (forall x, In x lc -> CUT <= Rabs x) -> linear_combo fzero fadd fscale v z coef = Ok (combine_all fadd fscale (fzero c) (combine (map snd kf) lc))) /\
  (interior = false -> linear_combo fzero fadd fscale v z coef = Err ValueError).
Proof.
  intros M S F B coef c z kf Lc Ez Eb lc. destruct (C50_coef H0 H is m deg sizes p basis h1 l2 load D Rc interior v M S F B coef Lc) as (Co & _). destruct (ready H0 H is m deg sizes p M S) as (IC & NC' & LD & Pm & Nn & Fr). destruct (built H0 H is m deg sizes p basis h1 l2 load D Rc interior v M S B) as (A & (l & Sp & Ll & Nl) & _ & Nu & _ & Lv & Lo). assert (Lc' : (c < List.length (m_cells m))%nat) by (apply nth_error_Some; congruence).
  assert (E : linear_combo fzero fadd fscale v z coef = match (if interior then Some (map snd kf) else None) with None => Err ValueError | Some fs => fold_res (fun w ib => do c <- geti lc (fst ib); Ok (if Rltb (Rabs c) CUT then w else fadd w (fscale (snd ib) c))) (combine (seq 0 (List.length fs)) fs) (fzero c) end).
  { unfold linear_combo. rewrite (Co c z Ez). rewrite Sp. cbn [with_dofs p_mesh]. rewrite Pm in *. unfold get_abs_cell_idx. rewrite (index_of_nth _ (increasing_nodup _ IC) _ _ Ez). cbn [bind]. rewrite pyget_nat by lia. unfold geti at 1. rewrite Z.add_0_l, Nat2Z.id, (Lo c Lc'), Eb. cbn [bind option_map]. destruct interior; reflexivity. }
  assert (Len : List.length (map snd kf) = List.length lc). { unfold lc. rewrite !map_length. pose proof (indices_ok H0 H is m deg sizes p basis h1 l2 load D Rc interior v M S B c Lc') as I. unfold local_indices in I. rewrite Eb in I. cbn [bind] in I. symmetry. exact (map_res_length _ _ _ I). }
  assert (E1 : interior = true -> linear_combo fzero fadd fscale v z coef = Ok (combine_all fadd fscale (fzero c) (filter (fun fc => negb (Rltb (Rabs (snd fc)) CUT)) (combine (map snd kf) lc)))) by (intros ->; rewrite E, combo_fold by lia; reflexivity).
  split; [exact E1|]. split; [|intros ->; exact E].
  intros I Ge. rewrite (E1 I). do 2 f_equal. assert (X : forall k, (forall fc : Fn * R, In fc k -> CUT <= Rabs (snd fc)) -> filter (fun fc => negb (Rltb (Rabs (snd fc)) CUT)) k = k).
  { induction k as [|fc k' IH]; intros Q; [reflexivity|]. cbn [filter]. specialize (Q fc (or_introl eq_refl)) as Qf. unfold Rltb at 1. destruct (Rlt_dec _ _); [lra|]. cbn [negb]. f_equal. apply IH. intros; apply Q; right; assumption. }
  apply X. intros [f x] Ix. apply in_combine_r in Ix. exact (Ge x Ix).
Qed.
Print Assumptions C50_combo.

(** A coefficient below 1e-4 is dropped: the combination is not the one with these coefficients.
    Functions are numbers here, every basis function is 1; the bubble of cell 0 has number 0. *)
Theorem C50_cutoff_refuted h1 l2 load D Rc : exists H m p v coef, mk_mesh two_triangles [0; 1; 2; 4; 3]%nat = Ok (H, m) /\ mk_space m (PInt 2) [0; 1; 0; 0; 0]%Z = Ok p /\ mk_solver H ex_basis h1 l2 load D Rc p true = Ok v /\ List.length coef = Z.to_nat (v_num v) /\
  get_coef (v_space v) 0 coef = Ok [0; 0; 0; 3; 1 / 20000] /\ linear_combo (fun _ => 0) Rplus Rmult v 0 coef = Ok 3 /\ combine_all Rplus Rmult 0 (combine [1; 1; 1; 1; 1] [0; 0; 0; 3; 1 / 20000]) = 3 + 1 / 20000.
Proof.
  eexists _, _, _, _, [1 / 20000; 0; 0; 0; 0; 0; 3]. split; [vm_compute; reflexivity|]. split; [vm_compute; reflexivity|]. split; [vm_compute; reflexivity|]. split; [reflexivity|].
  assert (Z0 : Rltb (Rabs 0) CUT = true) by (apply Rltb_true; rewrite Rabs_R0; unfold CUT; lra).
  assert (Z1 : Rltb (Rabs (1 / 20000)) CUT = true) by (apply Rltb_true; rewrite Rabs_pos_eq by lra; unfold CUT; lra).
  assert (Z3 : Rltb (Rabs 3) CUT = false) by (apply Rltb_false; rewrite Rabs_pos_eq by lra; unfold CUT; lra).
  split; [cbv [get_coef v_space p_mesh get_abs_cell_idx m_cells index_of bind pyget p_dofs geti nth_error map_res glob g_glob List.length Z.of_nat Z.ltb Z.compare Z.eqb Z.to_nat Pos.to_nat Pos.iter_op Init.Nat.add Pos.of_succ_nat Pos.succ]; reflexivity|].
  split.
  - cbv [linear_combo v_local get_coef v_space p_mesh get_abs_cell_idx m_cells index_of bind pyget p_dofs geti nth_error map_res glob g_glob List.length Z.of_nat Z.ltb Z.compare Z.eqb Z.to_nat Pos.to_nat Pos.iter_op Init.Nat.add Pos.of_succ_nat Pos.succ combine seq fold_res fst snd]. rewrite Z0, Z1, Z3. f_equal. change R0 with 0. change R1 with 1. lra.
  - cbn. lra.
Qed.
Print Assumptions C50_cutoff_refuted.
(** A second solver over the same space appends the keys again: coefficient vectors have twice the
    length, for both solvers. *)
Theorem C50_twice_refuted {Fn} H0 H is m deg sizes p (basis : nat -> res (list (gkey * Fn))) h1 l2 load D Rc interior v h1' l2' load' D' Rc' interior' v' :
  mk_mesh H0 is = Ok (H, m) -> mk_space m deg sizes = Ok p -> Forall (Z.le 0) sizes -> mk_solver H basis h1 l2 load D Rc p interior = Ok v -> mk_solver H basis h1' l2' load' D' Rc' (v_space v) interior' = Ok v' ->
  forall coef c z, List.length coef = Z.to_nat (v_num v) -> nth_error (m_cells m) c = Some z ->
  exists lc, get_coef (v_space v) z coef = Ok lc /\ get_coef (v_space v') z coef = Ok (lc ++ lc).
Proof.
  intros M S F B B' coef c z Lc Ez. destruct (C50_coef H0 H is m deg sizes p basis h1 l2 load D Rc interior v M S F B coef Lc) as (Co & _). destruct (ready H0 H is m deg sizes p M S) as (IC & NC' & LD & Pm & Nn & Fr). destruct (built H0 H is m deg sizes p basis h1 l2 load D Rc interior v M S B) as (A & (l & Sp & Ll & Nl) & _ & Nu & _ & Lv & Lo). assert (Lc' : (c < List.length (m_cells m))%nat) by (apply nth_error_Some; congruence).
  eexists. split; [exact (Co c z Ez)|]. specialize (Co c z Ez). rewrite Sp in B', Co.
  destruct (mk_solver_ok H basis h1' l2' load' D' Rc' (with_dofs p l) interior' v') as (A' & (l' & Sp' & Ll' & Nl') & _); [exact IC|exact NC'|cbn [with_dofs p_dofs]; rewrite Ll; symmetry; exact Nn|exact B'|].
  destruct (Nl' c ltac:(unfold num_cells in *; cbn [with_dofs p_mesh]; rewrite Pm; exact Lc')) as (l0 & E0 & E1). cbn [with_dofs p_dofs] in E0. rewrite (Nl c Lc') in E0. injection E0 as <-. change (lkeys H basis (with_dofs p l) c) with (lkeys H basis p c) in E1.
  unfold get_coef in *. rewrite Sp'. cbn [with_dofs p_mesh p_dofs] in *. rewrite Pm in *. unfold get_abs_cell_idx in *. rewrite (index_of_nth _ (increasing_nodup _ IC) _ _ Ez) in *. cbn [bind] in *. rewrite pyget_nat in * by lia. unfold geti in *. rewrite Z.add_0_l, Nat2Z.id in *. rewrite (Nl c Lc') in Co. rewrite E1. cbn [bind] in *.
  assert (X : forall (f : gkey -> res R) a b ra rb, map_res f a = Ok ra -> map_res f b = Ok rb -> map_res f (a ++ b) = Ok (ra ++ rb)). { intros f. induction a as [|x a IH]; intros b ra rb Ea Ebb; [cbn in *; apply Ok_inj in Ea; subst; exact Ebb|]. cbn in *. destruct (f x); [|discriminate]. cbn in *. destruct (map_res f a); [|discriminate]. cbn in Ea. apply Ok_inj in Ea. subst ra. rewrite (IH b _ rb eq_refl Ebb). reflexivity. }
  apply X; exact Co.
Qed.
Print Assumptions C50_twice_refuted.
Example C50_twice_example h1 l2 load D Rc : exists H m p v v', mk_mesh two_triangles [0; 1; 2; 4; 3]%nat = Ok (H, m) /\ mk_space m (PInt 2) [0; 1; 0; 0; 0]%Z = Ok p /\ mk_solver H ex_basis h1 l2 load D Rc p true = Ok v /\ mk_solver H ex_basis h1 l2 load D Rc (v_space v) true = Ok v' /\
  map (@List.length gkey) (p_dofs (v_space v)) = [5; 5]%nat /\ map (@List.length gkey) (p_dofs (v_space v')) = [10; 10]%nat.
Proof. do 5 eexists. split; [vm_compute; reflexivity|]. split; [vm_compute; reflexivity|]. split; [vm_compute; reflexivity|]. split; [vm_compute; reflexivity|]. split; reflexivity. Qed.
