(** Proofs about assembled systems. *)
From Coq Require Import List ZArith Reals Bool String Lia Lra.
From Verif Require Import PyBase PolyModel EdgeModel ContourModel CellModel CellProofs MeshModel MeshSpec MeshProofs MeshProps GlobModel GlobSpec GlobProofs GlobProps SolverModel SolverSpec.
Import List ListNotations.
Open Scope R_scope.

(** ** Sums *)
Lemma Sum_ext n f g : (forall i, (i < n)%nat -> f i = g i) -> Sum n f = Sum n g.
Proof. induction n as [|n IH]; intros E; [reflexivity|]. cbn. rewrite IH, E by (intros; try apply E; lia). reflexivity. Qed.
Lemma Sum_plus n f g : Sum n (fun i => f i + g i) = Sum n f + Sum n g.
Proof. induction n as [|n IH]; cbn; [lra|]. rewrite IH. lra. Qed.
Lemma Sum_scal n a f : Sum n (fun i => a * f i) = a * Sum n f.
Proof. induction n as [|n IH]; cbn; [lra|]. rewrite IH. lra. Qed.
Lemma Sum_zero n f : (forall i, (i < n)%nat -> f i = 0) -> Sum n f = 0.
Proof. induction n as [|n IH]; intros E; [reflexivity|]. cbn. rewrite IH, E by (intros; try apply E; lia). lra. Qed.
Lemma Sum_swap n m f : Sum n (fun i => Sum m (fun j => f i j)) = Sum m (fun j => Sum n (fun i => f i j)).
Proof. induction n as [|n IH]; cbn; [symmetry; apply Sum_zero; reflexivity|]. rewrite IH, <- Sum_plus. reflexivity. Qed.
Lemma Sum_one n f k : (k < n)%nat -> (forall i, (i < n)%nat -> i <> k -> f i = 0) -> Sum n f = f k.
Proof.
  induction n as [|n IH]; intros K E; [lia|]. cbn. destruct (Nat.eq_dec k n) as [->|D].
  - rewrite Sum_zero by (intros; apply E; lia). lra.
  - rewrite IH by (lia || intros; apply E; lia). rewrite (E n) by lia. lra.
Qed.
Lemma Sum_nonneg n f : (forall i, (i < n)%nat -> 0 <= f i) -> 0 <= Sum n f.
Proof. induction n as [|n IH]; intros E; cbn; [lra|]. specialize (IH ltac:(intros; apply E; lia)). specialize (E n ltac:(lia)). lra. Qed.
Lemma Sum_ge n f k : (k < n)%nat -> (forall i, (i < n)%nat -> 0 <= f i) -> f k <= Sum n f.
Proof.
  induction n as [|n IH]; intros K E; [lia|]. cbn. destruct (Nat.eq_dec k n) as [->|D].
  - pose proof (Sum_nonneg n f ltac:(intros; apply E; lia)). lra.
  - specialize (IH ltac:(lia) ltac:(intros; apply E; lia)). specialize (E n ltac:(lia)). lra.
Qed.
Definition rsum (l : list R) : R := fold_right Rplus 0 l.
Lemma rsum_app l l' : rsum (l ++ l') = rsum l + rsum l'.
Proof. unfold rsum. induction l as [|x l IH]; cbn; [lra|]. rewrite IH. lra. Qed.
Lemma rsum_seq n (f : nat -> R) : rsum (map f (seq 0 n)) = Sum n f.
Proof. induction n as [|n IH]; [reflexivity|]. rewrite seq_S, map_app, rsum_app, IH. cbn. lra. Qed.
Lemma rsum_seq_from n i (f : nat -> R) : (i <= n)%nat -> rsum (map f (seq i (n - i))) = Sum n (fun j => pick (Nat.leb i j) (f j)).
Proof.
  intros L. assert (E : seq 0 n = seq 0 i ++ seq i (n - i)) by (replace n with (i + (n - i))%nat at 1 by lia; apply seq_app).
  rewrite <- rsum_seq, E, map_app, rsum_app.
  assert (Z : rsum (map (fun j => pick (Nat.leb i j) (f j)) (seq 0 i)) = 0). { rewrite rsum_seq. apply Sum_zero. intros j J. destruct (Nat.leb_spec i j); [lia|reflexivity]. }
  rewrite Z, Rplus_0_l. f_equal. apply map_ext_in. intros j J. apply in_seq in J. destruct (Nat.leb_spec i j); [reflexivity|lia].
Qed.

Lemma list_ext {A} (a b : list A) : (forall c, nth_error a c = nth_error b c) -> a = b.
Proof. revert b. induction a as [|x a IH]; intros [|y b] E; [reflexivity|specialize (E O); discriminate|specialize (E O); discriminate|]. pose proof (E O) as E0. injection E0 as ->. f_equal. apply IH. intros c. exact (E (S c)). Qed.

(** ** Sparse matrices *)
Lemma csr_app val a b i j : csr val (a ++ b) i j = csr val a i j + csr val b i j.
Proof. unfold csr. rewrite filter_app, map_app. apply rsum_app. Qed.
Lemma csr_concat val ls i j : csr val (concat ls) i j = rsum (map (fun l => csr val l i j) ls).
Proof. induction ls as [|l ls IH]; [reflexivity|]. cbn [concat map rsum fold_right]. rewrite csr_app, IH. reflexivity. Qed.
Lemma csr_one val t i j : csr val [t] i j = pick (andb (Z.eqb (t_row t) i) (Z.eqb (t_col t) j)) (val t).
Proof. unfold csr, pick. cbn. destruct (andb _ _); cbn; lra. Qed.

(** Sum over the upper triangle with both orders is the full sum *)
Lemma triangle n (f : nat -> nat -> R) : Sum n (fun i => Sum n (fun j => pick (Nat.leb i j) (f i j + pick (Nat.ltb i j) (f j i)))) = Sum n (fun i => Sum n (fun j => f i j)).
Proof.
  rewrite (Sum_ext n _ (fun i => Sum n (fun j => pick (Nat.leb i j) (f i j)) + Sum n (fun j => pick (Nat.ltb i j) (f j i)))).
  2:{ intros i _. rewrite <- Sum_plus. apply Sum_ext. intros j _. unfold pick. destruct (Nat.leb_spec i j), (Nat.ltb_spec i j); try lia; lra. }
  rewrite Sum_plus. rewrite (Sum_swap n n (fun i j => pick (Nat.ltb i j) (f j i))), <- Sum_plus. apply Sum_ext. intros i _. rewrite <- Sum_plus. apply Sum_ext. intros j _. unfold pick. destruct (Nat.leb_spec i j), (Nat.ltb_spec j i); try lia; lra.
Qed.

(** ** Assembly *)
Lemma map_res_all {A B} (f : A -> res B) (g : A -> B) l : (forall x, In x l -> f x = Ok (g x)) -> map_res f l = Ok (map g l).
Proof. induction l as [|x l IH]; intros E; [reflexivity|]. cbn. rewrite E by (left; reflexivity). cbn. rewrite IH by (intros; apply E; right; assumption). reflexivity. Qed.
Lemma fold_res_snoc {A B} (f : A -> B -> res A) l x a : fold_res f (l ++ [x]) a = do a <- fold_res f l a; f a x.
Proof. revert a. induction l as [|y l IH]; intros a; cbn; [destruct (f a x); reflexivity|]. destruct (f a y); [apply IH|reflexivity]. Qed.
Lemma map_res_map {A B C} (f : B -> res C) (g : A -> B) l : map_res f (map g l) = map_res (fun x => f (g x)) l.
Proof. induction l as [|x l IH]; [reflexivity|]. cbn. rewrite IH. reflexivity. Qed.

Definition znth (l : list Z) (i : nat) : Z := nth i l 0%Z.

Section S.
Context {Fn : Type}.
Variable H : heap.
Variable basis : nat -> res (list (gkey * Fn)).
Variables (h1 l2 : nat -> nat -> nat -> R) (load : nat -> nat -> R).
Variables (D Rc : R).

Definition pair_entries (c : nat) (gs : list Z) (i j : nat) : list entry :=
  let h := h1 c i j in let l := l2 c i j in let a := D * h + Rc * l in
  Entry (znth gs i) (znth gs j) a h l :: if Nat.ltb i j then [Entry (znth gs j) (znth gs i) a h l] else [].
Definition row_entries (c : nat) (gs : list Z) (i : nat) : list entry := concat (map (pair_entries c gs i) (seq i (List.length gs - i))).
Definition cell_entries (c : nat) (gs : list Z) : list entry := concat (map (row_entries c gs) (seq 0 (List.length gs))).
Definition cell_rhs (c : nat) (gs : list Z) : list (Z * R) := map (fun i => (znth gs i, load c i)) (seq 0 (List.length gs)).

Lemma cell_csr (val : entry -> R) (V : nat -> nat -> R) c gs : (forall gi gj i j, val (Entry gi gj (D * h1 c i j + Rc * l2 c i j) (h1 c i j) (l2 c i j)) = V i j) ->
  forall I J, csr val (cell_entries c gs) I J = Sum (List.length gs) (fun a => Sum (List.length gs) (fun b => pick (andb (is_at gs a I) (is_at gs b J)) (V (Nat.min a b) (Nat.max a b)))).
Proof.
  intros EV I J. set (f := fun a b => pick (andb (is_at gs a I) (is_at gs b J)) (V (Nat.min a b) (Nat.max a b))).
  rewrite <- (triangle _ f). unfold cell_entries. rewrite csr_concat, map_map, rsum_seq. apply Sum_ext. intros i Li. unfold row_entries. rewrite csr_concat, map_map.
  rewrite (rsum_seq_from (List.length gs) i (fun j => csr val (pair_entries c gs i j) I J)) by lia. apply Sum_ext. intros j Lj. destruct (Nat.leb_spec i j) as [L|L]; [|reflexivity]. cbn [pick].
  assert (At : forall a K, (a < List.length gs)%nat -> is_at gs a K = Z.eqb (znth gs a) K). { intros a K La. unfold is_at, znth. rewrite (nth_error_nth' gs 0%Z La). reflexivity. }
  unfold pair_entries. change (?x :: ?l) with ([x] ++ l). rewrite csr_app, csr_one. cbn [t_row t_col]. rewrite EV. unfold f. rewrite !At by lia. rewrite Nat.min_l, Nat.max_r by lia. f_equal. destruct (Nat.ltb_spec i j); cbn [pick].
  - rewrite csr_one, EV. cbn [t_row t_col]. rewrite Nat.min_r, Nat.max_l by lia. reflexivity.
  - reflexivity.
Qed.

Lemma row_values_ok c ks gs : List.length ks = List.length gs -> (forall a k, nth_error ks a = Some k -> g_glob k = Some (znth gs a)) -> forall i, (i < List.length gs)%nat ->
  row_values h1 l2 load D Rc c ks i = Ok ((znth gs i, load c i), row_entries c gs i).
Proof.
  intros L G i Li. assert (K : forall a, (a < List.length gs)%nat -> exists k, geti ks a = Ok k /\ glob k = Ok (znth gs a)). { intros a La. unfold geti. destruct (nth_error ks a) as [k|] eqn:E; [|apply nth_error_None in E; lia]. exists k. split; [reflexivity|]. unfold glob. rewrite (G _ _ E). reflexivity. }
  unfold row_values. destruct (K i Li) as (v & Ev & Gv). rewrite Ev. cbn [bind]. rewrite Gv. cbn [bind]. rewrite (map_res_all _ (pair_entries c gs i)); [rewrite L; reflexivity|].
  intros j Ij. apply in_seq in Ij. destruct (K j ltac:(lia)) as (w & Ew & Gw). rewrite Ew. cbn [bind]. unfold matrix_values. rewrite Gv. cbn [bind]. rewrite Gw. reflexivity.
Qed.

(** The global indices of the functions of a cell *)
Definition local_indices (p : gspace) (c : nat) : res (list Z) := do kf <- basis c; map_res (fun k => get_global_idx p (fst k) (Z.of_nat c)) kf.
Definition indices (p : gspace) (c : nat) : list Z := match local_indices p c with Ok l => l | Err _ => [] end.
(** The keys of a cell with their numbers and boundary marks *)
Definition local_keys (p : gspace) (c : nat) : res (list gkey) := do kf <- basis c; map_res (number_key H p (Z.of_nat c)) (map fst kf).
Definition lkeys (p : gspace) (c : nat) : list gkey := match local_keys p c with Ok l => l | Err _ => [] end.

Lemma local_keys_indices p c ks : local_keys p c = Ok ks -> exists gs, local_indices p c = Ok gs /\ List.length ks = List.length gs /\ forall a k, nth_error ks a = Some k -> g_glob k = Some (znth gs a) /\ exists b, g_bdry k = Some b.
Proof.
  unfold local_keys, local_indices. destruct (basis c) as [kf|]; [|discriminate]. cbn [bind]. rewrite map_res_map. revert ks. induction kf as [|[k f] kf IH]; intros ks E.
  - cbn in E. apply Ok_inj in E. subst ks. exists []. split; [reflexivity|]. split; [reflexivity|]. intros [|a] q Q; discriminate.
  - cbn [map_res fst] in *. destruct (number_key H p (Z.of_nat c) k) as [k'|] eqn:N; [|discriminate]. cbn [bind] in E. destruct (map_res _ kf) as [ks'|] eqn:M; [|discriminate]. cbn [bind] in E. apply Ok_inj in E. subst ks.
    destruct (IH ks' eq_refl) as (gs & Eg & L & A). unfold number_key in N. destruct (get_global_idx p k (Z.of_nat c)) as [g|]; [|discriminate]. cbn [bind] in *. rewrite Eg. cbn [bind]. exists (g :: gs). split; [reflexivity|]. split; [cbn; lia|]. intros [|a] q Q; [|exact (A a q Q)]. cbn in Q. injection Q as <-. unfold set_glob_idx in N. destruct (Z.ltb g 0); [discriminate|]. cbn [bind] in N. destruct (fun_is_on_boundary _ _ _) as [b|]; [|discriminate]. cbn [bind] in N. apply Ok_inj in N. subst k'. cbn. eauto.
Qed.

Lemma with_dofs_id p : with_dofs p (p_dofs p) = p.
Proof. destruct p; reflexivity. Qed.

Lemma assembly_inv m p (interior : bool) : increasing (m_cells m) -> p_mesh p = m -> forall n w, (n <= List.length (m_cells m))%nat -> List.length (p_dofs p) = List.length (m_cells m) ->
  fold_res (cell_step H basis h1 l2 load D Rc interior) (seq 0 n) (Work p [] [] (repeat None (List.length (m_cells m)))) = Ok w ->
  (forall c, (c < n)%nat -> exists ks kf, local_keys p c = Ok ks /\ basis c = Ok kf /\ List.length kf = List.length ks) /\
  (exists l, w_space w = with_dofs p l /\ List.length l = List.length (m_cells m) /\ forall c, nth_error l c = if Nat.ltb c n then option_map (fun l0 => l0 ++ lkeys p c) (nth_error (p_dofs p) c) else nth_error (p_dofs p) c) /\
  w_entries w = concat (map (fun c => cell_entries c (indices p c)) (seq 0 n)) /\
  w_rhs w = concat (map (fun c => cell_rhs c (indices p c)) (seq 0 n)) /\
  List.length (w_local w) = List.length (m_cells m) /\ forall c, (c < List.length (m_cells m))%nat -> nth_error (w_local w) c = Some (if andb interior (Nat.ltb c n) then option_map (map snd) (match basis c with Ok kf => Some kf | Err _ => None end) else None).
Proof.
  intros Inc Pm n. induction n as [|n IH]; intros w Ln Ld E.
  - cbn in E. apply Ok_inj in E. subst w. cbn. split; [intros; lia|]. split; [exists (p_dofs p); split; [symmetry; apply with_dofs_id|]; split; [exact Ld|reflexivity]|]. split; [reflexivity|]. split; [reflexivity|]. split; [apply repeat_length|]. intros c Lc. rewrite andb_false_r. apply nth_error_repeat, Lc.
  - rewrite seq_S, fold_res_snoc in E. cbn [plus] in E. destruct (fold_res _ (seq 0 n) _) as [w0|] eqn:E0; [|discriminate]. cbn [bind] in E. destruct (IH w0 ltac:(lia) Ld eq_refl) as (A & (l & Sp & Ll & Nl) & En & Rh & Lloc & Loc). clear IH E0.
    unfold cell_step in E. rewrite Sp in E. cbn [with_dofs p_mesh] in E. rewrite Pm in E. unfold geti in E. destruct (nth_error (m_cells m) n) as [z|] eqn:Ez; [|discriminate]. cbn [bind] in E. unfold get_abs_cell_idx in E. rewrite (index_of_nth _ (increasing_nodup _ Inc) _ _ Ez) in E. cbn [bind] in E. rewrite Z.add_0_l, Nat2Z.id in E.
    destruct (basis n) as [kf|] eqn:Eb; [|discriminate]. cbn [bind] in E. unfold register in E.
    change (map_res (number_key H (with_dofs p l) (Z.of_nat n)) (map fst kf)) with (map_res (number_key H p (Z.of_nat n)) (map fst kf)) in E.
    destruct (map_res (number_key H p (Z.of_nat n)) (map fst kf)) as [ks|] eqn:Ek; [|discriminate]. cbn [bind with_dofs p_dofs] in E. destruct (nth_error l n) as [l0|] eqn:El; [|apply nth_error_None in El; lia]. cbn [bind fst snd] in E.
    assert (LK : local_keys p n = Ok ks) by (unfold local_keys; rewrite Eb; exact Ek). assert (Lk : List.length kf = List.length ks) by (rewrite (map_res_length _ _ _ Ek), map_length; reflexivity).
    destruct (local_keys_indices _ _ _ LK) as (gs & Eg & Lg & Ag). assert (Ig : indices p n = gs) by (unfold indices; rewrite Eg; reflexivity).
    rewrite (map_res_all _ (fun i => ((znth gs i, load n i), row_entries n gs i))) in E. 2:{ intros i Ii. apply in_seq in Ii. apply row_values_ok; [exact Lg|intros a k Q; apply (Ag a k Q)|lia]. }
    cbn [bind] in E. apply Ok_inj in E. subst w. cbn [w_space w_entries w_rhs w_local]. rewrite Lk, Lg. rewrite !map_map. cbn [fst snd].
    split; [|split; [|split; [|split; [|split]]]].
    + intros c Lc. destruct (Nat.eq_dec c n) as [->|Dc]; [exists ks, kf; auto|]. apply A. lia.
    + exists (hset l n (l0 ++ ks)). split; [reflexivity|]. assert (Ln' : (n < List.length l)%nat) by lia. split.
      { rewrite hset_length by exact Ln'. exact Ll. }
      intros c. destruct (Nat.eq_dec c n) as [->|Dc].
      * rewrite hset_same by exact Ln'. destruct (Nat.ltb_spec n (S n)); [|lia]. specialize (Nl n). rewrite El in Nl. destruct (Nat.ltb_spec n n); [lia|]. rewrite <- Nl. cbn. unfold lkeys. rewrite LK. reflexivity.
      * rewrite hset_other by (exact Ln' || congruence). rewrite Nl. destruct (Nat.ltb_spec c n), (Nat.ltb_spec c (S n)); try lia; reflexivity.
    + rewrite seq_S, map_app, concat_app. cbn [plus map concat]. rewrite app_nil_r, Ig, En. reflexivity.
    + rewrite seq_S, map_app, concat_app. cbn [plus map concat]. rewrite app_nil_r, Ig, Rh. reflexivity.
    + destruct interior; [|exact Lloc]. rewrite hset_length by lia. exact Lloc.
    + intros c Lc. destruct interior; cbn [andb] in *; [|apply Loc, Lc]. destruct (Nat.eq_dec c n) as [->|Dc].
      * rewrite hset_same by lia. destruct (Nat.ltb_spec n (S n)); [|lia]. rewrite Eb. reflexivity.
      * rewrite hset_other by (lia || congruence). rewrite Loc by exact Lc. destruct (Nat.ltb_spec c n), (Nat.ltb_spec c (S n)); try lia; reflexivity.
Qed.

(** ** Boundary conditions *)
Definition zmem (z : Z) (l : list Z) : bool := existsb (Z.eqb z) l.
Definition bc_entry (L : list Z) (t : entry) : entry := if zmem (t_row t) L then Entry (t_row t) (t_col t) (if Z.eqb (t_col t) (t_row t) then 1 else 0) (t_stiff t) (t_mass t) else t.
Definition bc_rhs (L : list Z) (t : Z * R) : Z * R := if zmem (fst t) L then (fst t, 0) else t.
Definition bnd_globs (ks : list gkey) : list Z := concat (map (fun k => match g_bdry k, g_glob k with Some true, Some g => [g] | _, _ => [] end) ks).
Lemma impose_all ks : forall es rhs r, fold_res impose_key ks (es, rhs) = Ok r -> r = (map (bc_entry (bnd_globs ks)) es, map (bc_rhs (bnd_globs ks)) rhs).
Proof.
  induction ks as [|k ks IH]; intros es rhs r E.
  - cbn in E. apply Ok_inj in E. subst r. f_equal; [rewrite <- (map_id es) at 1|rewrite <- (map_id rhs) at 1]; reflexivity.
  - cbn [fold_res] in E. unfold impose_key at 1, on_boundary in E. destruct (g_bdry k) as [[|]|] eqn:B; [| |discriminate]; cbn [bind] in E.
    + unfold glob in E. destruct (g_glob k) as [g|] eqn:G; [|discriminate]. cbn [bind fst snd] in E. apply IH in E. subst r. unfold bnd_globs. cbn [map concat]. rewrite B, G. fold (bnd_globs ks). cbn [app]. unfold zero_mat_row, set_rhs_from_key. rewrite !map_map. f_equal; apply map_ext.
      * intros t. unfold bc_entry, zmem. cbn [existsb]. destruct (Z.eqb_spec (t_row t) g) as [Q|Q]; cbn [t_row t_col t_mat t_stiff t_mass orb]; [|reflexivity]. rewrite <- Q. destruct (existsb _ (bnd_globs ks)); reflexivity.
      * intros t. unfold bc_rhs, zmem. cbn [existsb]. destruct (Z.eqb_spec (fst t) g) as [Q|Q]; cbn [fst orb]; [|reflexivity]. destruct (existsb _ (bnd_globs ks)); reflexivity.
    + apply IH in E. subst r. unfold bnd_globs. cbn [map concat]. rewrite B. reflexivity.
Qed.
Lemma csr_map val f es i j : (forall t, t_row (f t) = t_row t /\ t_col (f t) = t_col t) -> (forall t, t_row t = i -> val (f t) = val t) -> csr val (map f es) i j = csr val es i j.
Proof.
  intros K V. unfold csr. induction es as [|t es IH]; [reflexivity|]. cbn [map filter]. destruct (K t) as [-> ->]. destruct (Z.eqb_spec (t_row t) i) as [E|]; cbn [andb]; [|exact IH]. destruct (Z.eqb (t_col t) j); [|exact IH]. cbn [map fold_right]. rewrite (V t E). f_equal. exact IH.
Qed.
Lemma bc_entry_pos L t : t_row (bc_entry L t) = t_row t /\ t_col (bc_entry L t) = t_col t.
Proof. unfold bc_entry. destruct (zmem _ _); split; reflexivity. Qed.
Lemma bc_stiff L es i j : csr t_stiff (map (bc_entry L) es) i j = csr t_stiff es i j.
Proof. apply csr_map; [apply bc_entry_pos|]. intros t _. unfold bc_entry. destruct (zmem _ _); reflexivity. Qed.
Lemma bc_mass L es i j : csr t_mass (map (bc_entry L) es) i j = csr t_mass es i j.
Proof. apply csr_map; [apply bc_entry_pos|]. intros t _. unfold bc_entry. destruct (zmem _ _); reflexivity. Qed.
Lemma bc_mat_free L es i j : ~ In i L -> csr t_mat (map (bc_entry L) es) i j = csr t_mat es i j.
Proof. intros N. apply csr_map; [apply bc_entry_pos|]. intros t E. unfold bc_entry. destruct (zmem (t_row t) L) eqn:M; [|reflexivity]. exfalso. apply N. unfold zmem in M. apply existsb_exists in M. destruct M as (x & Ix & Ex). apply Z.eqb_eq in Ex. congruence. Qed.
Lemma zmem_in z L : In z L -> zmem z L = true.
Proof. intros I. apply existsb_exists. exists z. split; [exact I|apply Z.eqb_refl]. Qed.
Lemma bc_mat_bound L es i j : In i L -> csr t_mat (map (bc_entry L) es) i j = if Z.eqb i j then csr (fun _ => 1) es i j else 0.
Proof.
  intros I. unfold csr. induction es as [|t es IH]; [destruct (Z.eqb i j); reflexivity|]. cbn [map filter]. destruct (bc_entry_pos L t) as [-> ->]. destruct (Z.eqb_spec (t_row t) i) as [E|]; cbn [andb]; [|exact IH]. destruct (Z.eqb_spec (t_col t) j) as [E'|]; [|exact IH]. cbn [map fold_right]. rewrite IH.
  unfold bc_entry. rewrite E, (zmem_in _ _ I). cbn [t_mat]. destruct (Z.eqb_spec i j), (Z.eqb_spec (t_col t) i); try congruence; lra.
Qed.

(** ** The whole solver *)
Definition rhs_at (l : list (Z * R)) (i : Z) : R := rsum (map snd (filter (fun t : Z * R => Z.eqb (fst t) i) l)).
Lemma rhs_at_app a b i : rhs_at (a ++ b) i = rhs_at a i + rhs_at b i.
Proof. unfold rhs_at. rewrite filter_app, map_app. apply rsum_app. Qed.
Lemma rhs_at_concat ls i : rhs_at (concat ls) i = rsum (map (fun l => rhs_at l i) ls).
Proof. induction ls as [|l ls IH]; [reflexivity|]. cbn [concat map rsum fold_right]. rewrite rhs_at_app, IH. reflexivity. Qed.
Lemma rhs_bc_free L l i : ~ In i L -> rhs_at (map (bc_rhs L) l) i = rhs_at l i.
Proof.
  intros N. unfold rhs_at. induction l as [|t l IH]; [reflexivity|]. cbn [map filter]. assert (F : fst (bc_rhs L t) = fst t) by (unfold bc_rhs; destruct (zmem _ _); reflexivity). rewrite F. destruct (Z.eqb_spec (fst t) i) as [E|]; [|exact IH]. cbn [map]. unfold rsum in *. cbn [fold_right]. rewrite IH. f_equal. unfold bc_rhs. destruct (zmem (fst t) L) eqn:M; [|reflexivity]. exfalso. apply N. apply existsb_exists in M. destruct M as (x & Ix & Ex). apply Z.eqb_eq in Ex. congruence.
Qed.
Lemma rhs_bc_bound L l i : In i L -> rhs_at (map (bc_rhs L) l) i = 0.
Proof.
  intros I. unfold rhs_at. induction l as [|t l IH]; [reflexivity|]. cbn [map filter]. assert (F : fst (bc_rhs L t) = fst t) by (unfold bc_rhs; destruct (zmem _ _); reflexivity). rewrite F. destruct (Z.eqb_spec (fst t) i) as [E|]; [|exact IH]. cbn [map]. unfold rsum in *. cbn [fold_right]. rewrite IH. unfold bc_rhs. rewrite E, (zmem_in _ _ I). cbn. lra.
Qed.
Lemma cell_rhs_at c gs i : rhs_at (cell_rhs c gs) i = Sum (List.length gs) (fun a => pick (is_at gs a i) (load c a)).
Proof.
  unfold cell_rhs. rewrite <- rsum_seq. assert (X : forall l, (forall a, In a l -> (a < List.length gs)%nat) -> rhs_at (map (fun i0 => (znth gs i0, load c i0)) l) i = rsum (map (fun a => pick (is_at gs a i) (load c a)) l)).
  { induction l as [|a l IH]; intros B; [reflexivity|]. cbn [map]. change (?x :: ?l) with ([x] ++ l) at 1. rewrite rhs_at_app, IH by (intros; apply B; right; assumption). unfold rsum. cbn [fold_right]. f_equal. unfold rhs_at. cbn. unfold is_at, znth. rewrite (nth_error_nth' gs 0%Z (B a (or_introl eq_refl))). destruct (Z.eqb _ _); cbn; lra. }
  apply X. intros a I. apply in_seq in I. lia.
Qed.

Definition num_cells (p : gspace) : nat := List.length (m_cells (p_mesh p)).
Lemma mk_solver_ok p (interior : bool) v : increasing (m_cells (p_mesh p)) -> m_ncells (p_mesh p) = Z.of_nat (num_cells p) -> List.length (p_dofs p) = num_cells p ->
  mk_solver H basis h1 l2 load D Rc p interior = Ok v ->
  let n := num_cells p in
  (forall c, (c < n)%nat -> exists ks kf, local_keys p c = Ok ks /\ basis c = Ok kf /\ List.length kf = List.length ks) /\
  (exists l, v_space v = with_dofs p l /\ List.length l = n /\ forall c, (c < n)%nat -> exists l0, nth_error (p_dofs p) c = Some l0 /\ nth_error l c = Some (l0 ++ lkeys p c)) /\
  (exists L, L = bnd_globs (concat (p_dofs (v_space v))) /\
    v_entries v = map (bc_entry L) (concat (map (fun c => cell_entries c (indices p c)) (seq 0 n))) /\
    v_rhs v = map (bc_rhs L) (concat (map (fun c => cell_rhs c (indices p c)) (seq 0 n)))) /\
  v_num v = p_num p /\ v_soln v = None /\
  List.length (v_local v) = n /\ (forall c, (c < n)%nat -> nth_error (v_local v) c = Some (if interior then option_map (map snd) (match basis c with Ok kf => Some kf | Err _ => None end) else None)).
Proof.
  intros Inc Nc Ld E n. unfold mk_solver in E. rewrite Nc, Nat2Z.id in E. destruct (fold_res _ _ _) as [w|] eqn:F; [|discriminate]. cbn [bind] in E.
  destruct (assembly_inv _ p interior Inc eq_refl n w (le_n _) Ld F) as (A & (l & Sp & Ll & Nl) & En & Rh & Lloc & Loc).
  unfold impose_bc in E. destruct (map_res (geti (p_dofs (w_space w))) _) as [ls|] eqn:G; [|discriminate]. cbn [bind] in E.
  assert (Els : ls = l). { assert (G' : map_res (geti l) (seq 0 n) = Ok ls) by (rewrite <- G, Sp; cbn [with_dofs p_mesh p_dofs]; rewrite Nc, Nat2Z.id; reflexivity). clear G; rename G' into G. assert (Ln : List.length l = n) by exact Ll. apply list_ext. intros c. pose proof (map_res_length _ _ _ G) as Lg. rewrite seq_length in Lg. destruct (Nat.lt_ge_cases c n) as [Lc|Lc].
    - destruct (map_res_nth _ _ _ G c c) as (y & Ey & Ey'); [rewrite (nth_error_nth' _ O) by (rewrite seq_length; exact Lc); rewrite seq_nth by exact Lc; reflexivity|]. rewrite Ey'. unfold geti in Ey. destruct (nth_error l c); [apply Ok_inj in Ey; congruence|discriminate].
    - rewrite (proj2 (nth_error_None ls c)), (proj2 (nth_error_None l c)) by lia. reflexivity. }
  destruct (fold_res impose_key _ _) as [[es rhs]|] eqn:I; [|discriminate]. cbn [bind fst snd] in E. destruct (check_indices _ (map fst rhs)); [|discriminate]. cbn [bind] in E. destruct (check_indices _ (map t_row es)); [|discriminate]. cbn [bind] in E. destruct (check_indices _ (map t_col es)); [|discriminate]. cbn [bind] in E. apply Ok_inj in E. subst v. cbn [v_space v_entries v_rhs v_num v_soln v_local].
  apply impose_all in I. injection I as -> ->. rewrite En, Rh. rewrite Els.
  split; [exact A|]. split.
  { exists l. split; [exact Sp|]. split; [exact Ll|]. intros c Lc. specialize (Nl c). destruct (Nat.ltb_spec c n); [|lia]. destruct (nth_error (p_dofs p) c) as [l0|] eqn:Q; [|apply nth_error_None in Q; unfold n in *; lia]. exists l0. split; [reflexivity|exact Nl]. }
  split; [exists (bnd_globs (concat l)); rewrite Sp; split; [reflexivity|split; reflexivity]|]. split; [rewrite Sp; reflexivity|]. split; [reflexivity|]. split; [exact Lloc|].
  intros c Lc. rewrite Loc by exact Lc. destruct (Nat.ltb_spec c n); [|lia]. rewrite andb_true_r. reflexivity.
Qed.
End S.
