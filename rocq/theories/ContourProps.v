(** Cells: C37 (sample indexing), C38 (closest vertices), C43 (shared edges). *)
From Coq Require Import List ZArith Reals Lia Lra Bool Permutation String.
From Verif Require Import PyBase PolyModel BaryModel BBoxModel QuadModel CurveModel VertModel EdgeModel EdgeSpec ContourModel CellModel CellSpec CellProofs CellProps ContourProofs ContourProofs2 ContourProofs3 InteriorProofs ContourProofs4 EdgeProps4.
Import List ListNotations.
Open Scope R_scope.

(** ** Positions in running sums *)

Lemma block_exists ns : Forall (fun n => (0 <= n)%Z) ns -> forall x, (0 <= x < total ns)%Z -> exists i m n, nth_error ns i = Some n /\ (0 <= m < n)%Z /\ x = (total (firstn i ns) + m)%Z.
Proof.
  induction 1 as [|n ns Hn F IH]; intros x Hx; [cbn in Hx; lia|]. change (total (n :: ns)) with (n + total ns)%Z in Hx. destruct (Z.lt_ge_cases x n) as [L|L].
  - exists O, x, n. split; [reflexivity|]. split; [lia|]. reflexivity.
  - destruct (IH (x - n)%Z ltac:(lia)) as (i & m & n' & A & B & C). exists (S i), m, n'. split; [exact A|]. split; [lia|]. cbn [firstn]. change (total (n :: firstn i ns)) with (n + total (firstn i ns))%Z. lia.
Qed.
Lemma total_mono ns i n : Forall (fun n => (0 <= n)%Z) ns -> nth_error ns i = Some n -> forall j, (i < j)%nat -> (total (firstn i ns) + n <= total (firstn j ns))%Z.
Proof.
  intros F. revert i. induction F as [|n0 ns Hn F IH]; intros [|i] E [|j] L; try lia; try discriminate.
  - injection E as ->. cbn [firstn]. change (total (n :: firstn j ns)) with (n + total (firstn j ns))%Z. assert (0 <= total (firstn j ns))%Z; [|cbn; lia]. apply total_nonneg. apply Forall_forall. intros x Hx. rewrite Forall_forall in F. apply F. rewrite <- (firstn_skipn j ns). apply in_or_app. left. exact Hx.
  - cbn [firstn]. change (total (n0 :: firstn i ns)) with (n0 + total (firstn i ns))%Z. change (total (n0 :: firstn j ns)) with (n0 + total (firstn j ns))%Z. specialize (IH i E j ltac:(lia)). lia.
Qed.
Lemma block_unique ns i i' m m' n n' : Forall (fun n => (0 <= n)%Z) ns -> nth_error ns i = Some n -> nth_error ns i' = Some n' -> (0 <= m < n)%Z -> (0 <= m' < n')%Z -> (total (firstn i ns) + m = total (firstn i' ns) + m')%Z -> i = i' /\ m = m'.
Proof.
  intros F E E' M M' X. destruct (lt_eq_lt_dec i i') as [[L|E0]|L].
  - pose proof (total_mono ns i n F E i' L). lia.
  - subst i'. split; [reflexivity|lia].
  - pose proof (total_mono ns i' n' F E' i L). lia.
Qed.
Lemma concat_nth {A} nums (vs : list (list A)) i m v : Forall2 (fun n v => Z.of_nat (List.length v) = n) nums vs -> nth_error vs i = Some v -> (m < List.length v)%nat -> nth_error (concat vs) (Z.to_nat (total (firstn i nums)) + m) = nth_error v m.
Proof.
  intros F E L. rewrite (nums_off nums vs F), Nat2Z.id, (concat_split vs i v E). rewrite nth_error_app2 by lia. replace (_ + m - _)%nat with m by lia. apply nth_error_app1, L.
Qed.
Lemma offset_at ns i : (i <= List.length ns)%nat -> nth_error (offsets ns) i = Some (total (firstn i ns)).
Proof. intros L. unfold offsets. rewrite offsets_nth by exact L. reflexivity. Qed.
Lemma total_bound ns i n : Forall (fun n => (0 <= n)%Z) ns -> nth_error ns i = Some n -> (0 <= total (firstn i ns) /\ total (firstn i ns) + n <= total ns)%Z.
Proof.
  intros F E. split.
  - apply total_nonneg. apply Forall_forall. intros x Hx. rewrite Forall_forall in F. apply F. rewrite <- (firstn_skipn i ns). apply in_or_app. left. exact Hx.
  - pose proof (total_mono ns i n F E (List.length ns)) as X. rewrite firstn_all in X. apply X. apply nth_error_Some. congruence.
Qed.

(** ** C37 *)

(** Index [x] of the arrays of cell [c] stands for sample number [m] of edge object [id], which is
    edge [j] of component [i]. The tables of the cell say where each component and edge starts. *)
Definition stands_for (H : heap) (c : cell) (x : Z) (ijm : nat * nat * Z) (id : nat) : Prop :=
  let '(i, j, m) := ijm in
  exists k e start a b, nth_error (c_comps c) i = Some k /\ nth_error (k_edges k) j = Some id /\ nth_error H id = Some e /\
    c_start c = Some start /\ nth_error start i = Some a /\ nth_error (k_vidx k) j = Some b /\ (0 <= m < e_npts e - 1)%Z /\ x = (a + b + m)%Z.
(** Sample number [m] of edge object [id] *)
Definition sample_of (H : heap) (id : nat) (m : Z) (s : sample) : Prop := exists e, nth_error H id = Some e /\ nth_error (e_smp e) (Z.to_nat m) = Some s.

Lemma fresh_nums H k es : fresh H k es -> Forall (fun n => (0 <= n)%Z) (map open_num es).
Proof. intros (_ & W & _). apply Forall_map. eapply Forall_impl; [|exact W]. intros e We. pose proof (open_pos e We). lia. Qed.
Lemma cell_nums H c ess : cell_fresh H c ess -> Forall (fun n => (0 <= n)%Z) (map csize ess).
Proof. intros (F & _). apply Forall_map. eapply Forall_impl; [|eapply fresh_all, F]. intros es. apply csize_nonneg. Qed.

Lemma stands_located H c ess x i j m id : cell_fresh H c ess -> stands_for H c x (i, j, m) id ->
  exists es e, nth_error ess i = Some es /\ nth_error es j = Some e /\ nth_error H id = Some e /\ (0 <= m < open_num e)%Z /\ x = (total (firstn i (map csize ess)) + (total (firstn j (map open_num es)) + m))%Z.
Proof.
  intros (F & _ & _ & ES) (k & e & start & a & b & Ek & Ej & Ee & E1 & E2 & E3 & M & ->). pose proof (Forall2_len _ _ _ F) as L. assert (Li : (i < List.length (c_comps c))%nat) by (apply nth_error_Some; congruence).
  destruct (nth_error ess i) as [es|] eqn:Es; [|apply nth_error_None in Es; lia]. pose proof (Forall2_nth _ _ _ F _ _ _ Ek Es) as (R & W & _ & V). pose proof (Forall2_len _ _ _ R) as L'. assert (Lj : (j < List.length (k_edges k))%nat) by (apply nth_error_Some; congruence).
  destruct (nth_error es j) as [e'|] eqn:Ee'; [|apply nth_error_None in Ee'; lia]. pose proof (Forall2_nth _ _ _ R _ _ _ Ej Ee') as X. cbn in X. assert (e' = e) by congruence. subst e'. exists es, e. split; [reflexivity|]. split; [exact Ee'|]. split; [exact Ee|]. split; [exact M|].
  assert (start = offsets (map csize ess)) by congruence. subst start. rewrite offset_at in E2 by (rewrite map_length; lia). rewrite V, offset_at in E3 by (rewrite map_length; lia). injection E2 as <-. injection E3 as <-. lia.
Qed.

Lemma located_smp H c ess x i j m id : cell_fresh H c ess -> stands_for H c x (i, j, m) id -> exists s, sample_of H id m s /\ nth_error (cell_smp ess) (Z.to_nat x) = Some s.
Proof.
  intros F S. destruct (stands_located _ _ _ _ _ _ _ _ F S) as (es & e & Es & Ee & EH & M & ->). pose proof (fresh_all _ _ _ (proj1 F)) as W. assert (We : Forall well_sampled es) by (rewrite Forall_forall in W; apply W; eapply nth_error_In, Es). assert (We1 : well_sampled e) by (rewrite Forall_forall in We; apply We; eapply nth_error_In, Ee).
  pose proof (open_pos e We1) as [O1 O2]. assert (Lm : (Z.to_nat m < List.length (open_smp e))%nat) by lia.
  destruct (nth_error (open_smp e) (Z.to_nat m)) as [s|] eqn:E; [|apply nth_error_None in E; lia]. exists s. split.
  - exists e. split; [exact EH|]. rewrite <- E. rewrite <- (open_firstn e We1). symmetry. apply nth_error_firstn. unfold open_num in *. lia.
  - assert (L1 : Forall2 (fun n v => Z.of_nat (List.length v) = n) (map csize ess) (map contour_smp ess)).
    { clear -W. induction W as [|es ess We W IH]; constructor; [apply contour_smp_length, We|exact IH]. }
    assert (L2 : Forall2 (fun n v => Z.of_nat (List.length v) = n) (map open_num es) (map open_smp es)).
    { clear -We. induction We as [|e es We W IH]; constructor; [apply open_pos, We|exact IH]. }
    assert (N1 := cell_nums _ _ _ F). assert (N2 : Forall (fun n => (0 <= n)%Z) (map open_num es)) by (apply Forall_map; eapply Forall_impl; [|exact We]; intros e0 We0; pose proof (open_pos e0 We0); lia).
    destruct (total_bound (map csize ess) i (csize es) N1) as [B1 _]; [rewrite nth_error_map, Es; reflexivity|]. destruct (total_bound (map open_num es) j (open_num e) N2) as [B2 B2']; [rewrite nth_error_map, Ee; reflexivity|].
    rewrite !Z2Nat.inj_add by lia. unfold cell_smp. rewrite (concat_nth (map csize ess) _ i _ (contour_smp es) L1); [|rewrite nth_error_map, Es; reflexivity|pose proof (contour_smp_length es We); unfold csize in *; lia].
    unfold contour_smp. rewrite (concat_nth (map open_num es) _ j _ (open_smp e) L2); [exact E|rewrite nth_error_map, Ee; reflexivity|exact Lm].
Qed.

(** The index tables partition [0, num_pts): every index stands for exactly one sample. *)
Lemma partition_fresh H c ess : cell_fresh H c ess -> exists N, c_npts c = Some N /\
  (forall x, (0 <= x < N)%Z -> exists! ijm, exists id, stands_for H c x ijm id) /\
  (forall x ijm id, stands_for H c x ijm id -> (0 <= x < N)%Z) /\
  (forall i k id j e m, nth_error (c_comps c) i = Some k -> nth_error (k_edges k) j = Some id -> nth_error H id = Some e -> (0 <= m < e_npts e - 1)%Z -> exists x, stands_for H c x (i, j, m) id).
Proof.
  intros F. pose proof F as (FK & _ & EN & ES). exists (total (map csize ess)). split; [exact EN|]. assert (N1 := cell_nums _ _ _ F). split; [|split].
  - intros x Hx. destruct (block_exists _ N1 x Hx) as (i & y & n & A & B & C). rewrite nth_error_map in A. destruct (nth_error ess i) as [es|] eqn:Es; [|discriminate]. injection A as <-. pose proof (Forall2_len _ _ _ FK) as L. assert (Li : (i < List.length ess)%nat) by (apply nth_error_Some; congruence). destruct (nth_error (c_comps c) i) as [k|] eqn:Ek; [|apply nth_error_None in Ek; lia].
    pose proof (Forall2_nth _ _ _ FK _ _ _ Ek Es) as Fk. destruct (block_exists _ (fresh_nums _ _ _ Fk) y B) as (j & m & n & A2 & B2 & C2). rewrite nth_error_map in A2. destruct (nth_error es j) as [e|] eqn:Ee; [|discriminate]. injection A2 as <-. pose proof Fk as (R & _ & _ & V). pose proof (Forall2_len _ _ _ R) as L'. assert (Lj : (j < List.length es)%nat) by (apply nth_error_Some; congruence). destruct (nth_error (k_edges k) j) as [id|] eqn:Ej; [|apply nth_error_None in Ej; lia].
    exists (i, j, m). split.
    + exists id. exists k, e, (offsets (map csize ess)), (total (firstn i (map csize ess))), (total (firstn j (map open_num es))). split; [exact Ek|]. split; [exact Ej|]. split; [exact (Forall2_nth _ _ _ R _ _ _ Ej Ee)|]. split; [exact ES|]. split; [apply offset_at; rewrite map_length; lia|]. split; [rewrite V; apply offset_at; rewrite map_length; lia|]. split; [exact B2|]. lia.
    + intros [[i' j'] m'] (id' & S'). destruct (stands_located _ _ _ _ _ _ _ _ F S') as (es' & e' & Es' & Ee' & _ & M' & X').
      assert (Fk' : Forall (fun n => (0 <= n)%Z) (map open_num es')) by (apply Forall_map; pose proof (fresh_all _ _ _ FK) as W; rewrite Forall_forall in W; eapply Forall_impl; [|apply W; eapply nth_error_In, Es']; intros e0 We0; pose proof (open_pos e0 We0); lia).
      destruct (total_bound (map open_num es') j' (open_num e') Fk') as [B3 B4]; [rewrite nth_error_map, Ee'; reflexivity|].
      destruct (block_unique (map csize ess) i i' y (total (firstn j' (map open_num es')) + m')%Z (csize es) (csize es') N1) as [-> Y]; [rewrite nth_error_map, Es; reflexivity|rewrite nth_error_map, Es'; reflexivity|exact B|unfold csize; lia|lia|]. assert (es' = es) by congruence. subst es'.
      destruct (block_unique (map open_num es) j j' m m' (open_num e) (open_num e') Fk') as [-> ->]; [rewrite nth_error_map, Ee; reflexivity|rewrite nth_error_map, Ee'; reflexivity|exact B2|exact M'|lia|]. reflexivity.
  - intros x [[i j] m] id S. destruct (stands_located _ _ _ _ _ _ _ _ F S) as (es & e & Es & Ee & _ & M & ->).
    assert (N2 : Forall (fun n => (0 <= n)%Z) (map open_num es)) by (apply Forall_map; pose proof (fresh_all _ _ _ FK) as W; rewrite Forall_forall in W; eapply Forall_impl; [|apply W; eapply nth_error_In, Es]; intros e0 We0; pose proof (open_pos e0 We0); lia).
    destruct (total_bound (map csize ess) i (csize es) N1) as [B1 B1']; [rewrite nth_error_map, Es; reflexivity|]. destruct (total_bound (map open_num es) j (open_num e) N2) as [B2 B2']; [rewrite nth_error_map, Ee; reflexivity|]. unfold csize in *. lia.
  - intros i k id j e m Ek Ej EH M. pose proof (Forall2_len _ _ _ FK) as L. assert (Li : (i < List.length (c_comps c))%nat) by (apply nth_error_Some; congruence). destruct (nth_error ess i) as [es|] eqn:Es; [|apply nth_error_None in Es; lia]. pose proof (Forall2_nth _ _ _ FK _ _ _ Ek Es) as (R & _ & _ & V). pose proof (Forall2_len _ _ _ R) as L'. assert (Lj : (j < List.length (k_edges k))%nat) by (apply nth_error_Some; congruence).
    eexists. exists k, e, (offsets (map csize ess)), (total (firstn i (map csize ess))), (total (firstn j (map open_num es))). split; [exact Ek|]. split; [exact Ej|]. split; [exact EH|]. split; [exact ES|]. split; [apply offset_at; rewrite map_length; lia|]. split; [rewrite V; apply offset_at; rewrite map_length; lia|]. split; [exact M|reflexivity].
Qed.

(** A cell [c'] obtained by building a cell and parameterizing it, in the heap [H'] *)
Definition ready (contains : R -> list pt -> pt -> bool) (H' : heap) (c' : cell) : Prop :=
  exists H0 z ids mesh rtol atol c n p qd w H, mk_cell H0 z ids mesh rtol atol = Ok c /\ get_quad_dict n p = Ok qd /\ param_cell contains qd w H c = Ok (H', c').
Lemma ready_fresh contains H c : ready contains H c -> exists ess, cell_fresh H c ess /\ Forall2 (fun k es => k_closest k = Some (closest es) /\ interior_ok contains k es) (c_comps c) ess /\ c_closest c = Some (concat (map closest ess)) /\ Forall (fun es => es <> []) ess.
Proof. intros (H0 & z & ids & mesh & rtol & atol & c0 & n & p & qd & w & H1 & B & Q & P). destruct (param_cell_ok contains (interior_ok contains) (find_interior_ok contains) qd n p w H1 c0 H c Q (built_wf _ _ _ _ _ _ _ B) P) as (ess & ess' & X). exists ess'. split; [apply X|]. split; [apply X|]. split; apply X. Qed.

Theorem C37_partition contains H c : ready contains H c -> exists N, c_npts c = Some N /\
  (forall x, (0 <= x < N)%Z -> exists! ijm, exists id, stands_for H c x ijm id) /\
  (forall x ijm id, stands_for H c x ijm id -> (0 <= x < N)%Z) /\
  (forall i k id j e m, nth_error (c_comps c) i = Some k -> nth_error (k_edges k) j = Some id -> nth_error H id = Some e -> (0 <= m < e_npts e - 1)%Z -> exists x, stands_for H c x (i, j, m) id).
Proof. intros P. destruct (ready_fresh _ _ _ P) as (ess & F & _). exact (partition_fresh H c ess F). Qed.
Print Assumptions C37_partition.

(** Functions, points, dot products and weights are taken at the sample the index stands for. *)
Theorem C37_values contains H c : ready contains H c -> exists N, c_npts c = Some N /\
  (forall g, exists y, eval_on_boundary g H c = Ok y /\ Z.of_nat (List.length y) = N /\
    forall x ijm id, stands_for H c x ijm id -> exists s, sample_of H id (snd ijm) s /\ nth_error y (Z.to_nat x) = Some (g (fst (sx s)) (snd (sx s)))) /\
  (exists xs ys, boundary_points H c = Ok (xs, ys) /\ Z.of_nat (List.length xs) = N /\ Z.of_nat (List.length ys) = N /\
    forall x ijm id, stands_for H c x ijm id -> exists s, sample_of H id (snd ijm) s /\ nth_error xs (Z.to_nat x) = Some (fst (sx s)) /\ nth_error ys (Z.to_nat x) = Some (snd (sx s))) /\
  (forall v c1 c2, Z.of_nat (List.length c1) = N -> Z.of_nat (List.length c2) = N -> exists y, cell_dot (dot_with v) c1 c2 H c = Ok y /\ Z.of_nat (List.length y) = N /\
    forall x ijm id, stands_for H c x ijm id -> exists s a b, sample_of H id (snd ijm) s /\ nth_error c1 (Z.to_nat x) = Some a /\ nth_error c2 (Z.to_nat x) = Some b /\ nth_error y (Z.to_nat x) = Some (a * fst (v s) + b * snd (v s))) /\
  (forall v, Z.of_nat (List.length v) = N -> exists y, cell_dx_norm v H c = Ok y /\ Z.of_nat (List.length y) = N /\
    forall x ijm id, stands_for H c x ijm id -> exists s a, sample_of H id (snd ijm) s /\ nth_error v (Z.to_nat x) = Some a /\ nth_error y (Z.to_nat x) = Some (a * sw s)) /\
  (forall v, Z.of_nat (List.length v) <> N -> cell_dx_norm v H c = Err SizeMismatchError /\ cell_integrate_preweighted v H c = Err SizeMismatchError).
Proof.
  intros P. destruct (ready_fresh _ _ _ P) as (ess & F & _). pose proof F as (FK & _ & EN & _). exists (total (map csize ess)). split; [exact EN|].
  assert (LN : Z.of_nat (List.length (cell_smp ess)) = total (map csize ess)).
  { pose proof (fresh_all _ _ _ FK) as W. symmetry. unfold cell_smp. apply nums_all. clear -W. induction W as [|es ess We W IH]; constructor; [apply contour_smp_length, We|exact IH]. }
  assert (NE : forall (l : list R) i s, nth_error (cell_smp ess) i = Some s -> Z.of_nat (List.length l) = total (map csize ess) -> exists a, nth_error l i = Some a).
  { intros l i s E L. assert (i < List.length (cell_smp ess))%nat by (apply nth_error_Some; congruence). destruct (nth_error l i) eqn:X; [eauto|apply nth_error_None in X; lia]. }
  split; [|split; [|split; [|split]]].
  - intros g. eexists. split; [exact (eval_boundary_ok g H c ess F)|]. split; [rewrite map_length; exact LN|]. intros x [[i j] m] id S. destruct (located_smp _ _ _ _ _ _ _ _ F S) as (s & A & B). exists s. split; [exact A|]. rewrite nth_error_map, B. reflexivity.
  - eexists. eexists. split; [exact (boundary_points_ok H c ess F)|]. split; [rewrite map_length; exact LN|]. split; [rewrite map_length; exact LN|]. intros x [[i j] m] id S. destruct (located_smp _ _ _ _ _ _ _ _ F S) as (s & A & B). exists s. split; [exact A|]. rewrite !nth_error_map, B. auto.
  - intros v c1 c2 L1 L2. eexists. split; [exact (cell_dot_ok v H c ess c1 c2 F L1 L2)|]. split; [rewrite zdot_length; lia|]. intros x [[i j] m] id S. destruct (located_smp _ _ _ _ _ _ _ _ F S) as (s & A & B). destruct (NE c1 _ _ B L1) as (a & Ea). destruct (NE c2 _ _ B L2) as (b & Eb). exists s, a, b. split; [exact A|]. split; [exact Ea|]. split; [exact Eb|]. unfold zdot, zip_with. rewrite !nth_error_map, !nth_error_combine, !nth_error_map, !nth_error_combine, !nth_error_map, Ea, Eb, B. reflexivity.
  - intros v L. eexists. split; [exact (cell_dx_ok H c ess v F L)|]. split; [rewrite zip_length; rewrite ?map_length; lia|]. intros x [[i j] m] id S. destruct (located_smp _ _ _ _ _ _ _ _ F S) as (s & A & B). destruct (NE v _ _ B L) as (a & Ea). exists s, a. split; [exact A|]. split; [exact Ea|]. unfold zip_with. rewrite !nth_error_map, !nth_error_combine, !nth_error_map, Ea, B. reflexivity.
  - intros v L. unfold cell_dx_norm, cell_integrate_preweighted. rewrite (comps_guard _ _ _ FK), EN. cbn [attr bind]. rewrite (proj2 (Z.eqb_neq _ _) L). auto.
Qed.
Print Assumptions C37_values.

(** ** C38 *)

(** The edge whose start is the corner closest to sample [m] on edge [j] of [n]: the edge itself on
    the first half, the next edge around the contour on the second half *)
Definition corner_edge (e : edge) (n j : nat) (m : Z) : nat := if Z.ltb (2 * m) (e_npts e - 1) then j else (S j mod n)%nat.

Lemma closest_block_nth n a e m : well_sampled e -> (0 <= m < open_num e)%Z -> nth_error (closest_block n a e) (Z.to_nat m) = Some (if Z.ltb (2 * m) (e_npts e - 1) then a else ((a + open_num e) mod n)%Z).
Proof.
  intros W M. pose proof (half_bounds e W) as HB. unfold closest_block. pose proof (Z.div_mod (e_npts e) 2 ltac:(lia)) as D. pose proof (Z.mod_pos_bound (e_npts e) 2 ltac:(lia)) as D'. unfold open_num in *.
  destruct (Z.ltb_spec (2 * m) (e_npts e - 1)) as [L|L].
  - rewrite nth_error_app1 by (rewrite repeat_length; lia). apply nth_error_repeat. lia.
  - rewrite nth_error_app2, repeat_length by (rewrite repeat_length; lia). apply nth_error_repeat. lia.
Qed.

Lemma closest_value es j e m : Forall well_sampled es -> nth_error es j = Some e -> (0 <= m < open_num e)%Z ->
  nth_error (closest es) (Z.to_nat (total (firstn j (map open_num es)) + m)) = Some (total (firstn (corner_edge e (List.length es) j m) (map open_num es))).
Proof.
  intros W Ee M. assert (We : well_sampled e) by (rewrite Forall_forall in W; apply W; eapply nth_error_In, Ee). pose proof (closest_lengths (total (map open_num es)) es 0 W) as CL. set (N := total (map open_num es)) in *.
  assert (NN : Forall (fun n => (0 <= n)%Z) (map open_num es)) by (apply Forall_map; eapply Forall_impl; [|exact W]; intros e0 W0; pose proof (open_pos e0 W0); lia).
  assert (Ej : nth_error (map open_num es) j = Some (open_num e)) by (rewrite nth_error_map, Ee; reflexivity). destruct (total_bound _ _ _ NN Ej) as [B1 B2]. fold N in B2.
  unfold closest. rewrite Z2Nat.inj_add by lia. pose proof (closest_nth N es 0 j e Ee) as Eb. rewrite (concat_nth (map open_num es) _ j _ _ CL Eb); [|pose proof (closest_block_length N (0 + total (firstn j (map open_num es))) e We); lia].
  rewrite closest_block_nth by assumption. rewrite Z.add_0_l. unfold corner_edge. destruct (Z.ltb_spec (2 * m) (e_npts e - 1)); [reflexivity|]. f_equal.
  assert (Lj : (j < List.length es)%nat) by (apply nth_error_Some; congruence). assert (ES : (total (firstn j (map open_num es)) + open_num e = total (firstn (S j) (map open_num es)))%Z) by (rewrite (firstn_snoc _ _ _ Ej), total_snoc; reflexivity).
  destruct (Nat.eq_dec (S j) (List.length es)) as [E|E].
  - rewrite E, Nat.mod_same by lia. rewrite ES, E, <- (map_length open_num es), firstn_all. fold N. rewrite Z.mod_same; [reflexivity|]. pose proof (open_pos e We). lia.
  - rewrite Nat.mod_small by lia. rewrite ES. apply Z.mod_small. destruct (nth_error es (S j)) as [e'|] eqn:E'; [|apply nth_error_None in E'; lia]. destruct (total_bound (map open_num es) (S j) (open_num e') NN) as [C1 C2]; [rewrite nth_error_map, E'; reflexivity|]. assert (We' : well_sampled e') by (rewrite Forall_forall in W; apply W; eapply nth_error_In, E'). pose proof (open_pos e' We'). fold N in C2. lia.
Qed.

(** What the tables of a ready cell say at the index of sample [m] of edge [j] of component [i]:
    the table of the contour holds the local index of the corner, the table of the cell repeats it. *)
Lemma closest_located contains H c x i j m id : ready contains H c -> stands_for H c x (i, j, m) id ->
  exists k e l lk start a y id', nth_error (c_comps c) i = Some k /\ nth_error H id = Some e /\ c_closest c = Some l /\ k_closest k = Some lk /\ c_start c = Some start /\ nth_error start i = Some a /\
    nth_error lk (Z.to_nat (x - a)) = Some y /\ nth_error l (Z.to_nat x) = Some y /\
    stands_for H c (a + y) (i, corner_edge e (k_num k) j m, 0%Z) id' /\ (0 <= a)%Z /\ (i = O -> a = 0%Z) /\ ((0 < i)%nat -> (0 < a)%Z).
Proof.
  intros P S. destruct (ready_fresh _ _ _ P) as (ess & F & KC & TC & NE). pose proof F as (FK & _ & EN & ES). pose proof S as (k & e0 & start & a & b & Ek & Ej & Ee & E1 & E2 & E3 & M & X).
  destruct (stands_located _ _ _ _ _ _ _ _ F S) as (es & e & Es & Ee' & EH & M' & X'). assert (e0 = e) by congruence. subst e0. assert (start = offsets (map csize ess)) by congruence. subst start.
  assert (Li : (i < List.length ess)%nat) by (apply nth_error_Some; congruence). rewrite offset_at in E2 by (rewrite map_length; lia). injection E2 as <-.
  pose proof (Forall2_nth _ _ _ FK _ _ _ Ek Es) as Fk. pose proof Fk as (R & W & _ & V). pose proof (Forall2_nth _ _ _ KC _ _ _ Ek Es) as [Ck _]. pose proof (Forall2_len _ _ _ R) as LR.
  set (A := total (firstn i (map csize ess))) in *. pose proof (closest_value es j e m W Ee' M') as CV. set (y := total (firstn (corner_edge e (List.length es) j m) (map open_num es))) in *.
  assert (N1 := cell_nums _ _ _ F). assert (Ei : nth_error (map csize ess) i = Some (csize es)) by (rewrite nth_error_map, Es; reflexivity). destruct (total_bound _ _ _ N1 Ei) as [BA1 BA2]. fold A in BA1, BA2.
  assert (N2 := fresh_nums _ _ _ Fk). assert (Ej' : nth_error (map open_num es) j = Some (open_num e)) by (rewrite nth_error_map, Ee'; reflexivity). destruct (total_bound _ _ _ N2 Ej') as [BJ1 BJ2].
  assert (Lj : (j < List.length es)%nat) by (apply nth_error_Some; congruence). assert (Lc : (corner_edge e (List.length es) j m < List.length es)%nat) by (unfold corner_edge; destruct (Z.ltb _ _); [exact Lj|apply Nat.mod_upper_bound; lia]).
  destruct (nth_error (k_edges k) (corner_edge e (List.length es) j m)) as [id'|] eqn:Eid; [|apply nth_error_None in Eid; unfold k_num in *; lia]. destruct (nth_error es (corner_edge e (List.length es) j m)) as [e'|] eqn:Ec; [|apply nth_error_None in Ec; lia]. pose proof (Forall2_nth _ _ _ R _ _ _ Eid Ec) as EH'. cbn in EH'. assert (We' : well_sampled e') by (rewrite Forall_forall in W; apply W; eapply nth_error_In, Ec). pose proof (open_pos e' We') as [O1 _].
  exists k, e, (concat (map closest ess)), (closest es), (offsets (map csize ess)), A, y, id'.
  split; [exact Ek|]. split; [exact EH|]. split; [exact TC|]. split; [exact Ck|]. split; [exact E1|]. split; [apply offset_at; rewrite map_length; lia|].
  split; [rewrite X'; replace (A + (total (firstn j (map open_num es)) + m) - A)%Z with (total (firstn j (map open_num es)) + m)%Z by lia; exact CV|].
  split.
  { rewrite X', Z2Nat.inj_add by lia. assert (LL : Forall2 (fun n v => Z.of_nat (List.length v) = n) (map csize ess) (map closest ess)).
    { pose proof (fresh_all _ _ _ FK) as WA. clear -WA. induction WA as [|es ess We W IH]; constructor; [|exact IH]. unfold closest. symmetry. apply (nums_all _ _ (closest_lengths (total (map open_num es)) es 0 We)). }
    rewrite (concat_nth (map csize ess) _ i _ (closest es) LL); [exact CV|rewrite nth_error_map, Es; reflexivity|]. apply nth_error_Some. congruence. }
  split.
  { unfold k_num. rewrite LR. exists k, e', (offsets (map csize ess)), A, y. split; [exact Ek|]. split; [exact Eid|]. split; [exact EH'|]. split; [exact E1|]. split; [apply offset_at; rewrite map_length; lia|]. split; [rewrite V; apply offset_at; rewrite map_length; lia|]. split; [unfold open_num in O1; lia|lia]. }
  split; [exact BA1|]. split; [intros ->; reflexivity|]. intros Hi. destruct ess as [|es0 ess0]; [cbn in Li; lia|]. assert (E0 : nth_error (map csize (es0 :: ess0)) 0 = Some (csize es0)) by reflexivity. pose proof (total_mono _ _ _ N1 E0 i Hi) as T. fold A in T. cbn [firstn] in T. change (total []) with 0%Z in T.
  pose proof (fresh_all _ _ _ FK) as WA. inversion WA as [|? ? W0 _]; subst. inversion NE as [|? ? NE0 _]; subst. destruct es0 as [|e00 es0]; [congruence|]. inversion W0 as [|? ? We0 Wr]; subst. pose proof (open_pos e00 We0). pose proof (csize_nonneg es0 Wr) as CN. unfold csize in T, CN. cbn [map] in T. change (total (open_num e00 :: map open_num es0)) with (open_num e00 + total (map open_num es0))%Z in T. lia.
Qed.

(** Right on the outer boundary, and right on every contour as far as its own table goes. Missing:
    the holes in the table of the cell, where the property fails, see C38_holes_refuted. *)
Theorem C38_closest_vertex_partial contains H c x i j m id : ready contains H c -> stands_for H c x (i, j, m) id ->
  exists k e l lk start a y id', nth_error (c_comps c) i = Some k /\ nth_error H id = Some e /\ c_closest c = Some l /\ k_closest k = Some lk /\ c_start c = Some start /\ nth_error start i = Some a /\
    nth_error lk (Z.to_nat (x - a)) = Some y /\ stands_for H c (a + y) (i, corner_edge e (k_num k) j m, 0%Z) id' /\
    (i = O -> nth_error l (Z.to_nat x) = Some (a + y)%Z).
Proof.
  intros P S. destruct (closest_located _ _ _ _ _ _ _ _ P S) as (k & e & l & lk & start & a & y & id' & A1 & A2 & A3 & A4 & A5 & A6 & A7 & A8 & A9 & A10 & A11 & A12).
  exists k, e, l, lk, start, a, y, id'. repeat (split; [assumption|]). intros Hi. rewrite (A11 Hi). exact A8.
Qed.
Print Assumptions C38_closest_vertex_partial.

(** On a hole the table of the cell is wrong at every single index. *)
Theorem C38_holes_refuted contains H c x i j m id : ready contains H c -> stands_for H c x (i, j, m) id -> (0 < i)%nat ->
  exists k e l y, nth_error (c_comps c) i = Some k /\ nth_error H id = Some e /\ c_closest c = Some l /\ nth_error l (Z.to_nat x) = Some y /\
    forall id', ~ stands_for H c y (i, corner_edge e (k_num k) j m, 0%Z) id'.
Proof.
  intros P S Hi. destruct (closest_located _ _ _ _ _ _ _ _ P S) as (k & e & l & lk & start & a & y & id' & A1 & A2 & A3 & A4 & A5 & A6 & A7 & A8 & A9 & A10 & A11 & A12).
  exists k, e, l, y. repeat (split; [assumption|]). intros id1 S1. destruct A9 as (k1 & e1 & s1 & a1 & b1 & B1 & B2 & B3 & B4 & B5 & B6 & B7 & B8). destruct S1 as (k2 & e2 & s2 & a2 & b2 & D1 & D2 & D3 & D4 & D5 & D6 & D7 & D8).
  assert (k2 = k1) by congruence. subst k2. assert (s2 = s1) by congruence. subst s2. assert (a2 = a1) by congruence. subst a2. assert (b2 = b1) by congruence. subst b2. specialize (A12 Hi). lia.
Qed.
Print Assumptions C38_holes_refuted.
