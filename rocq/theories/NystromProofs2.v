(** The matrices of the Nyström solver, entry by entry. *)
From Coq Require Import List ZArith Reals Lia Lra Bool String.
From Verif Require Import PyBase PolyModel PolySpec BaryModel QuadModel VertModel EdgeModel EdgeSpec EdgeProps4 ContourModel CellModel CellSpec CellProofs CellProps ContourProofs ContourProofs2 ContourProofs3 ContourProofs4 ContourProps CellProps3 TraceModel TraceSpec TraceProofs LocalProofs3 LocalModel LocalSpec LocalProofs LocalProofs2 LocalProofs5 AntilapModel AntilapSpec AntilapProofs4 NystromModel NystromSpec.
Import List ListNotations.
Open Scope R_scope.

(** ** Blocks *)
Lemma skipn_plus {A} n : forall m (l : list A), skipn m (skipn n l) = skipn (n + m) l.
Proof. induction n as [|n IH]; intros m [|x l]; try reflexivity; [destruct m; reflexivity|]. cbn. apply IH. Qed.
Lemma fold_seq {B} (f : B -> nat -> res B) (F : nat -> B) n : forall a, (forall i, (i < n)%nat -> f (F (a + i)%nat) (a + i)%nat = Ok (F (S (a + i)))) -> fold_res f (seq a n) (F a) = Ok (F (a + n)%nat).
Proof.
  induction n as [|n IH]; intros a Hs; [rewrite Nat.add_0_r; reflexivity|]. cbn [seq fold_res]. pose proof (Hs 0%nat ltac:(lia)) as E. rewrite Nat.add_0_r in E. rewrite E. cbn [bind]. rewrite (IH (S a)); [f_equal; f_equal; lia|]. intros i Li. replace (S a + i)%nat with (a + S i)%nat by lia. apply Hs. lia.
Qed.
Lemma fold_seq_err {B} (f : B -> nat -> res B) (F : nat -> B) x n : forall a, (forall i, (i < n)%nat -> f (F (a + i)%nat) (a + i)%nat = Ok (F (S (a + i))) \/ f (F (a + i)%nat) (a + i)%nat = Err x) -> (exists i, (i < n)%nat /\ f (F (a + i)%nat) (a + i)%nat = Err x) -> fold_res f (seq a n) (F a) = Err x.
Proof.
  induction n as [|n IH]; intros a Hs (i & Li & Ei); [lia|]. cbn [seq fold_res]. destruct (Hs 0%nat ltac:(lia)) as [E|E]; rewrite Nat.add_0_r in E; rewrite E; [|reflexivity]. cbn [bind]. apply (IH (S a)).
  - intros j Lj. replace (S a + j)%nat with (a + S j)%nat by lia. apply Hs. lia.
  - destruct i as [|i]; [rewrite Nat.add_0_r in Ei; congruence|]. exists i. split; [lia|]. replace (S a + i)%nat with (a + S i)%nat by lia. exact Ei.
Qed.

Section Assemble.
Context {A : Type} (K : A -> A -> R).
Definition ends (gs : list (list A)) (i : nat) : nat := List.length (concat (firstn i gs)).
Lemma ends_S gs i g : nth_error gs i = Some g -> ends gs (S i) = (ends gs i + List.length g)%nat.
Proof. intros E. unfold ends. rewrite (firstn_snoc _ _ _ E), concat_app, app_length. cbn [concat]. rewrite app_nil_r. reflexivity. Qed.
Lemma ends_all gs : ends gs (List.length gs) = List.length (concat gs).
Proof. unfold ends. rewrite firstn_all. reflexivity. Qed.
Lemma ends_le gs i : (ends gs i <= List.length (concat gs))%nat.
Proof. unfold ends. rewrite <- (firstn_skipn i gs) at 2. rewrite concat_app, app_length. lia. Qed.

(** One block written into rows that are complete up to column [ends gs j] *)
Definition part (gs : list (list A)) (z : list R) (j : nat) (a : A) : list R := map (K a) (concat (firstn j gs)) ++ skipn (ends gs j) z.
Lemma part_step gs z j g a : nth_error gs j = Some g -> List.length z = List.length (concat gs) -> set_slice (part gs z j a) (Z.of_nat (ends gs j)) (Z.of_nat (ends gs (S j))) (map (K a) g) = Ok (part gs z (S j) a).
Proof.
  intros E Lz. pose proof (ends_S gs j g E) as Es. pose proof (ends_le gs (S j)) as Le. unfold part.
  rewrite <- (firstn_skipn (List.length g) (skipn (ends gs j) z)). rewrite (set_slice_block (map (K a) (concat (firstn j gs))) (firstn (List.length g) (skipn (ends gs j) z)) (skipn (List.length g) (skipn (ends gs j) z))).
  - rewrite (firstn_snoc _ _ _ E), concat_app, map_app. cbn [concat]. rewrite app_nil_r, <- app_assoc. rewrite skipn_plus, <- Es. reflexivity.
  - rewrite Nat2Z.id, map_length. reflexivity.
  - rewrite Nat2Z.id, map_length, firstn_length, skipn_length. unfold ends in *. lia.
  - rewrite map_length, firstn_length, skipn_length. lia.
Qed.
Lemma block_step rows cols z top bot i j r g : nth_error rows i = Some r -> nth_error cols j = Some g -> List.length z = List.length (concat cols) -> List.length top = ends rows i ->
  set_block (top ++ map (part cols z j) r ++ bot) (Z.of_nat (ends rows i)) (Z.of_nat (ends rows (S i))) (Z.of_nat (ends cols j)) (Z.of_nat (ends cols (S j))) (map (fun a => map (K a) g) r) = Ok (top ++ map (part cols z (S j)) r ++ bot).
Proof.
  intros Er Ec Lz Lt. pose proof (ends_S rows i r Er) as Es. unfold set_block. rewrite (slice_block top (map (part cols z j) r) bot) by (rewrite Nat2Z.id, ?map_length; lia). rewrite !map_length, Nat.eqb_refl.
  assert (M : map_res (fun rb => set_slice (fst rb) (Z.of_nat (ends cols j)) (Z.of_nat (ends cols (S j))) (snd rb)) (combine (map (part cols z j) r) (map (fun a => map (K a) g) r)) = Ok (map (part cols z (S j)) r)).
  { clear -Ec Lz. induction r as [|a r IH]; [reflexivity|]. cbn [map combine map_res fst snd]. rewrite (part_step cols z j g a Ec Lz). cbn [bind]. rewrite IH. reflexivity. }
  rewrite M. cbn [bind]. apply set_slice_block; rewrite ?Nat2Z.id, ?map_length; lia.
Qed.

(** Rows of blocks one after the other, starting from the zero matrix *)
Context (rows cols : list (list A)).
Let z := repeat 0 (List.length (concat cols)).
Definition done (i : nat) : mat := map (fun a => map (K a) (concat cols)) (concat (firstn i rows)) ++ repeat z (List.length (concat rows) - ends rows i).
Lemma part_0 a : part cols z 0 a = z.
Proof. reflexivity. Qed.
Lemma part_all a : part cols z (List.length cols) a = map (K a) (concat cols).
Proof. unfold part. rewrite firstn_all, ends_all, skipn_all2 by (unfold z; rewrite repeat_length; lia). apply app_nil_r. Qed.
Lemma repeat_map {B C} (x : C) (l : list B) : map (fun _ => x) l = repeat x (List.length l).
Proof. induction l as [|b l IH]; [reflexivity|]. cbn. rewrite IH. reflexivity. Qed.
Definition mid i r j : mat := map (fun a => map (K a) (concat cols)) (concat (firstn i rows)) ++ map (part cols z j) r ++ repeat z (List.length (concat rows) - ends rows (S i)).
Lemma mid_0 i r : nth_error rows i = Some r -> mid i r 0 = done i.
Proof.
  intros E. pose proof (ends_S rows i r E). pose proof (ends_le rows (S i)). unfold mid, done. f_equal. rewrite (map_ext _ (fun _ => z)) by apply part_0. rewrite repeat_map, <- repeat_app. f_equal. lia.
Qed.
Lemma mid_all i r : nth_error rows i = Some r -> mid i r (List.length cols) = done (S i).
Proof. intros E. unfold mid, done. rewrite (map_ext _ _ part_all), (firstn_snoc _ _ _ E), concat_app, map_app. cbn [concat]. rewrite app_nil_r, <- app_assoc. reflexivity. Qed.
Lemma mid_step i r j g : nth_error rows i = Some r -> nth_error cols j = Some g ->
  set_block (mid i r j) (Z.of_nat (ends rows i)) (Z.of_nat (ends rows (S i))) (Z.of_nat (ends cols j)) (Z.of_nat (ends cols (S j))) (map (fun a => map (K a) g) r) = Ok (mid i r (S j)).
Proof. intros Er Ec. unfold mid. apply block_step; try assumption; [unfold z; apply repeat_length|rewrite map_length; reflexivity]. Qed.
Lemma done_0 : done 0 = repeat z (List.length (concat rows)).
Proof. unfold done, ends. cbn [firstn concat map app List.length]. rewrite Nat.sub_0_r. reflexivity. Qed.
Lemma done_all : done (List.length rows) = map (fun a => map (K a) (concat cols)) (concat rows).
Proof. unfold done. rewrite firstn_all, ends_all, Nat.sub_diag. apply app_nil_r. Qed.

Context (row_step : mat -> nat -> res mat) (step : nat -> mat -> nat -> res mat) (block : nat -> nat -> res mat).
Hypothesis row_ok : forall M i, (i < List.length rows)%nat -> row_step M i = fold_res (step i) (seq 0 (List.length cols)) M.
Hypothesis step_ok : forall M i j, (i < List.length rows)%nat -> (j < List.length cols)%nat -> step i M j = do E <- block i j; set_block M (Z.of_nat (ends rows i)) (Z.of_nat (ends rows (S i))) (Z.of_nat (ends cols j)) (Z.of_nat (ends cols (S j))) E.
Definition good i j : Prop := exists r g, nth_error rows i = Some r /\ nth_error cols j = Some g /\ block i j = Ok (map (fun a => map (K a) g) r).
Lemma step_good i r j : nth_error rows i = Some r -> (j < List.length cols)%nat -> good i j -> step i (mid i r j) j = Ok (mid i r (S j)).
Proof using step_ok.
  intros Er Lj (r' & g & Er' & Ec & Eb). assert (r' = r) by congruence. subst r'. assert (Li : (i < List.length rows)%nat) by (apply nth_error_Some; congruence). rewrite step_ok by assumption. rewrite Eb. cbn [bind]. apply mid_step; assumption.
Qed.
Lemma assemble : (forall i j, (i < List.length rows)%nat -> (j < List.length cols)%nat -> good i j) ->
  fold_res row_step (seq 0 (List.length rows)) (repeat z (List.length (concat rows))) = Ok (map (fun a => map (K a) (concat cols)) (concat rows)).
Proof using row_ok step_ok.
  intros G. rewrite <- done_0, <- done_all. apply (fold_seq row_step done (List.length rows) 0). intros i Li. cbn [Nat.add]. rewrite row_ok by exact Li. destruct (nth_error rows i) as [r|] eqn:Er; [|apply nth_error_None in Er; lia]. rewrite <- (mid_0 i r Er), <- (mid_all i r Er). apply (fold_seq (step i) (mid i r) (List.length cols) 0). intros j Lj. cbn [Nat.add]. apply step_good; auto.
Qed.
Lemma assemble_err x : (forall i j, (i < List.length rows)%nat -> (j < List.length cols)%nat -> good i j \/ block i j = Err x) -> (exists i j, (i < List.length rows)%nat /\ (j < List.length cols)%nat /\ block i j = Err x) ->
  fold_res row_step (seq 0 (List.length rows)) (repeat z (List.length (concat rows))) = Err x.
Proof using row_ok step_ok.
  intros G (i0 & j0 & Li0 & Lj0 & E0). rewrite <- done_0. assert (S1 : forall i r j, nth_error rows i = Some r -> (j < List.length cols)%nat -> block i j = Err x -> step i (mid i r j) j = Err x) by (intros i r j Er Lj Eb; assert (Li : (i < List.length rows)%nat) by (apply nth_error_Some; congruence); rewrite step_ok by assumption; rewrite Eb; reflexivity).
  assert (S2 : forall i, (i < List.length rows)%nat -> (exists j, (j < List.length cols)%nat /\ block i j = Err x) -> row_step (done i) i = Err x).
  { intros i Li (j & Lj & Ej). rewrite row_ok by exact Li. destruct (nth_error rows i) as [r|] eqn:Er; [|apply nth_error_None in Er; lia]. rewrite <- (mid_0 i r Er). apply (fold_seq_err (step i) (mid i r) x (List.length cols) 0).
    - intros j' Lj'. cbn [Nat.add]. destruct (G i j' Li Lj') as [Gd|Eb]; [left; apply step_good; assumption|right; apply S1; assumption].
    - exists j. split; [exact Lj|]. cbn [Nat.add]. apply S1; assumption. }
  apply (fold_seq_err row_step done x (List.length rows) 0).
  - intros i Li. cbn [Nat.add]. destruct (nth_error rows i) as [r|] eqn:Er; [|apply nth_error_None in Er; lia].
    destruct (Classical_Prop.classic (exists j, (j < List.length cols)%nat /\ block i j = Err x)) as [Ex|Nx]; [right; apply S2; assumption|left]. rewrite row_ok by exact Li. rewrite <- (mid_0 i r Er), <- (mid_all i r Er). apply (fold_seq (step i) (mid i r) (List.length cols) 0). intros j Lj. cbn [Nat.add]. apply step_good; [exact Er|exact Lj|]. destruct (G i j Li Lj) as [Gd|Eb]; [exact Gd|]. exfalso. apply Nx. exists j. auto.
  - exists i0. split; [exact Li0|]. cbn [Nat.add]. apply S2; [exact Li0|]. exists j0. auto.
Qed.
End Assemble.

(** ** Blocks of edges *)
Lemma fold_ext {A B} (f g : B -> A -> res B) l : (forall b a, In a l -> f b a = g b a) -> forall b, fold_res f l b = fold_res g l b.
Proof. induction l as [|a l IH]; intros E b; [reflexivity|]. cbn [fold_res]. rewrite (E b a) by (left; reflexivity). destruct (g b a); [|reflexivity]. cbn [bind]. apply IH. intros b' a' I. apply E. right. exact I. Qed.
Lemma map_res_fun {A B} (f : A -> res B) (g : A -> B) l : (forall a, In a l -> f a = Ok (g a)) -> map_res f l = Ok (map g l).
Proof. induction l as [|a l IH]; intros E; [reflexivity|]. cbn [map_res map]. rewrite (E a) by (left; reflexivity). cbn [bind]. rewrite IH; [reflexivity|]. intros b I. apply E. right. exact I. Qed.
Lemma map_res_fail {A B} (f : A -> res B) x l : (forall a, In a l -> (exists b, f a = Ok b) \/ f a = Err x) -> (exists a, In a l /\ f a = Err x) -> map_res f l = Err x.
Proof.
  induction l as [|a l IH]; intros E (a0 & I0 & E0); [destruct I0|]. cbn [map_res]. destruct (E a (or_introl eq_refl)) as [[b Eb]|Eb]; rewrite Eb; [|reflexivity]. cbn [bind]. rewrite IH; [reflexivity| |]. { intros a' I'. apply E. right. exact I'. } destruct I0 as [->|I0]; [congruence|]. exists a0. auto.
Qed.
Lemma geti_at {A} (l : list A) d i : (i < List.length l)%nat -> geti l i = Ok (nth i l d).
Proof. intros L. apply geti_nth, nth_error_nth', L. Qed.
Lemma nth_removelast {A} (l : list A) d i : (S i < List.length l)%nat -> nth i (removelast l) d = nth i l d.
Proof. revert i. induction l as [|a l IH]; intros i L; cbn [List.length] in L; [lia|]. destruct l as [|b l]; [cbn in L; lia|]. change (removelast (a :: b :: l)) with (a :: removelast (b :: l)). destruct i as [|i]; [reflexivity|]. cbn [nth]. apply IH. lia. Qed.
Lemma combine_seq {A B} (f : nat -> A -> B) d l : forall a, map (fun p => f (fst p) (snd p)) (combine (seq a (List.length l)) l) = map (fun i => f (a + i)%nat (nth i l d)) (seq 0 (List.length l)).
Proof. induction l as [|x l IH]; intros a; [reflexivity|]. cbn [List.length seq combine map fst snd nth]. rewrite Nat.add_0_r. f_equal. rewrite IH, <- seq_shift, map_map. apply map_ext. intros i. rewrite Nat.add_succ_r. reflexivity. Qed.
Lemma open_count e : well_sampled e -> List.length (open_smp e) = Z.to_nat (e_npts e - 1).
Proof. intros W. destruct (open_pos e W) as [_ L]. unfold open_num in L. lia. Qed.
Lemma points_seq d p e : well_sampled e -> edge_points (p, e) = map (fun i => Point p e i (nth i (e_smp e) d)) (pts_range e).
Proof.
  intros W. unfold edge_points, pts_range. cbn [fst snd]. rewrite (combine_seq (Point p e) d). rewrite (open_count e W). apply map_ext_in. intros i I. apply in_seq in I. cbn [Nat.add]. f_equal. unfold open_smp. apply nth_removelast. destruct W as (_ & L & _). lia.
Qed.
Lemma points_length p e : well_sampled e -> List.length (edge_points (p, e)) = Z.to_nat (open_num e).
Proof. intros W. unfold edge_points. cbn [fst snd]. rewrite map_length, combine_length, seq_length. pose proof (open_pos e W). lia. Qed.
Lemma in_range e i : well_sampled e -> In i (pts_range e) -> (i < List.length (e_smp e))%nat.
Proof. intros (_ & L & _) I. unfold pts_range in I. apply in_seq in I. lia. Qed.
Lemma skipped_prefix f j : Nat.ltb j (j_start f) = andb (Nat.eqb j 0) (prefix "kress" (e_qtype f)).
Proof.
  unfold j_start. pose proof (prefix_correct "kress" (e_qtype f)) as P. cbn [String.length] in P. destruct (String.eqb_spec (substring 0 5 (e_qtype f)) "kress") as [E|E].
  - rewrite (proj2 P E). rewrite andb_true_r. destruct j; reflexivity.
  - replace (prefix "kress" (e_qtype f)) with false; [rewrite andb_false_r; destruct j; reflexivity|]. symmetry. apply not_true_is_false. intros Q. apply E, P, Q.
Qed.
Lemma edge_block_ok K p q e f entry : well_sampled e -> well_sampled f ->
  (forall a b, In a (edge_points (p, e)) -> In b (edge_points (q, f)) -> (if weightless b then Ok 0 else entry (p_smp a) (p_smp b)) = Ok (K a b)) ->
  edge_block e f entry = Ok (map (fun a => map (K a) (edge_points (q, f))) (edge_points (p, e))).
Proof.
  intros We Wf Hk. assert (d : sample) by (destruct We as (_ & L & Nn & _); destruct (e_smp e) as [|s l]; [cbn in L; lia|exact s]). rewrite (points_seq d p e We), (points_seq d q f Wf) in *. rewrite map_map. unfold edge_block. apply map_res_fun. intros i Ii. rewrite map_map. apply map_res_fun. intros j Ij.
  specialize (Hk _ _ (in_map _ _ _ Ii) (in_map _ _ _ Ij)). cbn [p_smp] in Hk. rewrite <- Hk. unfold weightless. cbn [p_loc p_edge]. rewrite skipped_prefix. destruct (andb _ _); [reflexivity|]. rewrite (geti_at _ d i (in_range e i We Ii)), (geti_at _ d j (in_range f j Wf Ij)). reflexivity.
Qed.
Lemma edge_block_err x p q e f entry : well_sampled e -> well_sampled f -> (forall s t, (exists v, entry s t = Ok v) \/ entry s t = Err x) ->
  (exists a b, In a (edge_points (p, e)) /\ In b (edge_points (q, f)) /\ weightless b = false /\ entry (p_smp a) (p_smp b) = Err x) -> edge_block e f entry = Err x.
Proof.
  intros We Wf Hc (a & b & Ia & Ib & Wb & Eab). assert (d : sample) by (destruct We as (_ & L & Nn & _); destruct (e_smp e) as [|s l]; [cbn in L; lia|exact s]). rewrite (points_seq d p e We) in Ia. rewrite (points_seq d q f Wf) in Ib. apply in_map_iff in Ia, Ib. destruct Ia as (i & <- & Ii), Ib as (j & <- & Ij). unfold weightless in Wb. cbn [p_loc p_edge p_smp] in *.
  assert (C : forall i j, In i (pts_range e) -> In j (pts_range f) -> let v := (if Nat.ltb j (j_start f) then Ok 0 else do s <- geti (e_smp e) i; do t <- geti (e_smp f) j; entry s t) in (exists y, v = Ok y) \/ v = Err x).
  { intros i' j' Ii' Ij'. cbv zeta. destruct (Nat.ltb j' (j_start f)); [left; eauto|]. rewrite (geti_at _ d i' (in_range e i' We Ii')), (geti_at _ d j' (in_range f j' Wf Ij')). cbn [bind]. apply Hc. }
  unfold edge_block. apply map_res_fail.
  - intros i' Ii'. cbv beta. destruct (Classical_Prop.classic (exists j', In j' (pts_range f) /\ (if Nat.ltb j' (j_start f) then Ok 0 else do s <- geti (e_smp e) i'; do t <- geti (e_smp f) j'; entry s t) = Err x)) as [Ex|Nx]; [right; apply map_res_fail; [intros j' Ij'; apply C; assumption|exact Ex]|left].
    edestruct (map_res_total (fun j => if Nat.ltb j (j_start f) then Ok 0 else do s <- geti (e_smp e) i'; do t <- geti (e_smp f) j; entry s t) (pts_range f)) as (l' & El & _); [|exists l'; exact El]. intros j' Ij'. destruct (C i' j' Ii' Ij') as [Y|Y]; [exact Y|]. exfalso. apply Nx. exists j'. split; assumption.
  - exists i. split; [exact Ii|]. apply map_res_fail; [intros j' Ij'; apply C; assumption|]. exists j. split; [exact Ij|]. rewrite skipped_prefix, Wb. rewrite (geti_at _ d i (in_range e i We Ii)), (geti_at _ d j (in_range f j Wf Ij)). exact Eab.
Qed.

(** ** Components and cells, for any kind of block *)
Definition grid_of (ke : contour * list edge) : list point := contour_grid (k_edges (fst ke)) (snd ke).
Lemma refs_length H ids es : refs H ids es -> List.length ids = List.length es.
Proof. induction 1; [reflexivity|]. cbn. congruence. Qed.
Lemma edge_ends ids es : List.length ids = List.length es -> Forall well_sampled es -> forall i, (i <= List.length es)%nat -> Z.of_nat (ends (map edge_points (combine ids es)) i) = total (firstn i (map open_num es)).
Proof.
  intros L W. revert ids L. induction W as [|e es We W IH]; intros [|p ids] L i Li; try discriminate; [destruct i; reflexivity|]. destruct i as [|i]; [reflexivity|]. unfold ends in *. cbn [combine map firstn concat]. rewrite app_length, Nat2Z.inj_add, IH by (cbn in L, Li; lia). rewrite points_length by exact We. pose proof (open_pos e We). rewrite Z2Nat.id by lia. reflexivity.
Qed.
Lemma grid_length ids es : List.length ids = List.length es -> Forall well_sampled es -> Z.of_nat (List.length (contour_grid ids es)) = csize es.
Proof.
  intros L W. pose proof (edge_ends ids es L W (List.length es) (le_n _)) as E. rewrite <- (map_length open_num es), firstn_all in E. unfold contour_grid, csize. rewrite <- E. replace (List.length (map open_num es)) with (List.length (map edge_points (combine ids es))) by (rewrite !map_length, combine_length; lia). rewrite ends_all. reflexivity.
Qed.
Lemma nth_combine {A B} (l : list A) (l' : list B) i a b : nth_error l i = Some a -> nth_error l' i = Some b -> nth_error (combine l l') i = Some (a, b).
Proof. revert l' i. induction l as [|x l IH]; intros [|y l'] [|i] E E'; try discriminate; cbn in *; [congruence|]. apply IH; assumption. Qed.
Section Blocks.
Context (K : point -> point -> R) (block : nat -> nat -> edge -> edge -> res mat) (H : heap).
Definition block_ok (r r' : nat * edge) : Prop := block (fst r) (fst r') (snd r) (snd r') = Ok (map (fun a => map (K a) (edge_points r')) (edge_points r)).
Definition block_err (r r' : nat * edge) : Prop := block (fst r) (fst r') (snd r) (snd r') = Err ZeroDivisionError.
Lemma refs_at ids es i : refs H ids es -> (i < List.length es)%nat -> exists p e, nth_error ids i = Some p /\ nth_error es i = Some e /\ nth_error H p = Some e.
Proof.
  intros Rf. revert i. induction Rf as [|p e ids es E Rf IH]; intros i L; [cbn in L; lia|]. destruct i as [|i]; [exists p, e; auto|]. destruct (IH i) as (p' & e' & X); [cbn in L; lia|]. exists p', e'. exact X.
Qed.
Section Component.
Context (ki kj : contour) (ei ej : list edge).
Hypothesis Fi : fresh H ki ei.
Hypothesis Fj : fresh H kj ej.
Definition bl (i l : nat) : res mat := do p <- geti (k_edges ki) i; do e <- deref H p; do q <- geti (k_edges kj) l; do f <- deref H q; block p q e f.
Let rows := map edge_points (combine (k_edges ki) ei).
Let cols := map edge_points (combine (k_edges kj) ej).
Lemma len_combine k l : fresh H k l -> List.length (map edge_points (combine (k_edges k) l)) = List.length l /\ k_num k = List.length l.
Proof. intros (Rf & _). pose proof (refs_length _ _ _ Rf) as L. unfold k_num. rewrite map_length, combine_length. lia. Qed.
Lemma vidx_at k l i : fresh H k l -> (i <= List.length l)%nat -> geti (k_vidx k) i = Ok (Z.of_nat (ends (map edge_points (combine (k_edges k) l)) i)).
Proof. intros (Rf & W & _ & V) L. rewrite V. apply geti_nth. rewrite offset_at by (rewrite map_length; exact L). rewrite edge_ends; [reflexivity|exact (refs_length _ _ _ Rf)|exact W|exact L]. Qed.
Lemma component_fold : component_block H ki kj block = fold_res (fun M i => fold_res (fun M j => do E <- bl i j; set_block M (Z.of_nat (ends rows i)) (Z.of_nat (ends rows (S i))) (Z.of_nat (ends cols j)) (Z.of_nat (ends cols (S j))) E) (seq 0 (List.length cols)) M) (seq 0 (List.length rows)) (repeat (repeat 0 (List.length (concat cols))) (List.length (concat rows))).
Proof using Fi Fj.
  destruct (len_combine ki ei Fi) as [Li Ni]. destruct (len_combine kj ej Fj) as [Lj Nj]. fold rows in Li. fold cols in Lj.
  assert (Z1 : zero_mat (csize ei) (csize ej) = repeat (repeat 0 (List.length (concat cols))) (List.length (concat rows))).
  { unfold zero_mat. pose proof (grid_length (k_edges ki) ei (refs_length _ _ _ (proj1 Fi)) (proj1 (proj2 Fi))) as G1. pose proof (grid_length (k_edges kj) ej (refs_length _ _ _ (proj1 Fj)) (proj1 (proj2 Fj))) as G2. unfold contour_grid in G1, G2. fold rows in G1. fold cols in G2. f_equal; [f_equal|]; lia. }
  unfold component_block. rewrite (proj1 (proj2 (proj2 Fi))), (proj1 (proj2 (proj2 Fj))). cbn [attr bind]. change (total (map open_num ei)) with (csize ei). change (total (map open_num ej)) with (csize ej). rewrite Z1, Ni, Nj, Li, Lj. apply fold_ext. intros M i Ii. apply in_seq in Ii. rewrite (vidx_at ki ei i Fi) by lia. cbn [bind]. rewrite (vidx_at ki ei (S i) Fi) by lia. cbn [bind]. fold rows.
  destruct (refs_at _ _ i (proj1 Fi) ltac:(lia)) as (p & e & Ep & Ee & Hp). pose proof (geti_nth _ _ _ Ep) as Gp. rewrite Gp. cbn [bind]. unfold deref at 1. rewrite Hp. cbn [bind]. apply fold_ext. intros M' j Ij. apply in_seq in Ij. rewrite (vidx_at kj ej j Fj) by lia. cbn [bind]. rewrite (vidx_at kj ej (S j) Fj) by lia. cbn [bind]. fold cols.
  destruct (refs_at _ _ j (proj1 Fj) ltac:(lia)) as (q & f & Eq & Ef & Hq). pose proof (geti_nth _ _ _ Eq) as Gq. unfold bl. rewrite Gp, Gq. cbn [bind]. unfold deref. rewrite Hp, Hq. cbn [bind]. reflexivity.
Qed.
Lemma bl_at i j : (i < List.length rows)%nat -> (j < List.length cols)%nat -> exists r r', nth_error (combine (k_edges ki) ei) i = Some r /\ nth_error (combine (k_edges kj) ej) j = Some r' /\ bl i j = block (fst r) (fst r') (snd r) (snd r').
Proof using Fi Fj.
  intros Li Lj. unfold rows in Li. unfold cols in Lj. rewrite (proj1 (len_combine ki ei Fi)) in Li. rewrite (proj1 (len_combine kj ej Fj)) in Lj. destruct (refs_at _ _ i (proj1 Fi) Li) as (p & e & Ep & Ee & Hp). destruct (refs_at _ _ j (proj1 Fj) Lj) as (q & f & Eq & Ef & Hq). exists (p, e), (q, f). split; [apply nth_combine; assumption|]. split; [apply nth_combine; assumption|]. unfold bl. rewrite (geti_nth _ _ _ Ep), (geti_nth _ _ _ Eq). cbn [bind]. unfold deref. rewrite Hp, Hq. reflexivity.
Qed.
Lemma good_at i j r r' : nth_error (combine (k_edges ki) ei) i = Some r -> nth_error (combine (k_edges kj) ej) j = Some r' -> bl i j = block (fst r) (fst r') (snd r) (snd r') -> block_ok r r' -> good K rows cols bl i j.
Proof. intros Er Er' E Ok_. exists (edge_points r), (edge_points r'). split; [apply map_nth_error; exact Er|]. split; [apply map_nth_error; exact Er'|]. rewrite E. exact Ok_. Qed.
Lemma component_ok : (forall r r', In r (combine (k_edges ki) ei) -> In r' (combine (k_edges kj) ej) -> block_ok r r') ->
  component_block H ki kj block = Ok (map (fun a => map (K a) (grid_of (kj, ej))) (grid_of (ki, ei))).
Proof using Fi Fj.
  intros Hb. rewrite component_fold. unfold grid_of, contour_grid. cbn [fst snd]. fold rows. fold cols.
  apply (assemble K rows cols (fun M i => fold_res (fun M j => do E <- bl i j; set_block M (Z.of_nat (ends rows i)) (Z.of_nat (ends rows (S i))) (Z.of_nat (ends cols j)) (Z.of_nat (ends cols (S j))) E) (seq 0 (List.length cols)) M) (fun i M j => do E <- bl i j; set_block M (Z.of_nat (ends rows i)) (Z.of_nat (ends rows (S i))) (Z.of_nat (ends cols j)) (Z.of_nat (ends cols (S j))) E) bl); try reflexivity.
  intros i j Li Lj. destruct (bl_at i j Li Lj) as (r & r' & Er & Er' & E). eapply good_at; try eassumption. apply Hb; eapply nth_error_In; eassumption.
Qed.
Lemma component_err : (forall r r', In r (combine (k_edges ki) ei) -> In r' (combine (k_edges kj) ej) -> block_ok r r' \/ block_err r r') ->
  (exists r r', In r (combine (k_edges ki) ei) /\ In r' (combine (k_edges kj) ej) /\ block_err r r') -> component_block H ki kj block = Err ZeroDivisionError.
Proof using Fi Fj.
  intros Hb (r & r' & Ir & Ir' & Bad). rewrite component_fold.
  apply (assemble_err K rows cols (fun M i => fold_res (fun M j => do E <- bl i j; set_block M (Z.of_nat (ends rows i)) (Z.of_nat (ends rows (S i))) (Z.of_nat (ends cols j)) (Z.of_nat (ends cols (S j))) E) (seq 0 (List.length cols)) M) (fun i M j => do E <- bl i j; set_block M (Z.of_nat (ends rows i)) (Z.of_nat (ends rows (S i))) (Z.of_nat (ends cols j)) (Z.of_nat (ends cols (S j))) E) bl); try reflexivity.
  - intros i j Li Lj. destruct (bl_at i j Li Lj) as (r1 & r1' & Er & Er' & E). destruct (Hb r1 r1') as [Y|Y]; [eapply nth_error_In; eassumption|eapply nth_error_In; eassumption|left; eapply good_at; eassumption|right; rewrite E; exact Y].
  - apply In_nth_error in Ir. apply In_nth_error in Ir'. destruct Ir as (i & Ei), Ir' as (j & Ej). assert (Li : (i < List.length rows)%nat) by (unfold rows; rewrite map_length; apply nth_error_Some; congruence). assert (Lj : (j < List.length cols)%nat) by (unfold cols; rewrite map_length; apply nth_error_Some; congruence). exists i, j. split; [exact Li|]. split; [exact Lj|]. destruct (bl_at i j Li Lj) as (r1 & r1' & Er & Er' & E). rewrite E. assert (r1 = r) by congruence. assert (r1' = r') by congruence. subst. exact Bad.
Qed.
End Component.
Lemma component_cases ki kj ei ej : fresh H ki ei -> fresh H kj ej -> (forall r r', In r (combine (k_edges ki) ei) -> In r' (combine (k_edges kj) ej) -> block_ok r r' \/ block_err r r') ->
  component_block H ki kj block = Ok (map (fun a => map (K a) (grid_of (kj, ej))) (grid_of (ki, ei))) \/ component_block H ki kj block = Err ZeroDivisionError.
Proof.
  intros Fi Fj Hb. destruct (Classical_Prop.classic (exists r r', In r (combine (k_edges ki) ei) /\ In r' (combine (k_edges kj) ej) /\ block_err r r')) as [Ex|Nx]; [right; eapply component_err; eassumption|left]. apply component_ok; [exact Fi|exact Fj|]. intros r r' Ir Ir'. destruct (Hb r r' Ir Ir') as [Y|Y]; [exact Y|]. exfalso. apply Nx. exists r, r'. auto.
Qed.

Section Cell.
Context (c : cell) (ess : list (list edge)).
Hypothesis F : cell_fresh H c ess.
Definition edges_in : list (nat * edge) := concat (map (fun ke => combine (k_edges (fst ke)) (snd ke)) (combine (c_comps c) ess)).
Let gs := map grid_of (combine (c_comps c) ess).
Lemma comps_at i : (i < List.length ess)%nat -> exists k es, nth_error (c_comps c) i = Some k /\ nth_error ess i = Some es /\ fresh H k es.
Proof using F.
  destruct F as (F2 & _). clear gs F. revert i. induction F2 as [|k es ks ess' Fk F2 IH]; intros i L; [cbn in L; lia|]. destruct i as [|i]; [exists k, es; auto|]. destruct (IH i) as (k' & es' & X); [cbn in L; lia|]. exists k', es'. exact X.
Qed.
Lemma comps_len : List.length (c_comps c) = List.length ess.
Proof using F. destruct F as (F2 & _). exact (Forall2_len _ _ _ F2). Qed.
Lemma gs_len : List.length gs = List.length ess.
Proof using F. unfold gs. rewrite map_length, combine_length, comps_len. lia. Qed.
Lemma start_ends i : (i <= List.length ess)%nat -> Z.of_nat (ends gs i) = total (firstn i (map csize ess)).
Proof using F.
  destruct F as (F2 & _). unfold gs. clear gs F. revert i. induction F2 as [|k es ks ess' Fk F2 IH]; intros i L; [destruct i; reflexivity|]. destruct i as [|i]; [reflexivity|]. unfold ends in *. cbn [combine map firstn concat]. rewrite app_length, Nat2Z.inj_add, IH by (cbn in L; lia). unfold grid_of at 1. cbn [fst snd]. rewrite (grid_length _ _ (refs_length _ _ _ (proj1 Fk)) (proj1 (proj2 Fk))). reflexivity.
Qed.
Lemma start_at i : (i <= List.length ess)%nat -> exists s, attr (c_start c) = Ok s /\ geti s i = Ok (Z.of_nat (ends gs i)).
Proof using F.
  intros L. destruct F as (_ & _ & _ & Es). rewrite Es. exists (offsets (map csize ess)). split; [reflexivity|]. apply geti_nth. rewrite offset_at by (rewrite map_length; exact L). rewrite start_ends by exact L. reflexivity.
Qed.
Definition cb (i j : nat) : res mat := do ki <- geti (c_comps c) i; do kj <- geti (c_comps c) j; component_block H ki kj block.
Lemma range_len : comp_range c = seq 0 (List.length gs).
Proof using F. unfold comp_range. destruct F as (_ & -> & _). rewrite gs_len, <- comps_len. f_equal. lia. Qed.
Lemma layer_fold : layer_mat H c block = fold_res (fun M i => fold_res (fun M j => do E <- cb i j; set_block M (Z.of_nat (ends gs i)) (Z.of_nat (ends gs (S i))) (Z.of_nat (ends gs j)) (Z.of_nat (ends gs (S j))) E) (seq 0 (List.length gs)) M) (seq 0 (List.length gs)) (repeat (repeat 0 (List.length (concat gs))) (List.length (concat gs))).
Proof using F.
  unfold layer_mat. pose proof F as (_ & _ & En & Es). rewrite En. cbn [attr bind]. rewrite range_len.
  assert (Z1 : zero_mat (total (map csize ess)) (total (map csize ess)) = repeat (repeat 0 (List.length (concat gs))) (List.length (concat gs))).
  { unfold zero_mat. pose proof (start_ends (List.length ess) (le_n _)) as E. rewrite <- (map_length csize ess), firstn_all, map_length, <- gs_len, ends_all in E. rewrite <- E, Nat2Z.id. reflexivity. }
  rewrite Z1. apply fold_ext. intros M i Ii. apply in_seq in Ii. rewrite gs_len in Ii. destruct (start_at i ltac:(lia)) as (s & E1 & E2). rewrite E1. cbn [bind]. rewrite E2. cbn [bind]. destruct (start_at (S i) ltac:(lia)) as (s' & E1' & E3). assert (s' = s) by (rewrite E1 in E1'; apply Ok_inj in E1'; exact E1'). subst s'. rewrite E3. cbn [bind]. destruct (comps_at i ltac:(lia)) as (ki & ei & Ek & _). pose proof (geti_nth _ _ _ Ek) as Gk. rewrite Gk. cbn [bind].
  apply fold_ext. intros M' j Ij. apply in_seq in Ij. rewrite gs_len in Ij. destruct (start_at j ltac:(lia)) as (s' & Ej1 & Ej2). assert (s' = s) by (rewrite E1 in Ej1; apply Ok_inj in Ej1; exact Ej1). subst s'. rewrite Ej2. cbn [bind]. destruct (start_at (S j) ltac:(lia)) as (s' & Ej1' & Ej3). assert (s' = s) by (rewrite E1 in Ej1'; apply Ok_inj in Ej1'; exact Ej1'). subst s'. rewrite Ej3. cbn [bind]. destruct (comps_at j ltac:(lia)) as (kj & ej & Ekj & _). pose proof (geti_nth _ _ _ Ekj) as Gkj. unfold cb. rewrite Gk, Gkj. reflexivity.
Qed.
Lemma cb_at i j : (i < List.length gs)%nat -> (j < List.length gs)%nat -> exists ki kj ei ej, nth_error (combine (c_comps c) ess) i = Some (ki, ei) /\ nth_error (combine (c_comps c) ess) j = Some (kj, ej) /\ fresh H ki ei /\ fresh H kj ej /\ cb i j = component_block H ki kj block.
Proof using F.
  rewrite gs_len. intros Li Lj. destruct (comps_at i Li) as (ki & ei & Ek & Ee & Fi). destruct (comps_at j Lj) as (kj & ej & Ek' & Ee' & Fj). exists ki, kj, ei, ej. split; [apply nth_combine; assumption|]. split; [apply nth_combine; assumption|]. split; [exact Fi|]. split; [exact Fj|]. unfold cb. rewrite (geti_nth _ _ _ Ek), (geti_nth _ _ _ Ek'). reflexivity.
Qed.
Lemma in_comp r ke i : nth_error (combine (c_comps c) ess) i = Some ke -> In r (combine (k_edges (fst ke)) (snd ke)) -> In r edges_in.
Proof. intros E I. unfold edges_in. apply in_concat. exists (combine (k_edges (fst ke)) (snd ke)). split; [|exact I]. apply in_map_iff. exists ke. split; [reflexivity|]. eapply nth_error_In, E. Qed.
Theorem layer_ok : (forall r r', In r edges_in -> In r' edges_in -> block_ok r r') -> layer_mat H c block = Ok (matrix_of K (cell_grid c ess)).
Proof using F.
  intros Hb. rewrite layer_fold. unfold matrix_of, cell_grid. change (map (fun p => contour_grid (k_edges (fst p)) (snd p)) (combine (c_comps c) ess)) with gs.
  apply (assemble K gs gs (fun M i => fold_res (fun M j => do E <- cb i j; set_block M (Z.of_nat (ends gs i)) (Z.of_nat (ends gs (S i))) (Z.of_nat (ends gs j)) (Z.of_nat (ends gs (S j))) E) (seq 0 (List.length gs)) M) (fun i M j => do E <- cb i j; set_block M (Z.of_nat (ends gs i)) (Z.of_nat (ends gs (S i))) (Z.of_nat (ends gs j)) (Z.of_nat (ends gs (S j))) E) cb); try reflexivity.
  intros i j Li Lj. destruct (cb_at i j Li Lj) as (ki & kj & ei & ej & Ei & Ej & Fi & Fj & E). exists (grid_of (ki, ei)), (grid_of (kj, ej)). split; [apply map_nth_error; exact Ei|]. split; [apply map_nth_error; exact Ej|]. rewrite E. apply component_ok; [exact Fi|exact Fj|]. intros r r' Ir Ir'. apply Hb; [exact (in_comp r (ki, ei) i Ei Ir)|exact (in_comp r' (kj, ej) j Ej Ir')].
Qed.
Theorem layer_err : (forall r r', In r edges_in -> In r' edges_in -> block_ok r r' \/ block_err r r') -> (exists r r', In r edges_in /\ In r' edges_in /\ block_err r r') -> layer_mat H c block = Err ZeroDivisionError.
Proof using F.
  intros Hb (r & r' & Ir & Ir' & Bad). rewrite layer_fold.
  assert (Ij : forall i j ki kj ei ej, nth_error (combine (c_comps c) ess) i = Some (ki, ei) -> nth_error (combine (c_comps c) ess) j = Some (kj, ej) -> forall r r', In r (combine (k_edges ki) ei) -> In r' (combine (k_edges kj) ej) -> block_ok r r' \/ block_err r r').
  { intros i j ki kj ei ej Ei Ej r1 r1' I I'. apply Hb; [exact (in_comp r1 (ki, ei) i Ei I)|exact (in_comp r1' (kj, ej) j Ej I')]. }
  apply (assemble_err K gs gs (fun M i => fold_res (fun M j => do E <- cb i j; set_block M (Z.of_nat (ends gs i)) (Z.of_nat (ends gs (S i))) (Z.of_nat (ends gs j)) (Z.of_nat (ends gs (S j))) E) (seq 0 (List.length gs)) M) (fun i M j => do E <- cb i j; set_block M (Z.of_nat (ends gs i)) (Z.of_nat (ends gs (S i))) (Z.of_nat (ends gs j)) (Z.of_nat (ends gs (S j))) E) cb); try reflexivity.
  - intros i j Li Lj. destruct (cb_at i j Li Lj) as (ki & kj & ei & ej & Ei & Ej & Fi & Fj & E). destruct (component_cases ki kj ei ej Fi Fj (Ij _ _ _ _ _ _ Ei Ej)) as [Y|Y]; [left|right; rewrite E; exact Y]. exists (grid_of (ki, ei)), (grid_of (kj, ej)). split; [apply map_nth_error; exact Ei|]. split; [apply map_nth_error; exact Ej|]. rewrite E. exact Y.
  - assert (At : forall x, In x edges_in -> exists i ke, (i < List.length gs)%nat /\ nth_error (combine (c_comps c) ess) i = Some ke /\ In x (combine (k_edges (fst ke)) (snd ke))).
    { intros x Ix. unfold edges_in in Ix. apply in_concat in Ix. destruct Ix as (l & Il & Ixl). apply in_map_iff in Il. destruct Il as (ke & <- & Ike). apply In_nth_error in Ike. destruct Ike as (i & Ei). exists i, ke. split; [unfold gs; rewrite map_length; apply nth_error_Some; congruence|auto]. }
    destruct (At r Ir) as (i & ke & Li & Ei & Ii). destruct (At r' Ir') as (j & ke' & Lj & Ej & Ij'). exists i, j. split; [exact Li|]. split; [exact Lj|]. destruct (cb_at i j Li Lj) as (ki & kj & ei & ej & Ei' & Ej' & Fi & Fj & E). rewrite E. assert (ke = (ki, ei)) by congruence. assert (ke' = (kj, ej)) by congruence. subst. apply (component_err ki kj ei ej Fi Fj (Ij _ _ _ _ _ _ Ei Ej)). exists r, r'. auto.
Qed.
End Cell.
End Blocks.
