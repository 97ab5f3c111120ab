(** Contours and cells whose edges were sampled again with another number of points. *)
From Coq Require Import List ZArith Reals Lia Lra Bool Permutation String.
From Verif Require Import PyBase PolyModel BaryModel BBoxModel QuadModel CurveModel VertModel EdgeModel EdgeSpec ContourModel CellModel CellSpec CellProofs CellProps ContourProofs ContourProofs2 ContourProofs3 ContourProofs4 EdgeProps4.
Import List ListNotations.
Open Scope R_scope.

(** A loop that keeps an invariant or fails with [x], and fails at one of its elements *)
Lemma fold_fails {A B} (f : A -> B -> res A) (P : A -> Prop) x l : (forall a b, In b l -> P a -> (exists a', f a b = Ok a' /\ P a') \/ f a b = Err x) ->
  (exists b, In b l /\ forall a, P a -> f a b = Err x) -> forall a, P a -> fold_res f l a = Err x.
Proof.
  induction l as [|b l IH]; intros S (c & I & E) a Pa; [destruct I|]. cbn [fold_res]. destruct I as [->|I].
  - rewrite (E a Pa). reflexivity.
  - destruct (S a b (or_introl eq_refl) Pa) as [(a' & X & Pa')|X]; rewrite X; [|reflexivity]. cbn [bind]. apply IH; [intros; apply S; [right; assumption|assumption]|eauto|exact Pa'].
Qed.
Lemma fold_keeps {A B} (f : A -> B -> res A) (P : A -> Prop) l : (forall a b, In b l -> P a -> exists a', f a b = Ok a' /\ P a') -> forall a, P a -> exists a', fold_res f l a = Ok a' /\ P a'.
Proof. induction l as [|b l IH]; intros S a Pa; [exists a; auto|]. cbn [fold_res]. destruct (S a b (or_introl eq_refl) Pa) as (a' & X & Pa'). rewrite X. cbn [bind]. apply IH; [intros; apply S; [right; assumption|assumption]|exact Pa']. Qed.

Lemma set_slice_fits {A} (l v : list A) a b : (0 <= a)%Z -> (a <= b)%Z -> (b <= Z.of_nat (List.length l))%Z -> Z.of_nat (List.length v) = (b - a)%Z -> exists l', set_slice l a b v = Ok l' /\ List.length l' = List.length l.
Proof.
  intros Ha Hb Hl Hv. unfold set_slice. rewrite !Nat.min_l by lia. rewrite (proj2 (Nat.eqb_eq _ _)) by lia. eexists. split; [reflexivity|]. rewrite !app_length, firstn_length, skipn_length. lia.
Qed.
Lemma set_slice_misfit {A} (l v : list A) a b : (0 <= a)%Z -> (a <= b)%Z -> (b <= Z.of_nat (List.length l))%Z -> Z.of_nat (List.length v) <> (b - a)%Z -> (2 <= List.length v)%nat -> set_slice l a b v = Err BroadcastError.
Proof.
  intros Ha Hb Hl Hv L. unfold set_slice. rewrite !Nat.min_l by lia. rewrite (proj2 (Nat.eqb_neq _ _)) by lia. destruct v as [|u [|w v]]; cbn in L; try lia. reflexivity.
Qed.
Lemma slice_length {A} (l : list A) a b : (0 <= a)%Z -> (a <= b)%Z -> (b <= Z.of_nat (List.length l))%Z -> Z.of_nat (List.length (slice l a b)) = (b - a)%Z.
Proof. intros. unfold slice. rewrite firstn_length, skipn_length. lia. Qed.

Lemma total_part ns i n : Forall (fun n => (0 <= n)%Z) ns -> nth_error ns i = Some n -> (0 <= total (firstn i ns))%Z /\ total (firstn (S i) ns) = (total (firstn i ns) + n)%Z /\ (total (firstn (S i) ns) <= total ns)%Z /\ (0 <= n)%Z.
Proof.
  intros F. revert i. induction F as [|m ns Hm F IH]; intros [|i] E; try discriminate.
  - injection E as ->. cbn [firstn]. change (total (n :: ns)) with (n + total ns)%Z. pose proof (total_nonneg ns F). cbn. lia.
  - destruct (IH i E) as (A & B & C & D). change (total (firstn (S i) (m :: ns))) with (m + total (firstn i ns))%Z. change (total (firstn (S (S i)) (m :: ns))) with (m + total (firstn (S i) ns))%Z. change (total (m :: ns)) with (m + total ns)%Z. lia.
Qed.

(** The tables of [k] belong to edges [es], but its edges are now [es']. *)
Definition stale (H' : heap) (k : contour) (es es' : list edge) : Prop :=
  refs H' (k_edges k) es' /\ Forall well_sampled es' /\ Forall well_sampled es /\ List.length es = List.length es' /\ k_npts k = Some (total (map open_num es)) /\ k_vidx k = offsets (map open_num es).
Definition resized (es es' : list edge) : Prop := exists i e e', nth_error es i = Some e /\ nth_error es' i = Some e' /\ open_num e <> open_num e'.

Lemma stale_guard H' k es es' : stale H' k es es' -> all_param H' k = true.
Proof.
  intros (R & W & _). unfold all_param. apply forallb_forall. intros i Hi. apply In_nth_error in Hi. destruct Hi as [j Hj]. pose proof (Forall2_len _ _ _ R) as L. assert (Lj : (j < List.length es')%nat) by (rewrite <- L; apply nth_error_Some; congruence).
  destruct (nth_error es' j) as [e|] eqn:E; [|apply nth_error_None in E; lia]. pose proof (Forall2_nth _ _ _ R _ _ _ Hj E) as X. cbn in X. rewrite X. rewrite Forall_forall in W. destruct (W e (nth_error_In _ _ E)) as (P & _). exact P.
Qed.
Lemma stale_fresh H' k es es' : stale H' k es es' -> ~ resized es es' -> fresh H' k es'.
Proof.
  intros (R & W' & W & L & N & V) Z. assert (E : map open_num es = map open_num es').
  { clear -L Z. revert es' L Z. induction es as [|e es IH]; intros [|e' es'] L Z; try discriminate; [reflexivity|]. cbn [map]. f_equal.
    - destruct (Z.eq_dec (open_num e) (open_num e')) as [X|X]; [exact X|]. exfalso. apply Z. exists O, e, e'. auto.
    - apply IH; [cbn in L; lia|]. intros (i & a & b & A & B & C). apply Z. exists (S i), a, b. auto. }
  split; [exact R|]. split; [exact W'|]. rewrite <- E. auto.
Qed.
Lemma resized_dec es es' : resized es es' \/ ~ resized es es'.
Proof.
  revert es'. induction es as [|e es IH]; intros [|e' es']; try (right; intros ([|i] & a & b & A & B & _); discriminate). destruct (Z.eq_dec (open_num e) (open_num e')) as [X|X]; [|left; exists O, e, e'; auto]. destruct (IH es') as [(i & a & b & A)|N]; [left; exists (S i), a, b; exact A|].
  right. intros ([|i] & a & b & A & B & C); cbn in A, B; [congruence|]. apply N. exists i, a, b. auto.
Qed.

Lemma stale_fill H' k es es' f x : stale H' k es es' -> resized es es' ->
  (forall e' a b, (0 <= a)%Z -> (b <= total (map open_num es))%Z -> In e' es' -> (open_num e' = b - a)%Z -> exists v, f e' a b = Ok v /\ Z.of_nat (List.length v) = open_num e') ->
  (forall e' a b, (0 <= a)%Z -> (a <= b)%Z -> (b <= total (map open_num es))%Z -> In e' es' -> (open_num e' <> b - a)%Z -> f e' a b = Err x \/ x = BroadcastError /\ exists v, f e' a b = Ok v /\ Z.of_nat (List.length v) = open_num e') ->
  fill H' k f = Err x.
Proof.
  intros (R & W' & W & L & N & V) (i0 & e0 & e0' & A0 & B0 & C0) F1 F2. unfold fill. rewrite N. cbn [attr bind]. unfold k_num. rewrite fold_res_combine. pose proof (Forall2_len _ _ _ R) as L1.
  assert (NN : Forall (fun n => (0 <= n)%Z) (map open_num es)) by (apply Forall_map; eapply Forall_impl; [|exact W]; intros e We; pose proof (open_pos e We); lia).
  pose proof (total_nonneg _ NN) as T0.
  assert (S : forall y i e e', Z.of_nat (List.length y) = total (map open_num es) -> nth_error es i = Some e -> nth_error es' i = Some e' ->
    let r := (do a <- geti (k_vidx k) i; do b <- geti (k_vidx k) (S i); do e <- deref H' (nth i (k_edges k) 0%nat); do v <- f e a b; set_slice y a b v) in
    (open_num e = open_num e' -> exists y', r = Ok y' /\ Z.of_nat (List.length y') = total (map open_num es)) /\ (open_num e <> open_num e' -> r = Err x)).
  { intros y i e e' Ly Ei Ei' r. assert (Li : (i < List.length es)%nat) by (apply nth_error_Some; congruence). destruct (total_part (map open_num es) i (open_num e) NN) as (P1 & P2 & P3 & P4); [rewrite nth_error_map, Ei; reflexivity|].
    destruct (nth_error (k_edges k) i) as [j|] eqn:Ej; [|apply nth_error_None in Ej; lia]. pose proof (Forall2_nth _ _ _ R _ _ _ Ej Ei') as X. cbn in X.
    assert (Er : r = do v <- f e' (total (firstn i (map open_num es))) (total (firstn (S i) (map open_num es))); set_slice y (total (firstn i (map open_num es))) (total (firstn (S i) (map open_num es))) v).
    { unfold r, geti. rewrite V. unfold offsets. rewrite !offsets_nth by (rewrite map_length; lia). cbn [bind]. rewrite (nth_error_nth _ _ 0%nat Ej). unfold deref. rewrite X. cbn [bind]. rewrite !Z.add_0_l. reflexivity. }
    pose proof (nth_error_In _ _ Ei') as I'. pose proof (proj1 (Forall_forall _ _) W' e' I') as We'. pose proof (proj1 (open_pos e' We')) as Two. split; intros D; rewrite Er; clear r Er.
    - destruct (F1 e' (total (firstn i (map open_num es))) (total (firstn (S i) (map open_num es)))) as (v & Ev & Lv); [lia|lia|exact I'|lia|]. rewrite Ev. cbn [bind]. destruct (set_slice_fits y v (total (firstn i (map open_num es))) (total (firstn (S i) (map open_num es)))) as (y' & Ey & Ly'); [lia|lia|lia|lia|]. exists y'. split; [exact Ey|lia].
    - destruct (F2 e' (total (firstn i (map open_num es))) (total (firstn (S i) (map open_num es)))) as [Ev|(-> & v & Ev & Lv)]; [lia|lia|lia|exact I'|lia| |]; rewrite Ev; [reflexivity|]. cbn [bind]. apply set_slice_misfit; lia. }
  apply (fold_fails _ (fun y => Z.of_nat (List.length y) = total (map open_num es))).
  - intros y i Ii Ly. apply in_seq in Ii. destruct (nth_error es' i) as [e'|] eqn:Ei'; [|apply nth_error_None in Ei'; lia]. destruct (nth_error es i) as [e|] eqn:Ei; [|apply nth_error_None in Ei; lia]. destruct (S y i e e' Ly Ei Ei') as [S1 S2]. cbn [fst snd]. destruct (Z.eq_dec (open_num e) (open_num e')) as [D|D]; [left; apply S1, D|right; apply S2, D].
  - exists i0. split; [apply in_seq; rewrite L1, <- L; split; [lia|]; apply nth_error_Some; congruence|]. intros y Ly. cbn [fst snd]. apply (S y i0 e0 e0' Ly A0 B0), C0.
  - rewrite repeat_length. lia.
Qed.

Lemma eval_length g e : well_sampled e -> exists v, evaluate_function g true e = Ok v /\ Z.of_nat (List.length v) = open_num e.
Proof. intros W. unfold evaluate_function. destruct W as (P & W'). rewrite P. eexists. split; [reflexivity|]. rewrite map_length, open_firstn by (split; assumption). apply open_pos. split; assumption. Qed.
Lemma stale_eval g H' k es es' : stale H' k es es' -> resized es es' -> eval_on_contour g H' k = Err BroadcastError.
Proof.
  intros St Rz. unfold eval_on_contour, guard. rewrite (stale_guard _ _ _ _ St). cbn [bind]. pose proof St as (_ & W & _). rewrite Forall_forall in W. apply (stale_fill _ _ _ _ _ _ St Rz).
  - intros e' a b _ _ I _. apply eval_length, W, I.
  - intros e' a b _ _ _ I _. right. split; [reflexivity|]. apply eval_length, W, I.
Qed.
Lemma dx_length v e : well_sampled e -> (Z.of_nat (List.length v) = open_num e -> exists y, multiply_by_dx_norm v true e = Ok y /\ Z.of_nat (List.length y) = open_num e) /\ (Z.of_nat (List.length v) <> open_num e -> multiply_by_dx_norm v true e = Err SizeMismatchError).
Proof.
  intros W. pose proof (open_pos e W) as [_ Lo]. unfold multiply_by_dx_norm. destruct W as (P & _). rewrite P. cbv zeta iota. unfold open_num in *. split; intros E.
  - rewrite (proj2 (Z.eqb_eq _ _) E). rewrite <- map_removelast. fold (open_smp e). rewrite np_mul_zip by (rewrite map_length; lia). eexists. split; [reflexivity|]. rewrite zip_length; rewrite ?map_length; lia.
  - rewrite (proj2 (Z.eqb_neq _ _) E). reflexivity.
Qed.
Lemma stale_dx v H' k es es' : stale H' k es es' -> resized es es' -> contour_dx_norm v H' k = Err SizeMismatchError.
Proof.
  intros St Rz. unfold contour_dx_norm, guard. rewrite (stale_guard _ _ _ _ St). cbn [bind]. pose proof St as (_ & W & _ & _ & N & _). rewrite N. cbn [attr bind]. destruct (Z.eqb_spec (Z.of_nat (List.length v)) (total (map open_num es))) as [E|E]; [|reflexivity]. rewrite Forall_forall in W. apply (stale_fill _ _ _ _ _ _ St Rz).
  - intros e' a b Ha Hb I Eb. pose proof (open_pos e' (W e' I)) as [Two _]. apply dx_length; [apply W, I|]. rewrite slice_length; lia.
  - intros e' a b Ha Hab Hb I Eb. left. apply dx_length; [apply W, I|]. rewrite slice_length; lia.
Qed.
Lemma dot_length (t : sample -> pt) u v e : well_sampled e -> (Z.of_nat (List.length u) = open_num e -> Z.of_nat (List.length v) = open_num e -> exists y, dot_with t u v true e = Ok y /\ Z.of_nat (List.length y) = open_num e) /\
  (Z.of_nat (List.length u) <> open_num e \/ Z.of_nat (List.length v) <> open_num e -> dot_with t u v true e = Err SizeMismatchError).
Proof.
  intros W. pose proof (open_pos e W) as [_ Lo]. unfold dot_with. destruct W as (P & _). rewrite P. cbv zeta iota. change (Z.of_nat 1) with 1%Z. unfold open_num in *. split.
  - intros E1 E2. rewrite (proj2 (Z.eqb_eq _ _) E1), (proj2 (Z.eqb_eq _ _) E2). cbn [negb orb]. rewrite !slice_removelast, <- !map_removelast. fold (open_smp e). rewrite !np_mul_zip by (rewrite map_length; lia). cbn [bind]. unfold np_add. rewrite !zip_length by (rewrite map_length; lia). replace (List.length v) with (List.length u) by lia. rewrite Nat.eqb_refl. eexists. split; [reflexivity|]. rewrite map_length, combine_length, !zip_length; rewrite ?map_length; lia.
  - intros E. destruct (Z.eqb_spec (Z.of_nat (List.length u)) (e_npts e - 1)), (Z.eqb_spec (Z.of_nat (List.length v)) (e_npts e - 1)); cbn [negb orb]; try reflexivity. exfalso. tauto.
Qed.
Lemma stale_dot t u v H' k es es' : stale H' k es es' -> resized es es' -> Z.of_nat (List.length u) = total (map open_num es) -> Z.of_nat (List.length v) = total (map open_num es) -> contour_dot (dot_with t) u v H' k = Err SizeMismatchError.
Proof.
  intros St Rz Lu Lv. unfold contour_dot, guard. rewrite (stale_guard _ _ _ _ St). cbn [bind]. pose proof St as (_ & W & _). rewrite Forall_forall in W. apply (stale_fill _ _ _ _ _ _ St Rz).
  - intros e' a b Ha Hb I Eb. pose proof (open_pos e' (W e' I)) as [Two _]. apply dot_length; [apply W, I| |]; rewrite slice_length; lia.
  - intros e' a b Ha Hab Hb I Eb. left. apply dot_length; [apply W, I|]. left. rewrite slice_length; lia.
Qed.

(** ** Cells *)
Definition cell_stale (H' : heap) (c : cell) (ess ess' : list (list edge)) : Prop :=
  Forall2 (fun k p => stale H' k (fst p) (snd p)) (c_comps c) (combine ess ess') /\ List.length ess = List.length ess' /\ c_holes c = (Z.of_nat (List.length (c_comps c)) - 1)%Z /\ c_npts c = Some (total (map csize ess)) /\ c_start c = Some (offsets (map csize ess)).
Definition cell_resized (ess ess' : list (list edge)) : Prop := exists i es es', nth_error ess i = Some es /\ nth_error ess' i = Some es' /\ resized es es'.

Lemma cell_stale_guard H' c ess ess' : cell_stale H' c ess ess' -> cell_guard H' c = Ok tt.
Proof. intros (F & _). unfold cell_guard. assert (E : forallb (all_param H') (c_comps c) = true); [|rewrite E; reflexivity]. induction F as [|k p ks ps Fk F IH]; [reflexivity|]. cbn. rewrite (stale_guard _ _ _ _ Fk), IH. reflexivity. Qed.
Lemma cell_stale_fill H' c ess ess' f x : cell_stale H' c ess ess' -> cell_resized ess ess' ->
  (forall k es es' a b, (0 <= a)%Z -> (b <= total (map csize ess))%Z -> b = (a + csize es)%Z -> stale H' k es es' -> fresh H' k es' -> csize es = csize es' -> exists v, f k a b = Ok v /\ Z.of_nat (List.length v) = csize es') ->
  (forall k es es' a b, (0 <= a)%Z -> (b <= total (map csize ess))%Z -> b = (a + csize es)%Z -> stale H' k es es' -> resized es es' -> f k a b = Err x) ->
  cell_fill c f = Err x.
Proof.
  intros (F & LL & EH & EN & ES) (i0 & es0 & es0' & A0 & B0 & C0) F1 F2. unfold cell_fill. rewrite EN. cbn [attr bind]. rewrite (comp_range_ok c EH). pose proof (Forall2_len _ _ _ F) as L1. rewrite combine_length in L1.
  assert (NN : Forall (fun n => (0 <= n)%Z) (map csize ess)). { apply Forall_map, Forall_forall. intros es I. apply In_nth_error in I. destruct I as (i & Ei). destruct (nth_error ess' i) as [es'|] eqn:Ei'; [|apply nth_error_None in Ei'; assert (i < List.length ess)%nat by (apply nth_error_Some; congruence); lia]. destruct (nth_error (c_comps c) i) as [k|] eqn:Ek; [|apply nth_error_None in Ek; assert (i < List.length ess)%nat by (apply nth_error_Some; congruence); lia]. assert (St : stale H' k es es') by (refine (Forall2_nth _ _ _ F i k (es, es') Ek _); rewrite nth_error_combine, Ei, Ei'; reflexivity). apply csize_nonneg, St. }
  pose proof (total_nonneg _ NN) as T0.
  assert (S : forall y i es es', Z.of_nat (List.length y) = total (map csize ess) -> nth_error ess i = Some es -> nth_error ess' i = Some es' ->
    let r := (do s <- attr (c_start c); do a <- geti s i; do b <- geti s (S i); do k <- geti (c_comps c) i; do v <- f k a b; set_slice y a b v) in
    (~ resized es es' -> exists y', r = Ok y' /\ Z.of_nat (List.length y') = total (map csize ess)) /\ (resized es es' -> r = Err x)).
  { intros y i es es' Ly Ei Ei' r. assert (Li : (i < List.length ess)%nat) by (apply nth_error_Some; congruence). destruct (total_part (map csize ess) i (csize es) NN) as (P1 & P2 & P3 & P4); [rewrite nth_error_map, Ei; reflexivity|].
    destruct (nth_error (c_comps c) i) as [k|] eqn:Ek; [|apply nth_error_None in Ek; lia]. assert (St : stale H' k es es') by (refine (Forall2_nth _ _ _ F i k (es, es') Ek _); rewrite nth_error_combine, Ei, Ei'; reflexivity).
    assert (Er : r = do v <- f k (total (firstn i (map csize ess))) (total (firstn (S i) (map csize ess))); set_slice y (total (firstn i (map csize ess))) (total (firstn (S i) (map csize ess))) v).
    { unfold r, geti. rewrite ES. cbn [attr bind]. unfold offsets. rewrite !offsets_nth by (rewrite map_length; lia). cbn [bind]. rewrite Ek. cbn [bind]. rewrite !Z.add_0_l. reflexivity. }
    split; intros D; rewrite Er; clear r Er.
    - pose proof (stale_fresh _ _ _ _ St D) as Fr. assert (Cs : csize es = csize es') by (destruct St as (_ & _ & _ & _ & N & _), Fr as (_ & _ & N' & _); rewrite N in N'; injection N'; auto).
      destruct (F1 k es es' (total (firstn i (map csize ess))) (total (firstn (S i) (map csize ess)))) as (v & Ev & Lv); [lia|lia|lia|exact St|exact Fr|exact Cs|]. rewrite Ev. cbn [bind]. destruct (set_slice_fits y v (total (firstn i (map csize ess))) (total (firstn (S i) (map csize ess)))) as (y' & Ey & Ly'); [lia|lia|lia|lia|]. exists y'. split; [exact Ey|lia].
    - rewrite (F2 k es es') by (try assumption; lia). reflexivity. }
  apply (fold_fails _ (fun y => Z.of_nat (List.length y) = total (map csize ess))).
  - intros y i Ii Ly. apply in_seq in Ii. destruct (nth_error ess' i) as [es'|] eqn:Ei'; [|apply nth_error_None in Ei'; lia]. destruct (nth_error ess i) as [es|] eqn:Ei; [|apply nth_error_None in Ei; lia]. destruct (S y i es es' Ly Ei Ei') as [S1 S2]. destruct (resized_dec es es') as [D|D]; [right; apply S2, D|left; apply S1, D].
  - exists i0. split; [apply in_seq; assert (i0 < List.length ess)%nat by (apply nth_error_Some; congruence); lia|]. intros y Ly. apply (S y i0 es0 es0' Ly A0 B0), C0.
  - rewrite repeat_length. lia.
Qed.

Lemma cell_stale_eval g H' c ess ess' : cell_stale H' c ess ess' -> cell_resized ess ess' -> eval_on_boundary g H' c = Err BroadcastError.
Proof.
  intros St Rz. unfold eval_on_boundary. rewrite (cell_stale_guard _ _ _ _ St). cbn [bind]. apply (cell_stale_fill _ _ _ _ _ _ St Rz).
  - intros k es es' a b _ _ _ _ Fr _. rewrite (eval_contour_ok _ _ _ _ Fr). eexists. split; [reflexivity|]. rewrite map_length. apply contour_smp_length, Fr.
  - intros k es es' a b _ _ _ Sk Rk. apply (stale_eval _ _ _ _ _ Sk Rk).
Qed.
Lemma cell_stale_points H' c ess ess' : cell_stale H' c ess ess' -> cell_resized ess ess' -> boundary_points H' c = Err BroadcastError.
Proof.
  intros St Rz. unfold boundary_points. rewrite (cell_stale_guard _ _ _ _ St). cbn [bind]. rewrite (cell_stale_fill _ _ _ _ _ BroadcastError St Rz); [reflexivity| |].
  - intros k es es' a b _ _ _ _ Fr _. rewrite (contour_points_ok _ _ _ Fr). cbn [bind]. eexists. split; [reflexivity|]. rewrite map_length. apply contour_smp_length, Fr.
  - intros k es es' a b _ _ _ Sk Rk. unfold contour_points, guard. rewrite (stale_guard _ _ _ _ Sk). cbn [bind]. rewrite (stale_eval _ _ _ _ _ Sk Rk). reflexivity.
Qed.
Lemma cell_stale_dx v H' c ess ess' : cell_stale H' c ess ess' -> cell_resized ess ess' -> cell_dx_norm v H' c = Err SizeMismatchError.
Proof.
  intros St Rz. unfold cell_dx_norm. rewrite (cell_stale_guard _ _ _ _ St). cbn [bind]. pose proof St as (_ & _ & _ & N & _). rewrite N. cbn [attr bind]. destruct (Z.eqb_spec (Z.of_nat (List.length v)) (total (map csize ess))) as [E|E]; [|reflexivity]. apply (cell_stale_fill _ _ _ _ _ _ St Rz).
  - intros k es es' a b Ha Hb Eb Sk Fr Cs. pose proof Fr as (_ & W & _). pose proof (csize_nonneg _ W). destruct (cut_exists es' (slice v a b) W) as (vs & Ev & Cv); [fold (csize es'); rewrite slice_length; lia|]. rewrite Ev, (dx_contour_ok _ _ _ _ Fr Cv). eexists. split; [reflexivity|]. apply (block_offsets_all es'); [exact W|].
    clear -Cv W. revert vs Cv. induction W as [|e es We W IH]; intros vs Cv; inversion Cv; subst; [constructor|]. cbn [combine map fst snd]. constructor; [|apply IH; assumption]. pose proof (open_pos e We) as [_ Lo]. rewrite zip_length; rewrite ?map_length; lia.
  - intros k es es' a b Ha Hb Eb Sk Rk. apply (stale_dx _ _ _ _ _ Sk Rk).
Qed.
Lemma cell_stale_dot t u v H' c ess ess' : cell_stale H' c ess ess' -> cell_resized ess ess' -> cell_dot (dot_with t) u v H' c = Err SizeMismatchError.
Proof.
  intros St Rz. unfold cell_dot. rewrite (cell_stale_guard _ _ _ _ St). cbn [bind]. pose proof St as (_ & _ & _ & N & _). rewrite N. cbn [attr bind]. destruct (Z.eqb_spec (Z.of_nat (List.length u)) (total (map csize ess))) as [Eu|Eu]; [|reflexivity]. destruct (Z.eqb_spec (Z.of_nat (List.length v)) (total (map csize ess))) as [Ev|Ev]; [|reflexivity]. cbn [andb]. apply (cell_stale_fill _ _ _ _ _ _ St Rz).
  - intros k es es' a b Ha Hb Eb Sk Fr Cs. pose proof Fr as (_ & W & _). pose proof (csize_nonneg _ W). destruct (cut_exists es' (slice u a b) W) as (us & Xu & Cu); [fold (csize es'); rewrite slice_length; lia|]. destruct (cut_exists es' (slice v a b) W) as (vs & Xv & Cv); [fold (csize es'); rewrite slice_length; lia|].
    rewrite (dot_contour_ok t _ _ _ _ _ _ _ Fr Xu Xv Cu Cv). eexists. split; [reflexivity|]. pose proof (contour_smp_length _ W) as LS. assert (Lu : Z.of_nat (List.length (slice u a b)) = csize es') by (rewrite slice_length; lia). assert (Lv : Z.of_nat (List.length (slice v a b)) = csize es') by (rewrite slice_length; lia). rewrite !zip_length; rewrite ?zip_length; rewrite ?map_length; lia.
  - intros k es es' a b Ha Hb Eb Sk Rk. pose proof Sk as (_ & W' & W & _). pose proof (csize_nonneg _ W). apply (stale_dot _ _ _ _ _ _ _ Sk Rk); fold (csize es); rewrite slice_length; lia.
Qed.
