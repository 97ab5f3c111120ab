(** Index tables and block-wise arrays of contours and cells. *)
From Coq Require Import List ZArith Reals Lia Lra Psatz Bool Permutation String.
From Verif Require Import PyBase PolyModel BaryModel BBoxModel QuadModel CurveModel VertModel EdgeModel EdgeSpec EdgeProps4 ContourModel CellModel CellSpec CellProofs CellProps.
Import List ListNotations.
Open Scope R_scope.

(** ** Blocks *)

Lemma set_slice_block {A} (p q r v : list A) a b : Z.to_nat a = List.length p -> Z.to_nat b = (List.length p + List.length q)%nat -> List.length v = List.length q ->
  set_slice (p ++ q ++ r) a b v = Ok (p ++ v ++ r).
Proof.
  intros Ha Hb Hv. unfold set_slice. rewrite Ha, Hb. rewrite !app_length, !Nat.min_l by lia. replace (List.length p + List.length q - List.length p)%nat with (List.length q) by lia. rewrite (proj2 (Nat.eqb_eq _ _) Hv).
  rewrite firstn_app, firstn_all, Nat.sub_diag, firstn_O, app_nil_r. rewrite app_assoc with (l := p) (m := q), skipn_app, skipn_all2 by (rewrite app_length; lia). rewrite app_length, Nat.sub_diag, skipn_O. reflexivity.
Qed.
Lemma slice_block {A} (p q r : list A) a b : Z.to_nat a = List.length p -> Z.to_nat b = (List.length p + List.length q)%nat -> slice (p ++ q ++ r) a b = q.
Proof.
  intros Ha Hb. unfold slice. rewrite Ha, Hb. replace (List.length p + List.length q - List.length p)%nat with (List.length q) by lia. rewrite skipn_app, skipn_all, Nat.sub_diag, skipn_O. cbn [app]. rewrite firstn_app, firstn_all, Nat.sub_diag, firstn_O. apply app_nil_r.
Qed.

Lemma total_nonneg ns : Forall (fun n => (0 <= n)%Z) ns -> (0 <= total ns)%Z.
Proof. unfold total. induction 1; cbn [fold_right]; lia. Qed.
Lemma offsets_nth ns : forall a i, (i <= List.length ns)%nat -> nth_error (offsets_from a ns) i = Some (a + total (firstn i ns))%Z.
Proof.
  induction ns as [|n ns IH]; intros a [|i] Hi; cbn [List.length] in Hi; try lia; cbn [offsets_from nth_error firstn].
  - f_equal. unfold total. cbn. lia.
  - f_equal. unfold total. cbn. lia.
  - rewrite IH by lia. f_equal. unfold total. cbn [fold_right]. lia.
Qed.
Lemma offsets_length ns : forall a, List.length (offsets_from a ns) = S (List.length ns).
Proof. induction ns as [|n ns IH]; intros a; cbn; [reflexivity|rewrite IH; reflexivity]. Qed.

(** Filling an array block by block *)
Lemma skipn_cons {A} (l : list A) : forall i v, nth_error l i = Some v -> skipn i l = v :: skipn (S i) l.
Proof. induction l as [|u l IH]; intros [|i] v E; try discriminate; [injection E as <-; reflexivity|]. exact (IH i v E). Qed.
Lemma firstn_snoc {A} (l : list A) : forall i v, nth_error l i = Some v -> firstn (S i) l = firstn i l ++ [v].
Proof. induction l as [|u l IH]; intros [|i] v E; try discriminate; [injection E as <-; reflexivity|]. cbn [firstn app]. f_equal. exact (IH i v E). Qed.
Lemma total_snoc l x : total (l ++ [x]) = (total l + x)%Z.
Proof. unfold total. induction l as [|a l IH]; cbn [app fold_right]; [lia|rewrite IH; lia]. Qed.
Lemma concat_split {A} (vs : list (list A)) i v : nth_error vs i = Some v -> concat vs = concat (firstn i vs) ++ v ++ concat (skipn (S i) vs).
Proof. intros E. rewrite <- (firstn_skipn i vs) at 1. rewrite concat_app, (skipn_cons _ _ _ E). reflexivity. Qed.

Section Fill.
Context {A : Type} (d : A).
Variable F : list A -> nat -> res (list A).
Variable vs : list (list A).
Hypothesis step : forall i v p z r, nth_error vs i = Some v -> List.length p = List.length (concat (firstn i vs)) -> List.length z = List.length v -> F (p ++ z ++ r) i = Ok (p ++ v ++ r).
Lemma fill_all : fold_res F (seq 0 (List.length vs)) (repeat d (List.length (concat vs))) = Ok (concat vs).
Proof.
  assert (G : forall k, (k <= List.length vs)%nat -> fold_res F (seq (List.length vs - k) k) (concat (firstn (List.length vs - k) vs) ++ repeat d (List.length (concat (skipn (List.length vs - k) vs)))) = Ok (concat vs)).
  { induction k as [|k IH]; intros Hk.
    - cbn [seq fold_res]. rewrite Nat.sub_0_r, firstn_all, skipn_all. cbn. rewrite app_nil_r. reflexivity.
    - set (i := (List.length vs - S k)%nat). assert (Ei : (List.length vs - k)%nat = S i) by lia. rewrite Ei in IH. cbn [seq fold_res]. fold i. destruct (nth_error vs i) as [v|] eqn:Ev; [|apply nth_error_None in Ev; lia].
      pose proof (skipn_cons vs i v Ev) as Sk. pose proof (firstn_snoc vs i v Ev) as Fk.
      rewrite Sk. cbn [concat]. rewrite app_length, repeat_app. rewrite (step i v) by (auto using repeat_length). cbn [bind]. rewrite Fk, concat_app in IH. cbn [concat] in IH. rewrite app_nil_r, <- app_assoc in IH. apply IH. lia. }
  specialize (G (List.length vs) (le_n _)). rewrite Nat.sub_diag in G. exact G.
Qed.
End Fill.

Lemma fold_res_combine {B} (f : B -> nat * nat -> res B) ids : forall y, fold_res f (combine (seq 0 (List.length ids)) ids) y = fold_res (fun y i => f y (i, nth i ids 0%nat)) (seq 0 (List.length ids)) y.
Proof.
  assert (G : forall ids k y, fold_res f (combine (seq k (List.length ids)) ids) y = fold_res (fun y i => f y (i, nth (i - k) ids 0%nat)) (seq k (List.length ids)) y).
  { clear ids. induction ids as [|a ids IH]; intros k y; [reflexivity|]. cbn [List.length seq combine fold_res]. rewrite Nat.sub_diag. cbn [nth]. destruct (f y (k, a)) as [y'|]; [|reflexivity]. cbn [bind]. rewrite IH.
    assert (E : forall l y0, Forall (fun i => (S k <= i)%nat) l -> fold_res (fun y i => f y (i, nth (i - S k) ids 0%nat)) l y0 = fold_res (fun y i => f y (i, nth (i - k) (a :: ids) 0%nat)) l y0).
    { induction l as [|i l IHl]; intros y0 Fl; [reflexivity|]. inversion Fl; subst. cbn [fold_res]. replace (i - k)%nat with (S (i - S k)) by lia. cbn [nth]. destruct (f y0 _); [|reflexivity]. cbn [bind]. apply IHl. assumption. }
    apply E. apply Forall_forall. intros i Hi. apply in_seq in Hi. lia. }
  intros y. rewrite G. clear G. assert (E : forall l y0, fold_res (fun y i => f y (i, nth (i - 0) ids 0%nat)) l y0 = fold_res (fun y i => f y (i, nth i ids 0%nat)) l y0).
  { induction l as [|i l IHl]; intros y0; [reflexivity|]. cbn [fold_res]. rewrite Nat.sub_0_r. destruct (f y0 _); [|reflexivity]. cbn [bind]. apply IHl. }
  apply E.
Qed.

(** ** Contours whose tables are up to date *)

Definition fresh (H : heap) (k : contour) (es : list edge) : Prop :=
  refs H (k_edges k) es /\ Forall well_sampled es /\ k_npts k = Some (total (map open_num es)) /\ k_vidx k = offsets (map open_num es).

Lemma open_pos e : well_sampled e -> (2 <= open_num e)%Z /\ Z.of_nat (List.length (open_smp e)) = open_num e.
Proof. intros (_ & L & N & _). unfold open_num, open_smp. rewrite removelast_firstn_len, firstn_length. lia. Qed.
Lemma fresh_guard H k es : fresh H k es -> all_param H k = true.
Proof.
  intros (R & W & _). unfold all_param. apply forallb_forall. intros i Hi. apply In_nth_error in Hi. destruct Hi as [j Hj]. pose proof (Forall2_len _ _ _ R) as L. assert (Lj : (j < List.length es)%nat) by (rewrite <- L; apply nth_error_Some; congruence).
  destruct (nth_error es j) as [e|] eqn:E; [|apply nth_error_None in E; lia]. pose proof (Forall2_nth _ _ _ R _ _ _ Hj E) as X. cbn in X. rewrite X. rewrite Forall_forall in W. destruct (W e (nth_error_In _ _ E)) as (P & _). exact P.
Qed.

(** Block [i] of a list of blocks with the lengths of the edges *)
Lemma block_offsets es (vs : list (list R)) i e : Forall well_sampled es -> Forall2 (fun e v => Z.of_nat (List.length v) = open_num e) es vs -> nth_error es i = Some e ->
  Z.to_nat (total (firstn i (map open_num es))) = List.length (concat (firstn i vs)).
Proof.
  intros W F. revert i. induction F as [|e0 v es vs Hv F IH]; intros i Hi; [destruct i; discriminate|]. inversion W as [|? ? W0 W']; subst. destruct i as [|i]; [reflexivity|]. cbn [map firstn concat]. rewrite app_length, <- (IH W' i Hi). unfold total. cbn [fold_right]. fold (total (firstn i (map open_num es))).
  assert (0 <= total (firstn i (map open_num es)))%Z.
  { apply total_nonneg. apply Forall_forall. intros x Hx. assert (I : In x (map open_num es)) by (rewrite <- (firstn_skipn i (map open_num es)); apply in_or_app; left; exact Hx). apply in_map_iff in I. destruct I as (e1 & <- & I1). rewrite Forall_forall in W'. pose proof (open_pos e1 (W' e1 I1)). lia. }
  lia.
Qed.
Lemma block_offsets_all es (vs : list (list R)) : Forall well_sampled es -> Forall2 (fun e v => Z.of_nat (List.length v) = open_num e) es vs -> Z.of_nat (List.length (concat vs)) = total (map open_num es).
Proof. intros W F. induction F as [|e v es vs Hv F IH]; [reflexivity|]. inversion W; subst. unfold total. cbn [map concat fold_right]. rewrite app_length, Nat2Z.inj_add, Hv, IH by assumption. reflexivity. Qed.

Lemma fill_ok H k es f vs : fresh H k es -> Forall2 (fun e v => Z.of_nat (List.length v) = open_num e) es vs ->
  (forall i e v, nth_error es i = Some e -> nth_error vs i = Some v -> f e (total (firstn i (map open_num es))) (total (firstn (S i) (map open_num es))) = Ok v) ->
  fill H k f = Ok (concat vs).
Proof.
  intros (R & W & HN & HV) FL Hf. unfold fill. rewrite HN. cbn [attr bind]. unfold k_num. rewrite fold_res_combine. pose proof (Forall2_len _ _ _ R) as L1. pose proof (Forall2_len _ _ _ FL) as L2.
  rewrite <- (block_offsets_all es vs W FL), Nat2Z.id. rewrite L1, L2. apply fill_all. intros i v p z r Ev Lp Lz. assert (Li : (i < List.length vs)%nat) by (apply nth_error_Some; congruence).
  destruct (nth_error es i) as [e|] eqn:Ee; [|apply nth_error_None in Ee; lia]. destruct (nth_error (k_edges k) i) as [j|] eqn:Ej; [|apply nth_error_None in Ej; lia].
  cbn [fst snd]. unfold geti. rewrite HV. unfold offsets. rewrite !offsets_nth by (rewrite map_length; lia). cbn [bind]. rewrite (nth_error_nth _ _ 0%nat Ej). unfold deref. pose proof (Forall2_nth _ _ _ R _ _ _ Ej Ee) as X. cbn in X. rewrite X. cbn [bind]. rewrite !Z.add_0_l, (Hf i e v Ee Ev). cbn [bind].
  assert (Lv : Z.of_nat (List.length v) = open_num e) by exact (Forall2_nth _ _ _ FL _ _ _ Ee Ev).
  assert (O1 := block_offsets es vs i e W FL Ee). apply set_slice_block; [lia| |lia]. rewrite Lz.
  rewrite (firstn_snoc (map open_num es) i (open_num e)) by (rewrite nth_error_map, Ee; reflexivity). rewrite total_snoc, Z2Nat.inj_add; [rewrite O1, Lp, <- Lv, Nat2Z.id; reflexivity| |rewrite <- Lv; lia].
  apply total_nonneg. apply Forall_forall. intros x Hx. assert (I : In x (map open_num es)) by (rewrite <- (firstn_skipn i (map open_num es)); apply in_or_app; left; exact Hx). apply in_map_iff in I. destruct I as (e1 & <- & I1). rewrite Forall_forall in W. pose proof (open_pos e1 (W e1 I1)). lia.
Qed.
(** The slice of a concatenation belonging to edge [i] *)
Lemma slice_edge es (vs : list (list R)) i e v : Forall well_sampled es -> Forall2 (fun e v => Z.of_nat (List.length v) = open_num e) es vs -> nth_error es i = Some e -> nth_error vs i = Some v ->
  slice (concat vs) (total (firstn i (map open_num es))) (total (firstn (S i) (map open_num es))) = v.
Proof.
  intros W FL Ee Ev. assert (Lv : Z.of_nat (List.length v) = open_num e) by exact (Forall2_nth _ _ _ FL _ _ _ Ee Ev). assert (O1 := block_offsets es vs i e W FL Ee).
  rewrite (concat_split vs i v Ev). apply slice_block; [exact O1|].
  rewrite (firstn_snoc (map open_num es) i (open_num e)) by (rewrite nth_error_map, Ee; reflexivity). rewrite total_snoc, Z2Nat.inj_add; [rewrite O1, <- Lv, Nat2Z.id; reflexivity| |rewrite <- Lv; lia].
  apply total_nonneg. apply Forall_forall. intros x Hx. assert (I : In x (map open_num es)) by (rewrite <- (firstn_skipn i (map open_num es)); apply in_or_app; left; exact Hx). apply in_map_iff in I. destruct I as (e1 & <- & I1). rewrite Forall_forall in W. pose proof (open_pos e1 (W e1 I1)). lia.
Qed.

(** ** Blocks with given lengths *)

Lemma nums_off {A} nums (vs : list (list A)) : Forall2 (fun n v => Z.of_nat (List.length v) = n) nums vs -> forall i, total (firstn i nums) = Z.of_nat (List.length (concat (firstn i vs))).
Proof. induction 1 as [|n v nums vs Hn F IH]; intros [|i]; try reflexivity. cbn [firstn concat]. rewrite app_length, Nat2Z.inj_add, <- IH. unfold total. cbn [fold_right]. lia. Qed.
Lemma nums_all {A} nums (vs : list (list A)) : Forall2 (fun n v => Z.of_nat (List.length v) = n) nums vs -> total nums = Z.of_nat (List.length (concat vs)).
Proof. intros F. pose proof (nums_off nums vs F (List.length nums)) as E. rewrite firstn_all in E. rewrite E. rewrite (Forall2_len _ _ _ F), firstn_all. reflexivity. Qed.
Lemma nums_slice {A} nums (vs : list (list A)) i v : Forall2 (fun n v => Z.of_nat (List.length v) = n) nums vs -> nth_error vs i = Some v -> slice (concat vs) (total (firstn i nums)) (total (firstn (S i) nums)) = v.
Proof.
  intros F E. rewrite (concat_split vs i v E). apply slice_block; rewrite (nums_off nums vs F), Nat2Z.id; [reflexivity|]. rewrite (firstn_snoc vs i v E), concat_app. cbn [concat]. rewrite app_nil_r, app_length. reflexivity.
Qed.
Lemma nums_set {A} nums (vs : list (list A)) i v p z r : Forall2 (fun n v => Z.of_nat (List.length v) = n) nums vs -> nth_error vs i = Some v -> List.length p = List.length (concat (firstn i vs)) -> List.length z = List.length v ->
  set_slice (p ++ z ++ r) (total (firstn i nums)) (total (firstn (S i) nums)) v = Ok (p ++ v ++ r).
Proof.
  intros F E Lp Lz. apply set_slice_block; [rewrite (nums_off nums vs F), Nat2Z.id; congruence| |congruence]. rewrite (nums_off nums vs F), Nat2Z.id, (firstn_snoc vs i v E), concat_app. cbn [concat]. rewrite app_nil_r, app_length. congruence.
Qed.
Lemma nums_cut {A} nums (l : list A) : Forall (fun n => (0 <= n)%Z) nums -> Z.of_nat (List.length l) = total nums -> exists vs, l = concat vs /\ Forall2 (fun n v => Z.of_nat (List.length v) = n) nums vs.
Proof.
  intros F. revert l. induction F as [|n nums Hn F IH]; intros l L; [exists []; split; [destruct l; [reflexivity|discriminate]|constructor]|]. pose proof (total_nonneg nums F) as T. change (total (n :: nums)) with (n + total nums)%Z in L.
  destruct (IH (skipn (Z.to_nat n) l)) as (vs & E & F2); [rewrite skipn_length; lia|]. exists (firstn (Z.to_nat n) l :: vs). split; [cbn [concat]; rewrite <- E; symmetry; apply firstn_skipn|]. constructor; [rewrite firstn_length; lia|exact F2].
Qed.
Lemma cut_nums es vs : cut es vs <-> Forall2 (fun n v => Z.of_nat (List.length v) = n) (map open_num es) vs.
Proof. unfold cut. split; [induction 1; constructor; assumption|]. revert vs. induction es as [|e es IH]; intros vs F; inversion F; subst; constructor; auto. Qed.
Lemma cut_exists es l : Forall well_sampled es -> Z.of_nat (List.length l) = total (map open_num es) -> exists vs, l = concat vs /\ cut es vs.
Proof.
  intros W L. destruct (nums_cut (map open_num es) l) as (vs & E & F); [apply Forall_map; eapply Forall_impl; [|exact W]; intros e We; pose proof (open_pos e We); lia|exact L|]. exists vs. split; [exact E|apply cut_nums, F].
Qed.

(** ** Values on a contour *)

Lemma open_firstn e : well_sampled e -> firstn (Z.to_nat (e_npts e - 1)) (e_smp e) = open_smp e.
Proof. intros (_ & L & N & _). unfold open_smp. rewrite removelast_firstn_len. f_equal. lia. Qed.
Lemma map_removelast {A B} (f : A -> B) l : map f (removelast l) = removelast (map f l).
Proof. induction l as [|a [|b l] IH]; try reflexivity. change (removelast (a :: b :: l)) with (a :: removelast (b :: l)). cbn [map] in *. rewrite IH. reflexivity. Qed.

Lemma eval_contour_ok g H k es : fresh H k es -> eval_on_contour g H k = Ok (map (at_smp g) (contour_smp es)).
Proof.
  intros F. unfold eval_on_contour, guard. rewrite (fresh_guard _ _ _ F). cbn [bind]. unfold contour_smp. rewrite concat_map, map_map. apply (fill_ok H k es); [exact F| |].
  - destruct F as (_ & W & _). clear -W. induction W as [|e es We W IH]; constructor; [rewrite map_length; apply open_pos, We|exact IH].
  - intros i e v Ee Ev. rewrite nth_error_map, Ee in Ev. injection Ev as <-. destruct F as (_ & W & _). rewrite Forall_forall in W. specialize (W e (nth_error_In _ _ Ee)). unfold evaluate_function. destruct W as (P & W'). rewrite P. rewrite open_firstn by (split; assumption). reflexivity.
Qed.
Lemma contour_points_ok H k es : fresh H k es -> contour_points H k = Ok (map (fun s => fst (sx s)) (contour_smp es), map (fun s => snd (sx s)) (contour_smp es)).
Proof.
  intros F. unfold contour_points, guard. rewrite (fresh_guard _ _ _ F). cbn [bind]. rewrite !(eval_contour_ok _ _ _ _ F). reflexivity.
Qed.
Lemma combine_points (l : list sample) : combine (map (fun s => fst (sx s)) l) (map (fun s => snd (sx s)) l) = map sx l.
Proof. induction l as [|s l IH]; [reflexivity|]. cbn. rewrite IH. destruct (sx s); reflexivity. Qed.

Lemma nth_error_combine {A B} (l : list A) (m : list B) i : nth_error (combine l m) i = match nth_error l i, nth_error m i with Some a, Some b => Some (a, b) | _, _ => None end.
Proof. revert m i. induction l as [|a l IH]; intros [|b m] [|i]; cbn; try reflexivity; [destruct (nth_error l i); reflexivity|apply IH]. Qed.
Lemma dot_contour_ok (v : sample -> pt) H k es c1 c2 b1 b2 : fresh H k es -> c1 = concat b1 -> c2 = concat b2 -> cut es b1 -> cut es b2 ->
  contour_dot (dot_with v) c1 c2 H k = Ok (zip_with Rplus (zip_with Rmult c1 (map (fun s => fst (v s)) (contour_smp es))) (zip_with Rmult c2 (map (fun s => snd (v s)) (contour_smp es)))).
Proof.
  intros F -> -> C1 C2. unfold contour_dot, guard. rewrite (fresh_guard _ _ _ F). cbn [bind]. pose proof F as (_ & W & _).
  set (one := fun (e : edge) (p : list R * list R) => zip_with Rplus (zip_with Rmult (fst p) (map (fun s => fst (v s)) (open_smp e))) (zip_with Rmult (snd p) (map (fun s => snd (v s)) (open_smp e)))).
  assert (L1 := Forall2_len _ _ _ C1). assert (L2 := Forall2_len _ _ _ C2).
  rewrite (fill_ok H k es _ (map (fun ep => one (fst ep) (snd ep)) (combine es (combine b1 b2))) F).
  - f_equal. unfold contour_smp. clear F. revert b1 b2 C1 C2 L1 L2. induction W as [|e es We W IH]; intros [|u b1] [|w b2] C1 C2 L1 L2; try discriminate; [reflexivity|]. inversion C1; inversion C2; subst. cbn [combine map concat fst snd]. rewrite IH by (auto; cbn in *; lia). unfold one. cbn [fst snd].
    rewrite !map_app. pose proof (open_pos e We) as [_ Lo].
    assert (ZA : forall f (a a' b b' : list R), List.length a = List.length a' -> zip_with f (a ++ b) (a' ++ b') = zip_with f a a' ++ zip_with f b b').
    { clear. intros f a. unfold zip_with. induction a as [|x a IHa]; intros [|y a'] b b' E; try discriminate; [reflexivity|]. cbn. f_equal. apply IHa. cbn in E. lia. }
    rewrite !ZA; try (rewrite map_length; lia); [reflexivity|]. rewrite !zip_length; rewrite ?map_length; lia.
  - clear -C1 C2 W. revert b1 b2 C1 C2. induction W as [|e es We W IH]; intros b1 b2 C1 C2; inversion C1; inversion C2; subst; [constructor|]. cbn [combine map fst snd]. constructor; [|apply IH; assumption]. unfold one. cbn [fst snd]. pose proof (open_pos e We) as [_ Lo]. rewrite !zip_length; rewrite ?zip_length; rewrite ?map_length; lia.
  - intros i e w Ee Ew. rewrite nth_error_map, nth_error_combine, Ee, nth_error_combine in Ew. destruct (nth_error b1 i) as [u1|] eqn:E1; [|discriminate]. destruct (nth_error b2 i) as [u2|] eqn:E2; [|discriminate]. injection Ew as <-. cbn [fst snd].
    rewrite !(slice_edge es _ i e _ W C1 Ee E1), !(slice_edge es _ i e _ W C2 Ee E2). rewrite Forall_forall in W. specialize (W e (nth_error_In _ _ Ee)). pose proof (open_pos e W) as [_ Lo]. assert (H1 : Z.of_nat (List.length u1) = open_num e) by exact (Forall2_nth _ _ _ C1 _ _ _ Ee E1). assert (H2 : Z.of_nat (List.length u2) = open_num e) by exact (Forall2_nth _ _ _ C2 _ _ _ Ee E2).
    unfold dot_with. destruct W as (P & W'). rewrite P. cbv zeta iota. change (Z.of_nat 1) with 1%Z. unfold open_num in H1, H2. rewrite (proj2 (Z.eqb_eq _ _) H1), (proj2 (Z.eqb_eq _ _) H2). cbn [negb orb]. rewrite !slice_removelast, <- !map_removelast. fold (open_smp e). unfold open_num in Lo.
    rewrite !np_mul_zip by (rewrite map_length; lia). cbn [bind]. unfold np_add. rewrite !zip_length by (rewrite map_length; lia). replace (List.length u2) with (List.length u1) by lia. rewrite Nat.eqb_refl. reflexivity.
Qed.

Lemma dx_contour_ok H k es vs : fresh H k es -> cut es vs -> contour_dx_norm (concat vs) H k = Ok (concat (map (fun ev => zip_with Rmult (snd ev) (map sw (open_smp (fst ev)))) (combine es vs))).
Proof.
  intros F C. unfold contour_dx_norm, guard. rewrite (fresh_guard _ _ _ F). cbn [bind]. pose proof F as (_ & W & N & _). rewrite N. cbn [attr bind]. rewrite (block_offsets_all es vs W C), Z.eqb_refl. apply (fill_ok H k es); [exact F| |].
  - clear -C W. revert vs C. induction W as [|e es We W IH]; intros vs C; inversion C; subst; [constructor|]. cbn [combine map fst snd]. constructor; [|apply IH; assumption]. pose proof (open_pos e We) as [_ Lo]. rewrite zip_length; rewrite ?map_length; lia.
  - intros i e w Ee Ew. rewrite nth_error_map, nth_error_combine, Ee in Ew. destruct (nth_error vs i) as [u|] eqn:E1; [|discriminate]. injection Ew as <-. cbn [fst snd]. rewrite (slice_edge es _ i e _ W C Ee E1). rewrite Forall_forall in W. specialize (W e (nth_error_In _ _ Ee)). pose proof (open_pos e W) as [_ Lo]. assert (H1 : Z.of_nat (List.length u) = open_num e) by exact (Forall2_nth _ _ _ C _ _ _ Ee E1).
    unfold multiply_by_dx_norm. destruct W as (P & W'). rewrite P. cbv zeta iota. unfold open_num in *. rewrite (proj2 (Z.eqb_eq _ _) H1). rewrite <- map_removelast. fold (open_smp e). apply np_mul_zip. rewrite map_length. lia.
Qed.

Lemma sum_app u v : sum_list (u ++ v) = sum_list u + sum_list v.
Proof. unfold sum_list. induction u as [|x u IH]; cbn; [ring|rewrite IH; ring]. Qed.
Lemma sum_scale h l : sum_list (map (fun x => h * x) l) = h * sum_list l.
Proof. unfold sum_list. induction l as [|x l IH]; cbn; [ring|rewrite IH; ring]. Qed.
Lemma integrate_contour_pre_ok H k es vs : fresh H k es -> cut es vs ->
  contour_integrate_preweighted (concat vs) H k = Ok (sum_list (map (fun ev => 2 * PI / IZR (e_npts (fst ev) - 1) * sum_list (snd ev)) (combine es vs))).
Proof.
  intros F C. unfold contour_integrate_preweighted, guard. rewrite (fresh_guard _ _ _ F). cbn [bind]. pose proof F as (_ & W & N & _). rewrite N. cbn [attr bind]. rewrite (block_offsets_all es vs W C), Z.eqb_refl.
  rewrite (fill_ok H k es _ (map (fun ev => map (fun x => 2 * PI / IZR (e_npts (fst ev) - 1) * x) (snd ev)) (combine es vs)) F).
  - cbn [bind]. f_equal. change np_sum with sum_list. clear. revert vs. induction es as [|e es IH]; intros [|v vs]; try reflexivity. cbn [combine map concat fst snd]. rewrite sum_app, sum_scale, IH. reflexivity.
  - clear -C. unfold cut in C. induction C as [|e v es vs Hv C IH]; [constructor|]. cbn [combine map fst snd]. constructor; [rewrite map_length; exact Hv|exact IH].
  - intros i e w Ee Ew. rewrite nth_error_map, nth_error_combine, Ee in Ew. destruct (nth_error vs i) as [u|] eqn:E1; [|discriminate]. injection Ew as <-. cbn [fst snd]. rewrite (slice_edge es _ i e _ W C Ee E1). reflexivity.
Qed.
Lemma integrate_contour_ok H k es vs : fresh H k es -> cut es vs -> contour_integrate (concat vs) H k = Ok (sum_list (map (fun ev => edge_sum (fst ev) (snd ev)) (combine es vs))).
Proof.
  intros F C. unfold contour_integrate, guard. rewrite (fresh_guard _ _ _ F). cbn [bind]. rewrite (dx_contour_ok H k es vs F C). cbn [bind]. pose proof F as (_ & W & _). rewrite (integrate_contour_pre_ok H k es _ F).
  - do 2 f_equal. clear. revert vs. induction es as [|e es IH]; intros [|v vs]; try reflexivity. cbn [combine map fst snd]. f_equal. apply IH.
  - clear -C W. revert vs C. induction W as [|e es We W IH]; intros vs C; inversion C; subst; [constructor|]. cbn [combine map fst snd]. constructor; [|apply IH; assumption]. pose proof (open_pos e We) as [_ Lo]. rewrite zip_length; rewrite ?map_length; lia.
Qed.
