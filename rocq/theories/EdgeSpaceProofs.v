From Coq Require Import List ZArith Reals Lia Lra Arith Permutation Sorted.
From Verif Require Import PyBase PolyModel PolySpec PolyProofs PolyProofs2 PolyProofs4 LegendreModel LegendreProofs
  LegendreProofs2 BBoxModel BaryModel BarySpec BaryProofs EdgeSpaceModel EdgeSpaceSpec.
Import ListNotations.
Open Scope R_scope.

(* ---------------------------------------------------------------- *)
(** ** Size of a linear polynomial *)

Fixpoint wsum (x y : R) (l : list mindex) : R :=
  match l with [] => 0 | al :: l' => Rabs x ^ mx al * Rabs y ^ my al + wsum x y l' end.
Lemma msize_wsum p x y : msize p x y = wsum x y (map malpha p).
Proof. induction p as [|m p IH]; [reflexivity|]. cbn [msize map wsum]. rewrite IH. reflexivity. Qed.
Lemma wt_pos x y (al : mindex) : 0 <= Rabs x ^ mx al * Rabs y ^ my al.
Proof. apply Rmult_le_pos; apply pow_le, Rabs_pos. Qed.
Lemma wsum_pos x y l : 0 <= wsum x y l.
Proof. induction l as [|a l IH]; cbn [wsum]; [lra|]. pose proof (wt_pos x y a). lra. Qed.
Lemma wsum_app x y l1 l2 : wsum x y (l1 ++ l2) = wsum x y l1 + wsum x y l2.
Proof. induction l1 as [|a l IH]; cbn [app wsum]; [ring|]. rewrite IH. ring. Qed.
Lemma wsum_incl x y l1 : forall l2, NoDup l1 -> incl l1 l2 -> wsum x y l1 <= wsum x y l2.
Proof.
  induction l1 as [|a l1 IH]; intros l2 Hn Hi; [apply wsum_pos|].
  inversion Hn; subst. assert (Ha : In a l2) by (apply Hi; left; reflexivity).
  apply in_split in Ha. destruct Ha as (u & v & ->).
  rewrite wsum_app. cbn [wsum].
  assert (wsum x y l1 <= wsum x y (u ++ v)).
  { apply IH; [assumption|]. intros z Hz. assert (Q := Hi z (or_intror Hz)). apply in_app_iff in Q. apply in_app_iff.
    destruct Q as [Q|[Q|Q]]; [left; exact Q|subst; contradiction|right; exact Q]. }
  rewrite wsum_app in H. lra.
Qed.

Lemma islin_msize c0 cx cy p x y : islin c0 cx cy p -> msize p x y <= 1 + Rabs x + Rabs y.
Proof.
  intros [C H]. rewrite msize_wsum.
  replace (1 + Rabs x + Rabs y) with (wsum x y [MI 0 0; MI 1 0; MI 0 1]) by (cbn; ring).
  apply wsum_incl; [apply canonical_nodup, C|]. intros al Hal. apply in_map_iff in Hal. destruct Hal as (m & <- & Hm).
  pose proof (canonical_coef_In m p C Hm) as E. rewrite H in E. pose proof (canonical_In m p C Hm) as B. pose proof tol_pos.
  destruct (malpha m) as [a b]. cbn [mx my] in E.
  destruct a as [|[|a]], b as [|[|b]]; cbn in E; try (left; reflexivity); try (right; left; reflexivity);
    try (right; right; left; reflexivity); rewrite <- E, Rabs_R0 in B; lra.
Qed.

Lemma msize_pneg_le p x y : msize (pneg RS p) x y <= msize p x y.
Proof.
  rewrite pneg_eq, pscale_filter. eapply Rle_trans; [apply msize_filter|].
  induction p as [|m p IH]; cbn [map msize]; [lra|]. cbn [m_scale malpha] in *. lra.
Qed.

Lemma value_psub_err p q x y : canonical p -> canonical q ->
  Rabs (value (psub RS p q) x y - (value p x y - value q x y)) <= tol * (msize p x y + msize q x y).
Proof.
  intros Hp Hq. unfold psub. fold (pneg RS q).
  pose proof (value_padd_err p (pneg RS q) x y Hp (pneg_canonical q Hq)) as E.
  rewrite value_pneg in E by exact Hq. unfold Rminus at 2.
  eapply Rle_trans; [exact E|]. apply Rmult_le_compat_l; [left; apply tol_pos|].
  pose proof (msize_pneg_le q x y). lra.
Qed.

(* ---------------------------------------------------------------- *)
(** ** The correction *)

Section Correct.
Variables (f l0 l1 : rpoly) (c0 cx cy d0 dx dy a0 a1 x y : R).
Hypothesis (Hf : canonical f) (H0 : islin c0 cx cy l0) (H1 : islin d0 dx dy l1).

Lemma combo_lin : islin
  (cutoff (cutoff (c0 * a0) + cutoff (d0 * a1))) (cutoff (cutoff (cx * a0) + cutoff (dx * a1)))
  (cutoff (cutoff (cy * a0) + cutoff (dy * a1))) (padd RS (pscale RS l0 a0) (pscale RS l1 a1)).
Proof. apply islin_add; apply islin_scale; assumption. Qed.

Lemma cut3 u v : exists e, cutoff (cutoff u + cutoff v) = u + v + e /\ Rabs e <= 3 * tol.
Proof.
  exists (cutoff (cutoff u + cutoff v) - (u + v)). split; [ring|].
  pose proof (cutoff_err u). pose proof (cutoff_err v). pose proof (cutoff_err (cutoff u + cutoff v)).
  set (a := cutoff (cutoff u + cutoff v)) in *. set (b := cutoff u) in *. set (c := cutoff v) in *.
  replace (a - (u + v)) with ((a - (b + c)) + ((b - u) + (c - v))) by ring.
  pose proof (Rabs_triang (a - (b + c)) ((b - u) + (c - v))). pose proof (Rabs_triang (b - u) (c - v)). lra.
Qed.

Lemma correct_err :
  Rabs (value (psub RS f (padd RS (pscale RS l0 a0) (pscale RS l1 a1))) x y
        - (value f x y - (a0 * value l0 x y + a1 * value l1 x y)))
  <= tol * (msize f x y + 4 * (1 + Rabs x + Rabs y)).
Proof.
  pose proof combo_lin as Q. set (q := padd RS _ _) in *.
  pose proof (value_psub_err f q x y Hf (proj1 Q)) as E.
  pose proof (islin_msize _ _ _ _ x y Q) as M.
  pose proof (islin_value _ _ _ _ x y Q) as V.
  rewrite (islin_value _ _ _ _ x y H0), (islin_value _ _ _ _ x y H1).
  destruct (cut3 (c0 * a0) (d0 * a1)) as (e0 & E0 & B0). destruct (cut3 (cx * a0) (dx * a1)) as (e1 & E1 & B1).
  destruct (cut3 (cy * a0) (dy * a1)) as (e2 & E2 & B2). rewrite E0, E1, E2 in V.
  set (G := value (psub RS f q) x y) in *. set (F := value f x y) in *.
  replace (G - (F - (a0 * (c0 + cx * x + cy * y) + a1 * (d0 + dx * x + dy * y)))) with
    ((G - (F - value q x y)) + (- (e0 + e1 * x + e2 * y))) by (rewrite V; ring).
  assert (B : Rabs (e0 + e1 * x + e2 * y) <= 3 * tol * (1 + Rabs x + Rabs y)).
  { pose proof (Rabs_triang (e0 + e1 * x) (e2 * y)) as T1. pose proof (Rabs_triang e0 (e1 * x)) as T2.
    rewrite Rabs_mult in T1, T2. pose proof (Rabs_pos x). pose proof (Rabs_pos y).
    assert (Rabs e1 * Rabs x <= 3 * tol * Rabs x) by (apply Rmult_le_compat_r; assumption).
    assert (Rabs e2 * Rabs y <= 3 * tol * Rabs y) by (apply Rmult_le_compat_r; assumption). lra. }
  pose proof (Rabs_triang (G - (F - value q x y)) (- (e0 + e1 * x + e2 * y))) as T. rewrite Rabs_Ropp in T.
  assert (tol * (msize f x y + msize q x y) <= tol * (msize f x y + (1 + Rabs x + Rabs y)))
    by (apply Rmult_le_compat_l; [left; apply tol_pos|lra]).
  lra.
Qed.

Lemma correct_exact : correction_kept f l0 l1 a0 a1 ->
  value (psub RS f (padd RS (pscale RS l0 a0) (pscale RS l1 a1))) x y
  = value f x y - (a0 * value l0 x y + a1 * value l1 x y).
Proof.
  intros K. destruct H0 as [C0 _], H1 as [C1 _].
  set (q := padd RS (pscale RS l0 a0) (pscale RS l1 a1)).
  assert (Cq : canonical q) by apply padd_canonical.
  assert (Eq : forall a b, coef q a b = coef l0 a b * a0 + coef l1 a b * a1).
  { intros a b. destruct (K a b) as (K0 & K1 & K2 & _).
    unfold q. rewrite coef_padd by (apply pscale_canonical; assumption).
    rewrite !coef_pscale by assumption. rewrite (cutoff_keep (coef l0 a b * a0)), (cutoff_keep (coef l1 a b * a1)) by assumption.
    apply cutoff_keep, K2. }
  set (r := rscale (-1) (rscale a0 l0 ++ rscale a1 l1)).
  transitivity (value (f ++ r) x y).
  - apply value_coef_ext. intros a b. rewrite coef_psub, Eq by assumption.
    rewrite cutoff_keep by apply (K a b). unfold r. rewrite coef_app, coef_rscale, coef_app, !coef_rscale. ring.
  - unfold r. rewrite value_app, value_rscale, value_app, !value_rscale. ring.
Qed.
End Correct.

Lemma value_flip g b x y : canonical g ->
  value (if b : bool then pscale RS g (-1) else g) x y = (if b then -1 else 1) * value g x y.
Proof.
  intros C. destruct b; [|ring]. rewrite <- pneg_eq, value_pneg by exact C. ring.
Qed.

(* ---------------------------------------------------------------- *)
(** ** Shape of the spanning set *)

Lemma length_set_nth {A} n (a : A) l : (n < length l)%nat -> length (set_nth n a l) = length l.
Proof. intros H. unfold set_nth. rewrite app_length, firstn_length. cbn [length]. rewrite skipn_length. lia. Qed.

Lemma length_del_nth {A} n (l : list A) : (n < length l)%nat -> length (del_nth n l) = (length l - 1)%nat.
Proof. intros H. unfold del_nth. rewrite app_length, firstn_length, skipn_length. lia. Qed.

Lemma in_del_nth {A} n (l : list A) a : In a (del_nth n l) -> In a l.
Proof.
  unfold del_nth. rewrite in_app_iff. intros [H|H].
  - rewrite <- (firstn_skipn n l). apply in_app_iff. left. exact H.
  - rewrite <- (firstn_skipn (S n) l). apply in_app_iff. right. exact H.
Qed.

Lemma length_tensor deg : length (integrated_legendre_tensor_products deg) = length (pair_list deg).
Proof. unfold integrated_legendre_tensor_products. rewrite tensor_list, map_length. reflexivity. Qed.

Lemma tensor_big deg : (1 <= deg)%nat -> (deg + 1 < length (integrated_legendre_tensor_products deg))%nat.
Proof. intros H. rewrite length_tensor. pose proof (length_pair_list deg) as E. nia. Qed.

Lemma bbox_maps_ok pts : pts <> [] -> exists q, bbox_maps pts = Ok q.
Proof.
  intros H. destruct pts as [|z pts]; [congruence|]. unfold bbox_maps, bounding_box. cbn [map].
  set (d := Rmax _ _). destruct (Rlt_dec d _); [eexists; reflexivity|].
  destruct (Rlt_dec _ _), (Rlt_dec _ _); eexists; reflexivity.
Qed.

Lemma pre_ok e deg : ev_pts e <> [] -> (1 <= deg)%nat -> exists pre, pre_traces e deg = Ok pre /\
  length pre = length (pair_list deg) /\ Forall canonical pre.
Proof.
  intros Hp Hd. unfold pre_traces. destruct (bbox_maps_ok _ Hp) as [[qx qy] ->]. cbn [bind].
  eexists. split; [reflexivity|]. split.
  - rewrite map_length. unfold upd. pose proof (tensor_big deg Hd).
    repeat (rewrite length_set_nth; [|repeat (rewrite length_set_nth; [|lia])]; try lia). apply length_tensor.
  - apply Forall_forall. intros f Hf. apply in_map_iff in Hf. destruct Hf as (g & <- & _). apply pcompose_canonical.
Qed.

(** Positions 0, 1 and deg+1 are removed, the others corrected, and l2 appended. *)
Lemma spanning_ok e deg z0 rest l0 l1 l2 pre : ev_loop e = false -> ev_pts e = z0 :: rest -> (1 <= deg)%nat ->
  pre_traces e deg = Ok pre -> length pre = length (pair_list deg) ->
  barycentric_coordinates_edge z0 (last (ev_pts e) z0) = Ok (l0, l1, l2) ->
  exists fs, build_spanning_set e deg = Ok ([l0; l1], fs ++ [l2]) /\
    fs = map (correct e z0 (last (ev_pts e) z0) l0 l1) (firstn (deg - 1) (skipn 2 pre) ++ skipn (deg + 2) pre).
Proof.
  intros Hl Hp Hd Hpre Hlen Hb. unfold build_spanning_set. rewrite Hpre. cbn [bind]. rewrite Hl, Hp. rewrite <- Hp, Hb. cbn [bind].
  eexists. split; [reflexivity|].
  pose proof (length_pair_list deg) as L. destruct pre as [|a [|b pre]]; cbn [length] in Hlen; try nia.
  set (c := correct e z0 (last (ev_pts e) z0) l0 l1). cbn [firstn skipn app].
  unfold del_nth. replace (deg + 1)%nat with (S (S (deg - 1))) by lia. replace (deg + 2)%nat with (S (S (S (deg - 1)))) by lia.
  generalize (deg - 1)%nat as k. intros k. rewrite map_app, <- firstn_map.
  change (skipn (S (S (S k))) (a :: b :: pre)) with (skipn (S k) pre). rewrite <- skipn_map. reflexivity.
Qed.

Lemma correct_canonical e z0 z1 l0 l1 f : canonical (correct e z0 z1 l0 l1 f).
Proof. unfold correct. destruct (Rltb _ _); [apply pscale_canonical|]; apply consolidate_canonical. Qed.

(* ---------------------------------------------------------------- *)
(** ** The pivot loop *)

Lemma argmax_le d n : (argmax d n <= n)%nat.
Proof. induction n as [|n IH]; cbn [argmax]; [lia|]. destruct (Rltb _ _); lia. Qed.
Lemma argmax_max d n i : (i <= n)%nat -> d i <= d (argmax d n).
Proof.
  induction n as [|n IH]; intros H; cbn [argmax].
  - replace i with 0%nat by lia. lra.
  - unfold Rltb. destruct (Nat.eq_dec i (S n)) as [->|Hne].
    + destruct (Rlt_dec _ _); lra.
    + specialize (IH ltac:(lia)). destruct (Rlt_dec _ _); lra.
Qed.

Lemma eliminate_diag M k i : 0 < M k k -> eliminate M k i i <= M i i.
Proof.
  intros H. unfold eliminate. assert (0 <= M i k * M i k / M k k); [|lra].
  apply Rmult_le_pos; [nra|left; apply Rinv_0_lt_compat, H].
Qed.
Lemma eliminate_self M k i : M k k <> 0 -> eliminate M k i k = 0.
Proof. intros H. unfold eliminate. field. exact H. Qed.

(** The sequence of pivots, as a relation. *)
Inductive picks (tl : R) (n : nat) : matrix -> list nat -> Prop :=
| picks_nil M : (forall i, (i <= n)%nat -> M i i <= tl) -> picks tl n M []
| picks_cons M k l : (k <= n)%nat -> tl < M k k -> (forall i, (i <= n)%nat -> M i i <= M k k) ->
    picks tl n (eliminate M k) l -> picks tl n M (k :: l).

Lemma pivot_picks tl n fuel : forall M idx r, pivot_loop fuel tl n M idx = Ok r ->
  exists l, r = idx ++ l /\ picks tl n M l.
Proof.
  induction fuel as [|fuel IH]; intros M idx r H; [discriminate|]. cbn [pivot_loop] in H.
  set (k := argmax (fun i => M i i) n) in *.
  pose proof (argmax_max (fun i => M i i) n) as Hm. pose proof (argmax_le (fun i => M i i) n) as Hk. fold k in Hm, Hk.
  unfold Rltb in H. destruct (Rlt_dec tl (M k k)) as [L|L].
  - apply IH in H. destruct H as (l & -> & P). exists (k :: l). rewrite <- app_assoc. split; [reflexivity|].
    constructor; assumption.
  - inversion H; subst. exists []. rewrite app_nil_r. split; [reflexivity|]. constructor. intros i Hi. specialize (Hm i Hi). cbn in Hm. lra.
Qed.

Lemma picks_dead tl n M l k : 0 <= tl -> picks tl n M l -> M k k <= 0 -> ~ In k l.
Proof.
  intros Ht P. induction P as [M H|M j l Hj L Hm P IH]; intros Hd [].
  - subst. lra.
  - revert H. apply IH. eapply Rle_trans; [apply eliminate_diag; lra|exact Hd].
Qed.

Lemma picks_nodup tl n M l : 0 <= tl -> picks tl n M l -> NoDup l /\ Forall (fun k => (k <= n)%nat) l.
Proof.
  intros Ht P. induction P as [M H|M j l Hj L Hm P [N F]]; [split; constructor|]. split.
  - constructor; [|exact N]. apply (picks_dead tl n _ l j Ht P). rewrite eliminate_self by lra. lra.
  - constructor; assumption.
Qed.

Lemma nodup_bound l n : NoDup l -> Forall (fun k => (k <= n)%nat) l -> (length l <= S n)%nat.
Proof.
  intros N F. rewrite <- (seq_length (S n) 0). apply NoDup_incl_length; [exact N|].
  intros k Hk. rewrite Forall_forall in F. specialize (F k Hk). apply in_seq. lia.
Qed.

Lemma pivot_total tl n : 0 <= tl -> forall fuel M idx,
  NoDup idx -> Forall (fun k => (k <= n)%nat) idx -> (forall k, In k idx -> M k k <= 0) ->
  (S n < fuel + length idx)%nat -> exists r, pivot_loop fuel tl n M idx = Ok r.
Proof.
  intros Ht. induction fuel as [|fuel IH]; intros M idx N F D L.
  - pose proof (nodup_bound idx n N F). lia.
  - cbn [pivot_loop]. set (k := argmax _ n). unfold Rltb. destruct (Rlt_dec tl (M k k)) as [G|G]; [|eexists; reflexivity].
    apply IH.
    + apply NoDup_app_intro; [exact N|constructor; [intros []|constructor]|]. intros z Hz [E|[]]. subst z.
      specialize (D k Hz). lra.
    + apply Forall_app. split; [exact F|]. constructor; [apply argmax_le|constructor].
    + intros j Hj. apply in_app_iff in Hj. destruct Hj as [Hj|[<-|[]]].
      * eapply Rle_trans; [apply eliminate_diag; lra|apply D, Hj].
      * rewrite eliminate_self by lra. lra.
    + rewrite app_length. cbn [length]. lia.
Qed.

(** ** sorted *)
Lemma insert_perm k l : Permutation (k :: l) (insert k l).
Proof.
  induction l as [|a l IH]; cbn [insert]; [apply Permutation_refl|]. destruct (Nat.leb k a); [apply Permutation_refl|].
  eapply perm_trans; [apply perm_swap|]. apply perm_skip, IH.
Qed.
Lemma sorted_perm l : Permutation l (sorted l).
Proof.
  induction l as [|a l IH]; cbn [sorted fold_right]; [constructor|]. fold (sorted l).
  eapply perm_trans; [apply perm_skip, IH|apply insert_perm].
Qed.
Lemma insert_sorted k l : StronglySorted le l -> StronglySorted le (insert k l).
Proof.
  induction l as [|a l IH]; intros H; cbn [insert]; [constructor; [constructor|constructor]|].
  inversion H as [|? ? Hs Hf]; subst. destruct (Nat.leb_spec k a) as [L|L].
  - constructor; [exact H|]. constructor; [exact L|]. eapply Forall_impl; [|exact Hf]. intros b Hb. cbn in Hb. lia.
  - constructor; [apply IH, Hs|]. rewrite Forall_forall in *. intros b Hb.
    apply (Permutation_in _ (Permutation_sym (insert_perm k l))) in Hb. destruct Hb as [<-|Hb]; [lia|apply Hf, Hb].
Qed.
Lemma sorted_sorted l : StronglySorted le (sorted l).
Proof. induction l as [|a l IH]; cbn [sorted fold_right]; [constructor|]. apply insert_sorted, IH. Qed.
Lemma sorted_strict l : NoDup l -> StronglySorted lt (sorted l).
Proof.
  intros N. apply (Permutation_NoDup (sorted_perm l)) in N. pose proof (sorted_sorted l) as S. revert N S.
  generalize (sorted l) as s. induction s as [|a s IH]; intros N S; [constructor|].
  inversion N; subst. inversion S as [|? ? Hs Hf]; subst. constructor; [apply IH; assumption|].
  rewrite Forall_forall in *. intros b Hb. specialize (Hf b Hb). assert (a <> b) by (intros ->; contradiction). lia.
Qed.

Lemma basis_total m M tl : 0 <= tl -> exists idx, basis_index_set m M tl = Ok idx /\
  StronglySorted lt idx /\ Forall (fun k => (k < m)%nat) idx.
Proof.
  intros Ht. destruct m as [|n]; [exists []; split; [reflexivity|split; constructor]|].
  unfold basis_index_set. destruct (pivot_total tl n Ht (S n + 1) M []) as [r E]; [constructor|constructor|intros q []|cbn [length]; lia|].
  rewrite E. cbn [bind]. eexists. split; [reflexivity|].
  apply pivot_picks in E. destruct E as (l & -> & P). cbn [app]. destruct (picks_nodup tl n M l Ht P) as [N F].
  split; [apply sorted_strict, N|]. apply Forall_forall. intros k Hk.
  apply (Permutation_in _ (Permutation_sym (sorted_perm l))) in Hk. rewrite Forall_forall in F. specialize (F k Hk). lia.
Qed.

Lemma reduce_ok lr e fs : exists idx sub, reduce_to_basis lr e fs = Ok sub /\ sublist_at idx fs sub.
Proof.
  unfold reduce_to_basis. destruct (basis_total (length fs) (lr (length fs) (gram e fs)) (1 / 1000000)) as (idx & E & S & F); [lra|].
  rewrite E. cbn [bind]. exists idx. eexists. split; [reflexivity|]. split; [exact S|]. split; [exact F|].
  rewrite map_map. apply map_ext_in. intros k Hk. rewrite Forall_forall in F. specialize (F k Hk).
  rewrite (nth_error_nth' fs [] F). reflexivity.
Qed.

(* ---------------------------------------------------------------- *)
(** ** What the pivots guarantee, for a symmetric matrix *)

Lemma sum_lin (f g h : nat -> R) (a b : R) n : (forall i, (i <= n)%nat -> h i = a * f i + b * g i) ->
  sum_f_R0 h n = a * sum_f_R0 f n + b * sum_f_R0 g n.
Proof.
  induction n as [|n IH]; intros H; cbn [sum_f_R0].
  - apply H. lia.
  - rewrite IH by (intros; apply H; lia). rewrite (H (S n)) by lia. ring.
Qed.

Lemma mv_eliminate n M k v i : M k k <> 0 -> symmetric M ->
  mv n (eliminate M k) v i = mv n M v i - M i k / M k k * mv n M v k.
Proof.
  intros Hk Hs. unfold mv. rewrite (sum_lin (fun j => M i j * v j) (fun j => M k j * v j) _ 1 (- (M i k / M k k))); [ring|].
  intros j _. unfold eliminate. rewrite (Hs j k). field. exact Hk.
Qed.

Lemma eliminate_sym M k : symmetric M -> symmetric (eliminate M k).
Proof. intros H i j. unfold eliminate. rewrite (H i j). unfold Rdiv. ring. Qed.

Lemma picks_independent tl n M l : 0 <= tl -> picks tl n M l -> symmetric M ->
  forall c : nat -> R, (forall i, (i <= n)%nat -> ~ In i l -> c i = 0) -> (forall i, In i l -> mv n M c i = 0) ->
  forall i, In i l -> c i = 0.
Proof.
  intros Ht P. induction P as [M H|M k l Hk L Hm P IH]; intros Hs c Hc Hz i Hi; [destruct Hi|].
  assert (Hkk : M k k <> 0) by lra.
  set (c' := fun j => if Nat.eqb k j then 0 else c j).
  assert (E : forall j, mv n (eliminate M k) c' j = mv n (eliminate M k) c j).
  { intros j. unfold mv. apply sum_eq. intros q Hq. unfold c'. destruct (Nat.eqb_spec k q) as [<-|]; [|reflexivity].
    rewrite eliminate_self by exact Hkk. ring. }
  assert (R : forall j, In j l -> c' j = 0).
  { apply (IH (eliminate_sym M k Hs)).
    - intros j Hj Hn. unfold c'. destruct (Nat.eqb_spec k j); [reflexivity|]. apply Hc; [exact Hj|]. intros [Q|Q]; [congruence|contradiction].
    - intros j Hj. rewrite E, mv_eliminate by assumption. rewrite (Hz j (or_intror Hj)), (Hz k (or_introl eq_refl)). ring. }
  assert (Z : forall j, (j <= n)%nat -> j <> k -> c j = 0).
  { intros j Hj Hne. destruct (in_dec Nat.eq_dec j l) as [I|I].
    - specialize (R j I). unfold c' in R. destruct (Nat.eqb_spec k j); [congruence|exact R].
    - apply Hc; [exact Hj|]. intros [Q|Q]; [congruence|contradiction]. }
  assert (K : c k = 0).
  { pose proof (Hz k (or_introl eq_refl)) as Q. unfold mv in Q. rewrite (sum_single _ n k) in Q; [|exact Hk|].
    - apply Rmult_integral in Q. tauto.
    - intros j Hj Hne. rewrite (Z j Hj Hne). ring. }
  destruct Hi as [<-|Hi]; [exact K|]. destruct (Nat.eq_dec i k) as [->|Hne]; [exact K|].
  apply Z; [|exact Hne]. destruct (picks_nodup tl n _ l Ht P) as [_ F]. rewrite Forall_forall in F. apply F, Hi.
Qed.

Lemma mv_sub n M v t k i : (k <= n)%nat ->
  mv n M (fun j => v j - t * unit_vec k j) i = mv n M v i - t * M i k.
Proof.
  intros Hk. unfold mv. rewrite (sum_lin (fun j => M i j * v j) (fun j => M i j * unit_vec k j) _ 1 (- t)) by (intros; ring).
  rewrite (sum_single (fun j => M i j * unit_vec k j) n k); [|exact Hk|].
  - unfold unit_vec. rewrite Nat.eqb_refl. ring.
  - intros j Hj Hne. unfold unit_vec. destruct (Nat.eqb_spec k j); [congruence|]. ring.
Qed.

Lemma sum_unit n f k : (k <= n)%nat -> sum_f_R0 (fun i => unit_vec k i * f i) n = f k.
Proof.
  intros Hk. rewrite (sum_single _ n k); [|exact Hk|].
  - unfold unit_vec. rewrite Nat.eqb_refl. ring.
  - intros j Hj Hne. unfold unit_vec. destruct (Nat.eqb_spec k j); [congruence|]. ring.
Qed.

Lemma qf_eliminate n M k v : (k <= n)%nat -> M k k <> 0 -> symmetric M ->
  qf n (eliminate M k) v = qf n M (fun j => v j - mv n M v k / M k k * unit_vec k j).
Proof.
  intros Hk Hkk Hs. set (t := mv n M v k / M k k). unfold qf.
  transitivity (sum_f_R0 (fun i => v i * mv n M v i) n - t * mv n M v k).
  - rewrite (sum_lin (fun i => v i * mv n M v i) (fun i => M k i * v i) _ 1 (- t)).
    + change (sum_f_R0 (fun i => M k i * v i) n) with (mv n M v k). ring.
    + intros i _. rewrite mv_eliminate by assumption. rewrite (Hs k i). unfold t. field. exact Hkk.
  - rewrite (sum_lin (fun i => v i * mv n M v i) (fun i => v i * M k i + unit_vec k i * (mv n M v i - t * M i k))
      (fun i => (v i - t * unit_vec k i) * mv n M (fun j => v j - t * unit_vec k j) i) 1 (- t)).
    + rewrite (sum_lin (fun i => M k i * v i) (fun i => unit_vec k i * (mv n M v i - t * M i k))
        (fun i => v i * M k i + unit_vec k i * (mv n M v i - t * M i k)) 1 1) by (intros; ring).
      rewrite (sum_unit n (fun i => mv n M v i - t * M i k) k Hk). cbv beta.
      change (sum_f_R0 (fun i => M k i * v i) n) with (mv n M v k). unfold t. set (w := mv n M v k).
      set (z := sum_f_R0 _ n). field. exact Hkk.
    + intros i _. rewrite mv_sub by exact Hk. rewrite (Hs k i). ring.
Qed.

Lemma picks_spanning tl n M l : 0 <= tl -> picks tl n M l -> symmetric M -> forall i, (i <= n)%nat ->
  exists c : nat -> R, (forall j, ~ In j l -> c j = 0) /\ qf n M (fun j => unit_vec i j - c j) <= tl.
Proof.
  intros Ht P. induction P as [M H|M k l Hk L Hm P IH]; intros Hs i Hi.
  - exists (fun _ => 0). split; [reflexivity|]. eapply Rle_trans; [|apply (H i Hi)]. right.
    unfold qf. rewrite (sum_eq _ (fun j => unit_vec i j * mv n M (fun q => unit_vec i q - 0) j)) by (intros; ring).
    rewrite sum_unit by exact Hi. unfold mv. rewrite (sum_eq _ (fun j => unit_vec i j * M i j)) by (intros; ring).
    apply sum_unit, Hi.
  - assert (Z : M k k <> 0) by lra.
    destruct (IH (eliminate_sym M k Hs) i Hi) as (c & Hc & Hq).
    rewrite (qf_eliminate n M k _ Hk Z Hs) in Hq. set (t := mv n M (fun j => unit_vec i j - c j) k / M k k) in *.
    exists (fun j => c j + t * unit_vec k j). split.
    + intros j Hj. rewrite (Hc j) by (intros Q; apply Hj; right; exact Q). unfold unit_vec.
        destruct (Nat.eqb_spec k j); [exfalso; apply Hj; left; assumption|]. ring.
    + eapply Rle_trans; [|exact Hq]. right. unfold qf, mv. apply sum_eq. intros a _. f_equal; [ring|].
        apply sum_eq. intros b _. f_equal. ring.
Qed.
