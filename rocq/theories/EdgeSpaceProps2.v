(** Further properties of C17 and C61: signs, keys, the reference box, the Gram matrix. *)
From Coq Require Import List ZArith Reals Lia Lra Sorted Permutation.
From Verif Require Import PyBase PolyModel PolySpec PolyProofs PolyProofs2 LegendreModel BaryModel BarySpec BaryProofs BaryProps
  BBoxModel EdgeSpaceModel EdgeSpaceSpec EdgeSpaceProofs EdgeSpaceProps.
Import ListNotations.
Open Scope R_scope.

Lemma flip_peval (g : rpoly) (x y : R) : canonical g -> peval RS (pscale RS g (-1)) x y = - peval RS g x y.
Proof. intros C. rewrite !peval_value. etransitivity; [exact (value_flip g true x y C)|]. change (-1 * value g x y = - value g x y). ring. Qed.

(** Edge traces other than the third barycentric one have nonnegative integral, for any
    homogeneous integration functional. *)
Theorem C17_nonnegative lr e deg es z0 rest : ev_loop e = false -> ev_pts e = z0 :: rest ->
  tol <= pdist (last (ev_pts e) z0) z0 ->
  (forall l, ev_int e (map Ropp l) = - ev_int e l) ->
  mk_edge_space lr e deg = Ok es ->
  exists l0 l1 l2, barycentric_coordinates_edge z0 (last (ev_pts e) z0) = Ok (l0, l1, l2) /\
  forall f, In f (es_edge es) -> f = l2 \/ 0 <= ev_int e (map (at_ f) (ev_pts e)).
Proof.
  intros El Hp Hl Hh H.
  destruct (es_inv lr e deg es z0 rest El Hp Hl H) as (pre & l0 & l1 & l2 & Epre & Cpre & Eb & Ev & Hd & Hf).
  exists l0, l1, l2. split; [exact Eb|]. intros f Hin. destruct (Hf f Hin) as [->|(p & Ip & ->)]; [left; reflexivity|right].
  unfold correct. set (g := psub RS p _). set (I := ev_int e (map (fun z : pt => peval RS g (fst z) (snd z)) (ev_pts e))).
  assert (Cg : canonical g) by apply consolidate_canonical.
  destruct (Rltb I 0) eqn:E.
  - apply Rltb_true in E.
    rewrite (map_ext _ (fun z => - peval RS g (fst z) (snd z))).
    + rewrite <- (map_map (fun z : pt => peval RS g (fst z) (snd z)) Ropp), Hh. fold I. lra.
    + intros z. exact (flip_peval g (fst z) (snd z) Cg).
  - apply Rltb_false in E. exact E.
Qed.
Print Assumptions C17_nonnegative.

Example C17_nonnegative_example : forall l, ev_int ex_edge (map Ropp l) = - ev_int ex_edge l.
Proof. intros l. cbn. induction l as [|a l IH]; cbn; lra. Qed.

(** The two vertex keys are those of the anchor and the endpoint, in the order of the traces. *)
Theorem C17_vertex_keys lr e deg es : ev_loop e = false -> mk_edge_space lr e deg = Ok es ->
  es_vert_keys es = [KVert (ev_anchor_idx e); KVert (ev_endpnt_idx e)].
Proof.
  intros El H. unfold mk_edge_space in H. destruct (Z.ltb deg 1); [discriminate|].
  destruct (build_spanning_set e (Z.to_nat deg)) as [[vs fs]|]; [|discriminate]. cbn [bind] in H.
  destruct (reduce_to_basis lr e fs); [|discriminate]. cbn [bind] in H. inversion H. cbn. rewrite El. reflexivity.
Qed.

(** Degrees below one are rejected. *)
Theorem C17_degree_rejected lr e deg : (deg < 1)%Z -> mk_edge_space lr e deg = Err ValueError.
Proof. intros H. unfold mk_edge_space. destruct (Z.ltb_spec deg 1); [reflexivity|lia]. Qed.

(** The three linear functions span every affine function. *)
Lemma lin_gen (c0 cx cy : R) l : (forall t, In t [c0; cx; cy] -> t = 0 \/ tol <= Rabs t) ->
  (forall a b, coef (map (fun t : R * nat * nat => match t with (c, a, b) => rmon c a b end) l) a b = tlin c0 cx cy a b) ->
  (forall t, In t l -> tol <= Rabs (fst (fst t))) -> islin c0 cx cy (mkpoly RS l).
Proof.
  intros S H B. split; [apply consolidate_canonical|]. intros a b. unfold mkpoly. rewrite coef_consolidate, fold_add_monomial. cbn [app].
  rewrite filter_all_nz.
  - etransitivity; [apply f_equal, H|]. unfold tlin. destruct a as [|[|a]], b as [|[|b]]; try apply cutoff_zero;
      match goal with |- cutoff ?t = _ => destruct (S t ltac:(cbn; tauto)) as [->|?]; [apply cutoff_zero|apply cutoff_id; assumption] end.
  - intros m Hm. apply in_map_iff in Hm. destruct Hm as ([[c i] j] & <- & Ht). apply (B _ Ht).
Qed.

Theorem C17_linear_span (a b c x y : R) : exists al be ga,
  al * peval RS lin0 x y + be * peval RS lin1 x y + ga * peval RS lin2 x y = a + b * x + c * y /\
  al = (a + (b + c) / 2) / 2 /\ be = (a - (b + c) / 2) / 2 /\ ga = (b - c) / 2.
Proof.
  exists ((a + (b + c) / 2) / 2), ((a - (b + c) / 2) / 2), ((b - c) / 2). split; [|repeat split]. rewrite !peval_value.
  assert (T1 : tol <= Rabs 1) by (rewrite Rabs_R1; unfold tol; lra).
  assert (T2 : tol <= Rabs (-1)) by (rewrite Rabs_left by lra; unfold tol; lra).
  rewrite (islin_value 1 1 1 lin0), (islin_value 1 (-1) (-1) lin1), (islin_value 0 1 (-1) lin2); [field|..].
  - apply lin_gen; [cbn; intros t [<-|[<-|[<-|[]]]]; auto|intros [|[|i]] [|[|j]]; cbn; try rring; ring|cbn; intros t [<-|[<-|[]]]; cbn; assumption].
  - apply lin_gen; [cbn; intros t [<-|[<-|[<-|[]]]]; auto|intros [|[|i]] [|[|j]]; cbn; try rring; ring|cbn; intros t [<-|[<-|[<-|[]]]]; cbn; assumption].
  - apply lin_gen; [cbn; intros t [<-|[<-|[<-|[]]]]; auto|intros [|[|i]] [|[|j]]; cbn; try rring; ring|cbn; intros t [<-|[<-|[<-|[]]]]; cbn; assumption].
Qed.
Print Assumptions C17_linear_span.

(** ** The reduction *)

(** What reduce_to_basis returns, for an arbitrary truncation [lr] that returns a symmetric
    matrix: an independent set, within 1e-6 of spanning. *)
Theorem C61_reduction lr e fs sub : fs <> [] -> symmetric (lr (length fs) (gram e fs)) -> reduce_to_basis lr e fs = Ok sub ->
  let M := lr (length fs) (gram e fs) in let n := (length fs - 1)%nat in
  exists idx, sublist_at idx fs sub /\
    (forall c : nat -> R, (forall i, (i <= n)%nat -> ~ In i idx -> c i = 0) -> (forall i, In i idx -> mv n M c i = 0) -> forall i, In i idx -> c i = 0) /\
    (forall i, (i <= n)%nat -> exists c : nat -> R, (forall j, ~ In j idx -> c j = 0) /\ qf n M (fun j => unit_vec i j - c j) <= 1 / 1000000).
Proof.
  intros Hn Hs H M n. destruct (reduce_ok lr e fs) as (idx' & sub' & Er & S'). 
  unfold reduce_to_basis in H, Er. destruct fs as [|f0 fs']; [contradiction|]. cbn [length] in *.
  assert (Hn' : n = length fs') by (unfold n; lia). rewrite Hn' in *.
  destruct (basis_index_set (S (length fs')) (lr (S (length fs')) (gram e (f0 :: fs'))) (1 / 1000000)) as [idx|] eqn:E; [|discriminate].
  destruct (C61_terminates (S (length fs')) M (1 / 1000000)) as (idx2 & E2 & St & Fa); [lra|]. unfold M in E2. rewrite E in E2. injection E2 as <-.
  cbn [bind] in H. injection H as <-. exists idx. split; [split; [exact St|split; [exact Fa|]]|split].
  - rewrite map_map. apply map_ext_in. intros k Hk. rewrite Forall_forall in Fa. specialize (Fa k Hk).
    exact (nth_error_nth' (f0 :: fs') [] Fa).
  - apply (C61_independent (length fs') M (1 / 1000000) idx); [lra|exact Hs|exact E].
  - apply (C61_spanning (length fs') M (1 / 1000000) idx); [lra|exact Hs|exact E].
Qed.
Print Assumptions C61_reduction.

(** Entries of the Gram matrix are the integrals of the products of the traces, when products
    are formed without dropping a coefficient. *)
Theorem C61_gram_entries e fs i j : (i <= j)%nat ->
  (forall m n : rmono, In m (nth i fs []) -> In n (nth j fs []) -> tol <= Rabs (mcoef m * mcoef n)) ->
  (forall a b, t_mul (coef (nth i fs [])) (coef (nth j fs [])) a b = 0 \/ tol <= Rabs (t_mul (coef (nth i fs [])) (coef (nth j fs [])) a b)) ->
  gram e fs i j = ev_int e (map (fun z => at_ (nth i fs []) z * at_ (nth j fs []) z) (ev_pts e)).
Proof.
  intros Hij B T. unfold gram. rewrite Nat.min_l, Nat.max_r by exact Hij. f_equal. apply map_ext. intros z.
  unfold at_. rewrite !peval_value. apply value_pmul; assumption.
Qed.
Print Assumptions C61_gram_entries.

(** x and 1 + 2x on three samples. *)
Example C61_gram_example : gram ex_edge [[rmon 1 1 0]; [rmon 1 0 0; rmon 2 1 0]] 0%nat 1%nat = 0 + (1 * 3 + (4 * 9 + 0)).
Proof.
  rewrite C61_gram_entries; [|lia|..].
  - cbn. unfold at_. cbn. ring.
  - cbn. intros m n [<-|[]] [<-|[<-|[]]]; cbn; rewrite Rabs_right by lra; unfold tol; lra.
  - intros a b. cbn [nth]. destruct a as [|[|[|a]]], b as [|b];
      try (left; unfold t_mul; rewrite sum_eq0; [reflexivity|]; intros; rewrite sum_eq0; [reflexivity|]; intros [|[|?]] ?; cbn; ring).
    all: try (cbn; first [left; ring|right; unfold tol; split_Rabs; lra]).
    all: left; unfold t_mul; apply sum_eq0; intros i Hi; apply sum_eq0; intros j Hj; cbn [coef malpha mcoef mx my rmon];
      destruct (Nat.eqb_spec 1 i), (Nat.eqb_spec 0 j); cbn [andb]; subst; try ring;
      repeat match goal with |- context [Nat.eqb ?u ?v] => destruct (Nat.eqb_spec u v); try lia end; cbn [andb]; ring.
Qed.

(** ** The map to the reference box *)

Lemma islin_make (a b : nat) t : (a = 1 /\ b = 0 \/ a = 0 /\ b = 1)%nat ->
  islin (cutoff t) (INR a) (INR b) (mkpoly RS [(1, a, b); (t, 0%nat, 0%nat)]).
Proof.
  intros H. split; [apply consolidate_canonical|]. intros i j. unfold mkpoly. cbn [map fold_left].
  rewrite coef_consolidate, !add_monomial_app, !coef_app, !coef_filter_single. cbn [coef mx my].
  assert (C1 : cutoff 1 = 1) by (apply cutoff_id; rewrite Rabs_R1; unfold tol; lra).
  assert (C2 : cutoff (cutoff t) = cutoff t) by (unfold cutoff at 2; destruct (Rlt_dec (Rabs t) tol); [rewrite cutoff_zero; unfold cutoff; destruct (Rlt_dec _ _); [reflexivity|lra]|reflexivity]).
  rewrite C1. destruct H as [[-> ->]|[-> ->]]; destruct i as [|[|i]], j as [|[|j]]; cbn; rewrite ?Rplus_0_l, ?Rplus_0_r, ?C1, ?C2, ?cutoff_zero; reflexivity.
Qed.

(** Samples are carried into [-1,1] x [-1,1], exactly, when the box has width and height at
    least 1e-12 and no coefficient of the two maps is dropped. *)
Theorem C17_reference_box pts qx qy : bbox_maps pts = Ok (qx, qy) ->
  forall x0 x1 y0 y1, bounding_box tol (map fst pts) (map snd pts) = Ok (x0, x1, y0, y1) -> x0 < x1 -> y0 < y1 ->
  let sx := (x1 - x0) / 2 in let sy := (y1 - y0) / 2 in let tx := (x1 + x0) / 2 in let ty := (y1 + y0) / 2 in
  sig tx -> sig ty -> sig (/ sx) -> sig (/ sy) -> sig (tx / sx) -> sig (ty / sy) ->
  forall x y, at_ qx (x, y) = (x - tx) / sx /\ at_ qy (x, y) = (y - ty) / sy /\
    (x0 <= x <= x1 -> -1 <= at_ qx (x, y) <= 1) /\ (y0 <= y <= y1 -> -1 <= at_ qy (x, y) <= 1).
Proof.
  intros H x0 x1 y0 y1 Hb Hx Hy sx sy tx ty S1 S2 S3 S4 S5 S6 x y.
  unfold bbox_maps in H. change (1 / 1000000000000) with tol in H. rewrite Hb in H. cbn [bind] in H. injection H as <- <-.
  fold sx sy tx ty.
  assert (Sx : 0 < sx) by (unfold sx; lra). assert (Sy : 0 < sy) by (unfold sy; lra).
  assert (Cs : forall c, sig c -> cutoff c = c) by (intros c [->|B]; [apply cutoff_zero|apply cutoff_id, B]).
  assert (Co : forall c, sig c -> cutoff (- c) = - c).
  { intros c [->|B]; [rewrite Ropp_0; apply cutoff_zero|]. apply cutoff_id. rewrite Rabs_Ropp. exact B. }
  assert (X : at_ (pscale RS (mkpoly RS [(1, 1%nat, 0%nat); (- tx, 0%nat, 0%nat)]) (1 / sx)) (x, y) = (x - tx) / sx).
  { unfold at_. rewrite peval_value. rewrite (islin_value _ _ _ _ _ _ (islin_scale _ _ _ _ _ (islin_make 1 0 (- tx) ltac:(lia)))).
    cbn [fst snd INR]. rewrite (Co tx S1). replace (- tx * (1 / sx)) with (- (tx / sx)) by (field; lra). rewrite (Co _ S5).
    replace (1 * (1 / sx)) with (/ sx) by (field; lra). rewrite (Cs _ S3). rewrite Rmult_0_l, cutoff_zero. field. lra. }
  assert (Y : at_ (pscale RS (mkpoly RS [(1, 0%nat, 1%nat); (- ty, 0%nat, 0%nat)]) (1 / sy)) (x, y) = (y - ty) / sy).
  { unfold at_. rewrite peval_value. rewrite (islin_value _ _ _ _ _ _ (islin_scale _ _ _ _ _ (islin_make 0 1 (- ty) ltac:(lia)))).
    cbn [fst snd INR]. rewrite (Co ty S2). replace (- ty * (1 / sy)) with (- (ty / sy)) by (field; lra). rewrite (Co _ S6).
    replace (1 * (1 / sy)) with (/ sy) by (field; lra). rewrite (Cs _ S4). rewrite Rmult_0_l, cutoff_zero. field. lra. }
  rewrite X, Y. split; [reflexivity|]. split; [reflexivity|].
  split; intros [A B]; [unfold tx, sx|unfold ty, sy]; split.
  - apply Rmult_le_reg_r with ((x1 - x0) / 2); [exact Sx|]. replace ((x - (x1 + x0) / 2) / ((x1 - x0) / 2) * ((x1 - x0) / 2)) with (x - (x1 + x0) / 2) by (field; lra). lra.
  - apply Rmult_le_reg_r with ((x1 - x0) / 2); [exact Sx|]. replace ((x - (x1 + x0) / 2) / ((x1 - x0) / 2) * ((x1 - x0) / 2)) with (x - (x1 + x0) / 2) by (field; lra). lra.
  - apply Rmult_le_reg_r with ((y1 - y0) / 2); [exact Sy|]. replace ((y - (y1 + y0) / 2) / ((y1 - y0) / 2) * ((y1 - y0) / 2)) with (y - (y1 + y0) / 2) by (field; lra). lra.
  - apply Rmult_le_reg_r with ((y1 - y0) / 2); [exact Sy|]. replace ((y - (y1 + y0) / 2) / ((y1 - y0) / 2) * ((y1 - y0) / 2)) with (y - (y1 + y0) / 2) by (field; lra). lra.
Qed.
Print Assumptions C17_reference_box.

Example C17_reference_box_example : exists q, bbox_maps [(0, 0); (1, 1); (4, 2)] = Ok q /\ at_ (fst q) (3, 5) = 1 / 2.
Proof.
  assert (T : tol = 1 / 1000000000000) by reflexivity.
  assert (B : bounding_box tol (map fst [(0, 0); (1, 1); (4, 2)]) (map snd [(0, 0); (1, 1); (4, 2)]) = Ok (0, 4, 0, 2)).
  { cbn. unfold lmin, lmax. cbn. rewrite (Rmin_left 0 1), (Rmin_left 0 4), (Rmin_left 0 2), (Rmax_right 0 1), (Rmax_right 1 4), (Rmax_right 1 2) by lra.
    rewrite Rmax_left by lra. destruct (Rlt_dec (4 - 0) tol); [lra|]. destruct (Rlt_dec (2 - 0) tol); [lra|]. reflexivity. }
  unfold bbox_maps at 1. change (1 / 1000000000000) with tol. rewrite B. cbn [bind]. eexists. split; [reflexivity|]. cbn [fst].
  assert (E := C17_reference_box [(0, 0); (1, 1); (4, 2)]). unfold bbox_maps at 1 in E. change (1 / 1000000000000) with tol in E. rewrite B in E. cbn [bind] in E.
  specialize (E _ _ eq_refl _ _ _ _ eq_refl ltac:(lra) ltac:(lra)).
  assert (S : forall c, tol <= c -> sig c) by (intros c Hc; right; rewrite Rabs_right; [exact Hc|pose proof tol_pos; lra]).
  destruct (E ltac:(apply S; lra) ltac:(apply S; lra) ltac:(apply S; lra) ltac:(apply S; lra) ltac:(apply S; lra) ltac:(apply S; lra) 3 5) as [V _].
  rewrite V. field.
Qed.
