(** Polynomials over the reals, continued: values, products, derivatives, powers, composition. *)
From Coq Require Import List ZArith Reals Lia Lra Permutation Sorting Arith.
From Verif Require Import PyBase PolyModel PolySpec PolyProofs.
Import ListNotations.
Open Scope R_scope.

Ltac rring := try change (@eq (car RS)) with (@eq R); ring.

(* ---------------------------------------------------------------- *)
(** ** Values under consolidation *)

Definition no_drop (l : rpoly) : Prop := forall a b, cutoff (coef l a b) = coef l a b.

Lemma value_consolidate l x y : no_drop l -> value (consolidate RS l) x y = value l x y.
Proof. intros H. apply value_coef_ext. intros a b. rewrite coef_consolidate. apply H. Qed.

Lemma cutoff_err c : Rabs (cutoff c - c) <= tol.
Proof.
  unfold cutoff. destruct (Rlt_dec _ _).
  - unfold Rminus. rewrite Rplus_0_l, Rabs_Ropp. lra.
  - replace (c - c) with 0 by ring. rewrite Rabs_R0. left. apply tol_pos.
Qed.

Lemma sum_Rabs f n : Rabs (sum_f_R0 f n) <= sum_f_R0 (fun i => Rabs (f i)) n.
Proof.
  induction n as [|n IH]; cbn; [lra|].
  eapply Rle_trans; [apply Rabs_triang|]. lra.
Qed.

Lemma sum_le f g n : (forall i, (i <= n)%nat -> f i <= g i) -> sum_f_R0 f n <= sum_f_R0 g n.
Proof. intros H. apply sum_Rle. exact H. Qed.

Lemma box_abs_le D f g x y : (forall a b, Rabs (f a b) <= g a b) ->
  Rabs (box D f x y) <= box D g (Rabs x) (Rabs y).
Proof.
  intros H. unfold box. eapply Rle_trans; [apply sum_Rabs|].
  apply sum_le; intros a _. eapply Rle_trans; [apply sum_Rabs|].
  apply sum_le; intros b _. rewrite !Rabs_mult, <- !RPow_abs.
  apply Rmult_le_compat_r; [apply pow_le, Rabs_pos|].
  apply Rmult_le_compat_r; [apply pow_le, Rabs_pos|]. apply H.
Qed.

(** The list with every coefficient replaced by [tol]. *)
Definition tols (l : rpoly) : rpoly := map (fun m => Mono (S:=RS) (malpha m) tol) l.

Lemma value_tols l x y : value (tols l) (Rabs x) (Rabs y) = tol * msize l x y.
Proof. induction l as [|m l IH]; cbn [tols map value msize]; [ring|]. fold (tols l).
  rewrite IH. cbn [malpha mcoef]. ring. Qed.

Lemma coef_tols_nonneg l a b : 0 <= coef (tols l) a b.
Proof.
  pose proof tol_pos. induction l as [|m l IH]; cbn [tols map]; [cbn; lra|].
  rewrite coef_cons. fold (tols l). cbn [mcoef]. destruct (here _ a b); lra.
Qed.

Lemma cutoff_coef_err l a b : Rabs (cutoff (coef l a b) - coef l a b) <= coef (tols l) a b.
Proof.
  destruct (Req_dec (coef l a b) 0) as [E|E].
  - rewrite E, cutoff_zero. replace (0 - 0) with 0 by ring. rewrite Rabs_R0.
    apply coef_tols_nonneg.
  - eapply Rle_trans; [apply cutoff_err|].
    induction l as [|m l IH]; [cbn in E; lra|].
    cbn [tols map]. rewrite coef_cons in *. fold (tols l).
    change (here (Mono (S:=RS) (malpha m) tol) a b) with (here m a b).
    destruct (here m a b).
    + cbn [mcoef]. pose proof (coef_tols_nonneg l a b). lra.
    + rewrite Rplus_0_l. apply IH. lra.
Qed.

Lemma deg_le_tols D l : deg_le D l -> deg_le D (tols l).
Proof.
  intros H m Hm. unfold tols in Hm. apply in_map_iff in Hm. destruct Hm as (n & <- & Hn).
  cbn [malpha]. apply H, Hn.
Qed.

Lemma value_consolidate_err l x y :
  Rabs (value (consolidate RS l) x y - value l x y) <= tol * msize l x y.
Proof.
  destruct (deg_le_ex l) as [D1 H1]. destruct (deg_le_ex (consolidate RS l)) as [D2 H2].
  set (D := (D1 + D2)%nat).
  rewrite <- value_tols.
  rewrite (value_box l x y D) by (eapply deg_le_mono; [|exact H1]; unfold D; lia).
  rewrite (value_box (consolidate RS l) x y D) by (eapply deg_le_mono; [|exact H2]; unfold D; lia).
  rewrite (value_box (tols l) _ _ D)
    by (apply deg_le_tols; eapply deg_le_mono; [|exact H1]; unfold D; lia).
  replace (box D (coef (consolidate RS l)) x y - box D (coef l) x y)
    with (box D (fun a b => cutoff (coef l a b) - coef l a b) x y).
  - apply box_abs_le. apply cutoff_coef_err.
  - rewrite (box_ext D (fun a b => cutoff (coef l a b) - coef l a b)
             (fun a b => coef (consolidate RS l) a b + (-1) * coef l a b)).
    + rewrite box_plus. unfold Rminus. f_equal. unfold box.
      replace (- sum_f_R0 (fun a => sum_f_R0 (fun b => coef l a b * x ^ a * y ^ b) D) D)
        with ((-1) * sum_f_R0 (fun a => sum_f_R0 (fun b => coef l a b * x ^ a * y ^ b) D) D) by ring.
      rewrite scal_sum. apply sum_ext; intros a _. rewrite Rmult_comm, scal_sum.
      apply sum_ext; intros b _. ring.
    + intros a b. rewrite coef_consolidate. ring.
Qed.

(* ---------------------------------------------------------------- *)
(** ** Grids *)

Lemma grid_mul_abs u z : 0 <= u -> u * IZR z = 0 \/ u <= Rabs (u * IZR z).
Proof.
  intros Hu. destruct (Z.eq_dec z 0) as [->|Hz]; [left; ring|right].
  rewrite Rabs_mult, (Rabs_right u) by lra.
  assert (1 <= Rabs (IZR z)).
  { rewrite <- abs_IZR. apply IZR_le. lia. }
  nra.
Qed.

Lemma grid_cutoff u z : tol <= u -> cutoff (u * IZR z) = u * IZR z.
Proof.
  intros Hu. pose proof tol_pos. destruct (grid_mul_abs u z) as [E|E]; [lra| |].
  - rewrite E. apply cutoff_zero.
  - apply cutoff_id. lra.
Qed.

Lemma on_grid_coef u l a b : on_grid u l -> exists z, coef l a b = u * IZR z.
Proof.
  induction l as [|m l IH]; intros H.
  - exists 0%Z. cbn. ring.
  - destruct IH as [z Hz]; [intros n Hn; apply H; right; exact Hn|].
    destruct (H m (or_introl eq_refl)) as [w Hw].
    rewrite coef_cons, Hz, Hw. destruct (here m a b).
    + exists (w + z)%Z. rewrite plus_IZR. ring.
    + exists z. ring.
Qed.

Lemma on_grid_no_drop u l : tol <= u -> on_grid u l -> no_drop l.
Proof.
  intros Hu H a b. destruct (on_grid_coef u l a b H) as [z ->]. apply grid_cutoff, Hu.
Qed.

Lemma on_grid_app u p q : on_grid u p -> on_grid u q -> on_grid u (p ++ q).
Proof. intros Hp Hq m Hm. apply in_app_or in Hm. destruct Hm; auto. Qed.

Lemma on_grid_consolidate u l : on_grid u l -> on_grid u (consolidate RS l).
Proof.
  intros H m Hm. pose proof (consolidate_canonical l) as Hc.
  rewrite <- (canonical_coef_In m _ Hc Hm), coef_consolidate.
  destruct (on_grid_coef u l (mx (malpha m)) (my (malpha m)) H) as [z Hz].
  unfold cutoff. destruct (Rlt_dec _ _).
  - exists 0%Z. ring.
  - exists z. exact Hz.
Qed.

Lemma on_grid_filter u l f : on_grid u l -> on_grid u (filter f l).
Proof. intros H m Hm. apply filter_In in Hm. apply H, Hm. Qed.

Lemma on_grid_refine u k l : on_grid (u * IZR k) l -> on_grid u l.
Proof.
  intros H m Hm. destruct (H m Hm) as [z ->]. exists (k * z)%Z. rewrite mult_IZR. ring.
Qed.

(* ---------------------------------------------------------------- *)
(** ** Addition: values *)

Lemma padd_consolidate p q : canonical p -> canonical q -> padd RS p q = consolidate RS (p ++ q).
Proof.
  intros Hp Hq. unfold padd. rewrite !fold_add_monomial. cbn [app].
  rewrite !filter_nz_canonical by assumption. reflexivity.
Qed.

Lemma value_padd_err p q x y : canonical p -> canonical q ->
  Rabs (value (padd RS p q) x y - (value p x y + value q x y))
  <= tol * (msize p x y + msize q x y).
Proof.
  intros Hp Hq. rewrite padd_consolidate by assumption.
  rewrite <- value_app.
  replace (msize p x y + msize q x y) with (msize (p ++ q) x y).
  - apply value_consolidate_err.
  - clear. induction p as [|m p IH]; cbn [app msize]; [lra|]. rewrite IH. lra.
Qed.

Lemma value_padd p q x y : canonical p -> canonical q ->
  (forall a b, coef p a b + coef q a b = 0 \/ tol <= Rabs (coef p a b + coef q a b)) ->
  value (padd RS p q) x y = value p x y + value q x y.
Proof.
  intros Hp Hq H. rewrite padd_consolidate, <- value_app by assumption.
  apply value_consolidate. intros a b. rewrite coef_app.
  destruct (H a b) as [E|E]; [rewrite E; apply cutoff_zero|apply cutoff_id, E].
Qed.

Lemma value_map_scale l c x y : value (map (fun m => m_scale RS m c) l) x y = value l x y * c.
Proof.
  induction l as [|m l IH]; cbn [map value]; [ring|]. rewrite IH. cbn [m_scale mcoef malpha smul RS]. ring.
Qed.

Lemma value_pscale p c x y : canonical p ->
  (forall a b, coef p a b * c = 0 \/ tol <= Rabs (coef p a b * c)) ->
  value (pscale RS p c) x y = value p x y * c.
Proof.
  intros Hp H. rewrite <- value_map_scale. apply value_coef_ext. intros a b.
  rewrite coef_pscale by exact Hp.
  assert (E : coef (map (fun m => m_scale RS m c) p) a b = coef p a b * c).
  { clear. induction p as [|m p IH]; cbn [map]; [cbn; ring|].
    rewrite !coef_cons, IH. change (here (m_scale RS m c) a b) with (here m a b).
    cbn [m_scale mcoef smul RS]. destruct (here m a b); ring. }
  rewrite E. destruct (H a b) as [Z|Z]; [rewrite Z; apply cutoff_zero|apply cutoff_id, Z].
Qed.

Lemma value_filter_nz_err l x y : Rabs (value (filter nz l) x y - value l x y) <= tol * msize l x y.
Proof.
  pose proof tol_pos as Ht.
  induction l as [|m l IH]; cbn [filter value msize].
  - replace (0 - 0) with 0 by ring. rewrite Rabs_R0. lra.
  - assert (Hpos : 0 <= Rabs x ^ mx (malpha m) * Rabs y ^ my (malpha m)).
    { apply Rmult_le_pos; apply pow_le, Rabs_pos. }
    destruct (nz m) eqn:N.
    + cbn [value]. replace (_ + value (filter nz l) x y - _) with
        (value (filter nz l) x y - value l x y) by ring.
      eapply Rle_trans; [exact IH|]. nra.
    + unfold nz in N. apply Bool.negb_false_iff, m_is_zero_true in N.
      replace (value (filter nz l) x y - _) with
        ((value (filter nz l) x y - value l x y) +
         - ((mcoef m : R) * x ^ mx (malpha m) * y ^ my (malpha m))) by ring.
      eapply Rle_trans; [apply Rabs_triang|]. rewrite Rabs_Ropp, !Rabs_mult, <- !RPow_abs.
      rewrite Rmult_plus_distr_l. rewrite Rplus_comm. apply Rplus_le_compat; [|exact IH].
      rewrite Rmult_assoc. apply Rmult_le_compat_r; [exact Hpos|]. lra.
Qed.

Lemma value_pscale_err p c x y : canonical p ->
  Rabs (value (pscale RS p c) x y - value p x y * c) <= tol * msize p x y.
Proof.
  intros Hp. rewrite pscale_filter, <- value_map_scale.
  replace (msize p x y) with (msize (map (fun m => m_scale RS m c) p) x y).
  - apply value_filter_nz_err.
  - clear. induction p as [|m p IH]; cbn [map msize]; [reflexivity|]. rewrite IH. reflexivity.
Qed.

Lemma value_pneg p x y : canonical p -> value (pneg RS p) x y = - value p x y.
Proof.
  intros Hp. rewrite pneg_eq, value_pscale; [ring|exact Hp|].
  intros a b. destruct (canonical_coef_big p a b Hp) as [E|E].
  - left. rewrite E. ring.
  - right. rewrite Rabs_mult. replace (Rabs (-1)) with 1; [lra|].
    unfold Rabs. destruct (Rcase_abs (-1)); lra.
Qed.

Lemma value_psub p q x y : canonical p -> canonical q ->
  (forall a b, coef p a b - coef q a b = 0 \/ tol <= Rabs (coef p a b - coef q a b)) ->
  value (psub RS p q) x y = value p x y - value q x y.
Proof.
  intros Hp Hq H. unfold psub. fold (pneg RS q).
  rewrite value_padd, value_pneg by (try apply pneg_canonical; try assumption;
    intros a b; rewrite coef_pneg by assumption; apply H). ring.
Qed.

Lemma value_padd_scal p c x y : canonical p ->
  (c = 0 \/ tol <= Rabs c) ->
  (coef p 0 0 + c = 0 \/ tol <= Rabs (coef p 0 0 + c)) ->
  value (padd_scal RS p c) x y = value p x y + c.
Proof.
  intros Hp Hc H.
  assert (Ec : cutoff c = c) by (destruct Hc as [->|Hc]; [apply cutoff_zero|apply cutoff_id, Hc]).
  replace (value p x y + c) with (value (p ++ [rmon c 0 0]) x y)
    by (rewrite value_app; cbn [value rmon mcoef malpha mx my pow]; ring).
  apply value_coef_ext. intros a b. rewrite coef_padd_scal, coef_app by exact Hp.
  cbn [coef rmon malpha mcoef mx my]. rewrite Rplus_0_r, Ec. unfold delta0.
  destruct a as [|a], b as [|b]; cbn [Nat.eqb andb]; rewrite ?Rplus_0_r;
    try (apply canonical_cutoff, Hp).
  destruct H as [E|E]; [rewrite E; apply cutoff_zero|apply cutoff_id, E].
Qed.

(* ---------------------------------------------------------------- *)
(** ** Multiplication *)

Definition mulraw (p q : rpoly) : rpoly := flat_map (fun m => map (m_mul RS m) q) p.

Lemma pmul_raw p q : pmul RS p q = consolidate RS (filter nz (mulraw p q)).
Proof.
  unfold pmul. f_equal.
  assert (G : forall r, fold_left (fun r m => fold_left (fun r n => add_monomial RS r (m_mul RS m n)) q r) p r
                        = r ++ filter nz (mulraw p q)).
  { induction p as [|m p IH]; intros r; cbn [fold_left mulraw flat_map].
    - cbn. rewrite app_nil_r. reflexivity.
    - rewrite IH, fold_add_monomial_map, filter_app, <- app_assoc. reflexivity. }
  rewrite G. reflexivity.
Qed.

Lemma pmul_canonical p q : canonical (pmul RS p q).
Proof. apply consolidate_canonical. Qed.

Lemma value_map_mul m q x y :
  value (map (m_mul RS m) q) x y
  = (mcoef m : R) * x ^ mx (malpha m) * y ^ my (malpha m) * value q x y.
Proof.
  induction q as [|n q IH]; cbn [map value]; [ring|].
  rewrite IH. cbn [m_mul mcoef malpha mi_add mx my smul RS]. rewrite !pow_add. ring.
Qed.

Lemma value_mulraw p q x y : value (mulraw p q) x y = value p x y * value q x y.
Proof.
  unfold mulraw. induction p as [|m p IH]; cbn [flat_map value]; [ring|].
  rewrite value_app, IH, value_map_mul. ring.
Qed.

Lemma mulraw_assoc p q r : mulraw (mulraw p q) r = mulraw p (mulraw q r).
Proof.
  unfold mulraw. induction p as [|m p IH]; cbn [flat_map]; [reflexivity|].
  rewrite flat_map_app, IH. f_equal. clear IH.
  induction q as [|n q IHq]; cbn [map flat_map]; [reflexivity|].
  rewrite map_app, IHq. f_equal. rewrite map_map. apply map_ext. intros k.
  unfold m_mul, mi_add. cbn [malpha mcoef mx my smul RS]. f_equal; [f_equal; lia|].
  apply Rmult_assoc.
Qed.

(** Coefficients of one monomial times a list. *)
Lemma coef_map_mul m q a b :
  coef (map (m_mul RS m) q) a b
  = (if (Nat.leb (mx (malpha m)) a && Nat.leb (my (malpha m)) b)%bool
     then (mcoef m : R) * coef q (a - mx (malpha m)) (b - my (malpha m)) else 0).
Proof.
  induction q as [|n q IH]; cbn [map].
  - cbn [coef]. destruct (_ && _)%bool; ring.
  - rewrite !coef_cons, IH.
    unfold here. cbn [m_mul malpha mcoef mi_add mx my smul RS].
    destruct (Nat.leb_spec (mx (malpha m)) a), (Nat.leb_spec (my (malpha m)) b); cbn [andb].
    + destruct (Nat.eqb_spec (mx (malpha m) + mx (malpha n)) a),
               (Nat.eqb_spec (mx (malpha n)) (a - mx (malpha m))); try lia; cbn [andb];
      destruct (Nat.eqb_spec (my (malpha m) + my (malpha n)) b),
               (Nat.eqb_spec (my (malpha n)) (b - my (malpha m))); try lia; ring.
    + destruct (Nat.eqb_spec (my (malpha m) + my (malpha n)) b); [lia|].
      rewrite Bool.andb_false_r. ring.
    + destruct (Nat.eqb_spec (mx (malpha m) + mx (malpha n)) a); [lia|]. cbn [andb]. ring.
    + destruct (Nat.eqb_spec (mx (malpha m) + mx (malpha n)) a); [lia|]. cbn [andb]. ring.
Qed.

Lemma coef_filter_map_mul m q a b : canonical q ->
  coef (filter nz (map (m_mul RS m) q)) a b
  = (if (Nat.leb (mx (malpha m)) a && Nat.leb (my (malpha m)) b)%bool
     then cutoff ((mcoef m : R) * coef q (a - mx (malpha m)) (b - my (malpha m))) else 0).
Proof.
  intros Hq. induction Hq as [|n q Hn Hf Hq IH]; cbn [map].
  - cbn [filter coef]. rewrite Rmult_0_r, cutoff_zero. destruct (_ && _)%bool; ring.
  - change (m_mul RS m n :: map (m_mul RS m) q) with ([m_mul RS m n] ++ map (m_mul RS m) q).
    rewrite filter_app, coef_app, IH. unfold m_mul at 1. rewrite coef_filter_single, coef_cons.
    unfold here. cbn [mi_add mx my smul RS].
    destruct (Nat.leb_spec (mx (malpha m)) a), (Nat.leb_spec (my (malpha m)) b); cbn [andb].
    + pose proof (coef_lt_all q (malpha n) Hf) as Hz.
      destruct (Nat.eqb_spec (mx (malpha m) + mx (malpha n)) a),
               (Nat.eqb_spec (mx (malpha n)) (a - mx (malpha m))); try lia; cbn [andb];
      destruct (Nat.eqb_spec (my (malpha m) + my (malpha n)) b),
               (Nat.eqb_spec (my (malpha n)) (b - my (malpha m))); try lia;
      rewrite ?Rplus_0_l; try reflexivity.
      replace (a - mx (malpha m))%nat with (mx (malpha n)) by lia.
      replace (b - my (malpha m))%nat with (my (malpha n)) by lia.
      rewrite Hz, Rmult_0_r, cutoff_zero, !Rplus_0_r. reflexivity.
    + destruct (Nat.eqb_spec (my (malpha m) + my (malpha n)) b); [lia|].
      rewrite Bool.andb_false_r. ring.
    + destruct (Nat.eqb_spec (mx (malpha m) + mx (malpha n)) a); [lia|]. cbn [andb]. ring.
    + destruct (Nat.eqb_spec (mx (malpha m) + mx (malpha n)) a); [lia|]. cbn [andb]. ring.
Qed.

(** Sums over a rectangle that pick one index pair. *)
Lemma sum2_single (f : nat -> nat -> R) a b i0 j0 : (i0 <= a)%nat -> (j0 <= b)%nat ->
  (forall i j, (i <= a)%nat -> (j <= b)%nat -> (i, j) <> (i0, j0) -> f i j = 0) ->
  sum_f_R0 (fun i => sum_f_R0 (f i) b) a = f i0 j0.
Proof.
  intros Hi Hj H. rewrite (sum_single _ a i0 Hi).
  - apply sum_single; [exact Hj|]. intros j Hjb Hne. apply H; [exact Hi|exact Hjb|congruence].
  - intros i Hia Hne. apply sum_eq0. intros j Hjb. apply H; [exact Hia|exact Hjb|congruence].
Qed.

Lemma sum2_ext (f g : nat -> nat -> R) a b :
  (forall i j, (i <= a)%nat -> (j <= b)%nat -> f i j = g i j) ->
  sum_f_R0 (fun i => sum_f_R0 (f i) b) a = sum_f_R0 (fun i => sum_f_R0 (g i) b) a.
Proof. intros H. apply sum_ext; intros i Hi. apply sum_ext; intros j Hj. apply H; assumption. Qed.

Lemma sum2_plus (f g : nat -> nat -> R) a b :
  sum_f_R0 (fun i => sum_f_R0 (fun j => f i j + g i j) b) a
  = sum_f_R0 (fun i => sum_f_R0 (f i) b) a + sum_f_R0 (fun i => sum_f_R0 (g i) b) a.
Proof.
  rewrite <- sum_plus. apply sum_ext; intros i Hi. rewrite <- sum_plus. reflexivity.
Qed.

Lemma coef_filter_mulraw p q a b : canonical p -> canonical q ->
  coef (filter nz (mulraw p q)) a b
  = sum_f_R0 (fun i => sum_f_R0 (fun j => cutoff (coef p i j * coef q (a - i) (b - j))) b) a.
Proof.
  intros Hp Hq. induction Hp as [|m p Hm Hf Hp IH].
  - cbn [mulraw flat_map filter coef]. symmetry. apply sum_eq0; intros i _.
    apply sum_eq0; intros j _. rewrite Rmult_0_l. apply cutoff_zero.
  - cbn [mulraw flat_map]. fold (mulraw p q).
    rewrite filter_app, coef_app, IH, coef_filter_map_mul by exact Hq.
    set (A := mx (malpha m)). set (B := my (malpha m)).
    rewrite (sum2_ext (fun i j => cutoff (coef (m :: p) i j * coef q (a - i) (b - j)))
      (fun i j => (if (Nat.eqb A i && Nat.eqb B j)%bool
                   then cutoff ((mcoef m : R) * coef q (a - i) (b - j)) else 0)
                  + cutoff (coef p i j * coef q (a - i) (b - j)))).
    + rewrite sum2_plus. f_equal.
      destruct (Nat.leb_spec A a), (Nat.leb_spec B b); cbn [andb].
      * rewrite (sum2_single _ a b A B) by (try assumption;
          intros i j Hi Hj Hne;
          destruct (Nat.eqb_spec A i), (Nat.eqb_spec B j); cbn [andb]; try reflexivity; congruence).
        rewrite !Nat.eqb_refl. reflexivity.
      * symmetry. apply sum_eq0; intros i Hi. apply sum_eq0; intros j Hj.
        destruct (Nat.eqb_spec B j); [lia|]. rewrite Bool.andb_false_r. reflexivity.
      * symmetry. apply sum_eq0; intros i Hi. apply sum_eq0; intros j Hj.
        destruct (Nat.eqb_spec A i); [lia|]. reflexivity.
      * symmetry. apply sum_eq0; intros i Hi. apply sum_eq0; intros j Hj.
        destruct (Nat.eqb_spec A i); [lia|]. reflexivity.
    + intros i j Hi Hj. rewrite coef_cons. fold A B. unfold here. fold A B.
      destruct (Nat.eqb_spec A i), (Nat.eqb_spec B j); cbn [andb]; rewrite ?Rplus_0_l; try reflexivity.
      pose proof (coef_lt_all p (malpha m) Hf) as Hz. fold A B in Hz. subst i j.
      rewrite Hz, Rplus_0_r, Rmult_0_l, cutoff_zero, Rplus_0_r. reflexivity.
Qed.

Lemma coef_pmul p q a b : canonical p -> canonical q ->
  coef (pmul RS p q) a b
  = cutoff (sum_f_R0 (fun i => sum_f_R0 (fun j =>
      cutoff (coef p i j * coef q (a - i) (b - j))) b) a).
Proof.
  intros Hp Hq. rewrite pmul_raw, coef_consolidate, coef_filter_mulraw by assumption. reflexivity.
Qed.

(** When no product of coefficients is dropped. *)
Definition prods_big (p q : rpoly) : Prop :=
  forall m n : rmono, In m p -> In n q -> tol <= Rabs (mcoef m * mcoef n).

Lemma filter_mulraw_big p q : prods_big p q -> filter nz (mulraw p q) = mulraw p q.
Proof.
  intros H. apply filter_all_nz. intros k Hk. unfold mulraw in Hk.
  apply in_flat_map in Hk. destruct Hk as (m & Hm & Hk).
  apply in_map_iff in Hk. destruct Hk as (n & <- & Hn). apply (H m n Hm Hn).
Qed.

Lemma coef_mulraw p q a b :
  coef (mulraw p q) a b = t_mul (coef p) (coef q) a b.
Proof.
  unfold t_mul. induction p as [|m p IH].
  - cbn [mulraw flat_map coef]. symmetry. apply sum_eq0; intros i _. apply sum_eq0; intros j _. ring.
  - cbn [mulraw flat_map]. fold (mulraw p q).
    rewrite coef_app, IH, coef_map_mul.
    set (A := mx (malpha m)). set (B := my (malpha m)).
    rewrite (sum2_ext (fun i j => coef (m :: p) i j * coef q (a - i) (b - j))
      (fun i j => (if (Nat.eqb A i && Nat.eqb B j)%bool
                   then (mcoef m : R) * coef q (a - i) (b - j) else 0)
                  + coef p i j * coef q (a - i) (b - j))).
    + rewrite sum2_plus. f_equal.
      destruct (Nat.leb_spec A a), (Nat.leb_spec B b); cbn [andb].
      * rewrite (sum2_single _ a b A B) by (try assumption;
          intros i j Hi Hj Hne;
          destruct (Nat.eqb_spec A i), (Nat.eqb_spec B j); cbn [andb]; try reflexivity; congruence).
        rewrite !Nat.eqb_refl. reflexivity.
      * symmetry. apply sum_eq0; intros i Hi. apply sum_eq0; intros j Hj.
        destruct (Nat.eqb_spec B j); [lia|]. rewrite Bool.andb_false_r. reflexivity.
      * symmetry. apply sum_eq0; intros i Hi. apply sum_eq0; intros j Hj.
        destruct (Nat.eqb_spec A i); [lia|]. reflexivity.
      * symmetry. apply sum_eq0; intros i Hi. apply sum_eq0; intros j Hj.
        destruct (Nat.eqb_spec A i); [lia|]. reflexivity.
    + intros i j Hi Hj. rewrite coef_cons. unfold here. fold A B.
      destruct (Nat.eqb_spec A i), (Nat.eqb_spec B j); cbn [andb]; ring.
Qed.

Lemma value_pmul p q x y : prods_big p q ->
  (forall a b, t_mul (coef p) (coef q) a b = 0 \/ tol <= Rabs (t_mul (coef p) (coef q) a b)) ->
  value (pmul RS p q) x y = value p x y * value q x y.
Proof.
  intros Hb H. rewrite pmul_raw, filter_mulraw_big by exact Hb.
  rewrite value_consolidate; [apply value_mulraw|].
  intros a b. rewrite coef_mulraw. destruct (H a b) as [E|E];
    [rewrite E; apply cutoff_zero|apply cutoff_id, E].
Qed.

Lemma coef_pmul_exact p q a b : prods_big p q ->
  (forall a b, t_mul (coef p) (coef q) a b = 0 \/ tol <= Rabs (t_mul (coef p) (coef q) a b)) ->
  coef (pmul RS p q) a b = t_mul (coef p) (coef q) a b.
Proof.
  intros Hb H. rewrite pmul_raw, filter_mulraw_big, coef_consolidate, coef_mulraw by exact Hb.
  destruct (H a b) as [E|E]; [rewrite E; apply cutoff_zero|apply cutoff_id, E].
Qed.

(** Error of the product, without any assumption. *)
Lemma msize_app p q x y : msize (p ++ q) x y = msize p x y + msize q x y.
Proof. induction p as [|m p IH]; cbn [app msize]; [lra|]. rewrite IH. lra. Qed.

Lemma msize_mulraw p q x y : msize (mulraw p q) x y = msize p x y * msize q x y.
Proof.
  unfold mulraw. induction p as [|m p IH]; cbn [flat_map msize]; [ring|].
  rewrite msize_app, IH, Rmult_plus_distr_r. f_equal.
  clear IH. induction q as [|n q IHq]; cbn [map msize]; [ring|].
  rewrite IHq. cbn [m_mul malpha mi_add mx my]. rewrite !pow_add. ring.
Qed.

Lemma msize_pos p x y : 0 <= msize p x y.
Proof.
  induction p as [|m p IH]; cbn [msize]; [lra|].
  apply Rplus_le_le_0_compat; [|exact IH]. apply Rmult_le_pos; apply pow_le, Rabs_pos.
Qed.

Lemma msize_filter f p x y : msize (filter f p) x y <= msize p x y.
Proof.
  induction p as [|m p IH]; cbn [filter msize]; [lra|].
  assert (0 <= Rabs x ^ mx (malpha m) * Rabs y ^ my (malpha m))
    by (apply Rmult_le_pos; apply pow_le, Rabs_pos).
  destruct (f m); cbn [msize]; lra.
Qed.

Lemma value_pmul_err p q x y :
  Rabs (value (pmul RS p q) x y - value p x y * value q x y)
  <= 2 * tol * (msize p x y * msize q x y).
Proof.
  pose proof tol_pos as Ht.
  rewrite pmul_raw, <- value_mulraw, <- msize_mulraw.
  set (l := mulraw p q).
  replace (value (consolidate RS (filter nz l)) x y - value l x y)
    with ((value (consolidate RS (filter nz l)) x y - value (filter nz l) x y)
          + (value (filter nz l) x y - value l x y)) by ring.
  eapply Rle_trans; [apply Rabs_triang|].
  pose proof (value_consolidate_err (filter nz l) x y) as H1.
  pose proof (value_filter_nz_err l x y) as H2.
  pose proof (msize_filter nz l x y) as H3. nra.
Qed.

(** *** Products on grids *)

Lemma on_grid_mulraw u v p q : on_grid u p -> on_grid v q -> on_grid (u * v) (mulraw p q).
Proof.
  intros Hp Hq k Hk. unfold mulraw in Hk.
  apply in_flat_map in Hk. destruct Hk as (m & Hm & Hk).
  apply in_map_iff in Hk. destruct Hk as (n & <- & Hn).
  destruct (Hp m Hm) as [z Hz]. destruct (Hq n Hn) as [w Hw].
  exists (z * w)%Z. cbn [m_mul mcoef smul RS]. rewrite Hz, Hw, mult_IZR. ring.
Qed.

Lemma grid_prods_big u v p q : canonical p -> canonical q -> tol <= u * v ->
  on_grid u p -> on_grid v q -> prods_big p q.
Proof.
  intros Hp Hq Huv Gp Gq m n Hm Hn. pose proof tol_pos.
  destruct (Gp m Hm) as [z Hz]. destruct (Gq n Hn) as [w Hw].
  assert (Hnz : (mcoef m : R) * mcoef n <> 0).
  { apply Rmult_integral_contrapositive. split; intros E.
    - pose proof (canonical_In m p Hp Hm) as B. rewrite E, Rabs_R0 in B. lra.
    - pose proof (canonical_In n q Hq Hn) as B. rewrite E, Rabs_R0 in B. lra. }
  assert (E : (mcoef m : R) * mcoef n = (u * v) * IZR (z * w))
    by (rewrite Hz, Hw, mult_IZR; ring).
  rewrite E in *. destruct (grid_mul_abs (u * v) (z * w)) as [F|F]; [lra|contradiction|lra].
Qed.

Lemma value_pmul_grid u v p q x y : canonical p -> canonical q -> tol <= u * v ->
  on_grid u p -> on_grid v q ->
  value (pmul RS p q) x y = value p x y * value q x y.
Proof.
  intros Hp Hq Huv Gp Gq. rewrite pmul_raw, filter_mulraw_big by (eapply grid_prods_big; eassumption).
  rewrite value_consolidate; [apply value_mulraw|].
  eapply on_grid_no_drop; [exact Huv|]. apply on_grid_mulraw; assumption.
Qed.

Lemma coef_pmul_grid u v p q a b : canonical p -> canonical q -> tol <= u * v ->
  on_grid u p -> on_grid v q ->
  coef (pmul RS p q) a b = coef (mulraw p q) a b.
Proof.
  intros Hp Hq Huv Gp Gq. rewrite pmul_raw, filter_mulraw_big by (eapply grid_prods_big; eassumption).
  rewrite coef_consolidate. eapply on_grid_no_drop; [exact Huv|]. apply on_grid_mulraw; assumption.
Qed.

Lemma on_grid_pmul u v p q : on_grid u p -> on_grid v q -> on_grid (u * v) (pmul RS p q).
Proof.
  intros Gp Gq. rewrite pmul_raw. apply on_grid_consolidate, on_grid_filter.
  apply on_grid_mulraw; assumption.
Qed.

Lemma on_grid_padd u p q : canonical p -> canonical q -> on_grid u p -> on_grid u q ->
  on_grid u (padd RS p q).
Proof.
  intros Hp Hq Gp Gq. rewrite padd_consolidate by assumption.
  apply on_grid_consolidate, on_grid_app; assumption.
Qed.

Lemma value_padd_grid u p q x y : canonical p -> canonical q -> tol <= u ->
  on_grid u p -> on_grid u q ->
  value (padd RS p q) x y = value p x y + value q x y.
Proof.
  intros Hp Hq Hu Gp Gq. rewrite padd_consolidate, <- value_app by assumption.
  apply value_consolidate. eapply on_grid_no_drop; [exact Hu|]. apply on_grid_app; assumption.
Qed.

Lemma on_grid_pscale u p k : on_grid u p -> on_grid (u * k) (pscale RS p k).
Proof.
  intros Gp. rewrite pscale_filter. apply on_grid_filter. intros m Hm.
  apply in_map_iff in Hm. destruct Hm as (n & <- & Hn). destruct (Gp n Hn) as [z Hz].
  exists z. cbn [m_scale mcoef smul RS]. rewrite Hz. ring.
Qed.

Lemma value_pscale_grid u p k x y : canonical p -> tol <= Rabs (u * k) -> on_grid u p ->
  value (pscale RS p k) x y = value p x y * k.
Proof.
  intros Hp Hu Gp. apply value_pscale; [exact Hp|]. intros a b.
  destruct (on_grid_coef u p a b Gp) as [z ->].
  replace (u * IZR z * k) with ((u * k) * IZR z) by ring.
  destruct (Z.eq_dec z 0) as [->|Hz]; [left; ring|right].
  rewrite Rabs_mult. assert (1 <= Rabs (IZR z)) by (rewrite <- abs_IZR; apply IZR_le; lia).
  pose proof (Rabs_pos (u * k)). nra.
Qed.

(** Commutativity, as equality of the resulting monomial lists. *)
Lemma padd_comm p q : canonical p -> canonical q -> padd RS p q = padd RS q p.
Proof.
  intros Hp Hq. apply canonical_ext; try apply padd_canonical.
  intros a b. rewrite !coef_padd by assumption. f_equal. ring.
Qed.

Lemma sum_rev f n : sum_f_R0 f n = sum_f_R0 (fun i => f (n - i)%nat) n.
Proof.
  revert f. induction n as [|n IH]; intros f; [reflexivity|].
  rewrite (decomp_sum (fun i => f (S n - i)%nat)) by lia.
  cbn [sum_f_R0 Nat.pred]. rewrite Nat.sub_0_r, Rplus_comm. f_equal.
  rewrite IH. apply sum_ext. intros i Hi. f_equal.
Qed.

Lemma pmul_comm p q : canonical p -> canonical q -> pmul RS p q = pmul RS q p.
Proof.
  intros Hp Hq. apply canonical_ext; try apply pmul_canonical.
  intros a b. rewrite !coef_pmul by assumption. f_equal.
  rewrite sum_rev. apply sum_ext; intros i Hi. rewrite sum_rev.
  apply sum_ext; intros j Hj. f_equal.
  replace (a - (a - i))%nat with i by lia. replace (b - (b - j))%nat with j by lia. ring.
Qed.

(* ---------------------------------------------------------------- *)
(** ** Derivatives *)

Lemma pdx_filter p : pdx RS p = filter nz (map (m_dx RS) p).
Proof. unfold pdx. rewrite fold_add_monomial_map. reflexivity. Qed.
Lemma pdy_filter p : pdy RS p = filter nz (map (m_dy RS) p).
Proof. unfold pdy. rewrite fold_add_monomial_map. reflexivity. Qed.

Lemma canonical_filter_map_nz (f : rmono -> rmono) p : canonical p ->
  (forall m n, nz (f m) = true -> nz (f n) = true ->
     exp_lt (malpha m) (malpha n) -> exp_lt (malpha (f m)) (malpha (f n))) ->
  canonical (filter nz (map f p)).
Proof.
  intros H Hf. induction H as [|m p Hm Hfa Hp IH]; cbn [map filter]; [constructor|].
  destruct (nz (f m)) eqn:N; [|exact IH].
  constructor; [apply nz_true, N| |exact IH].
  apply Forall_forall. intros n Hn. apply filter_In in Hn. destruct Hn as [Hn Hz].
  apply in_map_iff in Hn. destruct Hn as (k & <- & Hk). apply Hf; [exact N|exact Hz|].
  rewrite Forall_forall in Hfa. apply Hfa, Hk.
Qed.

Lemma nz_zero al : nz (Mono (S:=RS) al 0) = false.
Proof.
  unfold nz. apply Bool.negb_false_iff, m_is_zero_true. cbn [mcoef].
  rewrite Rabs_R0. apply tol_pos.
Qed.

Lemma nz_dx_pos m : nz (m_dx RS m) = true -> exists a, mx (malpha m) = S a.
Proof.
  unfold m_dx. destruct (mx (malpha m)) as [|a]; [|eauto].
  cbn [szero RS]. rewrite nz_zero. discriminate.
Qed.
Lemma nz_dy_pos m : nz (m_dy RS m) = true -> exists a, my (malpha m) = S a.
Proof.
  unfold m_dy. destruct (my (malpha m)) as [|a]; [|eauto].
  cbn [szero RS]. rewrite nz_zero. discriminate.
Qed.

Lemma pdx_canonical p : canonical p -> canonical (pdx RS p).
Proof.
  intros H. rewrite pdx_filter. apply canonical_filter_map_nz; [exact H|].
  intros m n Hm Hn Hlt. apply nz_dx_pos in Hm. apply nz_dx_pos in Hn.
  destruct Hm as [a Ha], Hn as [b Hb]. unfold m_dx. rewrite Ha, Hb. cbn [malpha].
  unfold exp_lt in *. rewrite Ha, Hb in Hlt. cbn [mx my]. lia.
Qed.
Lemma pdy_canonical p : canonical p -> canonical (pdy RS p).
Proof.
  intros H. rewrite pdy_filter. apply canonical_filter_map_nz; [exact H|].
  intros m n Hm Hn Hlt. apply nz_dy_pos in Hm. apply nz_dy_pos in Hn.
  destruct Hm as [a Ha], Hn as [b Hb]. unfold m_dy. rewrite Ha, Hb. cbn [malpha].
  unfold exp_lt in *. rewrite Ha, Hb in Hlt. cbn [mx my]. lia.
Qed.

Lemma abs_mul_nat (c : R) n : tol <= Rabs c -> tol <= Rabs (c * IZR (Z.of_nat (S n))).
Proof.
  intros H. pose proof tol_pos. rewrite Rabs_mult.
  assert (1 <= Rabs (IZR (Z.of_nat (S n)))) by (rewrite <- abs_IZR; apply IZR_le; lia).
  nra.
Qed.

Lemma coef_map_dx p a b : coef (map (m_dx RS) p) a b = t_dx (coef p) a b.
Proof.
  unfold t_dx. induction p as [|m p IH]; cbn [map]; [cbn; rring|].
  rewrite !coef_cons, IH, Rmult_plus_distr_l. f_equal.
  destruct m as [[ax ay] c]. unfold m_dx, here. cbn [malpha mx my mcoef].
  destruct ax as [|n]; cbn [malpha mcoef mx my].
  - rewrite Nat.add_1_r. cbn [Nat.eqb andb szero RS].
    match goal with |- context [if ?c then _ else _] => destruct c end; rring.
  - rewrite Nat.add_1_r. cbn [Nat.eqb]. destruct (Nat.eqb_spec n a) as [->|]; cbn [andb].
    + destruct (Nat.eqb ay b); [|rring]. cbn [smul sofZ RS]. rewrite <- INR_IZR_INZ. rring.
    + rring.
Qed.
Lemma coef_map_dy p a b : coef (map (m_dy RS) p) a b = t_dy (coef p) a b.
Proof.
  unfold t_dy. induction p as [|m p IH]; cbn [map]; [cbn; rring|].
  rewrite !coef_cons, IH, Rmult_plus_distr_l. f_equal.
  destruct m as [[ax ay] c]. unfold m_dy, here. cbn [malpha mx my mcoef].
  destruct ay as [|n]; cbn [malpha mcoef mx my].
  - rewrite Nat.add_1_r. cbn [Nat.eqb szero RS]. rewrite Bool.andb_false_r.
    match goal with |- context [if ?c then _ else _] => destruct c end; rring.
  - rewrite Nat.add_1_r. cbn [Nat.eqb]. destruct (Nat.eqb_spec n b) as [->|];
      rewrite ?Bool.andb_true_r, ?Bool.andb_false_r.
    + destruct (Nat.eqb ax a); [|rring]. cbn [smul sofZ RS]. rewrite <- INR_IZR_INZ. rring.
    + rring.
Qed.

(** On canonical polynomials, only the vanishing derivatives are filtered out. *)
Lemma coef_filter_zeros l a b :
  (forall m : rmono, In m l -> (mcoef m : R) = 0 \/ tol <= Rabs (mcoef m)) ->
  coef (filter nz l) a b = coef l a b.
Proof.
  induction l as [|m l IH]; intros H; [reflexivity|].
  cbn [filter]. rewrite coef_cons.
  assert (IH' : coef (filter nz l) a b = coef l a b) by (apply IH; intros n Hn; apply H; right; exact Hn).
  destruct (nz m) eqn:N.
  - rewrite coef_cons, IH'. reflexivity.
  - rewrite IH'. destruct (H m (or_introl eq_refl)) as [E|E].
    + rewrite E. destruct (here m a b); rring.
    + apply nz_true in E. congruence.
Qed.

Lemma m_dx_big (m : rmono) : tol <= Rabs (mcoef m : R) ->
  (mcoef (m_dx RS m) : R) = 0 \/ tol <= Rabs (mcoef (m_dx RS m)).
Proof.
  intros H. unfold m_dx. destruct (mx (malpha m)) as [|a] eqn:E; [left; reflexivity|right].
  cbn [mcoef smul sofZ RS]. apply abs_mul_nat, H.
Qed.
Lemma m_dy_big (m : rmono) : tol <= Rabs (mcoef m : R) ->
  (mcoef (m_dy RS m) : R) = 0 \/ tol <= Rabs (mcoef (m_dy RS m)).
Proof.
  intros H. unfold m_dy. destruct (my (malpha m)) as [|a] eqn:E; [left; reflexivity|right].
  cbn [mcoef smul sofZ RS]. apply abs_mul_nat, H.
Qed.

Lemma coef_pdx p a b : canonical p -> coef (pdx RS p) a b = t_dx (coef p) a b.
Proof.
  intros Hp. rewrite pdx_filter, coef_filter_zeros; [apply coef_map_dx|].
  intros m Hm. apply in_map_iff in Hm. destruct Hm as (n & <- & Hn).
  apply m_dx_big. eapply canonical_In; eassumption.
Qed.
Lemma coef_pdy p a b : canonical p -> coef (pdy RS p) a b = t_dy (coef p) a b.
Proof.
  intros Hp. rewrite pdy_filter, coef_filter_zeros; [apply coef_map_dy|].
  intros m Hm. apply in_map_iff in Hm. destruct Hm as (n & <- & Hn).
  apply m_dy_big. eapply canonical_In; eassumption.
Qed.

Lemma value_map_dx_lim p : is_dx (value p) (value (map (m_dx RS) p)).
Proof.
  intros x y. induction p as [|m p IH]; cbn [map value].
  - apply derivable_pt_lim_const.
  - apply derivable_pt_lim_plus with (f2 := fun t => value p t y); [|exact IH].
    destruct m as [[ax ay] c]. cbn [malpha mx my mcoef]. unfold m_dx. cbn [malpha mx my mcoef].
    destruct ax as [|n].
    + cbn [mcoef malpha mx my szero RS pow]. replace (0 * 1 * 1) with 0 by rring.
      apply derivable_pt_lim_const.
    + cbn [mcoef malpha mx my smul sofZ RS].
      rewrite <- INR_IZR_INZ.
      replace (c * INR (S n) * x ^ n * y ^ ay)
        with ((0 * x ^ (S n) + c * (INR (S n) * x ^ pred (S n))) * y ^ ay
              + (c * x ^ (S n)) * 0) by (cbn [pred]; rring).
      apply derivable_pt_lim_mult with (f1 := fun t => c * t ^ S n) (f2 := fun _ => y ^ ay);
        [|apply derivable_pt_lim_const].
      apply derivable_pt_lim_mult with (f1 := fun _ => c) (f2 := fun t => t ^ S n);
        [apply derivable_pt_lim_const|apply derivable_pt_lim_pow].
Qed.
Lemma value_map_dy_lim p : is_dy (value p) (value (map (m_dy RS) p)).
Proof.
  intros x y. induction p as [|m p IH]; cbn [map value].
  - apply derivable_pt_lim_const.
  - apply derivable_pt_lim_plus with (f2 := fun t => value p x t); [|exact IH].
    destruct m as [[ax ay] c]. cbn [malpha mx my mcoef]. unfold m_dy. cbn [malpha mx my mcoef].
    destruct ay as [|n].
    + cbn [mcoef malpha mx my szero RS pow]. replace (0 * 1 * 1) with 0 by rring.
      apply derivable_pt_lim_const.
    + cbn [mcoef malpha mx my smul sofZ RS].
      rewrite <- INR_IZR_INZ.
      replace (c * INR (S n) * x ^ ax * y ^ n)
        with (0 * y ^ (S n) + (c * x ^ ax) * (INR (S n) * y ^ pred (S n))) by (cbn [pred]; rring).
      apply derivable_pt_lim_mult with (f1 := fun _ => c * x ^ ax) (f2 := fun t => t ^ S n);
        [apply derivable_pt_lim_const|apply derivable_pt_lim_pow].
Qed.

Lemma value_pdx p x y : canonical p -> value (pdx RS p) x y = value (map (m_dx RS) p) x y.
Proof.
  intros Hp. apply value_coef_ext. intros a b. rewrite coef_pdx, coef_map_dx by exact Hp. reflexivity.
Qed.
Lemma value_pdy p x y : canonical p -> value (pdy RS p) x y = value (map (m_dy RS) p) x y.
Proof.
  intros Hp. apply value_coef_ext. intros a b. rewrite coef_pdy, coef_map_dy by exact Hp. reflexivity.
Qed.

Lemma pdx_lim p : canonical p -> is_dx (value p) (value (pdx RS p)).
Proof. intros Hp x y. rewrite value_pdx by exact Hp. apply value_map_dx_lim. Qed.
Lemma pdy_lim p : canonical p -> is_dy (value p) (value (pdy RS p)).
Proof. intros Hp x y. rewrite value_pdy by exact Hp. apply value_map_dy_lim. Qed.

Lemma ppartial_x p : ppartial RS p VX = Ok (pdx RS p).
Proof.
  unfold ppartial, pdx. generalize (@nil rmono). induction p as [|m p IH]; intros r; [reflexivity|].
  cbn [fold_res fold_left]. rewrite <- IH. unfold m_partial_deriv, m_dx, bind.
  destruct (mx (malpha m)); reflexivity.
Qed.
Lemma ppartial_y p : ppartial RS p VY = Ok (pdy RS p).
Proof.
  unfold ppartial, pdy. generalize (@nil rmono). induction p as [|m p IH]; intros r; [reflexivity|].
  cbn [fold_res fold_left]. rewrite <- IH. unfold m_partial_deriv, m_dy, bind.
  destruct (my (malpha m)); reflexivity.
Qed.
Lemma ppartial_other p : ppartial RS p VOther = match p with [] => Ok [] | _ => Err InvalidVariableError end.
Proof. destruct p; reflexivity. Qed.

(** *** Laplacian *)

Lemma plap_canonical p : canonical (plaplacian RS p).
Proof. apply padd_canonical. Qed.

Lemma coef_plap p a b : canonical p ->
  coef (plaplacian RS p) a b = cutoff (t_lap (coef p) a b).
Proof.
  intros Hp. unfold plaplacian.
  rewrite coef_padd by (try apply pdx_canonical; try apply pdy_canonical;
                        try apply pdx_canonical; try apply pdy_canonical; assumption).
  f_equal. unfold t_lap.
  rewrite coef_pdx, coef_pdy by (try apply pdx_canonical; try apply pdy_canonical; assumption).
  unfold t_dx, t_dy. rewrite coef_pdx, coef_pdy by assumption. reflexivity.
Qed.

Lemma value_plap_err p x y : canonical p ->
  Rabs (value (plaplacian RS p) x y
        - (value (pdx RS (pdx RS p)) x y + value (pdy RS (pdy RS p)) x y))
  <= tol * (msize (pdx RS (pdx RS p)) x y + msize (pdy RS (pdy RS p)) x y).
Proof.
  intros Hp. apply value_padd_err.
  - apply pdx_canonical, pdx_canonical, Hp.
  - apply pdy_canonical, pdy_canonical, Hp.
Qed.

Lemma on_grid_pdx u p : on_grid u p -> on_grid u (pdx RS p).
Proof.
  intros H. rewrite pdx_filter. apply on_grid_filter. intros m Hm.
  apply in_map_iff in Hm. destruct Hm as (n & <- & Hn). destruct (H n Hn) as [z Hz].
  unfold m_dx. destruct (mx (malpha n)) as [|a]; cbn [mcoef szero smul sofZ RS].
  - exists 0%Z. rring.
  - exists (z * Z.of_nat (S a))%Z. rewrite Hz, mult_IZR. rring.
Qed.
Lemma on_grid_pdy u p : on_grid u p -> on_grid u (pdy RS p).
Proof.
  intros H. rewrite pdy_filter. apply on_grid_filter. intros m Hm.
  apply in_map_iff in Hm. destruct Hm as (n & <- & Hn). destruct (H n Hn) as [z Hz].
  unfold m_dy. destruct (my (malpha n)) as [|a]; cbn [mcoef szero smul sofZ RS].
  - exists 0%Z. rring.
  - exists (z * Z.of_nat (S a))%Z. rewrite Hz, mult_IZR. rring.
Qed.

Lemma on_grid_plap u p : canonical p -> on_grid u p -> on_grid u (plaplacian RS p).
Proof.
  intros Hp H. apply on_grid_padd.
  - apply pdx_canonical, pdx_canonical, Hp.
  - apply pdy_canonical, pdy_canonical, Hp.
  - apply on_grid_pdx, on_grid_pdx, H.
  - apply on_grid_pdy, on_grid_pdy, H.
Qed.

Lemma coef_plap_grid u p a b : canonical p -> tol <= u -> on_grid u p ->
  coef (plaplacian RS p) a b = t_lap (coef p) a b.
Proof.
  intros Hp Hu H. rewrite coef_plap by exact Hp. unfold t_lap, t_dx, t_dy.
  destruct (on_grid_coef u p (a + 1 + 1) b H) as [z ->].
  destruct (on_grid_coef u p a (b + 1 + 1) H) as [w ->].
  rewrite !INR_IZR_INZ.
  replace (_ + _) with (u * IZR (Z.of_nat (a + 1) * Z.of_nat (a + 1 + 1) * z
                        + Z.of_nat (b + 1) * Z.of_nat (b + 1 + 1) * w))
    by (rewrite plus_IZR, !mult_IZR; rring).
  apply grid_cutoff, Hu.
Qed.

Lemma plap_is_laplacian u p : canonical p -> tol <= u -> on_grid u p ->
  is_laplacian (value p) (value (plaplacian RS p)).
Proof.
  intros Hp Hu H.
  exists (value (pdx RS p)), (value (pdy RS p)), (value (pdx RS (pdx RS p))), (value (pdy RS (pdy RS p))).
  split; [apply pdx_lim, Hp|]. split; [apply pdy_lim, Hp|].
  split; [apply pdx_lim, pdx_canonical, Hp|]. split; [apply pdy_lim, pdy_canonical, Hp|].
  intros x y. unfold plaplacian. eapply value_padd_grid; [| |exact Hu| |].
  - apply pdx_canonical, pdx_canonical, Hp.
  - apply pdy_canonical, pdy_canonical, Hp.
  - apply on_grid_pdx, on_grid_pdx, H.
  - apply on_grid_pdy, on_grid_pdy, H.
Qed.

(* ---------------------------------------------------------------- *)
(** ** Powers and composition *)

Lemma pone_eq : pone RS = [rmon 1 0 0].
Proof.
  apply canonical_ext.
  - apply consolidate_canonical.
  - constructor; [cbn [rmon mcoef]; rewrite Rabs_R1; unfold tol; lra|constructor|constructor].
  - intros a b. unfold pone, mkpoly. cbn [map fold_left]. rewrite coef_consolidate.
    rewrite add_monomial_app. cbn [app]. rewrite coef_filter_single.
    cbn [coef rmon malpha mcoef sone RS]. rewrite Rplus_0_r.
    assert (cutoff 1 = 1) as -> by (apply cutoff_id; rewrite Rabs_R1; unfold tol; lra).
    destruct (_ && _)%bool; [apply cutoff_id; rewrite Rabs_R1; unfold tol; lra|apply cutoff_zero].
Qed.

Lemma ppow_canonical p n : canonical (ppow_nat RS p n).
Proof. destruct n; cbn [ppow_nat]; apply consolidate_canonical. Qed.

Lemma on_grid_pow u p n : on_grid u p -> on_grid (u ^ n) (ppow_nat RS p n).
Proof.
  intros H. induction n as [|n IH]; cbn [ppow_nat].
  - rewrite pone_eq. intros m [<-|[]]. exists 1%Z. cbn [rmon mcoef pow]. symmetry. apply Rmult_1_r.
  - replace (u ^ S n) with (u ^ n * u) by (cbn [pow]; rring). apply on_grid_pmul; assumption.
Qed.

Lemma pow_le_pow u k n : 0 < u <= 1 -> (k <= n)%nat -> u ^ n <= u ^ k.
Proof.
  intros Hu. induction 1 as [|n Hn IH]; [lra|]. cbn [pow].
  assert (0 < u ^ n) by (apply pow_lt; lra). nra.
Qed.

Lemma value_ppow_grid u p n x y : canonical p -> 0 < u <= 1 -> tol <= u ^ n -> on_grid u p ->
  value (ppow_nat RS p n) x y = value p x y ^ n.
Proof.
  intros Hp Hu Hn G. induction n as [|n IH]; cbn [ppow_nat].
  - rewrite pone_eq. cbn [value rmon mcoef malpha mx my pow]. rring.
  - rewrite (value_pmul_grid (u ^ n) u); [|apply ppow_canonical|exact Hp| |apply on_grid_pow, G|exact G].
    + rewrite IH; [cbn [pow]; rring|]. eapply Rle_trans; [exact Hn|]. apply pow_le_pow; [exact Hu|lia].
    + replace (u ^ n * u) with (u ^ S n) by (cbn [pow]; rring). exact Hn.
Qed.

Lemma piadd_canonical p q : canonical (piadd RS p q).
Proof. apply consolidate_canonical. Qed.

Lemma value_piadd_grid u p q x y : canonical p -> canonical q -> tol <= u ->
  on_grid u p -> on_grid u q ->
  value (piadd RS p q) x y = value p x y + value q x y.
Proof. intros. rewrite piadd_padd by assumption. eapply value_padd_grid; eassumption. Qed.

Lemma on_grid_piadd u p q : canonical p -> canonical q -> on_grid u p -> on_grid u q ->
  on_grid u (piadd RS p q).
Proof. intros. rewrite piadd_padd by assumption. apply on_grid_padd; assumption. Qed.

Lemma inv_pow_refine (k : nat) i n : (0 < k)%nat -> (i <= n)%nat ->
  (/ INR k) ^ i = (/ INR k) ^ n * IZR (Z.of_nat k ^ Z.of_nat (n - i)).
Proof.
  intros Hk Hi. assert (Hk' : INR k <> 0) by (apply not_0_INR; lia).
  rewrite <- pow_IZR, <- INR_IZR_INZ.
  replace n with (i + (n - i))%nat at 1 by lia.
  rewrite pow_add. rewrite Rmult_assoc, <- Rpow_mult_distr, Rinv_l, pow1 by exact Hk'. rring.
Qed.

Section Compose.
Variables (p q1 q2 : rpoly) (u : R) (k D : nat).
Hypothesis Hp : canonical p.
Hypothesis Hq1 : canonical q1.
Hypothesis Hq2 : canonical q2.
Hypothesis Gp : on_grid u p.
Hypothesis Hk : (0 < k)%nat.
Hypothesis G1 : on_grid (/ INR k) q1.
Hypothesis G2 : on_grid (/ INR k) q2.
Hypothesis HD : deg_le D p.
Hypothesis Hu : 0 < u <= 1.
Hypothesis Hsmall : tol <= u * (/ INR k) ^ D.

Let w := / INR k.
Lemma w_range : 0 < w <= 1.
Proof.
  unfold w. assert (1 <= INR k) by (replace 1 with (INR 1) by reflexivity; apply le_INR; lia).
  split; [apply Rinv_0_lt_compat; lra|]. rewrite <- Rinv_1. apply Rinv_le_contravar; lra.
Qed.

Lemma w_pow_big i : (i <= D)%nat -> tol <= w ^ i.
Proof.
  intros Hi. pose proof w_range. fold w in Hsmall.
  pose proof (pow_le_pow w i D w_range Hi). assert (0 < w ^ D) by (apply pow_lt; lra). nra.
Qed.

Definition compose_term (m : rmono) : rpoly :=
  pscale RS (pmul RS (ppow_nat RS q1 (mx (malpha m))) (ppow_nat RS q2 (my (malpha m)))) (mcoef m).

Lemma compose_term_ok (m : rmono) : In m p ->
  canonical (compose_term m) /\ on_grid (u * w ^ D) (compose_term m) /\
  forall x y, value (compose_term m) x y
    = (mcoef m : R) * value q1 x y ^ mx (malpha m) * value q2 x y ^ my (malpha m).
Proof.
  intros Hm. pose proof w_range as Hw. pose proof (HD m Hm) as Hdeg.
  set (a := mx (malpha m)) in *. set (b := my (malpha m)) in *.
  destruct (Gp m Hm) as [z Hz].
  assert (Hab : tol <= w ^ a * w ^ b) by (rewrite <- pow_add; apply w_pow_big; lia).
  assert (Gm : on_grid (w ^ a * w ^ b) (pmul RS (ppow_nat RS q1 a) (ppow_nat RS q2 b)))
    by (apply on_grid_pmul; apply on_grid_pow; assumption).
  split; [apply pscale_canonical, pmul_canonical|]. split.
  - unfold compose_term. fold a b.
    apply (on_grid_pscale _ _ (mcoef m)) in Gm. rewrite Hz, <- pow_add in Gm.
    unfold w in Gm. rewrite (inv_pow_refine k (a + b) D Hk Hdeg) in Gm.
    intros n Hn. rewrite Hz in Hn. destruct (Gm n Hn) as [y Hy].
    exists (Z.of_nat k ^ Z.of_nat (D - (a + b)) * z * y)%Z.
    rewrite Hy, !mult_IZR. unfold w. rring.
  - intros x y. unfold compose_term. fold a b.
    assert (Hza : tol <= Rabs (mcoef m)) by (exact (canonical_In m p Hp Hm)).
    rewrite (value_pscale_grid (w ^ a * w ^ b)); [|apply pmul_canonical| |exact Gm].
    + rewrite (value_pmul_grid (w ^ a) (w ^ b)); try apply ppow_canonical; try assumption;
        try (apply on_grid_pow; assumption).
      rewrite (value_ppow_grid w q1 a), (value_ppow_grid w q2 b); try assumption.
      * rring.
      * apply w_pow_big; lia.
      * apply w_pow_big; lia.
    + rewrite Hz. rewrite <- pow_add. fold w in Hsmall.
      assert (Hzz : z <> 0%Z).
      { intros ->. rewrite Hz, Rmult_0_r, Rabs_R0 in Hza. pose proof tol_pos. lra. }
      assert (1 <= Rabs (IZR z)) by (rewrite <- abs_IZR; apply IZR_le; lia).
      pose proof (pow_le_pow w (a + b) D Hw Hdeg).
      assert (0 < w ^ D) by (apply pow_lt; lra).
      rewrite !Rabs_mult, (Rabs_right u), (Rabs_right (w ^ (a + b))) by (try (left; apply pow_lt); lra).
      assert (u * w ^ D <= u * w ^ (a + b)) by (apply Rmult_le_compat_l; lra).
      assert (0 <= u * w ^ (a + b)) by (apply Rmult_le_pos; lra).
      nra.
Qed.

Lemma compose_fold l new : (forall m, In m l -> In m p) ->
  canonical new -> on_grid (u * w ^ D) new ->
  let r := fold_left (fun new m => piadd RS new (compose_term m)) l new in
  canonical r /\ on_grid (u * w ^ D) r /\
  forall x y, value r x y = value new x y + value l (value q1 x y) (value q2 x y).
Proof.
  revert new. induction l as [|m l IH]; intros new Hl Cn Gn; cbn [fold_left].
  - cbn [value]. repeat split; try assumption. intros; rring.
  - destruct (compose_term_ok m (Hl m (or_introl eq_refl))) as (Ct & Gt & Vt).
    destruct (IH (piadd RS new (compose_term m))) as (Cr & Gr & Vr).
    + intros n Hn. apply Hl. right; exact Hn.
    + apply piadd_canonical.
    + apply on_grid_piadd; assumption.
    + cbv zeta in *. split; [exact Cr|]. split; [exact Gr|]. intros x y.
      rewrite Vr, (value_piadd_grid (u * w ^ D)) by assumption. rewrite Vt. cbn [value]. rring.
Qed.

Lemma compose_exact x y :
  value (pcompose RS p q1 q2) x y = value p (value q1 x y) (value q2 x y).
Proof.
  unfold pcompose. destruct (compose_fold p []) as (_ & _ & V).
  - auto.
  - constructor.
  - intros m [].
  - cbv zeta in V. unfold compose_term in V. rewrite V. cbn [value]. rring.
Qed.
End Compose.

Lemma pcompose_canonical p q1 q2 : canonical (pcompose RS p q1 q2).
Proof.
  unfold pcompose. assert (G : forall new, canonical new -> canonical (fold_left (fun new m =>
    piadd RS new (pscale RS (pmul RS (ppow_nat RS q1 (mx (malpha m))) (ppow_nat RS q2 (my (malpha m)))) (mcoef m))) p new)).
  { induction p as [|m p' IH]; intros new Hn; cbn [fold_left]; [exact Hn|].
    apply IH, piadd_canonical. }
  apply G. constructor.
Qed.
