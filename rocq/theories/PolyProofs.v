(** Proofs about the polynomial model over the reals. *)
From Coq Require Import List ZArith Reals Lia Lra Permutation Sorting Arith.
From Verif Require Import PyBase PolyModel PolySpec.
Import ListNotations.
Open Scope R_scope.

(* ---------------------------------------------------------------- *)
(** ** Numbering of exponents *)

Definition tri (n : nat) : nat := (n * (n + 1) / 2)%nat.

Lemma tri_S n : tri (S n) = (tri n + S n)%nat.
Proof.
  unfold tri.
  replace (S n * (S n + 1))%nat with (n * (n + 1) + (S n) * 2)%nat by lia.
  rewrite Nat.div_add by lia. lia.
Qed.

Lemma tri_mono n m : (n <= m)%nat -> (tri n <= tri m)%nat.
Proof. induction 1 as [|m _ IH]; [lia|rewrite tri_S; lia]. Qed.

Lemma tri_lt n m : (n < m)%nat -> (tri n + n < tri m)%nat.
Proof. intros H. pose proof (tri_mono (S n) m ltac:(lia)). rewrite tri_S in *. lia. Qed.

Lemma midx_tri a : midx a = (my a + tri (morder a))%nat.
Proof. reflexivity. Qed.

Lemma midx_lt_iff a b : (midx a < midx b)%nat <-> exp_lt a b.
Proof.
  rewrite !midx_tri. unfold exp_lt, morder.
  set (n := (mx a + my a)%nat). set (m := (mx b + my b)%nat).
  assert (my a <= n)%nat by (unfold n; lia).
  assert (my b <= m)%nat by (unfold m; lia).
  destruct (Nat.lt_trichotomy n m) as [Hnm|[Hnm|Hnm]].
  - pose proof (tri_lt _ _ Hnm). lia.
  - rewrite Hnm. lia.
  - pose proof (tri_lt _ _ Hnm). lia.
Qed.

Lemma midx_inj a b : midx a = midx b -> a = b.
Proof.
  intros H. destruct a as [ax ay], b as [bx by_].
  assert (~ exp_lt (MI ax ay) (MI bx by_)) by (rewrite <- midx_lt_iff; lia).
  assert (~ exp_lt (MI bx by_) (MI ax ay)) by (rewrite <- midx_lt_iff; lia).
  unfold exp_lt in *; cbn [mx my] in *.
  assert (ay = by_) by lia. assert (ax = bx) by lia. congruence.
Qed.

Lemma mi_eqb_eq a b : mi_eqb a b = true <-> a = b.
Proof.
  unfold mi_eqb. rewrite Nat.eqb_eq. split; [apply midx_inj|congruence].
Qed.

Lemma mi_eqb_refl a : mi_eqb a a = true.
Proof. apply mi_eqb_eq. reflexivity. Qed.

Lemma tri_bounds k : exists t, (tri t <= k < tri (S t))%nat.
Proof.
  induction k as [|k [t Ht]].
  - exists 0%nat. cbn. lia.
  - destruct (Nat.eq_dec (S k) (tri (S t))) as [He|He].
    + exists (S t). rewrite (tri_S (S t)). lia.
    + exists t. lia.
Qed.

Lemma two_tri n : (2 * tri n = n * (n + 1))%nat.
Proof. induction n as [|n IH]; [reflexivity|]. rewrite tri_S. lia. Qed.

Lemma sqrt_tri k t : (tri t <= k < tri (S t))%nat ->
  ((Nat.sqrt (8 * k + 1) - 1) / 2)%nat = t.
Proof.
  intros [Hlo Hhi].
  pose proof (two_tri t). pose proof (two_tri (S t)).
  assert (Hs1 : (2 * t + 1 <= Nat.sqrt (8 * k + 1))%nat)
    by (apply Nat.sqrt_le_square; nia).
  assert (Hs2 : (Nat.sqrt (8 * k + 1) < 2 * t + 3)%nat)
    by (apply Nat.sqrt_lt_square; nia).
  symmetry. apply Nat.div_unique with (r := (Nat.sqrt (8 * k + 1) - 1 - 2 * t)%nat); lia.
Qed.

Lemma mi_of_idx_spec k : midx (mi_of_idx k) = k.
Proof.
  destruct (tri_bounds k) as [t Ht].
  unfold mi_of_idx. rewrite (sqrt_tri k t Ht). fold (tri t).
  rewrite midx_tri. unfold morder. cbn [mx my].
  rewrite tri_S in Ht.
  replace (t + tri t - k + (k - tri t))%nat with t by lia. lia.
Qed.

Lemma mi_of_idx_midx a : mi_of_idx (midx a) = a.
Proof. apply midx_inj, mi_of_idx_spec. Qed.

(* ---------------------------------------------------------------- *)
(** ** Real instance: booleans *)

Lemma tol_pos : 0 < tol.
Proof. unfold tol. lra. Qed.

Lemma stol_RS : stol RS = tol.
Proof. reflexivity. Qed.

Lemma Rltb_true x y : Rltb x y = true <-> x < y.
Proof. unfold Rltb. destruct (Rlt_dec x y); split; intros; try discriminate; lra. Qed.

Lemma Rltb_false x y : Rltb x y = false <-> y <= x.
Proof. unfold Rltb. destruct (Rlt_dec x y); split; intros; try discriminate; lra. Qed.

Lemma m_is_zero_true (m : rmono) : m_is_zero RS m = true <-> Rabs (mcoef m) < tol.
Proof. unfold m_is_zero. cbn [sltb sabs RS]. rewrite stol_RS. apply Rltb_true. Qed.

Lemma m_is_zero_false (m : rmono) : m_is_zero RS m = false <-> tol <= Rabs (mcoef m).
Proof. unfold m_is_zero. cbn [sltb sabs RS]. rewrite stol_RS. apply Rltb_false. Qed.

Lemma cutoff_zero : cutoff 0 = 0.
Proof. unfold cutoff. destruct (Rlt_dec _ _); reflexivity. Qed.

Lemma cutoff_id c : tol <= Rabs c -> cutoff c = c.
Proof. unfold cutoff. destruct (Rlt_dec _ _); intros; [lra|reflexivity]. Qed.

Lemma cutoff_small c : Rabs c < tol -> cutoff c = 0.
Proof. unfold cutoff. destruct (Rlt_dec _ _); intros; [reflexivity|lra]. Qed.

(* ---------------------------------------------------------------- *)
(** ** Coefficients of lists *)

Definition here (m : rmono) (a b : nat) : bool :=
  (Nat.eqb (mx (malpha m)) a && Nat.eqb (my (malpha m)) b)%bool.

Lemma here_true m a b : here m a b = true <-> malpha m = MI a b.
Proof.
  unfold here. rewrite Bool.andb_true_iff, !Nat.eqb_eq.
  destruct m as [[x y] c]; cbn [malpha mx my]. split.
  - intros [-> ->]. reflexivity.
  - intros H. injection H. auto.
Qed.

Lemma here_false m a b : here m a b = false <-> malpha m <> MI a b.
Proof.
  rewrite <- Bool.not_true_iff_false, here_true. reflexivity.
Qed.

Lemma coef_cons m p a b :
  coef (m :: p) a b = (if here m a b then (mcoef m : R) else 0) + coef p a b.
Proof. reflexivity. Qed.

Lemma coef_app p q a b : coef (p ++ q) a b = coef p a b + coef q a b.
Proof.
  induction p as [|m p IH]; cbn [app]; [cbn; lra|].
  rewrite !coef_cons, IH. lra.
Qed.

Lemma value_app p q x y : value (p ++ q) x y = value p x y + value q x y.
Proof. induction p as [|m p IH]; cbn [app value]; [lra|]. rewrite IH. lra. Qed.

Lemma coef_perm p q a b : Permutation p q -> coef p a b = coef q a b.
Proof.
  induction 1; rewrite ?coef_cons; lra.
Qed.

(** Sum over a box of exponents. *)
Definition box (D : nat) (f : table) (x y : R) : R :=
  sum_f_R0 (fun a => sum_f_R0 (fun b => f a b * x ^ a * y ^ b) D) D.

Lemma sum_eq0 f n : (forall i, (i <= n)%nat -> f i = 0) -> sum_f_R0 f n = 0.
Proof.
  induction n as [|n IH]; intros H; cbn; [apply H; lia|].
  rewrite IH, H; [lra|lia|intros; apply H; lia].
Qed.

Lemma sum_single f n k : (k <= n)%nat -> (forall i, (i <= n)%nat -> i <> k -> f i = 0) ->
  sum_f_R0 f n = f k.
Proof.
  induction n as [|n IH]; intros Hk H; cbn.
  - replace k with 0%nat by lia. reflexivity.
  - destruct (Nat.eq_dec k (S n)) as [->|Hne].
    + rewrite sum_eq0; [lra|]. intros i Hi. apply H; lia.
    + rewrite IH, (H (S n)); [lra|lia|lia|lia|]. intros i Hi Hn. apply H; lia.
Qed.

Lemma sum_ext f g n : (forall i, (i <= n)%nat -> f i = g i) -> sum_f_R0 f n = sum_f_R0 g n.
Proof. intros H. apply sum_eq. exact H. Qed.

Lemma box_ext D f g x y : (forall a b, f a b = g a b) -> box D f x y = box D g x y.
Proof.
  intros H. unfold box. apply sum_ext; intros a Ha. apply sum_ext; intros b Hb.
  rewrite H. reflexivity.
Qed.

Lemma box_plus D f g x y :
  box D (fun a b => f a b + g a b) x y = box D f x y + box D g x y.
Proof.
  unfold box. rewrite <- sum_plus. apply sum_ext; intros a Ha.
  rewrite <- sum_plus. apply sum_ext; intros b Hb. ring.
Qed.

Lemma box_single D c ax ay x y : (ax <= D)%nat -> (ay <= D)%nat ->
  box D (fun a b => if (Nat.eqb ax a && Nat.eqb ay b)%bool then c else 0) x y
  = c * x ^ ax * y ^ ay.
Proof.
  intros Hx Hy. unfold box.
  rewrite (sum_single _ D ax Hx).
  - rewrite (sum_single _ D ay Hy).
    + rewrite !Nat.eqb_refl. reflexivity.
    + intros i Hi Hne. rewrite Nat.eqb_refl. cbn [andb].
      destruct (Nat.eqb_spec ay i); [lia|ring].
  - intros i Hi Hne. apply sum_eq0. intros j Hj.
    destruct (Nat.eqb_spec ax i); [lia|]. cbn [andb]. ring.
Qed.

Lemma value_box p x y D : deg_le D p -> value p x y = box D (coef p) x y.
Proof.
  induction p as [|m p IH]; intros H.
  - cbn [value]. unfold box. symmetry. apply sum_eq0; intros a Ha. apply sum_eq0; intros b Hb.
    cbn [coef]. ring.
  - cbn [value].
    rewrite (box_ext D (coef (m :: p)) (fun a b =>
      (if (Nat.eqb (mx (malpha m)) a && Nat.eqb (my (malpha m)) b)%bool
       then (mcoef m : R) else 0) + coef p a b)) by reflexivity.
    rewrite box_plus, box_single.
    + rewrite <- IH; [reflexivity|]. intros n Hn. apply H. right; exact Hn.
    + specialize (H m (or_introl eq_refl)). lia.
    + specialize (H m (or_introl eq_refl)). lia.
Qed.

Lemma deg_le_ex p : exists D, deg_le D p.
Proof.
  induction p as [|m p [D HD]].
  - exists 0%nat. intros m [].
  - exists (D + (mx (malpha m) + my (malpha m)))%nat. intros n [<-|Hn]; [lia|].
    specialize (HD n Hn). lia.
Qed.

Lemma deg_le_mono D D' p : (D <= D')%nat -> deg_le D p -> deg_le D' p.
Proof. intros H HD m Hm. specialize (HD m Hm). lia. Qed.

Lemma deg_le_app D p q : deg_le D p -> deg_le D q -> deg_le D (p ++ q).
Proof. intros Hp Hq m Hm. apply in_app_or in Hm. destruct Hm; auto. Qed.

(** Lists with the same coefficients have the same values. *)
Lemma value_coef_ext p q x y :
  (forall a b, coef p a b = coef q a b) -> value p x y = value q x y.
Proof.
  intros H. destruct (deg_le_ex p) as [D1 H1]. destruct (deg_le_ex q) as [D2 H2].
  rewrite (value_box p x y (D1 + D2)), (value_box q x y (D1 + D2)).
  - apply box_ext. exact H.
  - eapply deg_le_mono; [|exact H2]; lia.
  - eapply deg_le_mono; [|exact H1]; lia.
Qed.

(* ---------------------------------------------------------------- *)
(** ** Evaluation *)

Lemma spow_RS (x : R) n : (spow RS x n : R) = x ^ n.
Proof. induction n as [|n IH]; [reflexivity|]. cbn. cbn in IH. rewrite IH. reflexivity. Qed.

Lemma m_eval_RS (m : rmono) x y :
  (m_eval RS m x y : R) = (mcoef m : R) * x ^ mx (malpha m) * y ^ my (malpha m).
Proof.
  unfold m_eval. rewrite !spow_RS. cbn [smul sone RS].
  destruct (mx (malpha m)) as [|a], (my (malpha m)) as [|b]; cbn [Nat.ltb Nat.leb]; simpl pow; ring.
Qed.

Lemma peval_fold p x y (v : R) :
  (fold_left (fun v m => sadd RS v (m_eval RS m x y)) p (v : RS) : R) = v + value p x y.
Proof.
  revert v. induction p as [|m p IH]; intros v; cbn [fold_left value]; [lra|].
  rewrite IH, m_eval_RS. cbn [sadd RS]. lra.
Qed.

Lemma peval_value p x y : (peval RS p x y : R) = value p x y.
Proof. unfold peval. rewrite peval_fold. cbn [szero RS]. lra. Qed.

(* ---------------------------------------------------------------- *)
(** ** add_monomial and filtering *)

Definition nz (m : rmono) : bool := negb (m_is_zero RS m).

Lemma nz_true m : nz m = true <-> tol <= Rabs (mcoef m).
Proof. unfold nz. rewrite Bool.negb_true_iff. apply m_is_zero_false. Qed.

Lemma add_monomial_app p m : add_monomial RS p m = p ++ filter nz [m].
Proof.
  unfold add_monomial, nz. cbn [filter].
  destruct (m_is_zero RS m); cbn [negb]; [rewrite app_nil_r|]; reflexivity.
Qed.

Lemma fold_add_monomial l p : fold_left (add_monomial RS) l p = p ++ filter nz l.
Proof.
  revert p. induction l as [|m l IH]; intros p; cbn [fold_left].
  - cbn. rewrite app_nil_r. reflexivity.
  - rewrite IH, add_monomial_app, <- app_assoc, <- filter_app. reflexivity.
Qed.

Lemma fold_add_monomial_map {A} (f : A -> rmono) l p :
  fold_left (fun r m => add_monomial RS r (f m)) l p = p ++ filter nz (map f l).
Proof.
  revert p. induction l as [|m l IH]; intros p; cbn [fold_left map].
  - cbn. rewrite app_nil_r. reflexivity.
  - rewrite IH, add_monomial_app, <- app_assoc, <- filter_app. reflexivity.
Qed.

Lemma filter_all_nz (l : rpoly) : (forall m : rmono, In m l -> tol <= Rabs (mcoef m)) -> filter nz l = l.
Proof.
  induction l as [|m l IH]; intros H; [reflexivity|].
  cbn [filter]. rewrite (proj2 (nz_true m)) by (apply H; left; reflexivity).
  f_equal. apply IH. intros n Hn. apply H. right; exact Hn.
Qed.

(* ---------------------------------------------------------------- *)
(** ** consolidate *)

Definition zero_at (al : mindex) (l : rpoly) : Prop :=
  forall n, In n l -> malpha n = al -> (mcoef n : R) = 0.

Lemma cons_row_spec m l m' l' :
  cons_row RS m l = (m', l') ->
  malpha m' = malpha m /\ length l' = length l /\ zero_at (malpha m) l' /\
  (forall a b, coef (m' :: l') a b = coef (m :: l) a b) /\
  (forall al, zero_at al l -> zero_at al l').
Proof.
  revert m m' l'. induction l as [|n l IH]; intros m m' l' H; cbn [cons_row] in H.
  - injection H as <- <-. split; [reflexivity|]. split; [reflexivity|].
    split; [intros n []|]. split; [reflexivity|]. intros al Hz. exact Hz.
  - destruct (mi_eqb (malpha m) (malpha n)) eqn:E.
    + apply mi_eqb_eq in E.
      destruct (cons_row RS (Mono (malpha m) (sadd RS (mcoef m) (mcoef n))) l) as [m1 l1] eqn:R.
      injection H as <- <-. apply IH in R. cbn [malpha] in R.
      destruct R as (Ra & Rl & Rz & Rc & Rk).
      split; [exact Ra|]. split; [cbn; lia|]. split; [|split].
      * intros k [<-|Hk] Hal; [cbn; ring|]. apply Rz; assumption.
      * intros a b. specialize (Rc a b). rewrite !coef_cons in *.
        unfold here in *. cbn [malpha mcoef m_scale smul RS sofZ] in *.
        rewrite <- E in *. rewrite Ra in *. rewrite Rmult_0_r.
        destruct (Nat.eqb (mx (malpha m)) a && Nat.eqb (my (malpha m)) b)%bool;
          cbn [sadd RS] in Rc; lra.
      * intros al Hz k [<-|Hk] Hal; [cbn; ring|].
        apply (Rk al); [|exact Hk|exact Hal]. intros j Hj. apply Hz. right; exact Hj.
    + destruct (cons_row RS m l) as [m1 l1] eqn:R.
      injection H as <- <-. apply IH in R.
      destruct R as (Ra & Rl & Rz & Rc & Rk).
      split; [exact Ra|]. split; [cbn; lia|]. split; [|split].
      * intros k [<-|Hk] Hal.
        -- exfalso. rewrite Hal, mi_eqb_refl in E. discriminate.
        -- apply Rz; assumption.
      * intros a b. specialize (Rc a b). rewrite !coef_cons in *. lra.
      * intros al Hz k [<-|Hk] Hal.
        -- apply Hz; [left; reflexivity|exact Hal].
        -- apply (Rk al); [|exact Hk|exact Hal]. intros j Hj. apply Hz. right; exact Hj.
Qed.

(** Later entries with the same exponents have coefficient zero. *)
Inductive first_only : rpoly -> Prop :=
| fo_nil : first_only []
| fo_cons m l : zero_at (malpha m) l -> first_only l -> first_only (m :: l).

Lemma cons_rows_spec k l : (length l <= k)%nat ->
  first_only (cons_rows RS k l) /\
  (forall a b, coef (cons_rows RS k l) a b = coef l a b) /\
  (forall al, zero_at al l -> zero_at al (cons_rows RS k l)).
Proof.
  revert l. induction k as [|k IH]; intros l Hl.
  - destruct l; [|cbn in Hl; lia]. cbn. repeat split; auto. constructor.
  - destruct l as [|m l]; cbn [cons_rows].
    + repeat split; auto. constructor.
    + destruct (cons_row RS m l) as [m' l'] eqn:R.
      apply cons_row_spec in R. destruct R as (Ra & Rl & Rz & Rc & Rk).
      destruct (IH l') as (F & C & Z); [cbn in Hl; lia|].
      split; [|split].
      * constructor; [|exact F]. rewrite Ra. apply Z. exact Rz.
      * intros a b. rewrite <- Rc, !coef_cons, C. reflexivity.
      * intros al Hz n [<-|Hn] Hal.
        -- specialize (Rz). assert (Hm : malpha m = al) by congruence.
           assert (Hzl : zero_at al l) by (intros j Hj; apply Hz; right; exact Hj).
           specialize (Rc (mx al) (my al)).
           assert (H0 : forall q, zero_at al q -> coef q (mx al) (my al) = 0).
           { clear. intros q. induction q as [|j q IHq]; intros Hq; [reflexivity|].
             rewrite coef_cons, IHq.
             - destruct (here j (mx al) (my al)) eqn:E; [|lra].
               apply here_true in E. rewrite (Hq j (or_introl eq_refl)); [lra|].
               rewrite E. destruct al; reflexivity.
             - intros n Hn. apply Hq. right; exact Hn. }
           rewrite (H0 (m :: l)) in Rc by exact Hz.
           rewrite coef_cons, (H0 l') in Rc by (apply Rk; exact Hzl).
           assert (Hh : here m' (mx al) (my al) = true)
             by (apply here_true; rewrite Hal; destruct al; reflexivity).
           rewrite Hh in Rc. lra.
        -- apply (Z al); [|exact Hn|exact Hal]. apply Rk.
           intros j Hj. apply Hz. right; exact Hj.
Qed.

Lemma zero_at_coef a b l : zero_at (MI a b) l -> coef l a b = 0.
Proof.
  induction l as [|m l IH]; intros H; [reflexivity|].
  rewrite coef_cons, IH by (intros n Hn; apply H; right; exact Hn).
  destruct (here m a b) eqn:E; [|lra].
  apply here_true in E. rewrite (H m (or_introl eq_refl) E). lra.
Qed.

Lemma zero_at_filter al l : zero_at al l -> forall n, In n (filter nz l) -> malpha n <> al.
Proof.
  intros H n Hn He. apply filter_In in Hn. destruct Hn as [Hn Hz].
  apply nz_true in Hz. rewrite (H n Hn He), Rabs_R0 in Hz. pose proof tol_pos. lra.
Qed.

Lemma coef_notin a b l : (forall n, In n l -> malpha n <> MI a b) -> coef l a b = 0.
Proof. intros H. apply zero_at_coef. intros n Hn He. destruct (H n Hn He). Qed.

Lemma first_only_filter l : first_only l ->
  NoDup (map malpha (filter nz l)) /\
  (forall a b, coef (filter nz l) a b = cutoff (coef l a b)).
Proof.
  induction 1 as [|m l Hz Hf [IHn IHc]].
  - cbn. split; [constructor|]. intros. rewrite cutoff_zero. reflexivity.
  - split.
    + cbn [filter]. destruct (nz m); [|exact IHn].
      cbn [map]. constructor; [|exact IHn].
      intros Hin. apply in_map_iff in Hin. destruct Hin as (n & Hn & Hin).
      exact (zero_at_filter _ _ Hz n Hin Hn).
    + intros a b. rewrite coef_cons.
      destruct (here m a b) eqn:E.
      * pose proof E as E'. apply here_true in E'.
        rewrite (zero_at_coef a b l) by (rewrite <- E'; exact Hz).
        rewrite Rplus_0_r. cbn [filter]. destruct (nz m) eqn:N.
        -- rewrite coef_cons, E, coef_notin.
           ++ rewrite Rplus_0_r. symmetry. apply cutoff_id. apply nz_true. exact N.
           ++ rewrite <- E'. apply zero_at_filter. exact Hz.
        -- rewrite coef_notin by (rewrite <- E'; apply zero_at_filter; exact Hz).
           symmetry. apply cutoff_small. apply m_is_zero_true.
           unfold nz in N. apply Bool.negb_false_iff in N. exact N.
      * rewrite Rplus_0_l. cbn [filter]. destruct (nz m); [|apply IHc].
        rewrite coef_cons, E, Rplus_0_l. apply IHc.
Qed.

(** *** Sorting *)

Definition ix (m : rmono) : nat := midx (malpha m).

Lemma sink_perm m r : Permutation (m :: r) (sink RS m r).
Proof.
  induction r as [|n r IH]; cbn [sink]; [apply Permutation_refl|].
  destruct (m_gtb RS n m); [|apply Permutation_refl].
  rewrite perm_swap. constructor. exact IH.
Qed.

Lemma fold_sink_perm l r : Permutation (rev l ++ r) (fold_left (fun r m => sink RS m r) l r).
Proof.
  revert r. induction l as [|m l IH]; intros r; cbn [fold_left rev]; [apply Permutation_refl|].
  rewrite <- IH, <- app_assoc. cbn [app]. apply Permutation_app_head, sink_perm.
Qed.

Lemma psort_perm p : Permutation p (psort RS p).
Proof.
  unfold psort. rewrite <- Permutation_rev, <- fold_sink_perm, app_nil_r.
  apply Permutation_rev.
Qed.

Definition ge_ix (m n : rmono) : Prop := (ix n <= ix m)%nat.

Lemma sink_sorted m r : StronglySorted ge_ix r -> StronglySorted ge_ix (sink RS m r).
Proof.
  induction 1 as [|n r Hr IH Hn]; cbn [sink].
  - constructor; constructor.
  - unfold m_gtb. destruct (Nat.ltb_spec (midx (malpha m)) (midx (malpha n))) as [Hlt|Hge].
    + constructor; [exact IH|].
      apply (Permutation_Forall (sink_perm m r)). constructor; [unfold ge_ix, ix; lia|exact Hn].
    + constructor; [constructor; assumption|].
      constructor; [unfold ge_ix, ix; lia|].
      eapply Forall_impl; [|exact Hn]. unfold ge_ix, ix. intros k Hk. lia.
Qed.

Lemma fold_sink_sorted l r : StronglySorted ge_ix r ->
  StronglySorted ge_ix (fold_left (fun r m => sink RS m r) l r).
Proof.
  revert r. induction l as [|m l IH]; intros r H; cbn [fold_left]; [exact H|].
  apply IH, sink_sorted, H.
Qed.

Lemma StronglySorted_app_one {A} (P : A -> A -> Prop) l x :
  StronglySorted P l -> Forall (fun y => P y x) l -> StronglySorted P (l ++ [x]).
Proof.
  induction 1 as [|a l Hl IH Ha]; intros Hx; cbn [app].
  - constructor; constructor.
  - inversion Hx; subst. constructor; [apply IH; assumption|].
    apply Forall_app. split; [exact Ha|]. constructor; [assumption|constructor].
Qed.

Lemma StronglySorted_rev {A} (P : A -> A -> Prop) l :
  StronglySorted P l -> StronglySorted (fun x y => P y x) (rev l).
Proof.
  induction 1 as [|a l Hl IH Ha]; cbn [rev]; [constructor|].
  apply StronglySorted_app_one; [exact IH|]. apply Forall_rev. exact Ha.
Qed.

Lemma psort_sorted p : StronglySorted (fun m n => (ix m <= ix n)%nat) (psort RS p).
Proof.
  unfold psort. apply (StronglySorted_rev ge_ix). apply fold_sink_sorted. constructor.
Qed.

(** *** The normal form *)

Lemma canonical_intro (l : rpoly) :
  StronglySorted (fun m n => (ix m <= ix n)%nat) l -> NoDup (map malpha l) ->
  (forall m : rmono, In m l -> tol <= Rabs (mcoef m)) -> canonical l.
Proof.
  induction 1 as [|m l Hl IH Hm]; intros Hnd Hc; [constructor|].
  cbn [map] in Hnd. inversion Hnd as [|? ? Hni Hnd']; subst.
  constructor.
  - apply Hc. left; reflexivity.
  - apply Forall_forall. intros n Hn. apply midx_lt_iff.
    rewrite Forall_forall in Hm. specialize (Hm n Hn). unfold ix in Hm.
    assert (midx (malpha m) <> midx (malpha n)); [|lia].
    intros He. apply midx_inj in He. apply Hni. rewrite He. apply in_map. exact Hn.
  - apply IH; [exact Hnd'|]. intros n Hn. apply Hc. right; exact Hn.
Qed.

Lemma consolidate_canonical l : canonical (consolidate RS l).
Proof.
  unfold consolidate.
  destruct (cons_rows_spec (length l) l (le_n _)) as (F & _ & _).
  apply first_only_filter in F. destruct F as [Fn _].
  change (remove_zeros RS (cons_rows RS (length l) l)) with (filter nz (cons_rows RS (length l) l)).
  set (q := filter nz (cons_rows RS (length l) l)) in *.
  apply canonical_intro.
  - apply psort_sorted.
  - eapply Permutation_NoDup; [|exact Fn]. apply Permutation_map, psort_perm.
  - intros m Hm. apply (Permutation_in _ (Permutation_sym (psort_perm q))) in Hm.
    apply filter_In in Hm. apply nz_true. apply Hm.
Qed.

Lemma coef_consolidate l a b : coef (consolidate RS l) a b = cutoff (coef l a b).
Proof.
  unfold consolidate.
  destruct (cons_rows_spec (length l) l (le_n _)) as (F & C & _).
  apply first_only_filter in F. destruct F as [_ Fc].
  change (remove_zeros RS (cons_rows RS (length l) l)) with (filter nz (cons_rows RS (length l) l)).
  rewrite <- (coef_perm _ _ a b (psort_perm _)), Fc, C. reflexivity.
Qed.

Lemma canonical_In (m : rmono) p : canonical p -> In m p -> tol <= Rabs (mcoef m).
Proof.
  induction 1 as [|n p Hn Hf Hp IH]; intros Hin; [destruct Hin|].
  destruct Hin as [<-|Hin]; auto.
Qed.

Lemma exp_lt_irrefl a : ~ exp_lt a a.
Proof. unfold exp_lt. lia. Qed.

Lemma exp_lt_trans a b c : exp_lt a b -> exp_lt b c -> exp_lt a c.
Proof. unfold exp_lt. lia. Qed.

Lemma exp_lt_total a b : exp_lt a b \/ a = b \/ exp_lt b a.
Proof.
  destruct (Nat.lt_trichotomy (midx a) (midx b)) as [H|[H|H]].
  - left. apply midx_lt_iff, H.
  - right; left. apply midx_inj, H.
  - right; right. apply midx_lt_iff, H.
Qed.

Lemma coef_lt_all p al : Forall (fun n => exp_lt al (malpha n)) p -> coef p (mx al) (my al) = 0.
Proof.
  intros H. apply coef_notin. intros n Hn He. rewrite Forall_forall in H.
  specialize (H n Hn). rewrite He in H. destruct al. apply (exp_lt_irrefl _ H).
Qed.

Lemma canonical_coef_In (m : rmono) p : canonical p -> In m p ->
  coef p (mx (malpha m)) (my (malpha m)) = mcoef m.
Proof.
  induction 1 as [|n p Hn Hf Hp IH]; intros Hin; [destruct Hin|].
  rewrite coef_cons. destruct Hin as [<-|Hin].
  - rewrite coef_lt_all by exact Hf.
    rewrite (proj2 (here_true n _ _)) by (destruct (malpha n); reflexivity). lra.
  - rewrite IH by exact Hin.
    destruct (here n (mx (malpha m)) (my (malpha m))) eqn:E; [|lra].
    apply here_true in E. rewrite Forall_forall in Hf. specialize (Hf m Hin).
    rewrite E in Hf. destruct (malpha m). destruct (exp_lt_irrefl _ Hf).
Qed.

Lemma canonical_coef_supp p a b : canonical p -> coef p a b <> 0 ->
  exists m, In m p /\ malpha m = MI a b.
Proof.
  intros _ H. induction p as [|n p IH]; [cbn in H; lra|].
  rewrite coef_cons in H. destruct (here n a b) eqn:E.
  - exists n. split; [left; reflexivity|]. apply here_true. exact E.
  - destruct IH as (m & Hm & He); [lra|]. exists m. split; [right; exact Hm|exact He].
Qed.

Lemma canonical_coef_big p a b : canonical p -> coef p a b = 0 \/ tol <= Rabs (coef p a b).
Proof.
  intros H. destruct (Req_dec (coef p a b) 0) as [E|E]; [left; exact E|right].
  destruct (canonical_coef_supp p a b H E) as (m & Hm & He).
  pose proof (canonical_coef_In m p H Hm) as Hc. rewrite He in Hc. cbn [mx my] in Hc.
  rewrite Hc. apply (canonical_In m p H Hm).
Qed.

Lemma canonical_cutoff p a b : canonical p -> cutoff (coef p a b) = coef p a b.
Proof.
  intros H. destruct (canonical_coef_big p a b H) as [E|E].
  - rewrite E. apply cutoff_zero.
  - apply cutoff_id. exact E.
Qed.

(** A canonical polynomial is determined by its coefficients. *)
Lemma canonical_ext p q : canonical p -> canonical q ->
  (forall a b, coef p a b = coef q a b) -> p = q.
Proof.
  pose proof tol_pos as Htol.
  intros Hp. revert q. induction Hp as [|m p Hm Hf Hp IH]; intros q Hq H.
  - destruct Hq as [|n q Hn Hg Hq]; [reflexivity|exfalso].
    specialize (H (mx (malpha n)) (my (malpha n))).
    rewrite (canonical_coef_In n (n :: q)) in H; [|constructor; assumption|left; reflexivity].
    cbn [coef] in H. rewrite <- H, Rabs_R0 in Hn. lra.
  - destruct Hq as [|n q Hn Hg Hq].
    + exfalso. specialize (H (mx (malpha m)) (my (malpha m))).
      rewrite (canonical_coef_In m (m :: p)) in H; [|constructor; assumption|left; reflexivity].
      cbn [coef] in H. rewrite H, Rabs_R0 in Hm. lra.
    + assert (Hal : malpha m = malpha n).
      { destruct (exp_lt_total (malpha m) (malpha n)) as [L|[E|L]]; [exfalso|exact E|exfalso].
        - specialize (H (mx (malpha m)) (my (malpha m))).
          rewrite (canonical_coef_In m (m :: p)) in H;
            [|constructor; assumption|left; reflexivity].
          rewrite coef_lt_all in H.
          + rewrite H, Rabs_R0 in Hm. lra.
          + constructor; [exact L|]. eapply Forall_impl; [|exact Hg].
            intros k Hk. eapply exp_lt_trans; eassumption.
        - specialize (H (mx (malpha n)) (my (malpha n))).
          rewrite (canonical_coef_In n (n :: q)) in H;
            [|constructor; assumption|left; reflexivity].
          rewrite coef_lt_all in H.
          + rewrite <- H, Rabs_R0 in Hn. lra.
          + constructor; [exact L|]. eapply Forall_impl; [|exact Hf].
            intros k Hk. eapply exp_lt_trans; eassumption. }
      assert (Hmn : m = n).
      { pose proof (H (mx (malpha m)) (my (malpha m))) as H1.
        rewrite (canonical_coef_In m (m :: p)) in H1;
          [|constructor; assumption|left; reflexivity].
        rewrite Hal in H1.
        rewrite (canonical_coef_In n (n :: q)) in H1;
          [|constructor; assumption|left; reflexivity].
        destruct m, n; cbn in *; congruence. }
      subst n. f_equal. apply IH; [exact Hq|].
      intros a b. specialize (H a b). rewrite !coef_cons in H. lra.
Qed.

Lemma consolidate_id p : canonical p -> consolidate RS p = p.
Proof.
  intros H. apply canonical_ext; [apply consolidate_canonical|exact H|].
  intros a b. rewrite coef_consolidate. apply canonical_cutoff, H.
Qed.

Lemma filter_nz_canonical p : canonical p -> filter nz p = p.
Proof. intros H. apply filter_all_nz. intros m Hm. eapply canonical_In; eassumption. Qed.

Lemma psort_canonical p : canonical p -> psort RS p = p.
Proof.
  intros H. apply canonical_ext; [|exact H|].
  - apply canonical_intro.
    + apply psort_sorted.
    + eapply Permutation_NoDup; [apply Permutation_map, psort_perm|].
      clear -H. induction H as [|m p Hm Hf Hp IH]; cbn [map]; constructor; [|exact IH].
      intros Hin. apply in_map_iff in Hin. destruct Hin as (n & He & Hn).
      rewrite Forall_forall in Hf. specialize (Hf n Hn). rewrite He in Hf.
      apply (exp_lt_irrefl _ Hf).
    + intros m Hm. apply (Permutation_in _ (Permutation_sym (psort_perm p))) in Hm.
      eapply canonical_In; eassumption.
  - intros a b. symmetry. apply coef_perm, psort_perm.
Qed.

(* ---------------------------------------------------------------- *)
(** ** Addition, scaling *)

Lemma coef_padd p q a b : canonical p -> canonical q ->
  coef (padd RS p q) a b = cutoff (coef p a b + coef q a b).
Proof.
  intros Hp Hq. unfold padd. rewrite coef_consolidate, !fold_add_monomial.
  cbn [app]. rewrite !filter_nz_canonical, coef_app by assumption. reflexivity.
Qed.

Lemma padd_canonical p q : canonical (padd RS p q).
Proof. apply consolidate_canonical. Qed.

Lemma coef_piadd p q a b : canonical q ->
  coef (piadd RS p q) a b = cutoff (coef p a b + coef q a b).
Proof.
  intros Hq. unfold piadd. rewrite coef_consolidate, fold_add_monomial.
  rewrite filter_nz_canonical, coef_app by assumption. reflexivity.
Qed.

Lemma piadd_padd p q : canonical p -> canonical q -> piadd RS p q = padd RS p q.
Proof.
  intros Hp Hq. apply canonical_ext; try apply consolidate_canonical.
  intros a b. rewrite coef_piadd, coef_padd by assumption. reflexivity.
Qed.

Lemma mi_of_idx_0 : mi_of_idx 0 = MI 0 0.
Proof. reflexivity. Qed.

Definition delta0 (c : R) : table := fun a b =>
  if (Nat.eqb 0 a && Nat.eqb 0 b)%bool then c else 0.

Lemma coef_filter_single c al a b :
  coef (filter nz [Mono (S:=RS) al c]) a b
  = (if (Nat.eqb (mx al) a && Nat.eqb (my al) b)%bool then cutoff c else 0).
Proof.
  cbn [filter]. destruct (nz (Mono (S:=RS) al c)) eqn:N.
  - apply nz_true in N. cbn [mcoef] in N.
    cbn [coef malpha mcoef]. rewrite cutoff_id by exact N. lra.
  - unfold nz in N. apply Bool.negb_false_iff, m_is_zero_true in N. cbn [mcoef] in N.
    rewrite cutoff_small by exact N. cbn [coef]. destruct (_ && _)%bool; reflexivity.
Qed.

Lemma coef_padd_scal p c a b : canonical p ->
  coef (padd_scal RS p c) a b = cutoff (coef p a b + delta0 (cutoff c) a b).
Proof.
  intros Hp. unfold padd_scal. rewrite coef_consolidate, fold_add_monomial, add_monomial_app.
  cbn [app]. rewrite filter_nz_canonical, coef_app, coef_filter_single by assumption.
  rewrite mi_of_idx_0. reflexivity.
Qed.

Lemma padd_scal_canonical p c : canonical (padd_scal RS p c).
Proof. apply consolidate_canonical. Qed.

Lemma pscale_filter p c : pscale RS p c = filter nz (map (fun m => m_scale RS m c) p).
Proof. unfold pscale. rewrite fold_add_monomial_map. reflexivity. Qed.

Lemma canonical_filter_map (f : rmono -> rmono) p : canonical p ->
  (forall m n, exp_lt (malpha m) (malpha n) -> exp_lt (malpha (f m)) (malpha (f n))) ->
  canonical (filter nz (map f p)).
Proof.
  intros H Hf. induction H as [|m p Hm Hfa Hp IH]; cbn [map filter]; [constructor|].
  destruct (nz (f m)) eqn:N; [|exact IH].
  constructor; [apply nz_true, N| |exact IH].
  apply Forall_forall. intros n Hn. apply filter_In in Hn. destruct Hn as [Hn _].
  apply in_map_iff in Hn. destruct Hn as (k & <- & Hk). apply Hf.
  rewrite Forall_forall in Hfa. apply Hfa, Hk.
Qed.

Lemma pscale_canonical p c : canonical p -> canonical (pscale RS p c).
Proof.
  intros H. rewrite pscale_filter. apply canonical_filter_map; [exact H|].
  intros m n Hmn. exact Hmn.
Qed.

Lemma canonical_nodup p : canonical p -> NoDup (map malpha p).
Proof.
  induction 1 as [|m p Hm Hf Hp IH]; cbn [map]; constructor; [|exact IH].
  intros Hin. apply in_map_iff in Hin. destruct Hin as (n & He & Hn).
  rewrite Forall_forall in Hf. specialize (Hf n Hn). rewrite He in Hf.
  apply (exp_lt_irrefl _ Hf).
Qed.

Lemma coef_pscale p c a b : canonical p ->
  coef (pscale RS p c) a b = cutoff (coef p a b * c).
Proof.
  intros H. rewrite pscale_filter.
  induction H as [|m p Hm Hf Hp IH]; cbn [map].
  - cbn. rewrite Rmult_0_l, cutoff_zero. reflexivity.
  - change (filter nz (m_scale RS m c :: map (fun m => m_scale RS m c) p))
      with (filter nz ([m_scale RS m c] ++ map (fun m => m_scale RS m c) p)).
    rewrite filter_app, coef_app, IH. unfold m_scale at 1. rewrite coef_filter_single, coef_cons.
    fold (here m a b). destruct (here m a b) eqn:E.
    + pose proof E as E'. apply here_true in E'.
      assert (Hz : coef p a b = 0).
      { pose proof (coef_lt_all p (malpha m) Hf) as Hz. rewrite E' in Hz. exact Hz. }
      rewrite Hz, Rmult_0_l, cutoff_zero, Rplus_0_r, Rplus_0_r. reflexivity.
    + rewrite !Rplus_0_l. reflexivity.
Qed.

Lemma pneg_eq p : pneg RS p = pscale RS p (-1).
Proof. reflexivity. Qed.

Lemma coef_pneg p a b : canonical p -> coef (pneg RS p) a b = - coef p a b.
Proof.
  intros H. rewrite pneg_eq, coef_pscale by exact H.
  replace (coef p a b * -1) with (- coef p a b) by ring.
  destruct (canonical_coef_big p a b H) as [E|E].
  - rewrite E, Ropp_0. apply cutoff_zero.
  - apply cutoff_id. rewrite Rabs_Ropp. exact E.
Qed.

Lemma pneg_canonical p : canonical p -> canonical (pneg RS p).
Proof. apply pscale_canonical. Qed.

Lemma coef_psub p q a b : canonical p -> canonical q ->
  coef (psub RS p q) a b = cutoff (coef p a b - coef q a b).
Proof.
  intros Hp Hq. unfold psub. fold (pneg RS q).
  rewrite coef_padd, coef_pneg by (try apply pneg_canonical; assumption). reflexivity.
Qed.
