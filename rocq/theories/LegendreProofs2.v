From Coq Require Import List ZArith Reals Lia Lra Arith.
From Coquelicot Require Import Coquelicot.
From Verif Require Import PyBase PolyModel PolySpec PolyProofs PolyProofs2 PolyProofs4 LegendreModel LegendreSpec LegendreProofs.
Import ListNotations.
Open Scope R_scope.

(* ---------------------------------------------------------------- *)
(** ** Swapping coordinates *)

Lemma mkpoly_one (c : R) a b : tol <= Rabs c ->
  canonical (mkpoly RS [(c, a, b)]) /\
  forall i j, coef (mkpoly RS [(c, a, b)]) i j = if (Nat.eqb a i && Nat.eqb b j)%bool then c else 0.
Proof.
  intros H. split; [apply mkpoly_canonical|]. intros i j. rewrite coef_mkpoly. cbn [fold_right].
  rewrite (cutoff_id c H). destruct (_ && _)%bool; rewrite Rplus_0_r; [apply cutoff_id, H|apply cutoff_zero].
Qed.

Lemma swap_fold l : forall acc : rpoly, canonical acc ->
  (forall m : rmono, In m l -> tol <= Rabs (mcoef m)) -> NoDup (map malpha l) ->
  (forall m : rmono, In m l -> coef acc (my (malpha m)) (mx (malpha m)) = 0) ->
  let r := fold_left (fun q (m : rmono) => piadd RS q (mkpoly RS [(mcoef m, my (malpha m), mx (malpha m))])) l acc in
  canonical r /\ forall a b, coef r a b = coef acc a b + coef l b a.
Proof.
  induction l as [|m l IH]; intros acc Ha Hb Hn Hz; cbn [fold_left].
  - split; [exact Ha|]. intros a b. cbn. ring.
  - inversion Hn as [|? ? Hm Hn']; subst.
    destruct (mkpoly_one (mcoef m) (my (malpha m)) (mx (malpha m)) (Hb m (or_introl eq_refl))) as [Cs Es].
    set (s := mkpoly RS _) in *.
    assert (E : forall a b, coef (piadd RS acc s) a b = coef acc a b + coef s a b).
    { intros a b. rewrite coef_piadd by exact Cs. apply cutoff_keep. rewrite Es.
      destruct (Nat.eqb_spec (my (malpha m)) a) as [<-|]; destruct (Nat.eqb_spec (mx (malpha m)) b) as [<-|]; cbn [andb].
      - right. rewrite Hz by (left; reflexivity). rewrite Rplus_0_l. apply Hb. left. reflexivity.
      - rewrite Rplus_0_r. apply canonical_coef_big, Ha.
      - rewrite Rplus_0_r. apply canonical_coef_big, Ha.
      - rewrite Rplus_0_r. apply canonical_coef_big, Ha. }
    destruct (IH (piadd RS acc s)) as [C R].
    + apply piadd_canonical.
    + intros n H. apply Hb. right. exact H.
    + exact Hn'.
    + intros n H. rewrite E, Hz by (right; exact H). rewrite Es.
      destruct (Nat.eqb_spec (my (malpha m)) (my (malpha n))) as [E1|]; destruct (Nat.eqb_spec (mx (malpha m)) (mx (malpha n))) as [E2|];
        cbn [andb]; try ring.
      exfalso. apply Hm. apply in_map_iff. exists n. split; [|exact H].
      destruct (malpha n), (malpha m); cbn in *; congruence.
    + split; [exact C|]. intros a b. rewrite R, E, Es. cbn [coef]. fold coef.
      rewrite (Bool.andb_comm (Nat.eqb (mx (malpha m)) b)). ring.
Qed.

Lemma swap_ok p : canonical p ->
  canonical (swap_coordinates p) /\ forall a b, coef (swap_coordinates p) a b = coef p b a.
Proof.
  intros Hp. destruct (swap_fold p [] can_nil) as [C R].
  - intros m Hm. exact (canonical_In m p Hp Hm).
  - apply canonical_nodup, Hp.
  - intros m Hm. reflexivity.
  - split; [exact C|]. intros a b. unfold swap_coordinates. rewrite R. cbn [coef]. ring.
Qed.

(** The swapped list, and values. *)
Definition rswap (p : rpoly) : rpoly := map (fun m : rmono => Mono (S:=RS) (MI (my (malpha m)) (mx (malpha m))) (mcoef m)) p.
Lemma coef_rswap p a b : coef (rswap p) a b = coef p b a.
Proof.
  induction p as [|m p IH]; [reflexivity|]. cbn [rswap map coef]. fold (rswap p). rewrite IH. cbn [malpha mx my mcoef].
  rewrite Bool.andb_comm. reflexivity.
Qed.
Lemma value_rswap p x y : value (rswap p) x y = value p y x.
Proof. induction p as [|m p IH]; [reflexivity|]. cbn [rswap map value]. fold (rswap p). rewrite IH. cbn [malpha mx my mcoef]. rring. Qed.
Lemma value_swap p x y : canonical p -> value (swap_coordinates p) x y = value p y x.
Proof.
  intros Hp. rewrite <- value_rswap. apply value_coef_ext. intros a b. rewrite coef_rswap. apply swap_ok, Hp.
Qed.

(* ---------------------------------------------------------------- *)
(** ** Products of a polynomial in x and a polynomial in y *)

Definition xonly (f : nat -> R) (p : rpoly) : Prop :=
  canonical p /\ forall a b, coef p a b = if Nat.eqb b 0 then f a else 0.

Lemma coef_tensor f g p q a b : xonly f p -> xonly g q ->
  coef (pmul RS p (swap_coordinates q)) a b = cutoff (cutoff (f a * g b)).
Proof.
  intros [Cp Hp] [Cq Hq]. destruct (swap_ok q Cq) as [Cs Hs].
  rewrite coef_pmul by assumption. f_equal.
  rewrite (sum_single _ _ a); [|lia|].
  - rewrite (sum_single _ _ 0%nat); [|lia|].
    + rewrite Nat.sub_diag, Nat.sub_0_r, Hs, Hp, Hq. reflexivity.
    + intros j Hj Hne. rewrite Hp. destruct (Nat.eqb_spec j 0); [contradiction|]. rewrite Rmult_0_l. apply cutoff_zero.
  - intros i Hi Hne. apply sum_eq0. intros j _. rewrite Hs, Hq.
    destruct (Nat.eqb_spec (a - i) 0); [lia|]. rewrite Rmult_0_r. apply cutoff_zero.
Qed.

Lemma t_mul_tensor f g p q a b : xonly f p -> xonly g q ->
  t_mul (coef p) (coef (swap_coordinates q)) a b = f a * g b.
Proof.
  intros [Cp Hp] [Cq Hq]. destruct (swap_ok q Cq) as [Cs Hs]. unfold t_mul.
  rewrite (sum_single _ _ a); [|lia|].
  - rewrite (sum_single _ _ 0%nat); [|lia|].
    + rewrite Nat.sub_diag, Nat.sub_0_r, Hs, Hp, Hq. reflexivity.
    + intros j Hj Hne. rewrite Hp. destruct (Nat.eqb_spec j 0); [contradiction|]. ring.
  - intros i Hi Hne. apply sum_eq0. intros j _. rewrite Hs, Hq.
    destruct (Nat.eqb_spec (a - i) 0); [lia|]. ring.
Qed.

Lemma value_tensor f g p q x y : xonly f p -> xonly g q ->
  (forall a b, f a * g b = 0 \/ tol <= Rabs (f a * g b)) ->
  value (pmul RS p (swap_coordinates q)) x y = value p x y * value q y x.
Proof.
  intros Hp Hq Hk. rewrite <- (value_swap q x y) by apply Hq. rewrite <- value_mulraw.
  apply value_coef_ext. intros a b. rewrite (coef_tensor f g) by assumption.
  rewrite coef_mulraw, (t_mul_tensor f g) by assumption.
  rewrite !(cutoff_keep (f a * g b)) by apply Hk. reflexivity.
Qed.

(* ---------------------------------------------------------------- *)
(** ** Integrated Legendre polynomials *)

Definition ilc (n : nat) (a : nat) : R :=
  match n with O | 1%nat => lc n a | S (S k) => (lc n a - lc k a) / sqrt (4 * INR n - 2) end.

Lemma lc_diff_big n a : lc (S (S n)) a - lc n a = 0 \/ / (INR n + 3) <= Rabs (lc (S (S n)) a - lc n a).
Proof.
  destruct (lc_case (S (S n)) a) as [H|[k H]].
  - rewrite H. destruct (lc_case n a) as [H'|[k H']]; [left; lra|]. exfalso.
    assert (L := lc_big (S (S n)) a (S k) ltac:(lia)). rewrite H in L.
    pose proof (pos_INR (S (S n))). assert (0 < / (INR (S (S n)) + 1)) by (apply Rinv_0_lt_compat; lra). lra.
  - right. rewrite <- (pow_m1_abs k). eapply Rle_trans; [|apply Rle_abs].
    assert (L := lc_big (S (S n)) a k H). rewrite !S_INR in L. replace (INR n + 1 + 1 + 1) with (INR n + 3) in L by ring.
    destruct k as [|k].
    + rewrite (lc_zero n a) by (intros j Hj; lia). lra.
    + assert (L' := lc_big n a k ltac:(lia)). pose proof (pos_INR n).
      assert (0 < / (INR n + 1)) by (apply Rinv_0_lt_compat; lra). cbn [pow] in *. nra.
Qed.

Lemma s_pos n : 0 < 4 * INR (S (S n)) - 2.
Proof. rewrite !S_INR. pose proof (pos_INR n). lra. Qed.
Lemma sqrt_s_pos n : 0 < sqrt (4 * INR (S (S n)) - 2).
Proof. apply sqrt_lt_R0, s_pos. Qed.
Lemma sqrt_s_le n : sqrt (4 * INR (S (S n)) - 2) <= 2 * (INR (S (S n)) + 1).
Proof.
  apply Rsqr_incr_0_var; [|rewrite !S_INR; pose proof (pos_INR n); lra].
  rewrite Rsqr_sqrt by (left; apply s_pos). unfold Rsqr. rewrite !S_INR. pose proof (pos_INR n). nra.
Qed.

Lemma ilc_big n a : ilc n a = 0 \/ / (2 * (INR n + 1) ^ 2) <= Rabs (ilc n a).
Proof.
  destruct n as [|[|n]].
  - cbn [ilc]. destruct (lc_case_abs 0 a) as [H|H]; [left; exact H|right].
    eapply Rle_trans; [|exact H]. apply Rinv_le_contravar; cbn; lra.
  - cbn [ilc]. destruct (lc_case_abs 1 a) as [H|H]; [left; exact H|right].
    eapply Rle_trans; [|exact H]. apply Rinv_le_contravar; cbn; lra.
  - unfold ilc. destruct (lc_diff_big n a) as [H|H]; [left; rewrite H; unfold Rdiv; ring|right].
    unfold Rdiv. rewrite Rabs_mult, (Rabs_right (/ _)) by (apply Rle_ge; left; apply Rinv_0_lt_compat, sqrt_s_pos).
    set (N := INR (S (S n))). assert (HN : N = INR n + 2) by (unfold N; rewrite !S_INR; ring).
    pose proof (pos_INR n).
    replace (/ (2 * (N + 1) ^ 2)) with (/ (N + 1) * / (2 * (N + 1))) by (field; lra).
    apply Rmult_le_compat; try (left; apply Rinv_0_lt_compat; lra).
    + replace (N + 1) with (INR n + 3) by lra. exact H.
    + apply Rinv_le_contravar; [apply sqrt_s_pos|apply sqrt_s_le].
Qed.

Lemma integrated_nth deg n : (n <= deg)%nat ->
  nth n (integrated_legendre_polynomials deg) [] =
  match n with
  | O | 1%nat => nth n (legendre_polynomials deg) []
  | S (S k) => pscale RS (psub RS (nth n (legendre_polynomials deg) []) (nth k (legendre_polynomials deg) []))
                       (1 / sqrt (IZR (4 * Z.of_nat n - 2)))
  end.
Proof.
  intros H. unfold integrated_legendre_polynomials. destruct n as [|[|n]]; [reflexivity|reflexivity|].
  cbn [app nth]. set (f := fun n => pscale RS _ _).
  rewrite (nth_indep _ [] (f 0%nat)) by (rewrite map_length, seq_length; lia).
  rewrite map_nth, seq_nth by lia. unfold f. replace (2 + n)%nat with (S (S n)) by lia.
  replace (S (S n) - 2)%nat with n by lia. reflexivity.
Qed.

Lemma integrated_ok deg n : 4 * (INR deg + 1) ^ 4 * tol <= 1 -> (n <= deg)%nat ->
  xonly (ilc n) (nth n (integrated_legendre_polynomials deg) []).
Proof.
  intros Ht Hn. pose proof (pos_INR deg) as Hd. pose proof tol_pos as Htp.
  assert (Hnd : INR n <= INR deg) by (apply le_INR, Hn).
  assert (Q : 0 < (INR deg + 1)) by lra.
  assert (Q2 : INR deg + 1 <= (INR deg + 1) ^ 2) by (cbn; nra).
  assert (Q4 : (INR deg + 1) ^ 2 <= (INR deg + 1) ^ 4) by (cbn in *; nra).
  assert (T1 : tol <= / (INR deg + 1)).
  { apply (Rmult_le_reg_l (INR deg + 1)); [lra|]. rewrite Rinv_r by lra. nra. }
  rewrite integrated_nth by exact Hn. destruct n as [|[|n]].
  - exact (legendre_ok deg T1 0 Hn).
  - exact (legendre_ok deg T1 1 Hn).
  - destruct (legendre_ok deg T1 (S (S n)) Hn) as [C2 H2]. destruct (legendre_ok deg T1 n ltac:(lia)) as [C0 H0].
    set (p := nth (S (S n)) (legendre_polynomials deg) []) in *. set (q := nth n (legendre_polynomials deg) []) in *.
    assert (T3 : tol <= / (INR n + 3)).
    { eapply Rle_trans; [exact T1|]. apply Rinv_le_contravar; [pose proof (pos_INR n); lra|]. rewrite !S_INR in Hnd. lra. }
    assert (CD : canonical (psub RS p q)) by apply consolidate_canonical.
    assert (HD : forall a b, coef (psub RS p q) a b = if Nat.eqb b 0 then lc (S (S n)) a - lc n a else 0).
    { intros a b. rewrite coef_psub, H2, H0 by assumption. destruct (Nat.eqb b 0).
      - apply cutoff_keep. destruct (lc_diff_big n a) as [E|E]; [left; exact E|right; lra].
      - rewrite Rminus_0_r. apply cutoff_zero. }
    assert (ES : IZR (4 * Z.of_nat (S (S n)) - 2) = 4 * INR (S (S n)) - 2).
    { rewrite minus_IZR, mult_IZR, <- INR_IZR_INZ. ring. }
    split; [apply pscale_canonical, CD|]. intros a b. rewrite coef_pscale, HD, ES by exact CD.
    destruct (Nat.eqb b 0).
    + replace ((lc (S (S n)) a - lc n a) * (1 / sqrt (4 * INR (S (S n)) - 2))) with (ilc (S (S n)) a)
        by (unfold ilc; field; apply Rgt_not_eq, sqrt_s_pos).
      apply cutoff_keep. destruct (ilc_big (S (S n)) a) as [E|E]; [left; exact E|right].
      eapply Rle_trans; [|exact E].
      set (N := INR (S (S n))) in *. assert (0 <= N) by apply pos_INR.
      assert (P2 : 0 < (N + 1) ^ 2) by (apply pow_lt; lra).
      apply (Rmult_le_reg_l (2 * (N + 1) ^ 2)); [lra|]. rewrite Rinv_r by lra.
      assert (W : (N + 1) ^ 2 <= (INR deg + 1) ^ 2) by (apply pow_incr; lra).
      eapply Rle_trans; [|exact Ht]. apply Rmult_le_compat_r; [lra|]. lra.
    + rewrite Rmult_0_l. apply cutoff_zero.
Qed.

Lemma ileg_lists n : exists p : rpoly, (forall a b, coef p a b = if Nat.eqb b 0 then ilc n a else 0) /\
  forall x y, value p x y = ileg n x.
Proof.
  destruct n as [|[|n]].
  - exists (fst (pl 0)). split; [apply (pl_ok 0)|]. intros x y. apply (pl_ok 0).
  - exists (fst (pl 1)). split; [apply (pl_ok 1)|]. intros x y. apply (pl_ok 1).
  - exists (rscale (/ sqrt (4 * INR (S (S n)) - 2)) (fst (pl (S (S n))) ++ rscale (-1) (fst (pl n)))).
    split.
    + intros a b. rewrite coef_rscale, coef_app, coef_rscale.
      rewrite (proj1 (proj1 (pl_ok (S (S n))))), (proj1 (proj1 (pl_ok n))).
      unfold ilc, Rdiv. destruct (Nat.eqb b 0); ring.
    + intros x y. rewrite value_rscale, value_app, value_rscale.
      rewrite (proj1 (proj2 (pl_ok (S (S n))) x y)), (proj1 (proj2 (pl_ok n) x y)). unfold ileg, Rdiv. ring.
Qed.

Lemma xonly_ileg n p x y : xonly (ilc n) p -> value p x y = ileg n x.
Proof.
  intros [_ H]. destruct (ileg_lists n) as (q & Hq & Vq). rewrite <- (Vq x y). apply value_coef_ext.
  intros a b. rewrite H, Hq. reflexivity.
Qed.

(** Position of the pair (m,n) in the tensor product list: row by row. *)
Definition pair_list (deg : nat) : list (nat * nat) :=
  flat_map (fun m => map (fun n => (m, n)) (seq 0 (deg + 1 - m))) (seq 0 (deg + 1)).

Lemma flat_map_map_f {A B C} (f : B -> C) (g : A -> list B) l :
  flat_map (fun a => map f (g a)) l = map f (flat_map g l).
Proof. induction l as [|a l IH]; [reflexivity|]. cbn. rewrite IH, map_app. reflexivity. Qed.

Lemma tensor_list deg p q :
  tensor_products deg p q = map (fun mn => pmul RS (nth (fst mn) p []) (nth (snd mn) q [])) (pair_list deg).
Proof.
  unfold tensor_products, pair_list. rewrite <- flat_map_map_f.
  apply flat_map_ext. intros m. rewrite map_map. reflexivity.
Qed.

Lemma in_pair_list deg m n : In (m, n) (pair_list deg) <-> (m + n <= deg)%nat.
Proof.
  unfold pair_list. rewrite in_flat_map. split.
  - intros (i & Hi & H). apply in_map_iff in H. destruct H as (j & E & Hj). inversion E; subst.
    apply in_seq in Hi. apply in_seq in Hj. lia.
  - intros H. exists m. split; [apply in_seq; lia|]. apply in_map_iff. exists n. split; [reflexivity|]. apply in_seq. lia.
Qed.

Lemma NoDup_app_intro {A} (l1 l2 : list A) : NoDup l1 -> NoDup l2 -> (forall x, In x l1 -> In x l2 -> False) -> NoDup (l1 ++ l2).
Proof.
  induction l1 as [|a l1 IH]; intros H1 H2 H; [exact H2|]. inversion H1; subst. cbn. constructor.
  - rewrite in_app_iff. intros [Q|Q]; [contradiction|]. exact (H a (or_introl eq_refl) Q).
  - apply IH; [assumption|assumption|]. intros x Q1 Q2. exact (H x (or_intror Q1) Q2).
Qed.

Lemma nodup_pair_list deg : NoDup (pair_list deg).
Proof.
  unfold pair_list. generalize (deg + 1)%nat as k. intros k.
  assert (G : forall s c, NoDup (flat_map (fun m => map (fun n => (m, n)) (seq 0 (k - m))) (seq s c))).
  { intros s c. revert s. induction c as [|c IH]; intros s; cbn [seq flat_map]; [constructor|].
    apply NoDup_app_intro; [|apply IH|].
    - apply FinFun.Injective_map_NoDup; [intros a b E; congruence|apply seq_NoDup].
    - intros [a b] H1 H2. apply in_map_iff in H1. destruct H1 as (j & E & _). inversion E; subst.
      apply in_flat_map in H2. destruct H2 as (i & Hi & H). apply in_map_iff in H. destruct H as (j' & E' & _).
      inversion E'; subst. apply in_seq in Hi. lia. }
  apply G.
Qed.

Lemma sorted_app {A} (R : A -> A -> Prop) l1 l2 : Sorted.StronglySorted R l1 -> Sorted.StronglySorted R l2 ->
  (forall a b, In a l1 -> In b l2 -> R a b) -> Sorted.StronglySorted R (l1 ++ l2).
Proof.
  induction l1 as [|a l1 IH]; intros H1 H2 H; [exact H2|]. inversion H1; subst. cbn. constructor.
  - apply IH; [assumption|assumption|]. intros x y Q1 Q2. apply H; [right; exact Q1|exact Q2].
  - apply Forall_app. split; [assumption|]. apply Forall_forall. intros b Hb. apply H; [left; reflexivity|exact Hb].
Qed.

Lemma sorted_pair_list deg :
  Sorted.StronglySorted (fun a b => fst a < fst b \/ (fst a = fst b /\ snd a < snd b))%nat (pair_list deg).
Proof.
  unfold pair_list. generalize (deg + 1)%nat as k. intros k.
  generalize 0%nat at 2 as s. generalize k at 2 as c.
  induction c as [|c IH]; intros s; cbn [seq flat_map]; [constructor|]. apply sorted_app; [|apply IH|].
  - generalize 0%nat as u. generalize (k - s)%nat as v. induction v as [|v IHv]; intros u; cbn [seq map]; [constructor|].
    constructor; [apply IHv|]. apply Forall_forall. intros b Hb. apply in_map_iff in Hb. destruct Hb as (j & <- & Hj).
    apply in_seq in Hj. cbn. lia.
  - intros a b Ha Hb. apply in_map_iff in Ha. destruct Ha as (j & <- & _).
    apply in_flat_map in Hb. destruct Hb as (i & Hi & Hb). apply in_map_iff in Hb. destruct Hb as (j' & <- & _).
    apply in_seq in Hi. cbn. lia.
Qed.

Lemma length_pair_list deg : (2 * length (pair_list deg) = (deg + 1) * (deg + 2))%nat.
Proof.
  unfold pair_list.
  assert (G : forall c s, (s + c = deg + 1)%nat -> (2 * length (flat_map (fun m => map (fun n => (m, n)) (seq 0 (deg + 1 - m))) (seq s c)) = c * (c + 1))%nat).
  { induction c as [|c IH]; intros s H; cbn [seq flat_map]; [reflexivity|].
    rewrite app_length, map_length, seq_length. specialize (IH (S s) ltac:(lia)). lia. }
  rewrite G by lia. lia.
Qed.

Lemma nth_map_swap n (l : list rpoly) : nth n (map swap_coordinates l) [] = swap_coordinates (nth n l []).
Proof. change (@nil rmono) with (swap_coordinates []) at 1. apply map_nth. Qed.

Lemma itensor_value deg m n x y : 4 * (INR deg + 1) ^ 4 * tol <= 1 -> (m <= deg)%nat -> (n <= deg)%nat ->
  let L := integrated_legendre_polynomials deg in
  value (pmul RS (nth m L []) (nth n (map swap_coordinates L) [])) x y = ileg m x * ileg n y.
Proof.
  intros Ht Hm Hn L. rewrite nth_map_swap.
  pose proof (integrated_ok deg m Ht Hm) as Xm. pose proof (integrated_ok deg n Ht Hn) as Xn. fold L in Xm, Xn.
  rewrite (value_tensor _ _ _ _ x y Xm Xn).
  - rewrite (xonly_ileg m _ x y Xm), (xonly_ileg n _ y x Xn). reflexivity.
  - intros a b. destruct (ilc_big m a) as [->|E1]; [left; ring|]. destruct (ilc_big n b) as [->|E2]; [left; ring|].
    right. rewrite Rabs_mult. pose proof (pos_INR deg). pose proof (pos_INR m). pose proof (pos_INR n).
    assert (INR m <= INR deg) by (apply le_INR, Hm). assert (INR n <= INR deg) by (apply le_INR, Hn).
    assert (Q : forall k, 0 <= k <= INR deg -> / (2 * (INR deg + 1) ^ 2) <= / (2 * (k + 1) ^ 2)).
    { intros k Hk. apply Rinv_le_contravar; [cbn; nra|]. apply Rmult_le_compat_l; [lra|]. apply pow_incr. lra. }
    assert (Z : 0 < / (2 * (INR deg + 1) ^ 2)) by (apply Rinv_0_lt_compat; cbn; nra).
    eapply Rle_trans; [|apply Rmult_le_compat; [left; exact Z|left; exact Z|
       eapply Rle_trans; [apply (Q (INR m)); lra|exact E1]|eapply Rle_trans; [apply (Q (INR n)); lra|exact E2]]].
    rewrite <- Rinv_mult. apply (Rmult_le_reg_l (4 * (INR deg + 1) ^ 4)); [cbn; nra|].
    replace (4 * (INR deg + 1) ^ 4 * / (2 * (INR deg + 1) ^ 2 * (2 * (INR deg + 1) ^ 2))) with 1 by (field; lra). exact Ht.
Qed.

Lemma tensor_value deg m n x y : (INR deg + 1) ^ 2 * tol <= 1 -> (m <= deg)%nat -> (n <= deg)%nat ->
  let L := legendre_polynomials deg in
  value (pmul RS (nth m L []) (nth n (map swap_coordinates L) [])) x y = leg m x * leg n y.
Proof.
  intros Ht Hm Hn L. rewrite nth_map_swap. pose proof (pos_INR deg) as Hd. pose proof tol_pos.
  assert (T1 : tol <= / (INR deg + 1)).
  { apply (Rmult_le_reg_l (INR deg + 1)); [lra|]. rewrite Rinv_r by lra. cbn in Ht. nra. }
  pose proof (legendre_ok deg T1 m Hm) as Xm. pose proof (legendre_ok deg T1 n Hn) as Xn. fold L in Xm, Xn.
  rewrite (value_tensor _ _ _ _ x y Xm Xn).
  - rewrite (hasP_value m _ x y (proj2 Xm)), (hasP_value n _ y x (proj2 Xn)). reflexivity.
  - intros a b. destruct (lc_case_abs m a) as [->|E1]; [left; ring|]. destruct (lc_case_abs n b) as [->|E2]; [left; ring|].
    right. rewrite Rabs_mult. pose proof (pos_INR m). pose proof (pos_INR n).
    assert (INR m <= INR deg) by (apply le_INR, Hm). assert (INR n <= INR deg) by (apply le_INR, Hn).
    assert (Q : forall k, 0 <= k <= INR deg -> / (INR deg + 1) <= / (k + 1)).
    { intros k Hk. apply Rinv_le_contravar; lra. }
    assert (Z : 0 < / (INR deg + 1)) by (apply Rinv_0_lt_compat; lra).
    eapply Rle_trans; [|apply Rmult_le_compat; [left; exact Z|left; exact Z|
       eapply Rle_trans; [apply (Q (INR m)); lra|exact E1]|eapply Rle_trans; [apply (Q (INR n)); lra|exact E2]]].
    rewrite <- Rinv_mult. apply (Rmult_le_reg_l ((INR deg + 1) ^ 2)); [cbn; nra|].
    replace ((INR deg + 1) ^ 2 * / ((INR deg + 1) * (INR deg + 1))) with 1 by (field; lra). exact Ht.
Qed.

(* ---------------------------------------------------------------- *)
(** ** Integrated functions: endpoints and derivative *)

Lemma ileg_end n : ileg (S (S n)) 1 = 0 /\ ileg (S (S n)) (-1) = 0.
Proof.
  unfold ileg. rewrite !leg_at_1, !leg_at_m1. split; unfold Rdiv; [ring|]. cbn [pow]. ring.
Qed.

Lemma ileg_deriv n x : derivable_pt_lim (ileg (S (S n))) x (sqrt ((2 * INR (S (S n)) - 1) / 2) * leg (S n) x).
Proof.
  set (s := 4 * INR (S (S n)) - 2). assert (Hs : 0 < s) by apply s_pos.
  replace (sqrt ((2 * INR (S (S n)) - 1) / 2) * leg (S n) x) with (/ sqrt s * (dleg (S (S n)) x - dleg n x)).
  - eapply (derivable_pt_lim_ext (fun t => / sqrt s * (leg (S (S n)) t - leg n t))).
    + intros t. unfold ileg, Rdiv. fold s. ring.
    + apply derivable_pt_lim_scal. apply derivable_pt_lim_minus; apply dleg_lim.
  - rewrite dleg_diff. replace (2 * INR n + 3) with (s / 2) by (unfold s; rewrite !S_INR; field).
    replace ((2 * INR (S (S n)) - 1) / 2) with (s / 4) by (unfold s; field).
    assert (E : sqrt (s / 4) = sqrt s / 2).
    { replace (s / 4) with (s * (/2 * /2)) by field. rewrite sqrt_mult by lra. rewrite sqrt_square by lra. field. }
    rewrite E. pose proof (sqrt_lt_R0 s Hs). rewrite <- (sqrt_sqrt s) at 2 by lra. field. lra.
Qed.

(* ---------------------------------------------------------------- *)
(** ** The differential equation and orthogonality *)

Lemma leg_mul_dleg n x : (x * x - 1) * dleg (S n) x = INR (S n) * (x * leg (S n) x - leg n x).
Proof. destruct (dleg_two n x) as [A B]. nra. Qed.

Lemma leg_ode n x : derivable_pt_lim (fun t => (t * t - 1) * dleg n t) x (INR n * (INR n + 1) * leg n x).
Proof.
  destruct n as [|n].
  - eapply derivable_pt_lim_ext; [|replace (INR 0 * (INR 0 + 1) * leg 0 x) with 0 by (cbn; ring); apply (derivable_pt_lim_const 0)].
    intros t. unfold dleg. cbn. unfold fct_cte. ring.
  - eapply (derivable_pt_lim_ext (fun t => INR (S n) * (t * leg (S n) t - leg n t))).
    + intros t. symmetry. apply leg_mul_dleg.
    + replace (INR (S n) * (INR (S n) + 1) * leg (S n) x) with
        (INR (S n) * ((1 * leg (S n) x + x * dleg (S n) x) - dleg n x)).
      * apply derivable_pt_lim_scal, derivable_pt_lim_minus; [|apply dleg_lim].
        apply derivable_pt_lim_mult; [apply derivable_pt_lim_id|apply dleg_lim].
      * destruct (dleg_two n x) as [A _]. replace (dleg n x) with (x * dleg (S n) x - INR (S n) * leg (S n) x) by lra. ring.
Qed.

Lemma leg_cont n x : continuous (leg n) x.
Proof. apply (ex_derive_continuous (leg n)). exists (dleg n x). apply is_derive_Reals, dleg_lim. Qed.

Lemma leg_orth m n : m <> n -> is_RInt (fun x => leg m x * leg n x) (-1) 1 0.
Proof.
  intros Hne.
  set (lam := INR n * (INR n + 1) - INR m * (INR m + 1)).
  assert (Hl : lam <> 0).
  { unfold lam. assert (INR m <> INR n) by (intros E; apply Hne, INR_eq, E).
    pose proof (pos_INR m). pose proof (pos_INR n). nra. }
  set (F := fun x => / lam * (leg m x * ((x * x - 1) * dleg n x) - leg n x * ((x * x - 1) * dleg m x))).
  assert (E : minus (F 1) (F (-1)) = 0).
  { unfold F, minus, plus, opp; cbn. ring. }
  rewrite <- E. apply (is_RInt_derive F).
  - intros x _. unfold F.
    replace (leg m x * leg n x) with
      (/ lam * ((dleg m x * ((x * x - 1) * dleg n x) + leg m x * (INR n * (INR n + 1) * leg n x)) -
                (dleg n x * ((x * x - 1) * dleg m x) + leg n x * (INR m * (INR m + 1) * leg m x))))
      by (unfold lam in *; field; exact Hl).
    apply is_derive_Reals. apply derivable_pt_lim_scal.
    apply (derivable_pt_lim_minus (fun t => leg m t * ((t * t - 1) * dleg n t)) (fun t => leg n t * ((t * t - 1) * dleg m t))).
    + apply (derivable_pt_lim_mult (leg m) (fun t => (t * t - 1) * dleg n t)); [apply dleg_lim|apply leg_ode].
    + apply (derivable_pt_lim_mult (leg n) (fun t => (t * t - 1) * dleg m t)); [apply dleg_lim|apply leg_ode].
  - intros x _. apply (continuous_mult (leg m) (leg n)); apply leg_cont.
Qed.

Lemma is_RInt_lin (f g h : R -> R) a b (F G H c d : R) : is_RInt f a b F -> is_RInt g a b G ->
  (forall x, h x = c * f x + d * g x) -> H = c * F + d * G -> is_RInt h a b H.
Proof.
  intros Hf Hg E ->. apply (is_RInt_ext (fun x => plus (Hierarchy.scal c (f x)) (Hierarchy.scal d (g x)))).
  - intros x _. rewrite E. reflexivity.
  - apply (is_RInt_plus (V := R_NormedModule)); apply (is_RInt_scal (V := R_NormedModule)); assumption.
Qed.

Lemma is_RInt_cst (a b c : R) : is_RInt (fun _ => c) a b ((b - a) * c).
Proof. exact (is_RInt_const (V := R_NormedModule) a b c). Qed.

Lemma leg_norm n : is_RInt (fun x => leg n x * leg n x) (-1) 1 (2 / (2 * INR n + 1)).
Proof.
  induction n as [|n IH].
  - pose proof (is_RInt_cst (-1) 1 1) as C.
    eapply (is_RInt_lin _ _ _ _ _ _ _ _ 1 0 C C); [intros x; rewrite leg_0; ring|cbn; field].
  - (* integral of x P_n P_{n+1} *)
    pose proof (leg_orth n (S (S n)) ltac:(lia)) as O1. pose proof (pos_INR n) as Hp.
    assert (I0 : is_RInt (fun x => x * leg n x * leg (S n) x) (-1) 1 ((INR n + 1) / (2 * INR n + 3) * (2 / (2 * INR n + 1)))).
    { eapply (is_RInt_lin _ _ _ _ _ _ _ _ ((INR n + 2) / (2 * INR n + 3)) ((INR n + 1) / (2 * INR n + 3)) O1 IH).
      - intros x. rewrite (leg_SS n). field. lra.
      - ring. }
    destruct n as [|n].
    + eapply (is_RInt_lin _ _ _ _ _ _ _ _ 1 0 I0 I0); [intros x; rewrite leg_0, leg_1; ring|cbn; field].
    + pose proof (leg_orth n (S (S n)) ltac:(lia)) as O2. pose proof (pos_INR n) as Hq.
      eapply (is_RInt_lin _ _ _ _ _ _ _ _ ((2 * INR n + 3) / (INR n + 2)) (- ((INR n + 1) / (INR n + 2))) I0 O2).
      * intros x. rewrite (leg_SS n). field. lra.
      * rewrite !S_INR. field. lra.
Qed.

(** The derivatives of the integrated functions are orthonormal on [-1,1]. *)
Lemma ileg_orthonormal m n :
  let D := fun k x => sqrt ((2 * INR (S (S k)) - 1) / 2) * leg (S k) x in
  is_RInt (fun x => D m x * D n x) (-1) 1 (if Nat.eqb m n then 1 else 0).
Proof.
  intros D. set (s := fun k => sqrt ((2 * INR (S (S k)) - 1) / 2)).
  destruct (Nat.eqb_spec m n) as [<-|Hne].
  - pose proof (leg_norm (S m)) as N. eapply (is_RInt_lin _ _ _ _ _ _ _ _ (s m * s m) 0 N N).
    + intros x. unfold D. fold (s m). ring.
    + unfold s. pose proof (pos_INR m). rewrite sqrt_sqrt by (rewrite !S_INR; lra). rewrite !S_INR. field. lra.
  - pose proof (leg_orth (S m) (S n) ltac:(lia)) as O. eapply (is_RInt_lin _ _ _ _ _ _ _ _ (s m * s n) 0 O O).
    + intros x. unfold D. fold (s m) (s n). ring.
    + ring.
Qed.
