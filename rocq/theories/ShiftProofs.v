(** Powers of [x - s] and [y - t] and shifted monomials. *)
From Coq Require Import List ZArith Reals Lia Lra Bool.
From Verif Require Import PyBase PolyModel PolySpec PolyProofs PolyProofs2 PolyProofs3 PolyProofs4 BaryModel BarySpec LegendreModel LegendreProofs LegendreProofs2.
Import List ListNotations.
Open Scope R_scope.


Fixpoint bin (n a : nat) : nat :=
  match n, a with
  | O, O => 1
  | O, S _ => 0
  | S n, O => 1
  | S n, S a => bin n a + bin n (S a)
  end.
Lemma bin_0 n : bin n 0 = 1%nat.
Proof. destruct n; reflexivity. Qed.
Lemma bin_big n : forall a, (n < a)%nat -> bin n a = 0%nat.
Proof. induction n as [|n IH]; intros [|a] L; try lia; [reflexivity|]. cbn [bin]. rewrite !IH by lia. reflexivity. Qed.
Lemma kept_mult n x : sig x -> sig (INR n * x).
Proof.
  intros [->|K]; [left; ring|]. destruct n as [|n]; [left; cbn; ring|]. right. rewrite Rabs_mult, (Rabs_right (INR (S n))) by (apply Rle_ge, pos_INR).
  rewrite S_INR. pose proof (pos_INR n). pose proof (Rabs_pos x). nra.
Qed.
Lemma kept_abs x y : Rabs x = Rabs y -> sig x -> sig y.
Proof. intros E [->|K]; [left|right; rewrite <- E; exact K]. rewrite Rabs_R0 in E. destruct (Req_dec y 0) as [|N]; [assumption|]. apply Rabs_no_R0 in N. congruence. Qed.
Lemma kept_neg_pow s n : sig (s ^ n) -> sig ((- s) ^ n).
Proof. apply kept_abs. rewrite <- !RPow_abs, Rabs_Ropp. reflexivity. Qed.

Lemma sum_exch (f : nat -> nat -> R) n m : sum_f_R0 (fun i => sum_f_R0 (f i) m) n = sum_f_R0 (fun j => sum_f_R0 (fun i => f i j) n) m.
Proof.
  induction n as [|n IH]; [cbn; apply sum_ext; reflexivity|]. cbn [sum_f_R0]. rewrite IH, <- plus_sum. apply sum_ext. reflexivity.
Qed.
Lemma swap_pmul p q : canonical p -> canonical q -> pmul RS (swap_coordinates p) (swap_coordinates q) = swap_coordinates (pmul RS p q).
Proof.
  intros Cp Cq. destruct (swap_ok p Cp) as [Csp Hsp]. destruct (swap_ok q Cq) as [Csq Hsq]. destruct (swap_ok _ (pmul_canonical p q)) as [Cs Hs].
  apply canonical_ext; [apply pmul_canonical|exact Cs|]. intros a b. rewrite Hs, !coef_pmul by assumption. f_equal. rewrite sum_exch. apply sum_ext. intros j Hj. apply sum_ext. intros i Hi. rewrite Hsp, Hsq. reflexivity.
Qed.
Lemma swap_pow p : canonical p -> forall n, ppow_nat RS (swap_coordinates p) n = swap_coordinates (ppow_nat RS p n).
Proof.
  intros C. induction n as [|n IH].
  - cbn [ppow_nat]. assert (C1 : canonical (pone RS)) by apply mkpoly_canonical. destruct (swap_ok _ C1) as [Cs Hs]. apply canonical_ext; [exact C1|exact Cs|]. intros a b. rewrite Hs, pone_eq. cbn [coef rmon malpha mx my mcoef]. rewrite Bool.andb_comm. reflexivity.
  - cbn [ppow_nat]. rewrite IH. apply swap_pmul; [apply ppow_canonical|exact C].
Qed.

(** The polynomial x - s *)
Definition xs (s : R) : rpoly := psub_scal RS (mkpoly RS [(1, 1%nat, 0%nat)]) s.
Definition ys (s : R) : rpoly := psub_scal RS (mkpoly RS [(1, 0%nat, 1%nat)]) s.
Definition lin (s : R) (a : nat) : R := match a with O => - s | 1%nat => 1 | _ => 0 end.
Lemma xs_only s : sig s -> xonly (lin s) (xs s).
Proof.
  intros K. split; [apply padd_scal_canonical|]. intros a b. unfold xs, psub_scal. rewrite coef_padd_scal, coef_mkpoly by apply mkpoly_canonical. cbn [fold_right]. rewrite cutoff_1.
  replace (smul RS (sofZ RS (-1)) s) with (- s) by (cbn; ring). assert (K' : sig (- s)) by (apply (kept_abs s); [symmetry; apply Rabs_Ropp|exact K]). rewrite (cutoff_keep (- s) K').
  unfold delta0. destruct a as [|[|a]], b as [|b]; cbn [Nat.eqb andb lin]; rewrite ?Rplus_0_r, ?Rplus_0_l, ?cutoff_zero, ?cutoff_1, ?Rplus_0_l, ?Rplus_0_r, ?cutoff_zero, ?cutoff_1; try reflexivity. exact (cutoff_keep _ K').
Qed.
Lemma ys_swap s : sig s -> ys s = swap_coordinates (xs s).
Proof.
  intros K. destruct (xs_only s K) as [C H]. destruct (swap_ok _ C) as [Cs Hs]. apply canonical_ext; [apply padd_scal_canonical|exact Cs|]. intros a b. rewrite Hs, H. unfold ys, psub_scal. rewrite coef_padd_scal, coef_mkpoly by apply mkpoly_canonical. cbn [fold_right]. rewrite cutoff_1.
  replace (smul RS (sofZ RS (-1)) s) with (- s) by (cbn; ring). assert (K' : sig (- s)) by (apply (kept_abs s); [symmetry; apply Rabs_Ropp|exact K]). rewrite (cutoff_keep (- s) K').
  unfold delta0. destruct b as [|[|b]], a as [|a]; cbn [Nat.eqb andb lin]; rewrite ?Rplus_0_r, ?Rplus_0_l, ?cutoff_zero, ?cutoff_1, ?Rplus_0_l, ?Rplus_0_r, ?cutoff_zero, ?cutoff_1; try reflexivity. exact (cutoff_keep _ K').
Qed.
Definition pw (s : R) (n a : nat) : R := INR (bin n a) * (- s) ^ (n - a).
Lemma pw_S s n a : pw s (S n) (S a) = pw s n a + pw s n (S a) * - s.
Proof.
  unfold pw. cbn [bin]. rewrite plus_INR. destruct (Nat.lt_ge_cases a n).
  - replace (S n - S a)%nat with (S (n - S a)) by lia. replace (n - a)%nat with (S (n - S a)) by lia. cbn [pow]. ring.
  - rewrite (bin_big n (S a)) by lia. cbn [INR]. replace (S n - S a)%nat with (n - a)%nat by lia. ring.
Qed.
Lemma pw_0 s n : pw s (S n) 0 = pw s n 0 * - s.
Proof. unfold pw. rewrite !bin_0, !Nat.sub_0_r. cbn [pow INR]. ring. Qed.
Lemma pow_only s n : (forall k, (1 <= k <= n)%nat -> sig (s ^ k)) -> xonly (pw s n) (ppow_nat RS (xs s) n).
Proof.
  induction n as [|n IH]; intros K.
  - split; [apply ppow_canonical|]. intros a b. cbn [ppow_nat]. rewrite pone_eq. unfold pw. destruct a as [|a], b as [|b]; cbn [coef rmon malpha mx my mcoef Nat.eqb andb bin INR pow Nat.sub]; ring.
  - assert (K1 : sig s) by (replace s with (s ^ 1) by ring; apply K; lia). destruct (IH ltac:(intros k Hk; apply K; lia)) as [C H]. destruct (xs_only s K1) as [C1 H1].
    assert (Kp : forall a, sig (pw s n a)). { intros a. unfold pw. apply kept_mult. destruct (n - a)%nat as [|d] eqn:D; [right; cbn; rewrite Rabs_R1; unfold tol; lra|]. apply kept_neg_pow, K. lia. }
    assert (Kq : forall a, sig (pw s n a * - s)). { intros a. unfold pw. rewrite Rmult_assoc. destruct (Nat.le_gt_cases a n); [|rewrite bin_big by lia; left; cbn; ring]. apply kept_mult. replace ((- s) ^ (n - a) * - s) with ((- s) ^ (S (n - a))) by (cbn [pow]; ring). apply kept_neg_pow, K. lia. }
    assert (Kr : forall a, sig (pw s (S n) a)). { intros a. unfold pw. apply kept_mult. destruct (S n - a)%nat as [|d] eqn:D; [right; cbn; rewrite Rabs_R1; unfold tol; lra|]. apply kept_neg_pow, K. lia. }
    split; [apply ppow_canonical|]. intros a b. cbn [ppow_nat]. rewrite coef_pmul by assumption. destruct b as [|b]; cbn [Nat.eqb].
    + cbn [sum_f_R0]. destruct a as [|a].
      * cbn [sum_f_R0 Nat.sub]. rewrite H, H1. cbn [Nat.eqb lin]. rewrite (cutoff_keep _ (Kq 0%nat)), <- pw_0. apply cutoff_keep, Kr.
      * cbn [sum_f_R0]. rewrite (sum_single _ a a) by (try lia; intros i Hi Hn; rewrite H1; replace (S a - i)%nat with (S (S (a - i - 1))) by lia; cbn [Nat.eqb Nat.sub lin]; rewrite Rmult_0_r; apply cutoff_zero).
        rewrite !H, !H1. replace (S a - a)%nat with 1%nat by lia. rewrite !Nat.sub_diag. cbn [Nat.eqb lin]. rewrite Rmult_1_r, (cutoff_keep _ (Kp a)), (cutoff_keep _ (Kq (S a))), <- pw_S. apply cutoff_keep, Kr.
    + rewrite sum_eq0; [apply cutoff_zero|]. intros i Hi. apply sum_eq0. intros j Hj. rewrite H, H1. destruct j as [|j]; [|cbn [Nat.eqb]; rewrite Rmult_0_l; apply cutoff_zero]. rewrite Nat.sub_0_r. cbn [Nat.eqb]. rewrite Rmult_0_r. apply cutoff_zero.
Qed.
Lemma t_mul_lin f s p : xonly f p -> sig s -> forall a b, t_mul (coef p) (coef (xs s)) a b = if Nat.eqb b 0 then match a with O => f O * - s | S a => f a + f (S a) * - s end else 0.
Proof.
  intros [C H] K a b. destruct (xs_only s K) as [C1 H1]. unfold t_mul. destruct b as [|b]; cbn [Nat.eqb].
  - cbn [sum_f_R0]. destruct a as [|a].
    + cbn [sum_f_R0 Nat.sub]. rewrite H, H1. reflexivity.
    + cbn [sum_f_R0]. rewrite (sum_single _ a a) by (try lia; intros i Hi Hn; rewrite H1; replace (S a - i)%nat with (S (S (a - i - 1))) by lia; cbn [Nat.eqb Nat.sub lin]; ring).
      rewrite !H, !H1. replace (S a - a)%nat with 1%nat by lia. rewrite !Nat.sub_diag. cbn [Nat.eqb lin]. ring.
  - apply sum_eq0. intros i Hi. apply sum_eq0. intros j Hj. rewrite H, H1. destruct j as [|j]; [|cbn [Nat.eqb]; ring]. rewrite Nat.sub_0_r. cbn [Nat.eqb]. ring.
Qed.
Lemma xs_value s x y : sig s -> value (xs s) x y = x - s.
Proof.
  intros K. replace (x - s) with (value [rmon (- s) 0 0; rmon 1 1 0] x y) by (cbn [value rmon malpha mx my mcoef pow]; rring). apply value_coef_ext. intros a b. destruct (xs_only s K) as [_ ->].
  destruct a as [|[|a]], b as [|b]; cbn [coef rmon malpha mx my mcoef Nat.eqb andb lin]; ring.
Qed.
Lemma pow_value s n x y : (forall k, (1 <= k <= n)%nat -> sig (s ^ k)) -> value (ppow_nat RS (xs s) n) x y = (x - s) ^ n.
Proof.
  induction n as [|n IH]; intros K.
  - cbn [ppow_nat]. rewrite pone_eq. cbn [value rmon malpha mx my mcoef pow]. rring.
  - assert (K1 : sig s) by (replace s with (s ^ 1) by ring; apply K; lia). assert (Kn : forall k, (1 <= k <= n)%nat -> sig (s ^ k)) by (intros k Hk; apply K; lia).
    transitivity (value (mulraw (ppow_nat RS (xs s) n) (xs s)) x y).
    + apply value_coef_ext. intros a b. rewrite coef_mulraw, (t_mul_lin (pw s n)) by (try apply pow_only; assumption). rewrite (proj2 (pow_only s (S n) K)). destruct b; [|reflexivity]. cbn [Nat.eqb]. destruct a; [apply pw_0|apply pw_S].
    + rewrite value_mulraw, IH, xs_value by assumption. cbn [pow]. ring.
Qed.

(** c (x - s)^n (y - t)^m *)
Section Shifted.
Variables (c s t : R) (n m : nat).
Hypothesis K : forall i j, (i <= n)%nat -> (j <= m)%nat -> sig (s ^ i * t ^ j) /\ sig (c * (s ^ i * t ^ j)).
Definition shifted : rpoly := piadd RS [] (pscale RS (pmul RS (ppow_nat RS (xs s) n) (ppow_nat RS (ys t) m)) c).

Lemma Ks k : (1 <= k <= n)%nat -> sig (s ^ k).
Proof. intros Hk. replace (s ^ k) with (s ^ k * t ^ 0) by (cbn; ring). apply K; lia. Qed.
Lemma Kt k : (1 <= k <= m)%nat -> sig (t ^ k).
Proof. intros Hk. replace (t ^ k) with (s ^ 0 * t ^ k) by (cbn; ring). apply K; lia. Qed.
Lemma ys_pow : ppow_nat RS (ys t) m = swap_coordinates (ppow_nat RS (xs t) m).
Proof.
  pose proof Kt as Kt. clear K. destruct m as [|m'].
  - cbn [ppow_nat]. assert (C1 : canonical (pone RS)) by apply mkpoly_canonical. destruct (swap_ok _ C1) as [Cs Hs]. apply canonical_ext; [exact C1|exact Cs|]. intros a b. rewrite Hs, pone_eq. cbn [coef rmon malpha mx my mcoef]. rewrite Bool.andb_comm. reflexivity.
  - assert (K1 : sig t) by (replace t with (t ^ 1) by ring; apply Kt; lia). rewrite (ys_swap t K1). apply swap_pow. apply (xs_only t K1).
Qed.
Lemma pw_kept a b : sig (pw s n a * pw t m b) /\ sig (pw s n a * pw t m b * c).
Proof.
  destruct (Nat.le_gt_cases a n) as [La|La]; [|unfold pw; rewrite (bin_big n a) by lia; cbn [INR]; split; left; ring]. destruct (Nat.le_gt_cases b m) as [Lb|Lb]; [|unfold pw; rewrite (bin_big m b) by lia; cbn [INR]; split; left; ring].
  destruct (K (n - a)%nat (m - b)%nat ltac:(lia) ltac:(lia)) as [K1 K2].
  replace (pw s n a * pw t m b) with (INR (bin n a * bin m b) * ((- s) ^ (n - a) * (- t) ^ (m - b))) by (unfold pw; rewrite mult_INR; ring).
  assert (E : Rabs (s ^ (n - a) * t ^ (m - b)) = Rabs ((- s) ^ (n - a) * (- t) ^ (m - b))) by (rewrite !Rabs_mult, <- !RPow_abs, !Rabs_Ropp; reflexivity).
  split; [apply kept_mult; exact (kept_abs _ _ E K1)|]. rewrite Rmult_assoc. apply kept_mult. apply (kept_abs (c * (s ^ (n - a) * t ^ (m - b)))); [|exact K2]. rewrite (Rabs_mult c), E, <- Rabs_mult. f_equal. ring.
Qed.
Lemma product_coef a b : coef (pmul RS (ppow_nat RS (xs s) n) (ppow_nat RS (ys t) m)) a b = pw s n a * pw t m b.
Proof.
  rewrite ys_pow. rewrite (coef_tensor (pw s n) (pw t m)) by (apply pow_only; first [apply Ks|apply Kt]). rewrite !(cutoff_keep (pw s n a * pw t m b)) by apply pw_kept. reflexivity.
Qed.
Lemma scaled_coef a b : coef (pscale RS (pmul RS (ppow_nat RS (xs s) n) (ppow_nat RS (ys t) m)) c) a b = pw s n a * pw t m b * c.
Proof. rewrite coef_pscale by apply pmul_canonical. rewrite product_coef. apply cutoff_keep, pw_kept. Qed.
Lemma shifted_coef a b : coef shifted a b = pw s n a * pw t m b * c.
Proof.
  unfold shifted. rewrite coef_piadd by (apply pscale_canonical, pmul_canonical). cbn [coef]. rewrite Rplus_0_l, scaled_coef. apply cutoff_keep, pw_kept.
Qed.
Lemma shifted_value x y : value shifted x y = c * (x - s) ^ n * (y - t) ^ m.
Proof.
  transitivity (value (pscale RS (pmul RS (ppow_nat RS (xs s) n) (ppow_nat RS (ys t) m)) c) x y); [apply value_coef_ext; intros a b; rewrite shifted_coef, scaled_coef; reflexivity|].
  rewrite value_pscale; [|apply pmul_canonical|intros a b; rewrite product_coef; apply pw_kept].
  rewrite ys_pow, (value_tensor (pw s n) (pw t m)); [|apply pow_only, Ks|apply pow_only, Kt|intros a b; apply pw_kept]. rewrite !pow_value by (first [apply Ks|apply Kt]). ring.
Qed.
Lemma shifted_canonical : canonical shifted.
Proof. apply piadd_canonical. Qed.
End Shifted.

Lemma single_idx c k : sig c -> add_monomial_with_idx RS [] c k = match Req_EM_T c 0 with left _ => [] | right _ => [Mono (S:=RS) (mi_of_idx k) c] end.
Proof.
  intros Hc. apply canonical_ext; [apply consolidate_canonical| |].
  - destruct (Req_EM_T c 0) as [|N]; [constructor|]. destruct Hc as [E|B]; [contradiction|]. constructor; [exact B|constructor|constructor].
  - intros a b. rewrite coef_add_with_idx by constructor. cbn [coef]. rewrite (cutoff_keep c) by exact Hc. rewrite Rplus_0_l. destruct (Req_EM_T c 0) as [->|N]; cbn [coef malpha mcoef].
    + destruct (_ && _)%bool; apply cutoff_zero.
    + rewrite Rplus_0_r. destruct (_ && _)%bool; [apply cutoff_keep, Hc|apply cutoff_zero].
Qed.
Lemma al_unit_le d : 0 < al_unit d <= 1.
Proof.
  unfold al_unit. assert (F : forall k, 1 <= INR (fact k)) by (intros k; apply (le_INR 1); pose proof (lt_O_fact k); lia). assert (P : 1 <= 4 ^ (d / 2 + 1)) by (apply pow_R1_Rle; lra).
  assert (L : INR (fact (d - d / 2)) <= INR (fact (d + 1))) by (apply le_INR, fact_le; lia). pose proof (F (d / 2 + 1)%nat). pose proof (F (d + 1)%nat). pose proof (F (d - d / 2)%nat). set (A := INR (fact (d - d / 2))) in *. set (B := INR (fact (d / 2 + 1))) in *. set (C := INR (fact (d + 1))) in *. set (Q := 4 ^ (d / 2 + 1)) in *.
  assert (X : 1 <= Q * B) by nra. assert (Y : C <= Q * B * C) by nra. split; [apply Rdiv_lt_0_compat; lra|]. apply (Rmult_le_reg_r (Q * B * C)); [lra|]. unfold Rdiv. rewrite Rmult_assoc, Rinv_l by lra. lra.
Qed.

(** The grid of the coefficients when the shifts lie on a grid *)
Section Grid.
Variables (c u : R) (X Y : Z) (n m : nat).
Hypothesis Hu : 0 < u.
Hypothesis Ku : forall k, (k <= n + m)%nat -> tol <= u ^ k /\ tol <= Rabs c * u ^ k * al_unit (n + m - k).
Lemma grid_sig i j : (i <= n)%nat -> (j <= m)%nat -> sig ((u * IZR X) ^ i * (u * IZR Y) ^ j) /\ sig (c * ((u * IZR X) ^ i * (u * IZR Y) ^ j)).
Proof.
  intros Hi Hj. destruct (Ku (i + j)%nat ltac:(lia)) as [K1 K2]. pose proof (al_unit_le (n + m - (i + j))) as Al. rewrite !Rpow_mult_distr, !pow_IZR. replace (u ^ i * IZR (X ^ Z.of_nat i) * (u ^ j * IZR (Y ^ Z.of_nat j))) with (u ^ (i + j) * IZR (X ^ Z.of_nat i * Y ^ Z.of_nat j)) by (rewrite pow_add, mult_IZR; ring).
  set (z := (X ^ Z.of_nat i * Y ^ Z.of_nat j)%Z). pose proof (pow_lt u (i + j) Hu) as Up. set (w := u ^ (i + j)) in *. destruct (Z.eq_dec z 0) as [->|Nz]; [split; left; ring|]. assert (Z1 : 1 <= Rabs (IZR z)) by (rewrite Rabs_Zabs; apply (IZR_le 1); lia). pose proof (Rabs_pos c).
  split; right; rewrite !Rabs_mult, (Rabs_right w) by lra; [nra|]. assert (tol <= Rabs c * w) by (eapply Rle_trans; [exact K2|]; rewrite <- (Rmult_1_r (Rabs c * w)) at 2; apply Rmult_le_compat_l; [nra|apply Al]). rewrite <- Rmult_assoc. set (cw := Rabs c * w) in *. pose proof tol_pos. nra.
Qed.
Lemma grid_shifted : graded_grid (fun d => Rabs c * u ^ (n + m - d)) (shifted c (u * IZR X) (u * IZR Y) n m).
Proof.
  intros mo Im. set (p := shifted c (u * IZR X) (u * IZR Y) n m) in *. set (a := mx (malpha mo)). set (b := my (malpha mo)).
  assert (Ec : (mcoef mo : R) = coef p a b) by (symmetry; apply canonical_coef_In; [apply shifted_canonical|exact Im]). rewrite Ec. unfold p. rewrite (shifted_coef _ _ _ _ _ grid_sig).
  destruct (Nat.le_gt_cases a n) as [La|La]; [|exists 0%Z; unfold pw; rewrite (bin_big n a) by lia; cbn [INR]; ring]. destruct (Nat.le_gt_cases b m) as [Lb|Lb]; [|exists 0%Z; unfold pw; rewrite (bin_big m b) by lia; cbn [INR]; ring].
  assert (S : exists sg : Z, c = Rabs c * IZR sg) by (destruct (Rle_dec 0 c); [exists 1%Z; rewrite Rabs_right by lra; ring|exists (-1)%Z; rewrite Rabs_left by lra; ring]). destruct S as (sg & Es).
  exists (Z.of_nat (bin n a) * Z.of_nat (bin m b) * ((- X) ^ Z.of_nat (n - a) * (- Y) ^ Z.of_nat (m - b)) * sg)%Z. rewrite !mult_IZR, <- !INR_IZR_INZ, <- !pow_IZR. unfold pw. rewrite Es at 1. replace (n + m - (a + b))%nat with ((n - a) + (m - b))%nat by lia. rewrite pow_add.
  replace (- (u * IZR X)) with (u * IZR (- X)) by (rewrite opp_IZR; ring). replace (- (u * IZR Y)) with (u * IZR (- Y)) by (rewrite opp_IZR; ring). rewrite !Rpow_mult_distr. ring.
Qed.
Lemma shifted_deg (mo : rmono) : In mo (shifted c (u * IZR X) (u * IZR Y) n m) -> (mx (malpha mo) + my (malpha mo) <= n + m)%nat.
Proof.
  intros Im. set (p := shifted c (u * IZR X) (u * IZR Y) n m) in *. pose proof (canonical_coef_In mo p (shifted_canonical _ _ _ _ _) Im) as Ec. pose proof (canonical_In mo p (shifted_canonical _ _ _ _ _) Im) as B. unfold p in Ec. rewrite (shifted_coef _ _ _ _ _ grid_sig) in Ec.
  assert (N0 : (mcoef mo : R) <> 0) by (intros Q; rewrite Q, Rabs_R0 in B; pose proof tol_pos; lra).
  destruct (Nat.le_gt_cases (mx (malpha mo)) n) as [La|La]; [destruct (Nat.le_gt_cases (my (malpha mo)) m) as [Lb|Lb]; [lia|]|]; exfalso; apply N0; rewrite <- Ec; unfold pw; [rewrite (bin_big m) by assumption|rewrite (bin_big n) by assumption]; cbn [INR]; ring.
Qed.
End Grid.
