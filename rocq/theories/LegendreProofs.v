From Coq Require Import List ZArith Reals Lia Lra Arith.
From Verif Require Import PyBase PolyModel PolySpec PolyProofs PolyProofs2 PolyProofs4 LegendreModel LegendreSpec.
Import ListNotations.
Open Scope R_scope.

(* ---------------------------------------------------------------- *)
(** ** The functions *)

Lemma leg_pair_snd n x : snd (leg_pair n x) = leg (S n) x.
Proof. unfold leg. cbn [leg_pair]. destruct (leg_pair n x). reflexivity. Qed.

Lemma leg_SS n x : leg (S (S n)) x =
  ((2 * INR n + 3) * x * leg (S n) x - (INR n + 1) * leg n x) / (INR n + 2).
Proof.
  rewrite <- leg_pair_snd. cbn [leg_pair]. rewrite <- leg_pair_snd. unfold leg.
  destruct (leg_pair n x). reflexivity.
Qed.
Lemma leg_0 x : leg 0 x = 1. Proof. reflexivity. Qed.
Lemma leg_1 x : leg 1 x = x. Proof. reflexivity. Qed.

Lemma pair_ind (P : nat -> Prop) : P 0%nat -> P 1%nat -> (forall n, P n -> P (S n) -> P (S (S n))) -> forall n, P n.
Proof.
  intros H0 H1 HS n. assert (P n /\ P (S n)) as [H _]; [|exact H].
  induction n as [|n [IH1 IH2]]; split; auto.
Qed.

Lemma INR2 n : 0 < INR n + 2.
Proof. pose proof (pos_INR n). lra. Qed.

Lemma leg_at_1 n : leg n 1 = 1.
Proof.
  induction n as [| |n IH1 IH2] using pair_ind; [reflexivity|reflexivity|].
  rewrite leg_SS, IH1, IH2. pose proof (INR2 n). field. lra.
Qed.

Lemma leg_opp n x : leg n (-x) = (-1) ^ n * leg n x.
Proof.
  induction n as [| |n IH1 IH2] using pair_ind; [rewrite !leg_0; cbn; ring|rewrite !leg_1; cbn; ring|].
  rewrite !leg_SS, IH1, IH2. pose proof (INR2 n). cbn [pow]. field. lra.
Qed.
Lemma leg_at_m1 n : leg n (-1) = (-1) ^ n.
Proof. replace (-1) with (-(1)) at 1 by ring. rewrite leg_opp, leg_at_1. ring. Qed.

(** Derivatives *)
Fixpoint dleg_pair (n : nat) (x : R) : R * R :=
  match n with
  | O => (0, 1)
  | S n' => let (a, b) := dleg_pair n' x in
            (b, ((2 * INR n' + 3) * (leg (S n') x + x * b) - (INR n' + 1) * a) / (INR n' + 2))
  end.
Definition dleg n x := fst (dleg_pair n x).
Lemma dleg_pair_snd n x : snd (dleg_pair n x) = dleg (S n) x.
Proof. unfold dleg. cbn [dleg_pair]. destruct (dleg_pair n x). reflexivity. Qed.
Lemma dleg_SS n x : dleg (S (S n)) x =
  ((2 * INR n + 3) * (leg (S n) x + x * dleg (S n) x) - (INR n + 1) * dleg n x) / (INR n + 2).
Proof.
  rewrite <- dleg_pair_snd. cbn [dleg_pair]. rewrite <- dleg_pair_snd. unfold dleg.
  destruct (dleg_pair n x). reflexivity.
Qed.

Lemma dleg_lim n x : derivable_pt_lim (leg n) x (dleg n x).
Proof.
  revert x. induction n as [| |n IH1 IH2] using pair_ind; intros x.
  - apply derivable_pt_lim_const.
  - eapply derivable_pt_lim_ext; [|apply derivable_pt_lim_id]. reflexivity.
  - rewrite dleg_SS.
    eapply (derivable_pt_lim_ext (fun t => (2 * INR n + 3) / (INR n + 2) * (t * leg (S n) t) - (INR n + 1) / (INR n + 2) * leg n t)).
    + intros t. rewrite leg_SS. pose proof (INR2 n). field. lra.
    + replace (((2 * INR n + 3) * (leg (S n) x + x * dleg (S n) x) - (INR n + 1) * dleg n x) / (INR n + 2)) with
        ((2 * INR n + 3) / (INR n + 2) * (1 * leg (S n) x + x * dleg (S n) x) - (INR n + 1) / (INR n + 2) * dleg n x)
        by (pose proof (INR2 n); field; lra).
      apply derivable_pt_lim_minus.
      * apply derivable_pt_lim_scal. apply derivable_pt_lim_mult; [apply derivable_pt_lim_id|apply IH2].
      * apply derivable_pt_lim_scal, IH1.
Qed.

Lemma dleg_two n x :
  x * dleg (S n) x - dleg n x = INR (S n) * leg (S n) x /\
  dleg (S n) x - x * dleg n x = INR (S n) * leg n x.
Proof.
  induction n as [|n [A B]].
  - unfold dleg, leg. cbn. lra.
  - rewrite !S_INR in *. pose proof (INR2 n) as Hn.
    assert (B' : dleg (S (S n)) x - x * dleg (S n) x = (INR n + 2) * leg (S n) x).
    { assert (E : dleg n x = x * dleg (S n) x - (INR n + 1) * leg (S n) x) by lra.
      rewrite dleg_SS, E. field. lra. }
    split; [|rewrite B'; ring].
    assert (C : (x * x - 1) * dleg (S n) x = (INR n + 1) * (x * leg (S n) x - leg n x)).
    { replace (dleg n x) with (x * dleg (S n) x - (INR n + 1) * leg (S n) x) in B by lra. nra. }
    assert (D : dleg (S (S n)) x = x * dleg (S n) x + (INR n + 2) * leg (S n) x) by lra.
    rewrite D. rewrite leg_SS. 
    replace ((INR n + 1 + 1) * (((2 * INR n + 3) * x * leg (S n) x - (INR n + 1) * leg n x) / (INR n + 2)))
      with ((2 * INR n + 3) * x * leg (S n) x - (INR n + 1) * leg n x) by (field; lra).
    nra.
Qed.

Lemma dleg_diff n x : dleg (S (S n)) x - dleg n x = (2 * INR n + 3) * leg (S n) x.
Proof.
  destruct (dleg_two n x) as [A _]. destruct (dleg_two (S n) x) as [_ B].
  rewrite !S_INR in *. lra.
Qed.

(* ---------------------------------------------------------------- *)
(** ** Coefficients *)

Fixpoint lc_pair (n : nat) : (nat -> R) * (nat -> R) :=
  match n with
  | O => ((fun j => if Nat.eqb j 0 then 1 else 0), (fun j => if Nat.eqb j 1 then 1 else 0))
  | S n' => let (a, b) := lc_pair n' in
            (b, fun j => ((2 * INR n' + 3) * (match j with O => 0 | S i => b i end) - (INR n' + 1) * a j) / (INR n' + 2))
  end.
Definition lc n := fst (lc_pair n).
Definition shift (f : nat -> R) (j : nat) := match j with O => 0 | S i => f i end.
Lemma lc_pair_snd n : snd (lc_pair n) = lc (S n).
Proof. unfold lc. cbn [lc_pair]. destruct (lc_pair n). reflexivity. Qed.
Lemma lc_SS n j : lc (S (S n)) j = ((2 * INR n + 3) * shift (lc (S n)) j - (INR n + 1) * lc n j) / (INR n + 2).
Proof.
  rewrite <- lc_pair_snd. cbn [lc_pair]. rewrite <- lc_pair_snd. unfold lc.
  destruct (lc_pair n). reflexivity.
Qed.

Lemma lc_zero n j : (forall k, n <> (j + 2 * k)%nat) -> lc n j = 0.
Proof.
  revert j. induction n as [| |n IH1 IH2] using pair_ind; intros j H.
  - unfold lc. cbn. destruct (Nat.eqb_spec j 0) as [->|]; [|reflexivity]. exfalso. apply (H 0%nat). lia.
  - unfold lc. cbn. destruct (Nat.eqb_spec j 1) as [->|]; [|reflexivity]. exfalso. apply (H 0%nat). lia.
  - rewrite lc_SS. pose proof (INR2 n).
    rewrite IH1 by (intros k Hk; apply (H (S k)); lia).
    replace (shift (lc (S n)) j) with 0; [field; lra|].
    destruct j as [|j]; [reflexivity|]. cbn [shift]. rewrite IH2; [reflexivity|].
    intros k Hk. apply (H k). lia.
Qed.

Lemma lc_big n j k : n = (j + 2 * k)%nat -> / (INR n + 1) <= (-1) ^ k * lc n j.
Proof.
  revert j k. induction n as [| |n IH1 IH2] using pair_ind; intros j k H.
  - assert (j = 0 /\ k = 0)%nat as [-> ->] by lia. unfold lc. cbn. lra.
  - assert (j = 1 /\ k = 0)%nat as [-> ->] by lia. unfold lc. cbn. lra.
  - rewrite lc_SS. pose proof (INR2 n) as Hn. pose proof (pos_INR n) as Hp. rewrite !S_INR.
    set (N := INR n) in *.
    assert (T1 : 0 < / (N + 1)) by (apply Rinv_0_lt_compat; lra).
    assert (T2 : 0 < / (N + 2)) by (apply Rinv_0_lt_compat; lra).
    assert (I1 : (N + 1) * / (N + 1) = 1) by (field; lra).
    assert (I2 : (N + 2) * / (N + 2) = 1) by (field; lra).
    destruct j as [|j].
    + (* j = 0 *)
      destruct k as [|k]; [lia|]. specialize (IH1 0%nat k ltac:(lia)). cbn [shift pow].
      replace (-1 * (-1) ^ k * (((2 * N + 3) * 0 - (N + 1) * lc n 0) / (N + 2)))
        with ((N + 1) * ((-1) ^ k * lc n 0) * / (N + 2)) by (field; lra).
      assert (1 <= (N + 1) * ((-1) ^ k * lc n 0)) by nra.
      assert (/ (N + 1 + 1 + 1) <= / (N + 2)) by (apply Rinv_le_contravar; lra).
      nra.
    + cbn [shift]. specialize (IH2 j k ltac:(lia)). rewrite S_INR in IH2. fold N in IH2.
      assert (A : 0 <= (-1) ^ k * (- lc n (S j))).
      { destruct k as [|k].
        - rewrite lc_zero by (intros k Hk; lia). lra.
        - specialize (IH1 (S j) k ltac:(lia)). cbn [pow]. nra. }
      replace ((-1) ^ k * (((2 * N + 3) * lc (S n) j - (N + 1) * lc n (S j)) / (N + 2)))
        with ((2 * N + 3) * ((-1) ^ k * lc (S n) j) * / (N + 2) + (N + 1) * ((-1) ^ k * (- lc n (S j))) * / (N + 2))
        by (field; lra).
      assert (0 <= (N + 1) * ((-1) ^ k * (- lc n (S j))) * / (N + 2)).
      { apply Rmult_le_pos; [|lra]. apply Rmult_le_pos; lra. }
      assert (X : / (N + 2) <= (-1) ^ k * lc (S n) j) by (replace (N + 2) with (N + 1 + 1) by ring; exact IH2).
      assert (Y : (2 * N + 3) * / (N + 2) * / (N + 2) <= (2 * N + 3) * ((-1) ^ k * lc (S n) j) * / (N + 2)).
      { apply Rmult_le_compat_r; [lra|]. apply Rmult_le_compat_l; lra. }
      assert (Z : / (N + 1 + 1 + 1) <= (2 * N + 3) * / (N + 2) * / (N + 2)).
      { apply (Rmult_le_reg_l (N + 3)); [lra|]. replace (N + 1 + 1 + 1) with (N + 3) by ring.
        replace ((N + 3) * / (N + 3)) with 1 by (field; lra).
        apply (Rmult_le_reg_r ((N + 2) * (N + 2))); [nra|].
        replace ((N + 3) * ((2 * N + 3) * / (N + 2) * / (N + 2)) * ((N + 2) * (N + 2))) with ((N + 3) * (2 * N + 3))
          by (field; lra). nra. }
      lra.
Qed.

Lemma lc_case n j : lc n j = 0 \/ (exists k, n = (j + 2 * k)%nat).
Proof.
  destruct (Nat.le_gt_cases j n) as [H|H].
  - destruct (Nat.Even_or_Odd (n - j)) as [[k E]|[k E]].
    + right. exists k. lia.
    + left. apply lc_zero. intros i Hi. lia.
  - left. apply lc_zero. intros i Hi. lia.
Qed.

Lemma pow_m1_abs k r : Rabs ((-1) ^ k * r) = Rabs r.
Proof. rewrite Rabs_mult, pow_1_abs. ring. Qed.

Lemma lc_case_abs n j : lc n j = 0 \/ / (INR n + 1) <= Rabs (lc n j).
Proof.
  destruct (lc_case n j) as [H|[k H]]; [left; exact H|right].
  rewrite <- (pow_m1_abs k). eapply Rle_trans; [apply lc_big, H|apply Rle_abs].
Qed.

(* ---------------------------------------------------------------- *)
(** ** The code computes them *)

Definition rscale (c : R) (p : rpoly) : rpoly := map (fun m : rmono => Mono (S:=RS) (malpha m) (c * (mcoef m : R))) p.
Definition rshift (p : rpoly) : rpoly :=
  map (fun m : rmono => Mono (S:=RS) (MI (S (mx (malpha m))) (my (malpha m))) (mcoef m)) p.

Lemma coef_rscale c p a b : coef (rscale c p) a b = c * coef p a b.
Proof.
  induction p as [|m p IH]; cbn [rscale map coef]; [ring|]. fold (rscale c p). rewrite IH.
  cbn [malpha mcoef]. destruct (_ && _)%bool; rring.
Qed.
Lemma value_rscale c p x y : value (rscale c p) x y = c * value p x y.
Proof. induction p as [|m p IH]; cbn [rscale map value]; [ring|]. fold (rscale c p). rewrite IH. cbn [malpha mcoef]. rring. Qed.
Lemma coef_rshift p a b : coef (rshift p) a b = match a with O => 0 | S i => coef p i b end.
Proof.
  induction p as [|m p IH]; [destruct a; reflexivity|]. cbn [rshift map coef]. fold (rshift p). rewrite IH.
  cbn [malpha mcoef mx my]. destruct a as [|a]; [cbn; ring|]. cbn [Nat.eqb]. reflexivity.
Qed.
Lemma value_rshift p x y : value (rshift p) x y = x * value p x y.
Proof. induction p as [|m p IH]; cbn [rshift map value]; [ring|]. fold (rshift p). rewrite IH. cbn [malpha mcoef mx my pow]. rring. Qed.

(** A polynomial that is P_n in x. *)
Definition isP (n : nat) (p : rpoly) : Prop :=
  canonical p /\ forall a b, coef p a b = if Nat.eqb b 0 then lc n a else 0.

(** Lists with the coefficients of P_n (not necessarily canonical). *)
Definition hasP (n : nat) (p : rpoly) : Prop :=
  forall a b, coef p a b = if Nat.eqb b 0 then lc n a else 0.

Fixpoint pl (n : nat) : rpoly * rpoly :=
  match n with
  | O => ([rmon 1 0 0], [rmon 1 1 0])
  | S n' => let (p, q) := pl n' in
      (q, rscale ((2 * INR n' + 3) / (INR n' + 2)) (rshift q) ++ rscale (- ((INR n' + 1) / (INR n' + 2))) p)
  end.
Lemma pl_ok n : (hasP n (fst (pl n)) /\ hasP (S n) (snd (pl n))) /\
  forall x y, value (fst (pl n)) x y = leg n x /\ value (snd (pl n)) x y = leg (S n) x.
Proof.
  induction n as [|n [[IH1 IH2] IHv]].
  - split; [split|].
    + intros a b. unfold lc. cbn. destruct a, b; cbn; ring.
    + intros a b. unfold lc. cbn. destruct a as [|[|a]], b; cbn; ring.
    + intros x y. rewrite leg_0, leg_1. cbn. split; ring.
  - cbn [pl]. destruct (pl n) as [p q]. cbn [fst snd] in *. pose proof (INR2 n) as Hn.
    split; [split; [exact IH2|]|].
    + intros a b. rewrite coef_app, !coef_rscale, coef_rshift, IH1. rewrite lc_SS.
      destruct a as [|a]; [|rewrite IH2]; destruct (Nat.eqb b 0); cbn [shift]; field; lra.
    + intros x y. destruct (IHv x y) as [V1 V2]. split; [exact V2|].
      rewrite value_app, !value_rscale, value_rshift, V1, V2, leg_SS. field. lra.
Qed.

Lemma hasP_value n p x y : hasP n p -> value p x y = leg n x.
Proof.
  intros H. rewrite (value_coef_ext p (fst (pl n))).
  - apply (pl_ok n).
  - intros a b. rewrite H. symmetry. apply (pl_ok n).
Qed.

Lemma cutoff_keep c : c = 0 \/ tol <= Rabs c -> cutoff c = c.
Proof. intros [->|H]; [apply cutoff_zero|apply cutoff_id, H]. Qed.

Lemma lc_keep n j c : 0 < c -> tol <= c * / (INR n + 1) -> cutoff (c * lc n j) = c * lc n j.
Proof.
  intros Hc Ht. apply cutoff_keep. destruct (lc_case_abs n j) as [->|H]; [left; ring|right].
  rewrite Rabs_mult, (Rabs_right c) by lra. nra.
Qed.

Lemma coef_mul_x p q a b c : canonical p -> canonical q ->
  (forall a b, coef p a b = if (Nat.eqb a 1 && Nat.eqb b 0)%bool then c else 0) ->
  coef (pmul RS p q) a b = cutoff (match a with O => 0 | S i => cutoff (c * coef q i b) end).
Proof.
  intros Hp Hq Hc. rewrite coef_pmul by assumption. f_equal. destruct a as [|a].
  - cbn [sum_f_R0]. apply sum_eq0. intros j _. rewrite Hc. cbn [Nat.eqb andb]. rewrite Rmult_0_l. apply cutoff_zero.
  - rewrite (sum_single _ _ 1%nat); [|lia|].
    + rewrite (sum_single _ _ 0%nat); [|lia|].
      * rewrite Hc. cbn [Nat.eqb andb]. rewrite !Nat.sub_0_r, Nat.sub_succ, Nat.sub_0_r. reflexivity.
      * intros j Hj Hne. rewrite Hc. destruct (Nat.eqb_spec j 0); [contradiction|]. cbn [Nat.eqb andb].
        rewrite Rmult_0_l. apply cutoff_zero.
    + intros i Hi Hne. apply sum_eq0. intros j _. rewrite Hc.
      destruct (Nat.eqb_spec i 1); [contradiction|]. cbn [andb]. rewrite Rmult_0_l. apply cutoff_zero.
Qed.

Lemma tol_lt1 : tol < 1 / 1000. Proof. unfold tol. lra. Qed.

Lemma IZR_2n1 n : IZR (2 * Z.of_nat (S (S n)) - 1) = 2 * INR n + 3.
Proof. rewrite minus_IZR, mult_IZR, <- INR_IZR_INZ, !S_INR. ring. Qed.
Lemma IZR_n1 n : IZR (Z.of_nat (S (S n)) - 1) = INR n + 1.
Proof. rewrite minus_IZR, <- INR_IZR_INZ, !S_INR. ring. Qed.
Lemma IZR_n n : IZR (Z.of_nat (S (S n))) = INR n + 2.
Proof. rewrite <- INR_IZR_INZ, !S_INR. ring. Qed.

Lemma leg_next_ok n x p1 p2 : isP 1 x -> isP (S n) p1 -> isP n p2 -> tol <= / (INR n + 3) ->
  isP (S (S n)) (leg_next (S (S n)) x p1 p2).
Proof.
  intros [Cx Hx] [C1 H1] [C2 H2] Ht. unfold leg_next. rewrite IZR_2n1, IZR_n1, IZR_n.
  pose proof (INR2 n) as Hn. pose proof (pos_INR n) as Hp. pose proof tol_lt1 as Hl. pose proof tol_pos as Htp.
  set (N := INR n) in *.
  assert (T3 : / (N + 3) <= / (N + 2)) by (apply Rinv_le_contravar; lra).
  assert (T2 : / (N + 2) <= / (N + 1)) by (apply Rinv_le_contravar; lra).
  assert (P3 : 0 < / (N + 3)) by (apply Rinv_0_lt_compat; lra).
  assert (I1 : (N + 1) * / (N + 1) = 1) by (field; lra).
  assert (I2 : (N + 2) * / (N + 2) = 1) by (field; lra).
  assert (CA : canonical (pscale RS x (2 * N + 3))) by (apply pscale_canonical; exact Cx).
  set (A := pscale RS x (2 * N + 3)) in *.
  assert (HA : forall a b, coef A a b = if (Nat.eqb a 1 && Nat.eqb b 0)%bool then 2 * N + 3 else 0).
  { intros a b. unfold A. rewrite coef_pscale by exact Cx. rewrite Hx.
    unfold lc. cbn [lc_pair fst]. destruct (Nat.eqb b 0), (Nat.eqb a 1); cbn [andb];
      rewrite ?Rmult_0_l, ?cutoff_zero, ?Rmult_1_l; try reflexivity.
    apply cutoff_id. rewrite Rabs_right by lra. lra. }
  assert (CB : canonical (pmul RS A p1)) by apply consolidate_canonical.
  assert (HB : forall a b, coef (pmul RS A p1) a b = if Nat.eqb b 0 then (2 * N + 3) * shift (lc (S n)) a else 0).
  { intros a b. rewrite (coef_mul_x A p1 a b (2 * N + 3) CA C1 HA).
    destruct a as [|a]; cbn [shift].
    - rewrite cutoff_zero. destruct (Nat.eqb b 0); ring.
    - rewrite H1. destruct (Nat.eqb b 0).
      + rewrite (lc_keep (S n) a (2 * N + 3)).
        * rewrite (lc_keep (S n) a (2 * N + 3)); [reflexivity|lra|]. rewrite S_INR. fold N.
          replace (N + 1 + 1) with (N + 2) by ring. nra.
        * lra.
        * rewrite S_INR. fold N. replace (N + 1 + 1) with (N + 2) by ring. nra.
      + rewrite Rmult_0_r, !cutoff_zero. reflexivity. }
  assert (CC : canonical (pscale RS p2 (N + 1))) by (apply pscale_canonical; exact C2).
  assert (HC : forall a b, coef (pscale RS p2 (N + 1)) a b = if Nat.eqb b 0 then (N + 1) * lc n a else 0).
  { intros a b. rewrite coef_pscale, H2 by exact C2. destruct (Nat.eqb b 0).
    - rewrite Rmult_comm. apply lc_keep; [lra|]. fold N. rewrite I1. lra.
    - rewrite Rmult_0_l. apply cutoff_zero. }
  set (B := pmul RS A p1) in *. set (C := pscale RS p2 (N + 1)) in *.
  assert (CD : canonical (psub RS B C)) by apply consolidate_canonical.
  assert (HD : forall a b, coef (psub RS B C) a b = if Nat.eqb b 0 then (N + 2) * lc (S (S n)) a else 0).
  { intros a b. rewrite coef_psub, HB, HC by assumption. destruct (Nat.eqb b 0).
    - replace ((2 * N + 3) * shift (lc (S n)) a - (N + 1) * lc n a) with ((N + 2) * lc (S (S n)) a)
        by (rewrite lc_SS; fold N; field; lra).
      apply lc_keep; [lra|]. rewrite !S_INR. fold N. replace (N + 1 + 1 + 1) with (N + 3) by ring. nra.
    - rewrite Rminus_0_r. apply cutoff_zero. }
  split; [apply pscale_canonical; exact CD|].
  intros a b. rewrite coef_pscale, HD by exact CD. destruct (Nat.eqb b 0).
  - replace ((N + 2) * lc (S (S n)) a * (1 / (N + 2))) with (1 * lc (S (S n)) a) by (field; lra).
    rewrite lc_keep; [ring|lra|]. rewrite !S_INR. fold N. replace (N + 1 + 1 + 1) with (N + 3) by ring. lra.
  - rewrite Rmult_0_l. apply cutoff_zero.
Qed.

Lemma isP_0 : isP 0 (mkpoly RS [(1, 0%nat, 0%nat)]).
Proof.
  split; [apply mkpoly_canonical|]. intros a b. rewrite coef_mkpoly. cbn [fold_right].
  unfold lc. cbn [lc_pair fst]. rewrite (cutoff_id 1) by (rewrite Rabs_R1; pose proof tol_lt1; lra).
  destruct a, b; cbn [Nat.eqb andb]; rewrite Rplus_0_r; try apply cutoff_zero.
  apply cutoff_id. rewrite Rabs_R1. pose proof tol_lt1; lra.
Qed.
Lemma isP_1 : isP 1 (mkpoly RS [(1, 1%nat, 0%nat)]).
Proof.
  split; [apply mkpoly_canonical|]. intros a b. rewrite coef_mkpoly. cbn [fold_right].
  unfold lc. cbn [lc_pair fst]. rewrite (cutoff_id 1) by (rewrite Rabs_R1; pose proof tol_lt1; lra).
  destruct a as [|[|a]], b; cbn [Nat.eqb andb]; rewrite Rplus_0_r; try apply cutoff_zero.
  apply cutoff_id. rewrite Rabs_R1. pose proof tol_lt1; lra.
Qed.

Lemma legendre_list (k : nat) : (tol <= / (INR k + 2)) ->
  let l := fold_left leg_step (seq 2 k) leg_init in
  length l = (k + 2)%nat /\ forall n, (n < k + 2)%nat -> isP n (nth n l []).
Proof.
  induction k as [|k IH]; intros Ht.
  - cbn. split; [reflexivity|]. intros [|[|n]] H; [apply isP_0|apply isP_1|lia].
  - rewrite seq_S, fold_left_app. cbn [fold_left]. rewrite S_INR in Ht. pose proof (pos_INR k) as Hk.
    assert (Ht' : tol <= / (INR k + 2)).
    { eapply Rle_trans; [exact Ht|]. apply Rinv_le_contravar; lra. }
    destruct (IH Ht') as [Hlen Hn].
    cbv zeta in *. set (l := fold_left leg_step (seq 2 k) leg_init) in *. unfold leg_step at 1 2.
    split; [rewrite app_length, Hlen; cbn; lia|].
    intros n H. destruct (Nat.eq_dec n (k + 2)) as [->|Hne].
    + rewrite app_nth2, Hlen by lia. replace (k + 2 - (k + 2))%nat with 0%nat by lia. cbn [nth].
      replace (2 + k)%nat with (S (S k)) by lia.
      replace (k + 2)%nat with (S (S k)) by lia.
      replace (S (S k) - 1)%nat with (S k) by lia. replace (S (S k) - 2)%nat with k by lia.
      apply leg_next_ok; [apply Hn; lia|apply Hn; lia|apply Hn; lia|].
      replace (INR k + 3) with (INR k + 1 + 2) by ring. exact Ht.
    + rewrite app_nth1 by lia. apply Hn. lia.
Qed.

Lemma legendre_ok deg : tol <= / (INR deg + 1) -> forall n, (n <= deg)%nat ->
  isP n (nth n (legendre_polynomials deg) []).
Proof.
  intros Ht n Hn. unfold legendre_polynomials.
  destruct deg as [|deg].
  - assert (n = 0%nat) as -> by lia. cbn. apply isP_0.
  - rewrite S_INR in Ht. apply (legendre_list (S deg - 1)).
    + replace (S deg - 1)%nat with deg by lia. replace (INR deg + 2) with (INR deg + 1 + 1) by ring. exact Ht.
    + lia.
Qed.
Lemma legendre_length deg : length (legendre_polynomials deg) = Nat.max 2 (deg + 1).
Proof.
  unfold legendre_polynomials.
  assert (G : forall (k s : nat) l, length (fold_left leg_step (seq s k) l) = (length l + k)%nat).
  { induction k as [|k IH]; intros s l; cbn [seq fold_left]; [lia|]. rewrite IH. unfold leg_step.
    rewrite app_length. cbn [length]. lia. }
  rewrite G. cbn [leg_init length]. lia.
Qed.
