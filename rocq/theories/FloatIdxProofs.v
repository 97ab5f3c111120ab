(** Rounding analysis for FloatIdxModel.v. *)
From Coq Require Import List ZArith Reals Lia Lra Psatz.
From Flocq Require Import Core BinarySingleNaN.
From Verif Require Import PyBase PolyModel PolyProofs FloatIdxModel.
Import ListNotations.
Open Scope R_scope.

Notation fe := (SpecFloat.fexp 53 1024).
Notation RN := (round radix2 fe ZnearestE).
Notation GF := (generic_format radix2 fe).

#[local] Instance ve : Valid_exp fe := BinarySingleNaN.fexp_correct 53 1024 prec53.

Ltac cst k := match k with Zpos ?p => idtac | Z0 => idtac end.
Ltac pw := repeat match goal with
  | |- context [Z.pow 2 ?k] => cst k; let v := eval vm_compute in (Z.pow 2 k) in change (Z.pow 2 k) with v
  | H : context [Z.pow 2 ?k] |- _ => cst k; let v := eval vm_compute in (Z.pow 2 k) in change (Z.pow 2 k) with v in H
  end.

Lemma fe_eq e : fe e = Z.max (e - 53) (-1074).
Proof. reflexivity. Qed.

Lemma gf_int m e : (Z.abs m < 2 ^ 53)%Z -> (-1074 <= e)%Z -> GF (IZR m * bpow radix2 e).
Proof.
  intros Hm He. change fe with (FLT_exp (-1074) 53). apply generic_format_FLT.
  exists (Float radix2 m e); [reflexivity|exact Hm|exact He].
Qed.

Lemma gf_Z m : (Z.abs m < 2 ^ 53)%Z -> GF (IZR m).
Proof. intros H. replace (IZR m) with (IZR m * bpow radix2 0) by (cbn; ring). apply gf_int; [exact H|lia]. Qed.

(** Positive numbers below 2^e have a half-ulp at most 2^(e-54). *)
Lemma rn_err v e : 0 < v < bpow radix2 e -> (-1000 <= e)%Z -> Rabs (RN v - v) <= bpow radix2 (e - 54).
Proof.
  intros [H0 H1] He. eapply Rle_trans; [apply error_le_half_ulp; exact ve|].
  rewrite ulp_neq_0 by lra. unfold cexp.
  assert (M : (mag radix2 v <= e)%Z) by (apply mag_le_bpow; [lra|rewrite Rabs_right by lra; exact H1]).
  apply Rle_trans with (/ 2 * bpow radix2 (e - 53)).
  - apply Rmult_le_compat_l; [lra|]. apply bpow_le. rewrite fe_eq. lia.
  - right. change (/ 2) with (bpow radix2 (-1)). rewrite <- bpow_plus. f_equal. lia.
Qed.

Lemma rn_ge v u : GF u -> u <= v -> u <= RN v.
Proof. intros. apply round_ge_generic; try assumption; [exact ve|apply valid_rnd_N]. Qed.
Lemma rn_le v u : GF u -> v <= u -> RN v <= u.
Proof. intros. apply round_le_generic; try assumption; [exact ve|apply valid_rnd_N]. Qed.
Lemma rn_id v : GF v -> RN v = v.
Proof. intros. apply round_generic; [apply valid_rnd_N|assumption]. Qed.

(** Rounded square roots of numbers just below m^2 stay below m. *)
Lemma sqrt_below (m q : R) c e : 0 < m < bpow radix2 e -> (1 <= e)%Z -> 0 < q -> 0 <= c ->
  q < (m - c) * (m - c) -> c <= m -> bpow radix2 (e - 54) <= c -> RN (sqrt q) < m.
Proof.
  intros [M0 M1] He Hq Hc H Hcm Hb.
  assert (S : sqrt q < m - c).
  { rewrite <- (sqrt_square (m - c)) by lra. apply sqrt_lt_1_alt. lra. }
  assert (S0 : 0 < sqrt q) by (apply sqrt_lt_R0; exact Hq).
  pose proof (rn_err (sqrt q) e) as E.
  assert (sqrt q < bpow radix2 e) by lra. specialize (E (conj S0 H0) ltac:(lia)).
  apply Rabs_le_inv in E. lra.
Qed.

Lemma bp (e : Z) : (0 <= e)%Z -> bpow radix2 e = IZR (2 ^ e).
Proof. intros H. rewrite <- IZR_Zpower by exact H. reflexivity. Qed.
Lemma bn (e : Z) : (0 <= e)%Z -> bpow radix2 (- e) = / IZR (2 ^ e).
Proof. intros H. rewrite bpow_opp, bp by exact H. reflexivity. Qed.

(** RN (8k+1) for k below 2^53. *)
Lemma rn_s_lower k : (0 <= k < 2 ^ 53)%Z -> IZR (8 * k) <= RN (IZR (8 * k + 1)).
Proof.
  intros H. apply rn_ge; [|apply IZR_le; lia].
  replace (IZR (8 * k)) with (IZR k * bpow radix2 3) by (rewrite mult_IZR; cbn; ring). apply gf_int; lia.
Qed.
Lemma rn_s_exact k : (0 <= k)%Z -> (8 * k + 1 < 2 ^ 53)%Z -> RN (IZR (8 * k + 1)) = IZR (8 * k + 1).
Proof. intros. apply rn_id, gf_Z. lia. Qed.
Lemma rn_s_mid k : (0 <= k)%Z -> (8 * k + 1 < 2 ^ 54)%Z -> RN (IZR (8 * k + 1)) <= IZR (8 * k + 2).
Proof.
  intros. apply rn_le; [|apply IZR_le; lia].
  replace (IZR (8 * k + 2)) with (IZR (4 * k + 1) * bpow radix2 1); [apply gf_int; lia|].
  replace (8 * k + 2)%Z with ((4 * k + 1) * 2)%Z by lia. rewrite mult_IZR. reflexivity.
Qed.
(** Above 2^(52+j) the gap to the next double is at least 2^j. *)
Lemma rn_gap u v j : GF u -> bpow radix2 (j + 52) <= u -> (0 <= j)%Z -> v < u + bpow radix2 (j - 1) -> RN v <= u.
Proof.
  intros Hu Hj Hp Hv. apply round_N_le_midp; [exact ve|exact Hu|].
  assert (0 < u) by (eapply Rlt_le_trans; [apply (bpow_gt_0 radix2)|exact Hj]).
  rewrite succ_eq_pos by lra. rewrite ulp_neq_0 by lra. unfold cexp.
  assert (M : (j + 53 <= mag radix2 u)%Z).
  { apply mag_ge_bpow. rewrite Rabs_right by lra. replace (j + 53 - 1)%Z with (j + 52)%Z by lia. exact Hj. }
  assert (B : bpow radix2 j <= bpow radix2 (fe (mag radix2 u))) by (apply bpow_le; rewrite fe_eq; lia).
  assert (B2 : bpow radix2 j = 2 * bpow radix2 (j - 1)).
  { replace j with (1 + (j - 1))%Z at 1 by lia. rewrite bpow_plus. reflexivity. }
  lra.
Qed.
Lemma rn_s_high k : (2 ^ 54 <= 8 * k)%Z -> (k < 2 ^ 53)%Z -> RN (IZR (8 * k + 1)) <= IZR (8 * k).
Proof.
  intros L H. apply (rn_gap _ _ 2).
  - replace (IZR (8 * k)) with (IZR k * bpow radix2 3) by (rewrite mult_IZR; cbn; ring). apply gf_int; lia.
  - rewrite bp by lia. apply IZR_le. pw. lia.
  - lia.
  - rewrite plus_IZR. cbn. lra.
Qed.

(** The two bounds on the rounded square root. [n] is odd, n^2 <= 8k+1 < (n+2)^2. *)
Section Root.
Variables (k t : Z).
Hypothesis (Ht : (0 <= t)%Z) (H1 : (t * (t + 1) <= 2 * k)%Z) (H2 : (2 * k <= (t + 1) * (t + 2) - 2)%Z).
Let n : Z := (2 * t + 1)%Z.
Let r : R := RN (sqrt (RN (IZR (8 * k + 1)))).

Lemma k_nonneg : (0 <= k)%Z. Proof. nia. Qed.

Lemma root_upper : (k < 2 ^ 53)%Z -> r < IZR (n + 2).
Proof.
  intros Hk. pose proof k_nonneg as K0. set (m := (n + 2)%Z).
  assert (Hm : (8 * k + 1 <= m * m - 8)%Z) by (unfold m, n; nia).
  assert (Hm3 : (3 <= m)%Z) by (unfold m, n; lia).
  destruct (Z_lt_le_dec t (2 ^ 27 - 1)) as [Htop|Htop].
  2:{ apply Rle_lt_trans with (IZR (2 ^ 28)); [|apply IZR_lt; unfold m, n; pw; lia].
    apply rn_le; [apply gf_Z; pw; lia|]. rewrite <- (sqrt_square (IZR (2 ^ 28))) by (apply IZR_le; pw; lia).
    apply sqrt_le_1_alt. rewrite <- mult_IZR. change (2 ^ 28 * 2 ^ 28)%Z with (2 ^ 56)%Z. apply rn_le.
    - rewrite <- bp by lia. replace (bpow radix2 56) with (IZR 1 * bpow radix2 56) by ring. apply gf_int; pw; lia.
    - apply IZR_le. pw. lia. }
  assert (Hmt : (m < 2 ^ 28)%Z) by (unfold m, n; pw; lia).
  assert (R8 : 0 < RN (IZR (8 * k + 1))).
  { apply Rlt_le_trans with 1; [lra|]. apply (rn_ge _ 1); [apply (gf_Z 1); reflexivity|apply IZR_le; lia]. }
  assert (P : forall e c q, (m < 2 ^ e)%Z -> (1 <= e <= 28)%Z -> RN (IZR (8 * k + 1)) <= q -> q <= IZR m * IZR m - 7 ->
     2 * c * IZR m <= IZR m * IZR m - q -> 0 < c -> c <= IZR m -> bpow radix2 (e - 54) <= c -> r < IZR m).
  { intros e c q He He' Hq Hq7 Hc C0 Cm Cb. apply (sqrt_below (IZR m) _ c e); try lra; try lia.
    - split; [apply (IZR_lt 0); lia|]. rewrite bp by lia. apply IZR_lt. exact He.
    - nra. }
  assert (Hmm : IZR (8 * k + 1) <= IZR m * IZR m - 8).
  { rewrite <- mult_IZR, <- minus_IZR. apply IZR_le. exact Hm. }
  assert (M3 : 3 <= IZR m) by (apply IZR_le; exact Hm3).
  assert (M28 : IZR m <= 268435455) by (apply IZR_le; pw; lia).
  assert (Inv : forall c, 0 <= c -> 2 * (c / IZR m) * IZR m = 2 * c) by (intros; field; lra).
  assert (Ic : forall c, 0 < c -> 0 < c / IZR m) by (intros; apply Rdiv_lt_0_compat; lra).
  assert (Il : forall c, 0 < c -> c <= 8 -> c / IZR m <= IZR m).
  { intros c C0 C8. apply Rmult_le_reg_r with (IZR m); [lra|]. replace (c / IZR m * IZR m) with c by (field; lra). nra. }
  (* choose e with 2^(e-1) < m < 2^e *)
  assert (Hb : forall c e, (0 <= e <= 54)%Z -> IZR m * / IZR (2 ^ (54 - e)) <= c -> bpow radix2 (e - 54) <= c / IZR m).
  { intros c e He Hce. replace (e - 54)%Z with (- (54 - e))%Z by lia. rewrite bn by lia.
    apply Rmult_le_reg_r with (IZR m); [lra|]. replace (c / IZR m * IZR m) with c by (field; lra). lra. }
  destruct (Z_lt_le_dec (8 * k + 1) (2 ^ 53)) as [L|L].
  - (* exact *)
    rewrite <- (rn_s_exact k K0 L) in Hmm.
    apply (P 28%Z (4 / IZR m) (IZR m * IZR m - 8)); try lra; try lia.
    + rewrite Inv by lra. lra.
    + apply Ic; lra.
    + apply Il; lra.
    + apply Hb; [lia|]. change (54 - 28)%Z with 26%Z; pw; lra.
  - destruct (Z_lt_le_dec (8 * k + 1) (2 ^ 54)) as [L4|L4].
    + pose proof (rn_s_mid k K0 L4) as B.
      assert (m <= 134217729)%Z.
      { unfold m, n in *. pw. nia. }
      assert (MB : IZR m <= 134217729) by (apply (IZR_le _ 134217729); assumption).
      apply (P 28%Z (7 / 2 / IZR m) (IZR m * IZR m - 7)); try lra; try lia.
      * eapply Rle_trans; [exact B|]. rewrite !plus_IZR in *. lra.
      * rewrite Inv by lra. lra.
      * apply Ic; lra.
      * apply Il; lra.
      * apply Hb; [lia|]. change (54 - 28)%Z with 26%Z; pw; lra.
    + assert (B : RN (IZR (8 * k + 1)) <= IZR (8 * k)) by (apply rn_s_high; pw; lia).
      apply (P 28%Z (4 / IZR m) (IZR m * IZR m - 8)); try lra; try lia.
      * eapply Rle_trans; [exact B|]. rewrite plus_IZR in Hmm. lra.
      * rewrite Inv by lra. lra.
      * apply Ic; lra.
      * apply Il; lra.
      * apply Hb; [lia|]. change (54 - 28)%Z with 26%Z; pw; lra.
Qed.

Lemma root_lower : (k < 2 ^ 53)%Z -> IZR n <= r.
Proof.
  intros Hk. pose proof k_nonneg as K0.
  assert (Hn : (n * n <= 8 * k + 1)%Z) by (unfold n; nia).
  assert (N1 : (1 <= n)%Z) by (unfold n; lia).
  assert (Hn28 : (n < 2 ^ 28)%Z) by (pw; nia).
  assert (Fn : GF (IZR n)) by (apply gf_Z; pw; lia).
  assert (M1 : 1 <= IZR n) by (apply IZR_le; exact N1).
  assert (HnR : IZR n * IZR n <= IZR (8 * k + 1)) by (rewrite <- mult_IZR; apply IZR_le; exact Hn).
  destruct (Z_lt_le_dec (8 * k + 1) (2 ^ 53)) as [L|L].
  - unfold r. rewrite rn_s_exact by assumption. apply rn_ge; [exact Fn|].
    rewrite <- (sqrt_square (IZR n)) by lra. apply sqrt_le_1_alt. exact HnR.
  - pose proof (rn_s_lower k (conj K0 Hk)) as B.
    assert (Hn26 : (94906264 <= n)%Z).
    { assert ((2 ^ 53 <= (n + 2) * (n + 2) - 8)%Z) by (unfold n; pw; nia). pw. unfold n in *. nia. }
    assert (HnL : IZR 94906264 <= IZR n) by (apply IZR_le; exact Hn26).
    apply round_N_ge_midp; [exact ve|exact Fn|].
    rewrite pred_eq_pos by lra. unfold pred_pos.
    assert (Hodd : forall e, (1 <= e)%Z -> IZR n <> bpow radix2 e).
    { intros e He Q. rewrite bp in Q by lia. apply eq_IZR in Q. replace e with (1 + (e - 1))%Z in Q by lia.
      rewrite Z.pow_add_r in Q by lia. unfold n in Q. change (2 ^ 1)%Z with 2%Z in Q. lia. }
    assert (Mg : (27 <= mag radix2 (IZR n))%Z).
    { apply mag_ge_bpow. rewrite Rabs_right by lra. change (27 - 1)%Z with 26%Z. rewrite bp by lia. apply IZR_le. pw. lia. }
    destruct (Req_bool_spec (IZR n) (bpow radix2 (mag radix2 (IZR n) - 1))) as [Q|_].
    { exfalso. revert Q. apply Hodd. lia. }
    rewrite ulp_neq_0 by lra. unfold cexp.
    assert (Bu : / IZR (2 ^ 26) <= bpow radix2 (fe (mag radix2 (IZR n)))).
    { rewrite <- bn by lia. apply bpow_le. rewrite fe_eq. lia. }
    apply Rlt_le_trans with (IZR n - 6 / 10 / IZR n).
    + assert (6 / 10 / IZR n < / 2 * / IZR (2 ^ 26)); [|lra].
      apply Rmult_lt_reg_r with (IZR n); [lra|]. replace (6 / 10 / IZR n * IZR n) with (6 / 10) by (field; lra).
      pw. lra.
    + rewrite <- (sqrt_square (IZR n - 6 / 10 / IZR n)).
      2:{ assert (6 / 10 / IZR n <= 1); [|lra]. apply Rmult_le_reg_r with (IZR n); [lra|].
          replace (6 / 10 / IZR n * IZR n) with (6 / 10) by (field; lra). lra. }
      apply sqrt_le_1_alt. eapply Rle_trans; [|exact B].
      replace ((IZR n - 6 / 10 / IZR n) * (IZR n - 6 / 10 / IZR n)) with (IZR n * IZR n - 12 / 10 + (6 / 10 / IZR n) * (6 / 10 / IZR n)) by (field; lra).
      rewrite plus_IZR in HnR.
      assert ((6 / 10 / IZR n) * (6 / 10 / IZR n) <= 2 / 10); [|lra].
      assert (Z0 : 0 <= 6 / 10 / IZR n) by (apply Rlt_le, Rdiv_lt_0_compat; lra).
      assert (Z1 : 6 / 10 / IZR n <= 1 / 10).
      { apply Rmult_le_reg_r with (IZR n); [lra|]. replace (6 / 10 / IZR n * IZR n) with (6 / 10) by (field; lra). lra. }
      nra.
Qed.

(** The last block, between 2^53 and the first failing index. *)
Lemma root_top : (2 ^ 53 <= k < 2 ^ 53 + 2 ^ 26 - 1)%Z -> IZR n <= r < IZR (n + 2).
Proof.
  intros [Ka Kb]. assert (Et : t = 134217727%Z) by (pw; nia).
  unfold n, r. rewrite Et. change (2 * 134217727 + 1)%Z with 268435455%Z. change (268435455 + 2)%Z with 268435457%Z.
  set (F := IZR (2 ^ 52 + 2 ^ 25 - 1) * bpow radix2 4).
  assert (GFF : GF F) by (apply gf_int; pw; lia).
  assert (EF : F = 72057594574798832) by (unfold F; rewrite bp by lia; rewrite <- mult_IZR; reflexivity).
  assert (U : RN (IZR (8 * k + 1)) <= F).
  { apply (rn_gap _ _ 4); [exact GFF| |lia|].
    - rewrite EF, bp by lia. apply IZR_le. pw. lia.
    - rewrite EF, bp by lia. rewrite <- plus_IZR. apply IZR_lt. pw. lia. }
  assert (L : IZR (2 ^ 56) <= RN (IZR (8 * k + 1))).
  { apply rn_ge; [|apply IZR_le; pw; lia]. rewrite <- bp by lia. replace (bpow radix2 56) with (IZR 1 * bpow radix2 56) by ring.
    apply gf_int; pw; lia. }
  split.
  - apply Rle_trans with (IZR (2 ^ 28)); [apply IZR_le; pw; lia|]. apply rn_ge; [apply gf_Z; pw; lia|].
    rewrite <- (sqrt_square (IZR (2 ^ 28))) by (apply IZR_le; pw; lia). apply sqrt_le_1_alt.
    rewrite <- mult_IZR. exact L.
  - apply (sqrt_below _ _ (/ IZR (2 ^ 25)) 29).
    + split; [lra|]. rewrite bp by lia. apply IZR_lt. pw. lia.
    + lia.
    + pw. lra.
    + pw. lra.
    + eapply Rle_lt_trans; [exact U|]. rewrite EF. pw. lra.
    + pw. lra.
    + change (29 - 54)%Z with (- (25))%Z. rewrite bn by lia. lra.
Qed.

Lemma root_bounds : (k < 2 ^ 53 + 2 ^ 26 - 1)%Z -> IZR n <= r < IZR (n + 2).
Proof.
  intros H. destruct (Z_lt_le_dec k (2 ^ 53)) as [L|L].
  - split; [apply root_lower, L|apply root_upper, L].
  - apply root_top. split; assumption.
Qed.
End Root.

(** The subtraction and the halving are exact. *)
Lemma sub_half_exact r : GF r -> 1 <= r < bpow radix2 53 -> GF (r - 1) /\ GF ((r - 1) / 2).
Proof.
  intros G [R1 R2]. set (c := cexp radix2 fe r). set (m := Ztrunc (scaled_mantissa radix2 fe r)).
  assert (E : r = IZR m * bpow radix2 c) by exact G.
  assert (M1 : (1 <= mag radix2 r)%Z) by (apply mag_ge_bpow; rewrite Rabs_right by lra; cbn; lra).
  assert (M2 : (mag radix2 r <= 53)%Z) by (apply mag_le_bpow; [lra|rewrite Rabs_right by lra; exact R2]).
  assert (C : c = (mag radix2 r - 53)%Z) by (unfold c, cexp; rewrite fe_eq; lia).
  assert (Hr : r < bpow radix2 (mag radix2 r)).
  { eapply Rle_lt_trans; [apply Rle_abs|]. apply bpow_mag_gt. }
  assert (One : bpow radix2 (- c) * bpow radix2 c = 1) by (rewrite <- bpow_plus; replace (- c + c)%Z with 0%Z by lia; reflexivity).
  assert (Cp : 0 < bpow radix2 c) by apply bpow_gt_0.
  assert (IM : IZR m < IZR (2 ^ 53)).
  { rewrite <- bp by lia. apply Rmult_lt_reg_r with (bpow radix2 c); [exact Cp|]. rewrite <- E, <- bpow_plus.
    replace (53 + c)%Z with (mag radix2 r + 0)%Z by lia. rewrite Z.add_0_r. exact Hr. }
  apply lt_IZR in IM.
  set (u := (2 ^ (- c))%Z).
  assert (Eu : IZR u = bpow radix2 (- c)) by (symmetry; apply bp; lia).
  assert (Hum : (u <= m)%Z).
  { apply le_IZR. rewrite Eu. apply Rmult_le_reg_r with (bpow radix2 c); [exact Cp|]. rewrite One, <- E. exact R1. }
  assert (U0 : (0 < u)%Z) by (apply Z.pow_pos_nonneg; lia).
  assert (E1 : r - 1 = IZR (m - u) * bpow radix2 c) by (rewrite minus_IZR, Eu, E at 1; rewrite Rmult_minus_distr_r, One; reflexivity).
  split.
  - rewrite E1. apply gf_int; lia.
  - replace ((r - 1) / 2) with (IZR (m - u) * bpow radix2 (c - 1)); [apply gf_int; lia|].
    rewrite E1. replace (c - 1)%Z with (c + (-1))%Z by lia. rewrite bpow_plus. change (bpow radix2 (-1)) with (/ 2). field.
Qed.

Lemma floor_B2R (x : double) : is_finite x = true -> py_floor x = Ok (Zfloor (B2R x)).
Proof.
  destruct x as [s|s| |s m e B]; try discriminate; intros _; cbn [py_floor B2R].
  - rewrite (Zfloor_IZR 0). reflexivity.
  - f_equal. set (z := if s then Z.neg m else Z.pos m).
    assert (Ez : cond_Zopp s (Z.pos m) = z) by (unfold z; destruct s; reflexivity). rewrite Ez. unfold F2R; cbn [Fnum Fexp].
    destruct (Z.leb_spec 0 e).
    + rewrite bp by lia. rewrite <- mult_IZR, Zfloor_IZR. reflexivity.
    + replace e with (- (- e))%Z at 2 by lia. rewrite bn by lia. change (IZR z * / IZR (2 ^ (- e))) with (IZR z / IZR (2 ^ (- e))).
      symmetry. apply Zfloor_div. assert (0 < 2 ^ (- e))%Z by (apply Z.pow_pos_nonneg; lia). lia.
Qed.

Lemma fone_val : B2R fone = 1 /\ is_finite fone = true.
Proof. split; [|reflexivity]. unfold fone. cbn. unfold F2R. cbn. lra. Qed.
Lemma ftwo_val : B2R ftwo = 2 /\ is_finite ftwo = true.
Proof. split; [|reflexivity]. unfold ftwo. cbn. unfold F2R. cbn. lra. Qed.

Lemma zfloor_half r t : IZR (2 * t + 1) <= r < IZR (2 * t + 1 + 2) -> Zfloor ((r - 1) / 2) = t.
Proof. intros [A B]. apply Zfloor_imp. rewrite !plus_IZR, !mult_IZR in *. pw. split; lra. Qed.

Lemma small_lt_max x : Rabs x < bpow radix2 53 -> Rlt_bool (Rabs x) (bpow radix2 1024) = true.
Proof. intros H. apply Rlt_bool_true. eapply Rlt_trans; [exact H|]. apply bpow_lt. lia. Qed.

(** The float computation of t for every index below the first failure. *)
Lemma float_root k t : (0 <= t)%Z -> (t * (t + 1) <= 2 * k)%Z -> (2 * k <= (t + 1) * (t + 2) - 2)%Z -> (k < 2 ^ 53 + 2 ^ 26 - 1)%Z ->
  (do x <- float_of_int (8 * k + 1); do s <- py_sqrt x; py_floor (Bdiv mode_NE (Bminus mode_NE s fone) ftwo)) = Ok t.
Proof.
  intros T0 H1 H2 Hk. pose proof (root_bounds k t T0 H1 H2 Hk) as RB. assert (K0 : (0 <= k)%Z) by nia.
  assert (T28 : (t < 2 ^ 27 )%Z) by (pw; nia).
  set (x := binary_normalize 53 1024 prec53 emax1024 mode_NE (8 * k + 1) 0 false).
  assert (X : B2R x = RN (IZR (8 * k + 1)) /\ is_finite x = true /\ Bsign x = false).
  { pose proof (binary_normalize_correct 53 1024 prec53 emax1024 mode_NE (8 * k + 1) 0 false) as C. cbv zeta in C. fold x in C.
    replace (F2R (Float radix2 (8 * k + 1) 0)) with (IZR (8 * k + 1)) in C by (unfold F2R; cbn; ring).
    change (round_mode mode_NE) with ZnearestE in C.
    rewrite Rlt_bool_true in C.
    - destruct C as (C1 & C2 & C3). split; [exact C1|]. split; [exact C2|]. rewrite C3.
      rewrite Rcompare_Gt; [reflexivity|]. apply IZR_lt. lia.
    - assert (0 <= RN (IZR (8 * k + 1)) <= bpow radix2 60).
      { split; [apply rn_ge; [apply generic_format_0|apply IZR_le; lia]|]. apply rn_le; [|rewrite bp by lia; apply IZR_le; pw; lia].
        replace (bpow radix2 60) with (IZR 1 * bpow radix2 60) by ring. apply gf_int; pw; lia. }
      rewrite Rabs_right by lra. eapply Rle_lt_trans; [apply H|]. apply bpow_lt. lia. }
  destruct X as (X1 & X2 & X3).
  assert (F : float_of_int (8 * k + 1) = Ok x).
  { unfold float_of_int. fold x. destruct x; try reflexivity; discriminate. }
  rewrite F. cbn [bind]. clear F.
  assert (Sq : py_sqrt x = Ok (Bsqrt mode_NE x)).
  { destruct x as [s|s| |s m e B]; try reflexivity. cbn in X3. subst s. reflexivity. }
  rewrite Sq. cbn [bind]. clear Sq.
  destruct (Bsqrt_correct 53 1024 prec53 emax1024 mode_NE x) as (S1 & S2 & _).
  set (s := Bsqrt mode_NE x) in *. change (round_mode mode_NE) with ZnearestE in S1. rewrite X1 in S1.
  assert (S2' : is_finite s = true).
  { rewrite S2. destruct x as [s0|s0| |s0 m e B]; try discriminate; [reflexivity|]. cbn in X3. subst s0. reflexivity. }
  clear S2. set (r := RN (sqrt (RN (IZR (8 * k + 1))))) in *.
  assert (Gr : GF r) by (apply generic_format_round; [exact ve|apply valid_rnd_N]).
  assert (R1 : 1 <= r < bpow radix2 53).
  { split; [eapply Rle_trans; [|apply RB]; apply IZR_le; lia|]. eapply Rlt_trans; [apply RB|]. rewrite bp by lia. apply IZR_lt. pw. lia. }
  destruct (sub_half_exact r Gr R1) as [G1 G2].
  destruct fone_val as [O1 O2]. destruct ftwo_val as [W1 W2].
  pose proof (Bminus_correct 53 1024 prec53 emax1024 mode_NE s fone S2' O2) as M.
  change (round_mode mode_NE) with ZnearestE in M. rewrite S1, O1 in M. rewrite (rn_id _ G1) in M.
  rewrite small_lt_max in M by (rewrite Rabs_right by lra; lra). destruct M as (M1 & M2 & _).
  set (d := Bminus mode_NE s fone) in *.
  pose proof (Bdiv_correct 53 1024 prec53 emax1024 mode_NE d ftwo) as D. rewrite W1 in D. specialize (D ltac:(lra)).
  change (round_mode mode_NE) with ZnearestE in D. rewrite M1 in D. rewrite (rn_id _ G2) in D.
  rewrite small_lt_max in D by (rewrite Rabs_right by lra; lra). destruct D as (D1 & D2 & _).
  rewrite floor_B2R by (rewrite D2; exact M2). rewrite D1. f_equal. apply zfloor_half. exact RB.
Qed.
