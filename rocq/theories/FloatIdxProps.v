(** Property C02: decoding an index with a double-precision square root. *)
From Coq Require Import List ZArith Reals Lia Lra.
From Flocq Require Import Core BinarySingleNaN.
From Verif Require Import PyBase PolyModel PolyProofs PolyProofs4 FloatIdxModel FloatIdxProofs.
Import ListNotations.
Open Scope Z_scope.

(** The full statement asks this for every k >= 0; [C02_refuted] shows that the bound here is
    the exact place where it stops being true. *)
Theorem C02_decodes_partial (k : Z) : 0 <= k < 2 ^ 53 + 2 ^ 26 - 1 ->
  exists a, set_from_idx_float k = Ok a /\ Z.of_nat (midx a) = k.
Proof.
  intros [H0 H]. set (n := Z.to_nat k). assert (Ek : k = Z.of_nat n) by (unfold n; lia).
  destruct (tri_bounds n) as [t Ht]. exists (mi_of_idx n). rewrite mi_of_idx_spec. split; [|lia].
  pose proof (two_tri t). pose proof (two_tri (S t)).
  assert (F := float_root k (Z.of_nat t) ltac:(lia) ltac:(nia) ltac:(nia) H).
  unfold set_from_idx_float. destruct (float_of_int (8 * k + 1)) as [x|]; [|discriminate]. cbn [bind] in *.
  destruct (py_sqrt x) as [s|]; [|discriminate]. cbn [bind] in *. rewrite F. cbn [bind]. rewrite Ek. apply decode_t. exact Ht.
Qed.
Print Assumptions C02_decodes_partial.

(** The first failing index: the computed t is one too large and the constructor raises. *)
Theorem C02_refuted : set_from_idx_float (2 ^ 53 + 2 ^ 26 - 1) = Err ValueError.
Proof. vm_compute. reflexivity. Qed.
Print Assumptions C02_refuted.

(** Nothing wrong is ever returned silently near there: any returned multi-index of the form
    the code builds has the index asked for. *)
Theorem C02_no_silent_error (k : Z) a : set_from_idx_float k = Ok a -> Z.of_nat (midx a) = k.
Proof.
  unfold set_from_idx_float. destruct (float_of_int (8 * k + 1)) as [x|]; [|discriminate]. cbn [bind].
  destruct (py_sqrt x) as [s|]; [|discriminate]. cbn [bind].
  destruct (py_floor _) as [t|]; [|discriminate]. cbn [bind]. unfold mi_set.
  set (n := t * (t + 1) / 2).
  destruct (Z.ltb_spec (t - k + n) 0) as [|A]; [discriminate|]. destruct (Z.ltb_spec (k - n) 0) as [|B]; [discriminate|]. cbn [orb].
  intros H. injection H as <-.
  assert (T2 : 2 * n = t * (t + 1)).
  { unfold n. destruct (Z.Even_or_Odd t) as [[q ->]|[q ->]].
    - replace (2 * q * (2 * q + 1)) with (q * (2 * q + 1) * 2) by ring. rewrite Z.div_mul by lia. ring.
    - replace ((2 * q + 1) * (2 * q + 1 + 1)) with ((2 * q + 1) * (q + 1) * 2) by ring. rewrite Z.div_mul by lia. ring. }
  rewrite midx_tri. unfold morder. cbn [mx my].
  replace (Z.to_nat (t - k + n) + Z.to_nat (k - n))%nat with (Z.to_nat t) by lia.
  assert (t0 : 0 <= t) by lia. pose proof (two_tri (Z.to_nat t)). nia.
Qed.
Print Assumptions C02_no_silent_error.

Theorem C02_negative_rejected (k : Z) : k < 0 -> exists e, set_from_idx_float k = Err e.
Proof.
  intros H. unfold set_from_idx_float.
  set (x := binary_normalize 53 1024 prec53 emax1024 mode_NE (8 * k + 1) 0 false).
  assert (X : (is_finite x = true -> (B2R x <= -1)%R)).
  { pose proof (binary_normalize_correct 53 1024 prec53 emax1024 mode_NE (8 * k + 1) 0 false) as C. cbv zeta in C. fold x in C.
    replace (F2R (Float radix2 (8 * k + 1) 0)) with (IZR (8 * k + 1)) in C by (unfold F2R; cbn; ring).
    destruct (Rlt_bool _ _) in C.
    - destruct C as [C _]. intros _. rewrite C. change (round_mode mode_NE) with ZnearestE.
      apply rn_le; [apply (gf_Z (-1)); reflexivity|apply IZR_le; lia].
    - intros F. rewrite Rlt_bool_true in C by (apply IZR_lt; lia). destruct x; try discriminate. }
  unfold float_of_int. fold x. destruct x as [s|s| |s m e B]; cbn [bind py_sqrt].
  - specialize (X eq_refl). cbn in X. lra.
  - eauto.
  - cbn. eauto.
  - specialize (X eq_refl). destruct s; cbn [bind]; [eauto|]. exfalso. cbn in X. pose proof (F2R_gt_0 radix2 (Float radix2 (Zpos m) e) ltac:(reflexivity)). lra.
Qed.
Print Assumptions C02_negative_rejected.

(** Ordinary indices, and the last one before the failure. *)
Example C02_example : set_from_idx_float 18 = Ok (MI 2 3) /\ set_from_idx_float 5049 = Ok (MI 0 99)
  /\ (0 <= 2 ^ 53 + 2 ^ 26 - 2 < 2 ^ 53 + 2 ^ 26 - 1).
Proof. split; [vm_compute; reflexivity|]. split; [vm_compute; reflexivity|]. lia. Qed.
