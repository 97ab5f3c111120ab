(** What the cutoff of the coefficients costs, continued: products, powers, composition, shifts. *)
From Coq Require Import List ZArith Reals Lia Lra Bool.
From Verif Require Import PyBase PolyModel PolySpec PolyProofs PolyProofs2 PolyProofs3 PolyProofs4 LegendreProofs BaryModel BarySpec EdgeSpaceSpec EdgeSpaceProofs PolyErr.
Import List ListNotations.
Open Scope R_scope.

Lemma mi_eq_dec (a b : mindex) : {a = b} + {a <> b}.
Proof. decide equality; apply Nat.eq_dec. Defined.
Lemma tol_le_1 : tol <= 1.
Proof. unfold tol. lra. Qed.
(** ** Supports and sizes *)
Lemma consolidate_support l (m : rmono) : In m (consolidate RS l) -> In (malpha m) (map malpha l).
Proof.
  intros I. pose proof (consolidate_canonical l) as C. pose proof (canonical_coef_In m _ C I) as E. rewrite coef_consolidate in E. pose proof (canonical_In m _ C I) as B. pose proof tol_pos.
  destruct (in_dec mi_eq_dec (malpha m) (map malpha l)) as [|N]; [assumption|]. exfalso. rewrite coef_notin in E; [|intros n Hn Q; apply N; apply in_map_iff; exists n; split; [|exact Hn]; rewrite Q; destruct (malpha m); reflexivity].
  rewrite cutoff_zero in E. rewrite <- E, Rabs_R0 in B. lra.
Qed.
Lemma msize_consolidate l x y : msize (consolidate RS l) x y <= msize l x y.
Proof.
  rewrite !msize_wsum. apply wsum_incl; [apply canonical_nodup, consolidate_canonical|]. intros al I. apply in_map_iff in I. destruct I as (m & <- & I). apply consolidate_support, I.
Qed.
Lemma msize_pmul p q x y : msize (pmul RS p q) x y <= msize p x y * msize q x y.
Proof. rewrite pmul_raw, <- msize_mulraw. eapply Rle_trans; [apply msize_consolidate|apply msize_filter]. Qed.
Lemma msize_pscale p c x y : msize (pscale RS p c) x y <= msize p x y.
Proof. rewrite pscale_filter. eapply Rle_trans; [apply msize_filter|]. induction p as [|m p IH]; cbn [map msize]; [lra|]. cbn [m_scale malpha]. lra. Qed.
Lemma piadd_consolidate p q : canonical q -> piadd RS p q = consolidate RS (p ++ q).
Proof. intros C. apply canonical_ext; [apply piadd_canonical|apply consolidate_canonical|]. intros a b. rewrite coef_piadd, coef_consolidate, coef_app by exact C. reflexivity. Qed.
Lemma deg_consolidate D l : deg_le D l -> deg_le D (consolidate RS l).
Proof. intros H m I. apply consolidate_support, in_map_iff in I. destruct I as (n & E & I). rewrite <- E. apply H, I. Qed.
Lemma deg_filter D f (l : rpoly) : deg_le D l -> deg_le D (filter f l).
Proof. intros H m I. apply filter_In in I. apply H, I. Qed.
Lemma deg_pmul D E p q : deg_le D p -> deg_le E q -> deg_le (D + E) (pmul RS p q).
Proof.
  intros Hp Hq. rewrite pmul_raw. apply deg_consolidate, deg_filter. intros k Hk. unfold mulraw in Hk. apply in_flat_map in Hk. destruct Hk as (m & Hm & Hk). apply in_map_iff in Hk. destruct Hk as (n & <- & Hn).
  specialize (Hp m Hm). specialize (Hq n Hn). cbn [m_mul malpha mi_add mx my]. lia.
Qed.
Lemma deg_ppow D p n : deg_le D p -> deg_le (n * D) (ppow_nat RS p n).
Proof.
  intros H. induction n as [|n IH]; cbn [ppow_nat Nat.mul].
  - rewrite pone_eq. intros m [<-|[]]. cbn. lia.
  - rewrite Nat.add_comm. apply deg_pmul; assumption.
Qed.
Lemma deg_pscale D p c : deg_le D p -> deg_le D (pscale RS p c).
Proof. intros H. rewrite pscale_filter. apply deg_filter. intros m I. apply in_map_iff in I. destruct I as (n & <- & I). exact (H n I). Qed.
Lemma msize_one x y : msize (pone RS) x y = 1.
Proof. rewrite pone_eq. cbn [msize rmon malpha mx my pow]. ring. Qed.
Lemma value_one x y : value (pone RS) x y = 1.
Proof. rewrite pone_eq. cbn [value rmon malpha mx my mcoef pow]. rring. Qed.
Lemma pow_abs_le a B n : Rabs a <= B -> Rabs (a ^ n) <= B ^ n.
Proof. intros H. rewrite <- RPow_abs. apply pow_incr. split; [apply Rabs_pos|exact H]. Qed.

(** ** Powers and composition at a point *)
Section At.
Variables (x y B : R).
Hypothesis HB : 1 <= B.
Definition small (q : rpoly) : Prop := msize q x y <= B /\ Rabs (value q x y) <= B.

Lemma msize_ppow q n : small q -> msize (ppow_nat RS q n) x y <= B ^ n.
Proof.
  intros [S _]. induction n as [|n IH]; cbn [ppow_nat pow]; [rewrite msize_one; lra|]. eapply Rle_trans; [apply msize_pmul|]. rewrite Rmult_comm. apply Rmult_le_compat; assumption || apply msize_pos.
Qed.
Lemma ppow_err q n : small q -> Rabs (value (ppow_nat RS q n) x y - value q x y ^ n) <= 2 * INR n * B ^ n * tol.
Proof.
  intros S. pose proof tol_pos as TP. induction n as [|n IH].
  - cbn [ppow_nat pow INR]. rewrite value_one. replace (1 - 1) with 0 by ring. rewrite Rabs_R0. lra.
  - cbn [ppow_nat]. rewrite S_INR. pose proof (value_pmul_err (ppow_nat RS q n) q x y) as E. pose proof (msize_ppow q n S) as Mn. destruct S as [S1 S2]. cbn [pow].
    set (P := value (ppow_nat RS q n) x y) in *. set (v := value q x y) in *. set (W := value (pmul RS (ppow_nat RS q n) q) x y) in *. pose proof (msize_pos q x y). pose proof (msize_pos (ppow_nat RS q n) x y).
    assert (Q : msize (ppow_nat RS q n) x y * msize q x y <= B ^ n * B) by (apply Rmult_le_compat; assumption). set (Mm := msize (ppow_nat RS q n) x y * msize q x y) in *. pose proof (pow_lt B n ltac:(lra)) as Bp. set (Bn := B ^ n) in *.
    replace (W - v * v ^ n) with ((W - P * v) + (P - v ^ n) * v) by ring. eapply Rle_trans; [apply Rabs_triang|]. rewrite Rabs_mult. assert (Rabs (P - v ^ n) * Rabs v <= 2 * INR n * Bn * tol * B) by (apply Rmult_le_compat; assumption || apply Rabs_pos). nra.
Qed.
Definition comp_c (n m : nat) : R := 1 + (1 + 2 * INR n) * (1 + 2 * INR m).
Lemma comp_c_pos n m : 2 <= comp_c n m.
Proof. unfold comp_c. pose proof (pos_INR n). pose proof (pos_INR m). nra. Qed.
Definition cterm (q1 q2 : rpoly) (c : R) (n m : nat) : rpoly := pscale RS (pmul RS (ppow_nat RS q1 n) (ppow_nat RS q2 m)) c.
Lemma prod_err q1 q2 n m : small q1 -> small q2 -> Rabs (value (pmul RS (ppow_nat RS q1 n) (ppow_nat RS q2 m)) x y - value q1 x y ^ n * value q2 x y ^ m) <= comp_c n m * B ^ (n + m) * tol /\ msize (pmul RS (ppow_nat RS q1 n) (ppow_nat RS q2 m)) x y <= B ^ (n + m).
Proof.
  intros S1 S2. pose proof tol_pos as TP. pose proof tol_le_1 as T1. pose proof (value_pmul_err (ppow_nat RS q1 n) (ppow_nat RS q2 m) x y) as E. pose proof (msize_ppow q1 n S1) as M1. pose proof (msize_ppow q2 m S2) as M2. pose proof (ppow_err q1 n S1) as E1. pose proof (ppow_err q2 m S2) as E2.
  pose proof (msize_pmul (ppow_nat RS q1 n) (ppow_nat RS q2 m) x y) as E3. pose proof (msize_pos (ppow_nat RS q1 n) x y) as P1. pose proof (msize_pos (ppow_nat RS q2 m) x y) as P2. pose proof (pow_abs_le _ B n (proj2 S1)) as A1. pose proof (pow_abs_le _ B m (proj2 S2)) as A2. clear S1 S2.
  assert (Q : msize (ppow_nat RS q1 n) x y * msize (ppow_nat RS q2 m) x y <= B ^ n * B ^ m) by (apply Rmult_le_compat; assumption). rewrite pow_add. split; [|lra].
  pose proof (pow_lt B n ltac:(lra)) as Bn. pose proof (pow_lt B m ltac:(lra)) as Bm. set (b := B ^ n) in *. set (c := B ^ m) in *. set (P := value (ppow_nat RS q1 n) x y) in *. set (Qv := value (ppow_nat RS q2 m) x y) in *. set (A := value q1 x y ^ n) in *. set (C := value q2 x y ^ m) in *. set (W := value (pmul RS _ _) x y) in *.
  replace (W - A * C) with ((W - P * Qv) + ((P - A) * C + ((P - A) * (Qv - C) + A * (Qv - C)))) by ring. unfold comp_c. pose proof (pos_INR n) as Nn. pose proof (pos_INR m) as Nm. set (u := INR n) in *. set (v := INR m) in *.
  assert (X1 : Rabs ((P - A) * C) <= 2 * u * b * tol * c) by (rewrite Rabs_mult; apply Rmult_le_compat; assumption || apply Rabs_pos).
  assert (X2 : Rabs ((P - A) * (Qv - C)) <= 2 * u * b * tol * (2 * v * c * tol)) by (rewrite Rabs_mult; apply Rmult_le_compat; assumption || apply Rabs_pos).
  assert (X3 : Rabs (A * (Qv - C)) <= b * (2 * v * c * tol)) by (rewrite Rabs_mult; apply Rmult_le_compat; assumption || apply Rabs_pos).
  assert (X4 : 2 * u * b * tol * (2 * v * c * tol) <= 4 * u * v * b * c * tol). { replace (2 * u * b * tol * (2 * v * c * tol)) with (4 * u * v * b * c * tol * tol) by ring. rewrite <- (Rmult_1_r (4 * u * v * b * c * tol)) at 2. apply Rmult_le_compat_l; [|exact T1]. repeat apply Rmult_le_pos; lra. }
  assert (X5 : Rabs (W - P * Qv) <= 2 * tol * (b * c)) by (eapply Rle_trans; [exact E|]; apply Rmult_le_compat_l; lra).
  pose proof (Rabs_triang (W - P * Qv) ((P - A) * C + ((P - A) * (Qv - C) + A * (Qv - C)))). pose proof (Rabs_triang ((P - A) * C) ((P - A) * (Qv - C) + A * (Qv - C))). pose proof (Rabs_triang ((P - A) * (Qv - C)) (A * (Qv - C))).
  replace ((1 + (1 + 2 * u) * (1 + 2 * v)) * (b * c) * tol) with (2 * tol * (b * c) + (2 * u * b * tol * c + (4 * u * v * b * c * tol + b * (2 * v * c * tol)))) by ring. lra.
Qed.
Lemma cterm_err q1 q2 c n m : small q1 -> small q2 -> Rabs (value (cterm q1 q2 c n m) x y - c * (value q1 x y ^ n * value q2 x y ^ m)) <= (1 + Rabs c * comp_c n m) * B ^ (n + m) * tol /\ msize (cterm q1 q2 c n m) x y <= B ^ (n + m).
Proof.
  intros S1 S2. destruct (prod_err q1 q2 n m S1 S2) as [E M]. unfold cterm. pose proof tol_pos as TP. split; [|eapply Rle_trans; [apply msize_pscale|exact M]].
  pose proof (value_pscale_err (pmul RS (ppow_nat RS q1 n) (ppow_nat RS q2 m)) c x y) as F. set (W := value (pmul RS _ _) x y) in *. set (V := value (pscale RS _ c) x y) in *. set (A := value q1 x y ^ n * value q2 x y ^ m) in *.
  replace (V - c * A) with ((V - W * c) + c * (W - A)) by ring. eapply Rle_trans; [apply Rabs_triang|]. rewrite (Rabs_mult c). assert (Rabs c * Rabs (W - A) <= Rabs c * (comp_c n m * B ^ (n + m) * tol)) by (apply Rmult_le_compat_l; [apply Rabs_pos|exact E]).
  assert (tol * msize (pmul RS (ppow_nat RS q1 n) (ppow_nat RS q2 m)) x y <= tol * B ^ (n + m)) by (apply Rmult_le_compat_l; lra). specialize (F (pmul_canonical _ _)). lra.
Qed.
Fixpoint abs_coefs (p : rpoly) : R := match p with [] => 0 | m :: p' => Rabs (mcoef m : R) + abs_coefs p' end.
Lemma abs_coefs_pos p : 0 <= abs_coefs p.
Proof. induction p as [|m p IH]; cbn [abs_coefs]; [lra|]. pose proof (Rabs_pos (mcoef m : R)). lra. Qed.
Lemma comp_c_mono n m D : (n + m <= D)%nat -> comp_c n m <= comp_c D D.
Proof. intros L. unfold comp_c. pose proof (pos_INR n). pose proof (pos_INR m). assert (INR n <= INR D) by (apply le_INR; lia). assert (INR m <= INR D) by (apply le_INR; lia). nra. Qed.
Lemma Bmono a b : (a <= b)%nat -> B ^ a <= B ^ b.
Proof. intros L. apply Rle_pow; assumption. Qed.
Lemma compose_err D p q1 q2 : small q1 -> small q2 -> deg_le D p ->
  Rabs (value (pcompose RS p q1 q2) x y - value p (value q1 x y) (value q2 x y)) <= (comp_c D D * abs_coefs p + INR (List.length p) * (INR (List.length p) + 1)) * B ^ D * tol.
Proof.
  intros S1 S2 HD. unfold pcompose. pose proof tol_pos as TP. pose proof (pow_lt B D ltac:(lra)) as Bp. pose proof (comp_c_pos D D) as Kp. set (K := comp_c D D) in *.
  assert (G : forall l acc k, deg_le D l -> msize acc x y <= INR k * B ^ D ->
    Rabs (value (fold_left (fun new (m : rmono) => piadd RS new (cterm q1 q2 (mcoef m) (mx (malpha m)) (my (malpha m)))) l acc) x y - (value acc x y + value l (value q1 x y) (value q2 x y))) <= (K * abs_coefs l + INR (List.length l) * (INR k + INR (List.length l) + 1)) * B ^ D * tol).
  { induction l as [|m l IH]; intros acc k Hl Ha; cbn [fold_left].
    - cbn [value abs_coefs List.length INR]. replace (value acc x y - (value acc x y + 0)) with 0 by ring. rewrite Rabs_R0, Rmult_0_r, Rmult_0_l, Rplus_0_l, !Rmult_0_l. lra.
    - set (a := mx (malpha m)). set (b := my (malpha m)). assert (Lab : (a + b <= D)%nat) by (apply (Hl m); left; reflexivity). destruct (cterm_err q1 q2 (mcoef m) a b S1 S2) as [Et Mt]. set (t := cterm q1 q2 (mcoef m) a b) in *.
      assert (Ct : canonical t) by (apply pscale_canonical, pmul_canonical). pose proof (Bmono (a + b) D Lab) as Bm. pose proof (comp_c_mono a b D Lab) as Km. fold K in Km.
      assert (Ma : msize (piadd RS acc t) x y <= INR (S k) * B ^ D). { rewrite piadd_consolidate by exact Ct. eapply Rle_trans; [apply msize_consolidate|]. rewrite msize_app, S_INR. lra. }
      pose proof (IH (piadd RS acc t) (S k) ltac:(intros z Iz; apply Hl; right; exact Iz) Ma) as E. clear IH.
      assert (Ea : Rabs (value (piadd RS acc t) x y - (value acc x y + value t x y)) <= tol * (INR k * B ^ D + B ^ D)). { rewrite piadd_consolidate by exact Ct. rewrite <- value_app. eapply Rle_trans; [apply value_consolidate_err|]. apply Rmult_le_compat_l; [lra|]. rewrite msize_app. lra. }
      cbn [value abs_coefs List.length]. fold a b. rewrite !S_INR in *. set (R0 := value (fold_left _ l _) x y) in *. set (A := value acc x y) in *. set (A' := value (piadd RS acc t) x y) in *. set (L := value l _ _) in *. set (T := value t x y) in *. pose proof (Rabs_pos (mcoef m : R)) as Cp. set (c := (mcoef m : R)) in *. set (V := value q1 x y ^ a) in *. set (V' := value q2 x y ^ b) in *.
      replace (R0 - (A + (c * V * V' + L))) with ((R0 - (A' + L)) + ((A' - (A + T)) + (T - c * (V * V')))) by ring. eapply Rle_trans; [apply Rabs_triang|]. eapply Rle_trans; [apply Rplus_le_compat_l, Rabs_triang|].
      assert (X : (1 + Rabs c * comp_c a b) * B ^ (a + b) * tol <= (1 + Rabs c * K) * B ^ D * tol). { apply Rmult_le_compat_r; [lra|]. apply Rmult_le_compat; [pose proof (comp_c_pos a b); nra|apply pow_le; lra|nra|exact Bm]. }
      set (n := INR (List.length l)) in *. set (kk := INR k) in *. set (BD := B ^ D) in *. set (ab := abs_coefs l) in *. assert (N0 : 0 <= n) by apply pos_INR. assert (k0 : 0 <= kk) by apply pos_INR.
      replace ((K * (Rabs c + ab) + (n + 1) * (kk + (n + 1) + 1)) * BD * tol) with ((K * ab + n * (kk + 1 + n + 1)) * BD * tol + (tol * (kk * BD + BD) + (1 + Rabs c * K) * BD * tol) + n * BD * tol) by ring.
      assert (0 <= n * BD * tol) by (repeat apply Rmult_le_pos; lra). lra. }
  pose proof (G p [] 0%nat HD ltac:(cbn [msize INR]; lra)) as E. cbn [value INR] in E. rewrite !Rplus_0_l in E. exact E.
Qed.
End At.
