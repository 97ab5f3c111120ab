(** Errors of the operations in FloatInnerModel.v (C78) *)
From Coq Require Import List ZArith Reals Lia Lra Psatz Permutation.
From Flocq Require Import Core BinarySingleNaN.
From Verif Require Import PyBase PolyModel FloatIdxModel FloatPolyModel FloatErr FloatPolySpec FloatPolyProofs FloatQuadModel FloatQuadSpec FloatQuadProofs FloatBdryModel FloatBdryProofs FloatInnerModel.
Import List ListNotations.
Open Scope R_scope.

Lemma dsub_fin x y : fin (dsub x y) = true -> fin x = true /\ fin y = true /\ val (dsub x y) = rnd (val x - val y).
Proof.
  intros F. assert (A : fin x = true /\ fin y = true) by (destruct x as [s|s| |s m e B], y as [t|t| |t n g C]; cbn in *; try discriminate F; auto; destruct (Bool.eqb s (negb t)); discriminate F). destruct A as [Fx Fy]. split; [exact Fx|]. split; [exact Fy|].
  pose proof (Bminus_correct 53 1024 _ _ mode_NE x y Fx Fy) as C. unfold fin, val, dsub in *. destruct (Rlt_bool _ _) in C; [exact (proj1 C)|]. destruct C as [C _]. rewrite <- finite_SF in F. rewrite C in F. rewrite nonfinite_overflow in F. discriminate.
Qed.
Lemma near_sub k X B e x Y C f y : near k X B e x -> near k Y C f y -> fin (dsub x y) = true -> near (S k) (X - Y) (B + C) (e + f) (dsub x y).
Proof.
  intros (Fx & Bx & Ex & Hx) (Fy & By & Ey & Hy) F. destruct (dsub_fin _ _ F) as (_ & _ & V). split; [exact F|]. split; [eapply Rle_trans; [apply Rabs_triang|]; rewrite Rabs_Ropp; lra|]. split; [lra|].
  assert (Fo : generic_format radix2 (SpecFloat.fexp 53 1024) (- val y)) by (apply generic_format_opp, generic_format_B2R). destruct (round_sum (val x) (- val y) (generic_format_B2R _ _ x) Fo) as (eps & He & Rd). unfold Rminus in V. rewrite V, Rd. cbn [pow]. pose proof (pow1_ge k) as G. pose proof uro_pos as U. set (g := (1 + uro) ^ k) in *.
  assert (D : Rabs ((val x - X) - (val y - Y)) <= (g - 1) * (B + C) + (e + f) * g) by (eapply Rle_trans; [apply Rabs_triang|]; rewrite Rabs_Ropp; lra).
  assert (S : Rabs (X - Y) <= B + C) by (eapply Rle_trans; [apply Rabs_triang|]; rewrite Rabs_Ropp; lra).
  replace ((val x + - val y) * (1 + eps) - (X - Y)) with (((val x - X) - (val y - Y)) * (1 + eps) + (X - Y) * eps) by ring. eapply Rle_trans; [apply Rabs_triang|]. rewrite !Rabs_mult. assert (E1 : Rabs (1 + eps) <= 1 + uro) by (eapply Rle_trans; [apply Rabs_triang|]; rewrite Rabs_R1; lra). pose proof (Rabs_pos (1 + eps)). pose proof (Rabs_pos (X - Y)). pose proof (Rabs_pos eps). set (d := Rabs (val x - X - (val y - Y))) in *. pose proof (Rabs_pos (val x - X - (val y - Y)) : 0 <= d).
  assert (d * Rabs (1 + eps) <= ((g - 1) * (B + C) + (e + f) * g) * (1 + uro)) by (apply Rmult_le_compat; assumption). assert (Rabs (X - Y) * Rabs eps <= (B + C) * uro) by (apply Rmult_le_compat; assumption). lra.
Qed.
Lemma ddiv_fin x n : (1 <= n <= 2 ^ 53)%Z -> fin (ddiv x (of_int n)) = true -> fin x = true /\ val (ddiv x (of_int n)) = rnd (val x / IZR n).
Proof.
  intros N F. destruct (of_int_val n ltac:(lia)) as [Fn Vn]. assert (Pn : 1 <= IZR n) by (apply IZR_le; lia). pose proof (Bdiv_correct 53 1024 _ _ mode_NE x (of_int n)) as C. unfold val in Vn. rewrite Vn in C. specialize (C ltac:(lra)). unfold fin, val, ddiv in *. destruct (Rlt_bool _ _) in C.
  - destruct C as (V & Fd & _). split; [rewrite <- Fd; exact F|exact V].
  - rewrite <- finite_SF in F. rewrite C, nonfinite_overflow in F. discriminate.
Qed.
Lemma near_div k X B e x n : (1 <= n <= 2 ^ 53)%Z -> near k X B e x -> fin (ddiv x (of_int n)) = true -> near (S k) (X / IZR n) (B / IZR n) (e / IZR n + tiny) (ddiv x (of_int n)).
Proof.
  intros N (Fx & Bx & Ex & Hx) F. assert (Pn : 1 <= IZR n) by (apply IZR_le; lia). assert (In0 : 0 < / IZR n) by (apply Rinv_0_lt_compat; lra). destruct (ddiv_fin x n N F) as [_ V]. destruct (round_prod (val x / IZR n)) as (eps & eta & He & Ht & Rd). rewrite Rd in V. pose proof tiny_pos as T. pose proof uro_pos as U. pose proof (pow1_ge k) as G. pose proof (Rabs_pos X) as PX.
  split; [exact F|]. split; [unfold Rdiv; rewrite Rabs_mult, (Rabs_pos_eq (/ _)) by lra; apply Rmult_le_compat_r; lra|]. split; [unfold Rdiv; nra|]. rewrite V. unfold Rdiv. set (q := / IZR n) in *. cbn [pow]. set (g := (1 + uro) ^ k) in *.
  replace (val x * q * (1 + eps) + eta - X * q) with (((val x - X) * (1 + eps) + X * eps) * q + eta) by ring. eapply Rle_trans; [apply Rabs_triang|]. rewrite Rabs_mult, (Rabs_pos_eq q) by lra. assert (E1 : Rabs (1 + eps) <= 1 + uro) by (eapply Rle_trans; [apply Rabs_triang|]; rewrite Rabs_R1; lra).
  assert (A : Rabs ((val x - X) * (1 + eps) + X * eps) <= ((g - 1) * B + e * g) * (1 + uro) + B * uro). { eapply Rle_trans; [apply Rabs_triang|]. rewrite !Rabs_mult. pose proof (Rabs_pos (val x - X)). pose proof (Rabs_pos (1 + eps)). pose proof (Rabs_pos eps). apply Rplus_le_compat; apply Rmult_le_compat; assumption. }
  apply (Rmult_le_compat_r q) in A; [|lra]. assert (tiny <= tiny * ((1 + uro) * g)) by (rewrite <- (Rmult_1_r tiny) at 1; apply Rmult_le_compat_l; [lra|]; replace 1 with (1 * 1) by ring; apply Rmult_le_compat; lra). lra.
Qed.
Lemma near_dot s : fin (d_dot s) = true -> near 2 (val (dx s) * val (dnx s) + val (dy s) * val (dny s)) (Rabs (val (dx s)) * Rabs (val (dnx s)) + Rabs (val (dy s)) * Rabs (val (dny s))) (tiny + tiny) (d_dot s).
Proof.
  intros F. unfold d_dot in *. destruct (dadd_fin _ _ F) as (F1 & F2 & _). assert (M : forall a b, fin (dmul a b) = true -> near 1 (val a * val b) (Rabs (val a) * Rabs (val b)) tiny (dmul a b)). { intros a b Fab. destruct (dmul_fin _ _ Fab) as (Fa & Fb & _). eapply near_weaken; [| |exact (near_mul _ _ _ _ _ _ _ _ _ _ (near_exact a Fa) (near_exact b Fb) Fab)]; [lia|lra]. }
  apply near_add; auto.
Qed.
Lemma near_product k j (a b : aim) x y : meets k a x -> meets j b y -> fin (dmul x y) = true -> meets (S (k + j)) (aX a * aX b, aB a * aB b, aB a * ae b + ae a * aB b + ae a * ae b + tiny) (dmul x y).
Proof. intros A B F. exact (near_mul _ _ _ _ _ _ _ _ _ _ A B F). Qed.

(** ** Powers and terms of inexact arguments *)
Lemma pow_dist x X B G n : 1 <= G -> Rabs X <= B -> Rabs (x - X) <= (G - 1) * B -> Rabs (x ^ n - X ^ n) <= (G ^ n - 1) * B ^ n.
Proof.
  intros HG HX Hx. pose proof (Rabs_pos X). assert (Ax : Rabs x <= G * B) by (replace x with (x - X + X) by ring; eapply Rle_trans; [apply Rabs_triang|]; lra).
  induction n as [|n IH]; [cbn [pow]; rewrite Rminus_diag_eq, Rabs_R0 by reflexivity; lra|]. cbn [pow]. replace (x * x ^ n - X * X ^ n) with (x * (x ^ n - X ^ n) + (x - X) * X ^ n) by ring. eapply Rle_trans; [apply Rabs_triang|]. rewrite !Rabs_mult.
  assert (Rabs x * Rabs (x ^ n - X ^ n) <= (G * B) * ((G ^ n - 1) * B ^ n)) by (apply Rmult_le_compat; try apply Rabs_pos; assumption). assert (Rabs (X ^ n) <= B ^ n) by (rewrite <- RPow_abs; apply pow_incr; lra). assert (Rabs (x - X) * Rabs (X ^ n) <= ((G - 1) * B) * B ^ n) by (apply Rmult_le_compat; try apply Rabs_pos; assumption). lra.
Qed.
Lemma near_pow pw j f k X B x n : accurate pw j f -> (0 < n)%nat -> near k X B 0 x -> fin (pw x n) = true -> near (j n + n * k) (X ^ n) (B ^ n) (f x n) (pw x n).
Proof.
  intros A Hn (Fx & Bx & _ & Hx) F. destruct (A x n Hn F) as (_ & F2 & F3). pose proof (pow1_ge k) as Gk. pose proof (pow1_ge (j n)) as Gj. rewrite Rmult_0_l, Rplus_0_r in Hx. pose proof (Rabs_pos X). assert (PB : 0 <= B ^ n) by (apply pow_le; lra).
  pose proof (pow_dist (val x) X B ((1 + uro) ^ k) n Gk Bx Hx) as D. rewrite <- pow_mult, (Nat.mul_comm k n) in D. assert (Ax : Rabs (val x) <= (1 + uro) ^ k * B) by (replace (val x) with (val x - X + X) by ring; eapply Rle_trans; [apply Rabs_triang|]; lra). assert (An : Rabs (val x) ^ n <= (1 + uro) ^ (n * k) * B ^ n) by (rewrite (Nat.mul_comm n k), pow_mult, <- Rpow_mult_distr; apply pow_incr; split; [apply Rabs_pos|exact Ax]).
  split; [exact F|]. split; [rewrite <- RPow_abs; apply pow_incr; lra|]. split; [exact F2|]. rewrite pow_add. set (g := (1 + uro) ^ j n) in *. pose proof (pow1_ge (n * k)) as Gn. set (h := (1 + uro) ^ (n * k)) in *.
  replace (val (pw x n) - X ^ n) with ((val (pw x n) - val x ^ n) + (val x ^ n - X ^ n)) by ring. eapply Rle_trans; [apply Rabs_triang|]. assert ((g - 1) * Rabs (val x) ^ n <= (g - 1) * (h * B ^ n)) by (apply Rmult_le_compat_l; lra). assert (f x n * g <= f x n * (g * h)) by (apply Rmult_le_compat_l; [exact F2|]; rewrite <- (Rmult_1_r g) at 1; apply Rmult_le_compat_l; lra). lra.
Qed.
(** What underflow adds to a term whose arguments have the sizes [B] and [C] *)
Definition under (f : double -> nat -> R) (m : dmono) (x y : double) (B C : R) : R :=
  let a := mx (malpha m) in let b := my (malpha m) in
  let e := if Nat.ltb 0 a then Rabs (val (coefd m)) * f x a + tiny else 0 in
  if Nat.ltb 0 b then Rabs (val (coefd m)) * B ^ a * f y b + e * C ^ b + e * f y b + tiny else e.
Lemma term_near pw j f k m x y X B Y C : accurate pw j f -> near k X B 0 x -> near k Y C 0 y -> fin (dm_eval pw m x y) = true ->
  near (j (mx (malpha m)) + j (my (malpha m)) + (mx (malpha m) + my (malpha m)) * k + 2) (val (coefd m) * X ^ mx (malpha m) * Y ^ my (malpha m)) (Rabs (val (coefd m)) * B ^ mx (malpha m) * C ^ my (malpha m)) (under f m x y B C) (dm_eval pw m x y).
Proof.
  intros A NX NY. unfold dm_eval, under. cbv zeta. set (a := mx (malpha m)). set (b := my (malpha m)). set (c := coefd m). change (mcoef m) with c.
  assert (M0 : forall v, v = dmul c (of_int 1) -> fin v = true -> near 0 (val c) (Rabs (val c)) 0 v). { intros v -> Fv. apply near_one; [|exact Fv]. apply near_exact. destruct (dmul_fin _ _ Fv) as (Z & _). exact Z. }
  assert (M1 : forall v, v = (if Nat.ltb 0 a then dmul (dmul c (of_int 1)) (pw x a) else dmul c (of_int 1)) -> fin v = true -> near (j a + a * k + 1) (val c * X ^ a) (Rabs (val c) * B ^ a) (if Nat.ltb 0 a then Rabs (val c) * f x a + tiny else 0) v).
  { intros v -> Fv. destruct (Nat.ltb_spec 0 a) as [Ha|Ha].
    - destruct (dmul_fin _ _ Fv) as (F1 & F2 & _). pose proof (near_mul _ _ _ _ _ _ _ _ _ _ (M0 _ eq_refl F1) (near_pow _ _ _ _ _ _ _ _ A Ha NX F2) Fv) as N. cbn [Nat.add] in N. eapply near_weaken; [| |exact N]; [lia|lra].
    - replace a with O by lia. cbn [Rpow_def.pow]. rewrite !Rmult_1_r. eapply near_weaken; [| |exact (M0 _ eq_refl Fv)]; [lia|lra]. }
  intros F. set (v := if Nat.ltb 0 a then _ else _) in *. destruct (Nat.ltb_spec 0 b) as [Hb|Hb].
  - destruct (dmul_fin _ _ F) as (F1 & F2 & _). pose proof (near_mul _ _ _ _ _ _ _ _ _ _ (M1 v eq_refl F1) (near_pow _ _ _ _ _ _ _ _ A Hb NY F2) F) as N. eapply near_weaken; [| |exact N]; [lia|]. apply Rle_refl.
  - assert (b = O) by lia. replace b with O in * by lia. cbn [Rpow_def.pow]. rewrite !Rmult_1_r. eapply near_weaken; [| |exact (M1 v eq_refl F)]; [lia|apply Rle_refl].
Qed.

(** ** The integrand of one term at one sample *)
Record dsize : Type := DSize { zx : R; zy : R; znx : R; zny : R; zw : R }.
Definition term_size (m : dmono) (z : dsize) : R := (zx z * znx z + zy z * zny z) * (Rabs (val (coefd m)) * zx z ^ mx (malpha m) * zy z ^ my (malpha m)) / IZR (2 + Z.of_nat (morder (malpha m))).
Definition term_under (f : double -> nat -> R) (m : dmono) (d : dsample) (z : dsize) : R :=
  let u := under f m (dx d) (dy d) (zx z) (zy z) in
  ((zx z * znx z + zy z * zny z) * u + (tiny + tiny) * (Rabs (val (coefd m)) * zx z ^ mx (malpha m) * zy z ^ my (malpha m)) + (tiny + tiny) * u + tiny) / IZR (2 + Z.of_nat (morder (malpha m))) + tiny.
Lemma integrand_near pw j f k m d z X Y NX NY : accurate pw j f -> (2 + Z.of_nat (morder (malpha m)) <= 2 ^ 53)%Z -> near k X (zx z) 0 (dx d) -> near k Y (zy z) 0 (dy d) -> near k NX (znx z) 0 (dnx d) -> near k NY (zny z) 0 (dny d) -> fin (d_integrand pw m d) = true ->
  near (j (mx (malpha m)) + j (my (malpha m)) + (mx (malpha m) + my (malpha m) + 2) * k + 6) ((X * NX + Y * NY) * (val (coefd m) * X ^ mx (malpha m) * Y ^ my (malpha m)) / IZR (2 + Z.of_nat (morder (malpha m)))) (term_size m z) (term_under f m d z) (d_integrand pw m d).
Proof.
  intros A D Hx Hy Hnx Hny F. unfold d_integrand in *. assert (Dn : (1 <= 2 + Z.of_nat (morder (malpha m)) <= 2 ^ 53)%Z) by lia. destruct (ddiv_fin _ _ Dn F) as [F1 _]. destruct (dmul_fin _ _ F1) as (Fd & Fm & _).
  assert (N1 : near (2 * k + 2) (X * NX + Y * NY) (zx z * znx z + zy z * zny z) (tiny + tiny) (d_dot d)). { unfold d_dot in *. destruct (dadd_fin _ _ Fd) as (Fa & Fb & _). replace (2 * k + 2)%nat with (S (S (k + k))) by lia. apply near_add; [| |exact Fd]; eapply near_weaken; [apply le_n| |exact (near_mul _ _ _ _ _ _ _ _ _ _ Hx Hnx Fa)|apply le_n| |exact (near_mul _ _ _ _ _ _ _ _ _ _ Hy Hny Fb)]; lra. }
  pose proof (near_mul _ _ _ _ _ _ _ _ _ _ N1 (term_near pw j f k m _ _ _ _ _ _ A Hx Hy Fm) F1) as N2. pose proof (near_div _ _ _ _ _ _ Dn N2 F) as N3. eapply near_weaken; [| |exact N3]; [lia|apply Rle_refl].
Qed.
