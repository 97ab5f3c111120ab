(** Rounding errors of sums and products of doubles. *)
From Coq Require Import List ZArith Reals Lia Lra Permutation.
From Flocq Require Import Core Relative Plus_error BinarySingleNaN.
From Verif Require Import PyBase PolyModel FloatIdxModel FloatPolyModel.
Import ListNotations.
Open Scope R_scope.

(** The unit roundoff and half of the smallest positive double *)
Definition uro : R := / 2 ^ 53.
Definition tiny : R := / 2 ^ 1075.
Definition val (x : double) : R := B2R x.
Definition fin (x : double) : bool := is_finite x.
Notation rnd := (round radix2 (SpecFloat.fexp 53 1024) ZnearestE).

Lemma bpow_inv (n : nat) (z : Z) : z = (- Z.of_nat n)%Z -> bpow radix2 z = / 2 ^ n.
Proof. intros ->. rewrite bpow_opp. f_equal. rewrite <- (IZR_Zpower radix2) by lia. change (radix_val radix2) with 2%Z. rewrite <- pow_IZR. reflexivity. Qed.
Lemma uro_pos : 0 < uro.
Proof. unfold uro. apply Rinv_0_lt_compat, pow_lt. lra. Qed.
Lemma uro_small : uro <= 1 / 1000000.
Proof. unfold uro. replace (1 / 1000000) with (/ 1000000) by lra. apply Rinv_le; [lra|]. rewrite pow_IZR. apply IZR_le. vm_compute. discriminate. Qed.
Lemma tiny_pos : 0 < tiny.
Proof. unfold tiny. apply Rinv_0_lt_compat, pow_lt. lra. Qed.
Lemma pow1_ge k : 1 <= (1 + uro) ^ k.
Proof. apply pow_R1_Rle. pose proof uro_pos. lra. Qed.

Lemma fexp_flt : SpecFloat.fexp 53 1024 = FLT_exp (-1074) 53.
Proof. reflexivity. Qed.
Lemma u_ro_bound : u_ro radix2 53 / (1 + u_ro radix2 53) <= uro.
Proof.
  assert (E : u_ro radix2 53 = uro). { unfold u_ro. rewrite (bpow_inv 52) by reflexivity. unfold uro. rewrite <- (tech_pow_Rmult 2 52), Rinv_mult. reflexivity. }
  rewrite E. pose proof uro_pos. apply Rmult_le_reg_r with (1 + uro); [lra|]. unfold Rdiv. rewrite Rmult_assoc, Rinv_l by lra. nra.
Qed.
Lemma round_prod x : exists eps eta, Rabs eps <= uro /\ Rabs eta <= tiny /\ rnd x = x * (1 + eps) + eta.
Proof.
  destruct (relative_error_N_FLT'_ex radix2 (-1074) 53 ltac:(lia) (fun z => negb (Z.even z)) x) as (eps & eta & A & B & _ & E). exists eps, eta. rewrite fexp_flt. split; [eapply Rle_trans; [exact A|apply u_ro_bound]|]. split; [|exact E]. eapply Rle_trans; [exact B|]. rewrite (bpow_inv 1074) by reflexivity. unfold tiny. rewrite <- (tech_pow_Rmult 2 1074), Rinv_mult. apply Rle_refl.
Qed.
Lemma round_sum x y : generic_format radix2 (SpecFloat.fexp 53 1024) x -> generic_format radix2 (SpecFloat.fexp 53 1024) y -> exists eps, Rabs eps <= uro /\ rnd (x + y) = (x + y) * (1 + eps).
Proof.
  rewrite fexp_flt. intros Fx Fy. destruct (FLT_plus_error_N_ex radix2 (-1074) 53 (fun z => negb (Z.even z)) x y Fx Fy) as (eps & A & E). exists eps. split; [eapply Rle_trans; [exact A|apply u_ro_bound]|exact E].
Qed.

(** ** Sums and products that are finite have finite arguments. *)
Lemma nonfinite_overflow s : is_finite_SF (binary_overflow 53 1024 mode_NE s) = false.
Proof. reflexivity. Qed.
Lemma finite_SF (x : double) : is_finite_SF (B2SF x) = fin x.
Proof. destruct x; reflexivity. Qed.
Lemma dadd_fin x y : fin (dadd x y) = true -> fin x = true /\ fin y = true /\ val (dadd x y) = rnd (val x + val y).
Proof.
  intros E. assert (F : fin x = true /\ fin y = true) by (destruct x as [s|s| |s m e B]; destruct y as [s'|s'| |s' m' e' B']; try (split; reflexivity); try discriminate; unfold dadd, fin in E; cbn in E; try discriminate; destruct s, s'; discriminate). destruct F as [Fx Fy]. split; [exact Fx|]. split; [exact Fy|].
  pose proof (Bplus_correct 53 1024 _ _ mode_NE x y Fx Fy) as C. destruct (Rlt_bool _ _); [exact (proj1 C)|]. destruct C as [C _]. apply (f_equal is_finite_SF) in C. rewrite finite_SF, nonfinite_overflow in C. unfold dadd in E. congruence.
Qed.
Lemma dmul_fin x y : fin (dmul x y) = true -> fin x = true /\ fin y = true /\ val (dmul x y) = rnd (val x * val y).
Proof.
  intros E. pose proof (Bmult_correct 53 1024 _ _ mode_NE x y) as C. destruct (Rlt_bool _ _).
  - destruct C as (A & B & _). unfold fin, dmul in E. rewrite E in B. symmetry in B. apply andb_prop in B. split; [apply B|]. split; [apply B|exact A].
  - apply (f_equal is_finite_SF) in C. rewrite finite_SF, nonfinite_overflow in C. unfold dmul in E. congruence.
Qed.

(** ** Errors *)
(** [x] stands for the number [X] of size at most [B] after [k] roundings, of which some may have underflowed. *)
Definition near (k : nat) (X B e : R) (x : double) : Prop := fin x = true /\ Rabs X <= B /\ 0 <= e /\ Rabs (val x - X) <= ((1 + uro) ^ k - 1) * B + e * (1 + uro) ^ k.
Lemma near_exact x : fin x = true -> near 0 (val x) (Rabs (val x)) 0 x.
Proof. intros F. split; [exact F|]. split; [apply Rle_refl|]. split; [apply Rle_refl|]. rewrite Rminus_diag_eq, Rabs_R0 by reflexivity. cbn. lra. Qed.
Lemma near_weaken k k' X B e e' x : (k <= k')%nat -> e <= e' -> near k X B e x -> near k' X B e' x.
Proof.
  intros K Le (F & A & P & E). split; [exact F|]. split; [exact A|]. split; [lra|]. eapply Rle_trans; [exact E|]. assert (Q : (1 + uro) ^ k <= (1 + uro) ^ k') by (apply Rle_pow; [pose proof uro_pos; lra|exact K]). pose proof (pow1_ge k). pose proof (Rabs_pos X). apply Rplus_le_compat; [apply Rmult_le_compat_r; lra|]. apply Rmult_le_compat; lra.
Qed.
Lemma near_size k X B e x : near k X B e x -> Rabs (val x) <= (1 + uro) ^ k * (B + e).
Proof. intros (_ & A & P & E). replace (val x) with (val x - X + X) by ring. eapply Rle_trans; [apply Rabs_triang|]. nra. Qed.
Lemma near_add k X B e x Y C f y : near k X B e x -> near k Y C f y -> fin (dadd x y) = true -> near (S k) (X + Y) (B + C) (e + f) (dadd x y).
Proof.
  intros (_ & A1 & P1 & E1) (_ & A2 & P2 & E2) F. destruct (dadd_fin _ _ F) as (Fx & Fy & V). split; [exact F|]. split; [eapply Rle_trans; [apply Rabs_triang|lra]|]. split; [lra|].
  destruct (round_sum (val x) (val y) (generic_format_B2R _ _ x) (generic_format_B2R _ _ y)) as (eps & He & R). rewrite V, R. cbn [pow]. set (q := (1 + uro) ^ k) in *.
  replace ((val x + val y) * (1 + eps) - (X + Y)) with ((val x - X) + (val y - Y) + eps * ((val x - X) + (val y - Y) + (X + Y))) by ring.
  set (a := val x - X) in *. set (b := val y - Y) in *. assert (Aab : Rabs (a + b) <= (q - 1) * (B + C) + (e + f) * q) by (eapply Rle_trans; [apply Rabs_triang|]; lra).
  assert (Axy : Rabs (X + Y) <= B + C) by (eapply Rle_trans; [apply Rabs_triang|lra]).
  eapply Rle_trans; [apply Rabs_triang|]. rewrite Rabs_mult. assert (Rabs (a + b + (X + Y)) <= (q - 1) * (B + C) + (e + f) * q + (B + C)) by (eapply Rle_trans; [apply Rabs_triang|lra]).
  assert (Rabs eps * Rabs (a + b + (X + Y)) <= uro * ((q - 1) * (B + C) + (e + f) * q + (B + C))) by (apply Rmult_le_compat; try apply Rabs_pos; assumption). lra.
Qed.
Lemma near_mul k j X B e x Y C f y : near k X B e x -> near j Y C f y -> fin (dmul x y) = true -> near (S (k + j)) (X * Y) (B * C) (B * f + e * C + e * f + tiny) (dmul x y).
Proof.
  intros N1 N2 F. pose proof (near_size _ _ _ _ _ N1) as Z1. pose proof (near_size _ _ _ _ _ N2) as Z2. destruct N1 as (_ & A1 & P1 & E1). destruct N2 as (_ & A2 & P2 & E2). destruct (dmul_fin _ _ F) as (Fx & Fy & V). pose proof (Rabs_pos X). pose proof (Rabs_pos Y). pose proof tiny_pos. assert (0 <= B * f) by nra. assert (0 <= e * C) by nra. assert (0 <= e * f) by nra.
  split; [exact F|]. split; [rewrite Rabs_mult; apply Rmult_le_compat; lra|]. split; [lra|]. destruct (round_prod (val x * val y)) as (eps & eta & He & Ht & R). rewrite V, R. cbn [pow]. rewrite pow_add. set (q := (1 + uro) ^ k) in *. set (r := (1 + uro) ^ j) in *. assert (Q : 1 <= q) by apply pow1_ge. assert (R1 : 1 <= r) by apply pow1_ge. pose proof uro_pos as U.
  set (a := val x - X) in *. set (b := val y - Y) in *. assert (D : Rabs (val x * val y - X * Y) <= (q * r - 1) * (B * C) + (B * f + e * C + e * f) * (q * r)).
  { replace (val x * val y - X * Y) with (a * val y + X * b) by (unfold a, b; ring). eapply Rle_trans; [apply Rabs_triang|]. rewrite !Rabs_mult. assert (T1 : Rabs a * Rabs (val y) <= ((q - 1) * B + e * q) * (r * (C + f))) by (apply Rmult_le_compat; try apply Rabs_pos; assumption). assert (T2 : Rabs X * Rabs b <= B * ((r - 1) * C + f * r)) by (apply Rmult_le_compat; try apply Rabs_pos; assumption). eapply Rle_trans; [apply Rplus_le_compat; [exact T1|exact T2]|]. apply Req_le. ring. }
  set (d := val x * val y - X * Y) in *. replace (val x * val y * (1 + eps) + eta - X * Y) with (d + eps * (d + X * Y) + eta) by (unfold d; ring).
  assert (XY : Rabs (X * Y) <= B * C) by (rewrite Rabs_mult; apply Rmult_le_compat; lra). set (W := (q * r - 1) * (B * C) + (B * f + e * C + e * f) * (q * r)) in *.
  assert (T : Rabs eps * Rabs (d + X * Y) <= uro * (W + B * C)) by (apply Rmult_le_compat; try apply Rabs_pos; [exact He|eapply Rle_trans; [apply Rabs_triang|lra]]).
  eapply Rle_trans; [apply Rabs_triang|]. assert (Rabs (d + eps * (d + X * Y)) <= W + uro * (W + B * C)) by (eapply Rle_trans; [apply Rabs_triang|]; rewrite Rabs_mult; lra).
  assert (QR0 : 1 <= q * r) by nra. assert (QR : 1 <= (1 + uro) * (q * r)) by nra. assert (tiny * 1 <= tiny * ((1 + uro) * (q * r))) by (apply Rmult_le_compat_l; lra). unfold W in *. lra.
Qed.

(** ** Integers *)
Lemma format_int n : (Z.abs n <= 2 ^ 53)%Z -> generic_format radix2 (SpecFloat.fexp 53 1024) (IZR n).
Proof.
  intros H. rewrite fexp_flt. apply generic_format_FLT. destruct (Z.eq_dec (Z.abs n) (2 ^ 53)) as [E|E].
  - exists (Float radix2 (Z.sgn n) 53); [|cbn [Fnum]; destruct n; cbn; lia|cbn; lia]. unfold F2R. cbn [Fnum Fexp]. rewrite <- (IZR_Zpower radix2) by lia. rewrite <- mult_IZR. f_equal. change (radix_val radix2 ^ 53)%Z with (2 ^ 53)%Z. rewrite <- E. lia.
  - exists (Float radix2 n 0); [unfold F2R; cbn [Fnum Fexp bpow]; ring|cbn [Fnum]; change (Zpower radix2 53) with (2 ^ 53)%Z; change (radix_val radix2 ^ 53)%Z with (2 ^ 53)%Z; lia|cbn; lia].
Qed.
Lemma of_int_val n : (Z.abs n <= 2 ^ 53)%Z -> fin (of_int n) = true /\ val (of_int n) = IZR n.
Proof.
  intros H. pose proof (binary_normalize_correct 53 1024 _ _ mode_NE n 0 false) as C. cbv zeta in C. cbn [round_mode] in C.
  assert (E : @F2R radix2 {| Fnum := n; Fexp := 0 |} = IZR n) by (unfold F2R; cbn [Fnum Fexp bpow]; ring). rewrite E in C. rewrite (round_generic radix2 (SpecFloat.fexp 53 1024) ZnearestE _ (format_int n H)) in C.
  rewrite Rlt_bool_true in C; [destruct C as (A & B & _); split; assumption|]. rewrite <- abs_IZR. apply Rle_lt_trans with (IZR (2 ^ 53)); [apply IZR_le; exact H|]. change (2 ^ 53)%Z with (Zpower radix2 53). rewrite IZR_Zpower by lia. apply bpow_lt. lia.
Qed.
Lemma near_int n : (Z.abs n <= 2 ^ 53)%Z -> near 0 (IZR n) (Rabs (IZR n)) 0 (of_int n).
Proof. intros H. destruct (of_int_val n H) as [F V]. rewrite <- V. apply near_exact. exact F. Qed.
Lemma near_one k X B e x : near k X B e x -> fin (dmul x (of_int 1)) = true -> near k X B e (dmul x (of_int 1)).
Proof.
  intros (Fx & A & P & E) F. split; [exact F|]. split; [exact A|]. split; [exact P|]. destruct (dmul_fin _ _ F) as (_ & _ & V). rewrite V. rewrite (proj2 (of_int_val 1 ltac:(lia))), Rmult_1_r, round_generic; [exact E|apply valid_rnd_N|apply generic_format_B2R].
Qed.
(** Sums and products that are integers up to 2^53 are exact. *)
Lemma small_int n : (Z.abs n <= 2 ^ 53)%Z -> Rlt_bool (Rabs (rnd (IZR n))) (bpow radix2 1024) = true.
Proof.
  intros H. rewrite (round_generic radix2 (SpecFloat.fexp 53 1024) ZnearestE _ (format_int n H)). apply Rlt_bool_true. rewrite <- abs_IZR. apply Rle_lt_trans with (IZR (2 ^ 53)); [apply IZR_le; exact H|]. change (2 ^ 53)%Z with (Zpower radix2 53). rewrite IZR_Zpower by lia. apply bpow_lt. lia.
Qed.
Definition isint (x : double) (n : Z) : Prop := fin x = true /\ val x = IZR n.
Lemma isint_add x y a b : isint x a -> isint y b -> (Z.abs (a + b) <= 2 ^ 53)%Z -> isint (dadd x y) (a + b).
Proof.
  intros (Fx & Vx) (Fy & Vy) H. pose proof (Bplus_correct 53 1024 _ _ mode_NE x y Fx Fy) as C. unfold val in Vx, Vy. rewrite Vx, Vy, <- plus_IZR in C. cbn [round_mode] in C. rewrite (small_int _ H) in C. destruct C as (A & B & _). split; [exact B|]. unfold val, dadd. rewrite A. apply round_generic; [apply valid_rnd_N|apply format_int; exact H].
Qed.
Lemma isint_mul x y a b : isint x a -> isint y b -> (Z.abs (a * b) <= 2 ^ 53)%Z -> isint (dmul x y) (a * b).
Proof.
  intros (Fx & Vx) (Fy & Vy) H. pose proof (Bmult_correct 53 1024 _ _ mode_NE x y) as C. unfold val in Vx, Vy. rewrite Vx, Vy, <- mult_IZR in C. cbn [round_mode] in C. rewrite (small_int _ H) in C. destruct C as (A & B & _). unfold fin in *. split; [unfold fin, dmul; rewrite B, Fx, Fy; reflexivity|]. unfold val, dmul. rewrite A. apply round_generic; [apply valid_rnd_N|apply format_int; exact H].
Qed.

(** ** Sums in any order *)
Fixpoint rsum (l : list R) : R := match l with [] => 0 | x :: l => x + rsum l end.
Lemma rsum_app a b : rsum (a ++ b) = rsum a + rsum b.
Proof. induction a as [|x a IH]; cbn; [ring|rewrite IH; ring]. Qed.
Lemma rsum_perm a b : Permutation a b -> rsum a = rsum b.
Proof. induction 1; cbn; lra. Qed.
Definition rabs (l : list R) : R := rsum (map Rabs l).
(** Leaves that stand for the numbers of a list: [(X, B, e)] each *)
Definition aim : Type := R * R * R.
Definition meets (k : nat) (a : aim) (x : double) : Prop := near k (fst (fst a)) (snd (fst a)) (snd a) x.
Definition total (l : list aim) : aim := (rsum (map (fun a => fst (fst a)) l), rsum (map (fun a => snd (fst a)) l), rsum (map snd l)).
Lemma tsum_near k : forall t (l : list aim), Forall2 (meets k) l (leaves t) -> fin (tsum t) = true -> meets (depth t + k) (total l) (tsum t).
Proof.
  induction t as [x|a IHa b IHb]; intros l F E.
  - inversion F as [|p y l' l'' M N]; subst. inversion N; subst. unfold meets, total in *. cbn [map rsum fst snd depth Nat.add tsum]. rewrite !Rplus_0_r. exact M.
  - cbn [leaves] in F. apply Forall2_app_inv_r in F. destruct F as (la & lb & Fa & Fb & ->). cbn [tsum] in *. destruct (dadd_fin _ _ E) as (Ea & Eb & _). specialize (IHa la Fa Ea). specialize (IHb lb Fb Eb). unfold meets, total in *. cbn [fst snd] in *. rewrite !map_app, !rsum_app. cbn [depth]. change (Datatypes.S (Nat.max (depth a) (depth b)) + k)%nat with (Datatypes.S (Nat.max (depth a) (depth b) + k)).
    apply near_add; [eapply near_weaken; [| |exact IHa]; [lia|apply Rle_refl]|eapply near_weaken; [| |exact IHb]; [lia|apply Rle_refl]|exact E].
Qed.
Lemma null_near k x : is_null x = true -> near k 0 0 0 x.
Proof. destruct x; try discriminate. intros _. split; [reflexivity|]. rewrite Rabs_R0. split; [lra|]. split; [lra|]. unfold val. cbn [B2R]. rewrite Rminus_diag_eq, Rabs_R0 by reflexivity. lra. Qed.
Lemma Forall2_perm {A B} (P : A -> B -> Prop) : forall l' m, Permutation l' m -> forall l, Forall2 P l l' -> exists k, Permutation l k /\ Forall2 P k m.
Proof.
  induction 1 as [|x l' m Q IH|x y l'|a b c Q1 I1 Q2 I2]; intros l F.
  - inversion F; subst. exists []. split; constructor.
  - inversion F as [|p ? lp ? Px Fl]; subst. destruct (IH lp Fl) as (k & K & Fk). exists (p :: k). split; [constructor; exact K|constructor; assumption].
  - inversion F as [|p ? lp ? Px Fl]; subst. inversion Fl as [|q ? lq ? Py Fq]; subst. exists (q :: p :: lq). split; [apply perm_swap|]. constructor; [assumption|]. constructor; assumption.
  - destruct (I1 l F) as (k & K & Fk). destruct (I2 k Fk) as (j & J & Fj). exists j. split; [exact (Permutation_trans K J)|exact Fj].
Qed.
(** The same for the numbers that are summed up, in any order and with added zeros *)
Lemma order_near k t l (m : list aim) : orders l t -> Forall2 (meets k) m l -> fin (tsum t) = true -> meets (depth t + k) (total m) (tsum t).
Proof.
  intros (pad & Pd & Pm) F E. assert (Fp : Forall2 (meets k) (m ++ map (fun _ => (0, 0, 0)) pad) (l ++ pad)). { apply Forall2_app; [exact F|]. clear -Pd. induction Pd as [|x p Px Pp IH]; cbn [map]; constructor; [unfold meets; cbn [fst snd]; apply null_near; exact Px|exact IH]. }
  destruct (Forall2_perm _ _ _ (Permutation_sym Pm) _ Fp) as (j & J & Fj). pose proof (tsum_near k t j Fj E) as T. replace (total m) with (total j); [exact T|]. assert (Z : rsum (map (fun _ : double => 0) pad) = 0) by (clear; induction pad as [|x p IH]; cbn; [reflexivity|rewrite IH; ring]).
  unfold total. rewrite <- !(rsum_perm _ _ (Permutation_map _ J)). rewrite !map_app, !rsum_app, !map_map. cbn [fst snd]. rewrite Z, !Rplus_0_r. reflexivity.
Qed.
