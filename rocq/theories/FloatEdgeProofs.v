(** Errors of the operations in FloatEdgeModel.v (C87) *)
From Coq Require Import List ZArith Reals Lia Lra Psatz.
From Flocq Require Import Core BinarySingleNaN.
From Verif Require Import PyBase FloatIdxModel FloatPolyModel FloatErr FloatInnerModel FloatInnerProofs FloatEdgeModel.
Import List ListNotations.
Open Scope R_scope.

(** What the matrix product of numpy may do for a x + b y: two products and a sum in either order, or one fused operation. *)
Definition dot_ok (dot : double -> double -> double -> double -> double) : Prop := forall a x b y,
  dot a x b y = dadd (dmul a x) (dmul b y) \/ dot a x b y = dadd (dmul b y) (dmul a x) \/ dot a x b y = Bfma mode_NE a x (dmul b y) \/ dot a x b y = Bfma mode_NE b y (dmul a x).

Lemma fma_fin x y z : fin (Bfma mode_NE x y z) = true -> fin x = true /\ fin y = true /\ fin z = true /\ val (Bfma mode_NE x y z) = rnd (val x * val y + val z).
Proof.
  intros F. assert (A : fin x = true /\ fin y = true /\ fin z = true).
  { destruct x as [s|s| |s m e B], y as [t|t| |t n g C], z as [u|u| |u k h D]; try (repeat split; reflexivity); exfalso; unfold fin, Bfma in F; try (discriminate F); destruct s, t; try destruct u; discriminate F. }
  destruct A as (Fx & Fy & Fz). repeat (split; [assumption|]). pose proof (Bfma_correct 53 1024 _ _ mode_NE x y z Fx Fy Fz) as C. cbv zeta in C. unfold fin, val in *. destruct (Rlt_bool _ _) in C; [exact (proj1 C)|]. rewrite <- finite_SF in F. rewrite C, nonfinite_overflow in F. discriminate.
Qed.
Lemma mul_near a b : fin (dmul a b) = true -> near 1 (val a * val b) (Rabs (val a) * Rabs (val b)) tiny (dmul a b).
Proof. intros Fab. destruct (dmul_fin _ _ Fab) as (Fa & Fb & _). eapply near_weaken; [| |exact (near_mul _ _ _ _ _ _ _ _ _ _ (near_exact a Fa) (near_exact b Fb) Fab)]; [lia|lra]. Qed.
Lemma fma_near a x b y : fin (Bfma mode_NE a x (dmul b y)) = true -> near 2 (val a * val x + val b * val y) (Rabs (val a) * Rabs (val x) + Rabs (val b) * Rabs (val y)) (tiny + tiny) (Bfma mode_NE a x (dmul b y)).
Proof.
  intros F. destruct (fma_fin _ _ _ F) as (_ & _ & Fm & V). destruct (mul_near _ _ Fm) as (_ & _ & _ & E). destruct (round_prod (val a * val x + val (dmul b y))) as (eps & eta & He & Ht & Rd). rewrite Rd in V. pose proof tiny_pos as T. pose proof uro_pos as U.
  split; [exact F|]. split; [eapply Rle_trans; [apply Rabs_triang|]; rewrite !Rabs_mult; lra|]. split; [lra|]. rewrite V. cbn [pow] in *. rewrite Rmult_1_r in *. set (m := val (dmul b y)) in *. rewrite <- !Rabs_mult in *. set (X := val a * val x) in *. set (Y := val b * val y) in *.
  replace ((X + m) * (1 + eps) + eta - (X + Y)) with ((m - Y) * (1 + eps) + (X + Y) * eps + eta) by ring. eapply Rle_trans; [apply Rabs_triang|]. eapply Rle_trans; [apply Rplus_le_compat_r, Rabs_triang|]. rewrite !Rabs_mult.
  assert (E1 : Rabs (1 + eps) <= 1 + uro) by (eapply Rle_trans; [apply Rabs_triang|]; rewrite Rabs_R1; lra). pose proof (Rabs_pos (1 + eps)). pose proof (Rabs_pos eps). pose proof (Rabs_pos (m - Y)). pose proof (Rabs_pos (X + Y)). pose proof (Rabs_triang X Y) as Tr. pose proof (Rabs_pos X). pose proof (Rabs_pos Y).
  assert (P1 : Rabs (m - Y) * Rabs (1 + eps) <= ((1 + uro - 1) * Rabs Y + tiny * (1 + uro)) * (1 + uro)) by (apply Rmult_le_compat; assumption). assert (P2 : Rabs (X + Y) * Rabs eps <= (Rabs X + Rabs Y) * uro) by (apply Rmult_le_compat; assumption).
  assert (P3 : 0 <= uro * uro * Rabs X) by (apply Rmult_le_pos; [apply Rmult_le_pos; lra|assumption]). assert (P4 : tiny <= tiny * ((1 + uro) * (1 + uro))) by (rewrite <- (Rmult_1_r tiny) at 1; apply Rmult_le_compat_l; nra). assert (P5 : 0 <= uro * Rabs X) by (apply Rmult_le_pos; lra). lra.
Qed.
Lemma near_swap k X Y B C e x : near k (Y + X) (C + B) e x -> near k (X + Y) (B + C) e x.
Proof. rewrite (Rplus_comm X), (Rplus_comm B). exact (fun H => H). Qed.
Lemma dot_near dot a x b y : dot_ok dot -> fin (dot a x b y) = true -> near 2 (val a * val x + val b * val y) (Rabs (val a) * Rabs (val x) + Rabs (val b) * Rabs (val y)) (tiny + tiny) (dot a x b y).
Proof.
  intros K F. assert (D : forall a x b y, fin (dadd (dmul a x) (dmul b y)) = true -> near 2 (val a * val x + val b * val y) (Rabs (val a) * Rabs (val x) + Rabs (val b) * Rabs (val y)) (tiny + tiny) (dadd (dmul a x) (dmul b y))).
  { intros a' x' b' y' F'. destruct (dadd_fin _ _ F') as (F1 & F2 & _). apply near_add; auto using mul_near. }
  destruct (K a x b y) as [E|[E|[E|E]]]; rewrite E in *; [apply D, F|apply near_swap, D, F|apply fma_near, F|apply near_swap, fma_near, F].
Qed.

(** ** Exact cases *)
Lemma rnd_val x : rnd (val x) = val x.
Proof. apply round_generic; [apply valid_rnd_N|apply generic_format_B2R]. Qed.
Lemma small_val x : fin x = true -> Rlt_bool (Rabs (val x)) (bpow radix2 1024) = true.
Proof. intros F. apply Rlt_bool_true, abs_B2R_lt_emax. Qed.
Lemma mul_exact a x y : fin a = true -> fin x = true -> fin y = true -> val a * val x = val y -> fin (dmul a x) = true /\ val (dmul a x) = val y.
Proof.
  intros Fa Fx Fy E. pose proof (Bmult_correct 53 1024 _ _ mode_NE a x) as C. unfold val in E. rewrite E in C. cbn [round_mode] in C. fold (val y) in C. rewrite rnd_val, (small_val y Fy) in C. destruct C as (V & Fm & _). unfold fin in *. rewrite Fa, Fx in Fm. split; [exact Fm|exact V].
Qed.
Lemma add_exact x y z : fin x = true -> fin y = true -> fin z = true -> val x + val y = val z -> fin (dadd x y) = true /\ val (dadd x y) = val z.
Proof.
  intros Fx Fy Fz E. pose proof (Bplus_correct 53 1024 _ _ mode_NE x y Fx Fy) as C. unfold val in E. rewrite E in C. cbn [round_mode] in C. fold (val z) in C. rewrite rnd_val, (small_val z Fz) in C. destruct C as (V & Fm & _). split; [exact Fm|exact V].
Qed.
Lemma fma_exact a x y z : fin a = true -> fin x = true -> fin y = true -> fin z = true -> val a * val x + val y = val z -> fin (Bfma mode_NE a x y) = true /\ val (Bfma mode_NE a x y) = val z.
Proof.
  intros Fa Fx Fy Fz E. pose proof (Bfma_correct 53 1024 _ _ mode_NE a x y Fa Fx Fy) as C. cbv zeta in C. unfold val in E. rewrite E in C. cbn [round_mode] in C. fold (val z) in C. rewrite rnd_val, (small_val z Fz) in C. destruct C as (V & Fm & _). split; [exact Fm|exact V].
Qed.
(** One product is a double, the other is 0 *)
Lemma dot_exact dot a x b y p q : dot_ok dot -> fin a = true -> fin x = true -> fin b = true -> fin y = true -> fin p = true -> fin q = true -> val a * val x = val p -> val b * val y = val q -> val p = 0 \/ val q = 0 ->
  fin (dot a x b y) = true /\ val (dot a x b y) = val p + val q.
Proof.
  intros K Fa Fx Fb Fy Fp Fq Ep Eq Z0. destruct (mul_exact a x p Fa Fx Fp Ep) as [Fm Vm]. destruct (mul_exact b y q Fb Fy Fq Eq) as [Fn Vn].
  assert (Z : exists z, fin z = true /\ val z = val p + val q) by (destruct Z0 as [->| ->]; [exists q|exists p]; split; try assumption; ring). destruct Z as (z & Fz & Vz).
  destruct (K a x b y) as [E|[E|[E|E]]]; rewrite E; rewrite <- Vz; [apply add_exact|apply add_exact|apply fma_exact|apply fma_exact]; try assumption; lra.
Qed.
