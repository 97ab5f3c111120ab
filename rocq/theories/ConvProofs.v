(** Lemmas for the convergence of integrals (C79): rectangle and trapezoid rules, continuity of integrands. *)
From Coq Require Import List ZArith Reals Lia Lra Psatz Bool String.
From Coquelicot Require Import Coquelicot.
From Verif Require Import PyBase PolyModel BaryModel BBoxModel QuadModel QuadSpec QuadProofs QuadProps CurveModel CurveSpec CurveProps VertModel EdgeModel ContourModel CellModel CellSpec EdgeSpec EdgeProofs EdgeProofs2 EdgeProps EdgeProps3 EdgeProps4 CellProofs CellProps ContourProofs ConvSpec.
Import List ListNotations.
Open Scope R_scope.

(** ** Rules on equal intervals *)
Lemma near_const g a b M v : a <= b -> (forall t, a <= t <= b -> continuous g t) -> (forall t, a <= t <= b -> Rabs (g t - v) <= M) -> Rabs ((b - a) * v - RInt g a b) <= (b - a) * M.
Proof.
  intros L C H. assert (E : ex_RInt g a b) by (apply (@ex_RInt_continuous R_CompleteNormedModule); intros z Hz; rewrite Rmin_left, Rmax_right in Hz by lra; apply C, Hz).
  assert (X : (b - a) * v - RInt g a b = RInt (fun t => v - g t) a b).
  { symmetry. etransitivity; [exact (RInt_minus (fun _ => v) g a b (ex_RInt_const a b v) E)|]. rewrite RInt_const. reflexivity. }
  rewrite X. apply (norm_RInt_le_const (fun t => v - g t) a b _ M L).
  - intros t Ht. change (Rabs (v - g t) <= M). rewrite Rabs_minus_sym. apply H, Ht.
  - apply (@RInt_correct R_CompleteNormedModule). exact (@ex_RInt_minus R_NormedModule (fun _ => v) g a b (ex_RInt_const a b v) E).
Qed.
(** One value [x i] for each interval, from its point or points *)
Lemma rule_error g h M (x : nat -> R) : 0 <= h -> forall N, (forall t, 0 <= t <= INR N * h -> continuous g t) ->
  (forall i t, (i < N)%nat -> INR i * h <= t <= INR (S i) * h -> Rabs (g t - x i) <= M) -> Rabs (h * sum_list (map x (seq 0 N)) - RInt g 0 (INR N * h)) <= INR N * h * M.
Proof.
  intros Hh. induction N as [|N IH]; intros C H.
  - cbn [INR seq map]. unfold sum_list. cbn [fold_right]. replace (0 * h) with 0 by ring. rewrite RInt_point. change zero with 0. rewrite Rmult_0_r, Rminus_0_r, Rabs_R0. lra.
  - pose proof (pos_INR N) as PN. assert (Le : INR N * h <= INR (S N) * h) by (rewrite S_INR; lra). assert (L0 : 0 <= INR N * h) by (apply Rmult_le_pos; assumption).
    rewrite seq_S, map_app, sum_app. cbn [map Nat.add]. assert (S1 : sum_list [x N] = x N) by (unfold sum_list; cbn; ring). rewrite S1.
    assert (E1 : ex_RInt g 0 (INR N * h)) by (apply (@ex_RInt_continuous R_CompleteNormedModule); intros z Hz; rewrite Rmin_left, Rmax_right in Hz by lra; apply C; lra).
    assert (E2 : ex_RInt g (INR N * h) (INR (S N) * h)) by (apply (@ex_RInt_continuous R_CompleteNormedModule); intros z Hz; rewrite Rmin_left, Rmax_right in Hz by lra; apply C; lra).
    rewrite <- (RInt_Chasles g 0 (INR N * h) (INR (S N) * h) E1 E2). change plus with Rplus.
    assert (A : Rabs (h * sum_list (map x (seq 0 N)) - RInt g 0 (INR N * h)) <= INR N * h * M) by (apply IH; [intros t Ht; apply C; lra|intros i t Hi; apply H; lia]).
    pose proof (near_const g (INR N * h) (INR (S N) * h) M (x N) Le (fun t Ht => C t ltac:(lra)) (fun t Ht => H N t ltac:(lia) Ht)) as B. replace (INR (S N) * h - INR N * h) with h in B by (rewrite S_INR; ring).
    replace (h * (sum_list (map x (seq 0 N)) + x N) - (RInt g 0 (INR N * h) + RInt g (INR N * h) (INR (S N) * h))) with ((h * sum_list (map x (seq 0 N)) - RInt g 0 (INR N * h)) + (h * x N - RInt g (INR N * h) (INR (S N) * h))) by ring.
    eapply Rle_trans; [apply Rabs_triang|]. rewrite S_INR in *. lra.
Qed.
(** A continuous function on [0, 2 pi] *)
Lemma rules_converge g : (forall t, 0 <= t <= 2 * PI -> continuous g t) -> forall eps, 0 < eps -> exists K, (0 < K)%nat /\ forall N (x : nat -> R), (K <= N)%nat ->
  (forall i, (i < N)%nat -> exists s, 0 <= s <= 1 /\ x i = (1 - s) * g (INR i * (2 * PI / INR N)) + s * g (INR (S i) * (2 * PI / INR N))) -> Rabs (2 * PI / INR N * sum_list (map x (seq 0 N)) - RInt g 0 (2 * PI)) <= eps.
Proof.
  intros C eps He. pose proof PI_RGT_0 as HP. assert (Hm : 0 < eps / (2 * PI)) by (apply Rdiv_lt_0_compat; lra).
  destruct (unifcont_1d g 0 (2 * PI) C (mkposreal _ Hm)) as [[d Hd] U]. cbn [pos] in U. destruct (archimed (2 * PI / d)) as [Ar _].
  set (K := Z.to_nat (up (2 * PI / d))). assert (D0 : 0 < 2 * PI / d) by (apply Rdiv_lt_0_compat; lra). assert (U0 : (0 < up (2 * PI / d))%Z) by (apply lt_IZR; lra). assert (KR : 2 * PI / d < INR K) by (unfold K; rewrite INR_IZR_INZ, Z2Nat.id by lia; lra).
  exists K. split; [unfold K; lia|]. intros N x HN Hx. assert (NK : INR K <= INR N) by (apply le_INR; exact HN). assert (N0 : 0 < INR N) by lra. set (h := 2 * PI / INR N) in *. assert (h0 : 0 < h) by (unfold h; apply Rdiv_lt_0_compat; lra). assert (Nh : INR N * h = 2 * PI) by (unfold h; field; lra).
  assert (hd : h < d). { unfold h. apply Rmult_lt_reg_r with (INR N); [exact N0|]. replace (2 * PI / INR N * INR N) with (2 * PI) by (field; lra). replace (2 * PI) with (d * (2 * PI / d)) by (field; lra). apply Rmult_lt_compat_l; lra. }
  pose proof (rule_error g h (eps / (2 * PI)) x (Rlt_le _ _ h0) N) as E. rewrite Nh in E. replace (2 * PI * (eps / (2 * PI))) with eps in E by (field; lra). apply E; [exact C|].
  intros i t Hi Ht. destruct (Hx i Hi) as (s & Hs & ->). assert (Si : INR (S i) <= INR N) by (apply le_INR; lia). pose proof (pos_INR i) as Pi. assert (T1 : INR (S i) * h <= 2 * PI) by (rewrite <- Nh; apply Rmult_le_compat_r; lra). assert (T0 : 0 <= INR i * h) by (apply Rmult_le_pos; lra). assert (Ts : INR (S i) * h = INR i * h + h) by (rewrite S_INR; ring).
  assert (Q : forall u, INR i * h <= u <= INR (S i) * h -> Rabs (g t - g u) <= eps / (2 * PI)).
  { intros u Hu. destruct (Rle_dec (Rabs (g t - g u)) (eps / (2 * PI))) as [|X]; [assumption|]. exfalso. apply (U t u); [lra|lra| |].
    - unfold ball. cbn. unfold AbsRing_ball, abs, minus, plus, opp. cbn. apply Rabs_def1; lra.
    - intros Bl. unfold ball in Bl. cbn in Bl. unfold AbsRing_ball, abs, minus, plus, opp in Bl. cbn in Bl. rewrite Rabs_minus_sym in X. apply X, Rlt_le. exact Bl. }
  replace (g t - ((1 - s) * g (INR i * h) + s * g (INR (S i) * h))) with ((1 - s) * (g t - g (INR i * h)) + s * (g t - g (INR (S i) * h))) by ring.
  eapply Rle_trans; [apply Rabs_triang|]. rewrite !Rabs_mult, (Rabs_pos_eq (1 - s)), (Rabs_pos_eq s) by lra. pose proof (Q (INR i * h) ltac:(lra)). pose proof (Q (INR (S i) * h) ltac:(lra)).
  apply Rle_trans with ((1 - s) * (eps / (2 * PI)) + s * (eps / (2 * PI))); [apply Rplus_le_compat; apply Rmult_le_compat_l; lra|lra].
Qed.

(** ** Second order *)
Lemma dominated (F F' G G' : R -> R) (a b : R) : a <= b -> (forall t, a <= t <= b -> is_derive F t (F' t)) -> (forall t, a <= t <= b -> is_derive G t (G' t)) -> (forall t, a <= t <= b -> Rabs (F' t) <= G' t) -> Rabs (F b - F a) <= G b - G a.
Proof.
  intros L DF DG H. assert (X : forall s, s = 1 \/ s = -1 -> 0 <= (G b - G a) - s * (F b - F a)).
  { intros s Hs. destruct (MVT_gen (fun t => G t - s * F t) a b (fun t => G' t - s * F' t)) as (c & Hc & E).
    - intros t Ht. rewrite Rmin_left, Rmax_right in Ht by lra. apply (is_derive_minus G (fun t => s * F t)); [apply DG; lra|]. apply (is_derive_scal F t s (F' t)). apply DF; lra.
    - intros t Ht. rewrite Rmin_left, Rmax_right in Ht by lra. apply continuity_pt_filterlim. apply (ex_derive_continuous (fun t => G t - s * F t)). exists (G' t - s * F' t). apply (is_derive_minus G (fun t => s * F t)); [apply DG; lra|]. apply (is_derive_scal F t s (F' t)). apply DF; lra.
    - rewrite Rmin_left, Rmax_right in Hc by lra. replace ((G b - G a) - s * (F b - F a)) with (G b - s * F b - (G a - s * F a)) by ring. rewrite E. apply Rmult_le_pos; [|lra]. specialize (H c Hc). pose proof (Rle_abs (F' c)) as A1. pose proof (Rle_abs (- F' c)) as A2. rewrite Rabs_Ropp in A2. destruct Hs as [-> | ->]; lra. }
  pose proof (X 1 (or_introl eq_refl)). pose proof (X (-1) (or_intror eq_refl)). apply Rabs_le. lra.
Qed.
Lemma antiderivative (g : R -> R) (a b : R) : a <= b -> (forall t, a <= t <= b -> continuous g t) -> exists P : R -> R, forall t, a <= t <= b -> is_derive P t (g t).
Proof.
  intros L C. set (f := extension_C0 g a b). assert (Cf : forall t, continuous f t) by (intros t; apply (extension_C0_continuous g a b); [exact L|intros x H1 H2; apply C; split; [exact H1|exact H2]]).
  exists (fun x => RInt f a x). intros t Ht. replace (g t) with (f t) by (apply (extension_C0_ext g a b); cbn; lra). apply is_derive_RInt with a; [|apply Cf]. apply filter_forall. intros x. apply (@RInt_correct R_CompleteNormedModule). apply (@ex_RInt_continuous R_CompleteNormedModule). intros z _. apply Cf.
Qed.
Lemma trapezoid_one (g g' g'' : R -> R) (a b M : R) : a <= b -> (forall t, a <= t <= b -> is_derive g t (g' t) /\ is_derive g' t (g'' t) /\ Rabs (g'' t) <= M) -> Rabs ((b - a) * ((g a + g b) / 2) - RInt g a b) <= M * (b - a) ^ 3 / 12.
Proof.
  intros L H. assert (C : forall t, a <= t <= b -> continuous g t) by (intros t Ht; apply (ex_derive_continuous g); exists (g' t); apply H, Ht). destruct (antiderivative g a b L C) as (P & DP).
  assert (I : RInt g a b = P b - P a). { apply is_RInt_unique. apply (is_RInt_derive P g a b); intros t Ht; rewrite Rmin_left, Rmax_right in Ht by lra; auto. }
  rewrite I. pose (F := fun x => (x - a) * ((g a + g x) / 2) - (P x - P a)). pose (F1 := fun x => (g a - g x) / 2 + (x - a) * g' x / 2). pose (F2 := fun x => (x - a) * g'' x / 2).
  assert (D1 : forall t, a <= t <= b -> is_derive F t (F1 t)). { intros t Ht. destruct (H t Ht) as (X1 & _). pose proof (DP t Ht) as X2. unfold F, F1. auto_derive; [split; [exists (g' t); exact X1|split; [exists (g t); exact X2|trivial]]|]. replace (Derive (fun x => g x) t) with (g' t) by (symmetry; apply is_derive_unique; exact X1). replace (Derive (fun x => P x) t) with (g t) by (symmetry; apply is_derive_unique; exact X2). field. }
  assert (D2 : forall t, a <= t <= b -> is_derive F1 t (F2 t)). { intros t Ht. destruct (H t Ht) as (X1 & X2 & _). unfold F1, F2. auto_derive; [split; [exists (g' t); exact X1|split; [exists (g'' t); exact X2|trivial]]|]. replace (Derive (fun x => g x) t) with (g' t) by (symmetry; apply is_derive_unique; exact X1). replace (Derive (fun x => g' x) t) with (g'' t) by (symmetry; apply is_derive_unique; exact X2). field. }
  assert (B1 : forall t, a <= t <= b -> Rabs (F1 t) <= M * (t - a) ^ 2 / 4).
  { intros t Ht. pose proof (dominated F1 F2 (fun x => M * (x - a) ^ 2 / 4) (fun x => (x - a) * M / 2) a t ltac:(lra) (fun s Hs => D2 s ltac:(lra))) as X. assert (Fa : F1 a = 0) by (unfold F1; field). rewrite Fa, Rminus_0_r in X. replace (M * (t - a) ^ 2 / 4) with (M * (t - a) ^ 2 / 4 - M * (a - a) ^ 2 / 4) by field. apply X.
    - intros s _. auto_derive; [trivial|]. field.
    - intros s Hs. unfold F2. unfold Rdiv. rewrite !Rabs_mult, (Rabs_pos_eq (s - a)), (Rabs_pos_eq (/ 2)) by lra. apply Rmult_le_compat_r; [lra|]. apply Rmult_le_compat_l; [lra|]. apply H. lra. }
  pose proof (dominated F F1 (fun x => M * (x - a) ^ 3 / 12) (fun x => M * (x - a) ^ 2 / 4) a b L D1) as X. assert (Fa : F a = 0) by (unfold F; field). rewrite Fa, Rminus_0_r in X. replace (M * (b - a) ^ 3 / 12) with (M * (b - a) ^ 3 / 12 - M * (a - a) ^ 3 / 12) by field. apply X; [|exact B1].
  intros s _. auto_derive; [trivial|]. field.
Qed.
Lemma trapezoid_second (g g' g'' : R -> R) (h M : R) : 0 <= h -> forall N, (forall t, 0 <= t <= INR N * h -> is_derive g t (g' t) /\ is_derive g' t (g'' t) /\ Rabs (g'' t) <= M) ->
  Rabs (h * sum_list (map (fun i => (g (INR i * h) + g (INR (S i) * h)) / 2) (seq 0 N)) - RInt g 0 (INR N * h)) <= INR N * (M * h ^ 3 / 12).
Proof.
  intros Hh. induction N as [|N IH]; intros H.
  - cbn [INR seq map]. unfold sum_list. cbn [fold_right]. replace (0 * h) with 0 by ring. rewrite RInt_point. change zero with 0. rewrite Rmult_0_r, Rminus_0_r, Rabs_R0. lra.
  - pose proof (pos_INR N) as PN. assert (Le : INR N * h <= INR (S N) * h) by (rewrite S_INR; lra). assert (L0 : 0 <= INR N * h) by (apply Rmult_le_pos; assumption).
    assert (C : forall t, 0 <= t <= INR (S N) * h -> continuous g t) by (intros t Ht; apply (ex_derive_continuous g); exists (g' t); apply H, Ht).
    rewrite seq_S, map_app, sum_app. cbn [map Nat.add]. set (y := (g (INR N * h) + g (INR (S N) * h)) / 2). assert (S1 : sum_list [y] = y) by (unfold sum_list; cbn; ring). rewrite S1.
    assert (E1 : ex_RInt g 0 (INR N * h)) by (apply (@ex_RInt_continuous R_CompleteNormedModule); intros z Hz; rewrite Rmin_left, Rmax_right in Hz by lra; apply C; lra).
    assert (E2 : ex_RInt g (INR N * h) (INR (S N) * h)) by (apply (@ex_RInt_continuous R_CompleteNormedModule); intros z Hz; rewrite Rmin_left, Rmax_right in Hz by lra; apply C; lra).
    rewrite <- (RInt_Chasles g 0 (INR N * h) (INR (S N) * h) E1 E2). change plus with Rplus.
    specialize (IH (fun t Ht => H t ltac:(lra))). pose proof (trapezoid_one g g' g'' (INR N * h) (INR (S N) * h) M Le (fun t Ht => H t ltac:(lra))) as B. fold y in B. replace (INR (S N) * h - INR N * h) with h in B by (rewrite S_INR; ring).
    match goal with |- Rabs ?x <= _ => replace x with ((h * sum_list (map (fun i => (g (INR i * h) + g (INR (S i) * h)) / 2) (seq 0 N)) - RInt g 0 (INR N * h)) + (h * y - RInt g (INR N * h) (INR (S N) * h))) by ring end.
    eapply Rle_trans; [apply Rabs_triang|]. rewrite S_INR in *. lra.
Qed.

(** ** Integrands along curves *)
Lemma pt_continuous (c : R -> pt) t : continuous (fun s => fst (c s)) t -> continuous (fun s => snd (c s)) t -> continuous (fun s => (fst (c s), snd (c s)) : R * R) t.
Proof.
  intros H1 H2. apply (continuous_comp_2 (fun s => fst (c s)) (fun s => snd (c s)) (fun a b => (a, b) : R * R) t H1 H2).
  apply continuous_ext with (fun x : R * R => x); [intros [a b]; reflexivity|]. apply continuous_id.
Qed.
Lemma derive_continuous c t d : pt_derive c t d -> continuous (fun s => fst (c s)) t /\ continuous (fun s => snd (c s)) t.
Proof. intros [H1 H2]. split; [apply (ex_derive_continuous (fun s => fst (c s))); exists (fst d); exact H1|apply (ex_derive_continuous (fun s => snd (c s))); exists (snd d); exact H2]. Qed.
Lemma norm_continuous c t d : pt_derive c t d -> continuous (fun s => EdgeSpec.norm (c s)) t.
Proof.
  intros H. destruct (derive_continuous _ _ _ H) as [C1 C2]. unfold EdgeSpec.norm, norm2. apply (continuous_comp (fun s => fst (c s) * fst (c s) + snd (c s) * snd (c s)) sqrt).
  - apply (@continuous_plus R_UniformSpace R_AbsRing R_NormedModule (fun s => fst (c s) * fst (c s)) (fun s => snd (c s) * snd (c s))).
    + apply (continuous_mult (fun s => fst (c s)) (fun s => fst (c s))); assumption.
    + apply (continuous_mult (fun s => snd (c s)) (fun s => snd (c s))); assumption.
  - apply continuity_pt_filterlim, continuity_pt_sqrt. pose proof (norm2_nonneg (c t)) as N. unfold norm2 in N. exact N.
Qed.
Lemma field_continuous G o c c' t d d' : continuous_field G -> pt_derive c t d -> pt_derive c' t d' -> 0 < norm2 (c' t) -> continuous (line_integrand G o c c') t.
Proof.
  intros HG D D' Hn. pose proof (norm_continuous _ _ _ D') as CN. pose proof (norm_pos _ Hn) as Pn. destruct (derive_continuous _ _ _ D) as [C1 C2]. destruct (derive_continuous _ _ _ D') as [C1' C2'].
  assert (CI : continuous (fun s => / EdgeSpec.norm (c' s)) t). { apply (continuous_comp (fun s => EdgeSpec.norm (c' s)) Rinv); [exact CN|]. apply continuity_pt_filterlim. apply continuity_pt_inv; [apply continuity_pt_id|lra]. }
  unfold line_integrand. apply (continuous_mult (fun s => G (c s) (pt_scale o (normal_of (c' s)))) (fun s => EdgeSpec.norm (c' s))); [|exact CN].
  set (nu := fun s => pt_scale o (normal_of (c' s))).
  apply continuous_ext with (fun s => G (fst (c s), snd (c s)) (fst (nu s), snd (nu s))). { intros s. rewrite <- !surjective_pairing. reflexivity. }
  apply (continuous_comp_2 (fun s => (fst (c s), snd (c s)) : R * R) (fun s => (fst (nu s), snd (nu s)) : R * R) G t); [apply (pt_continuous c t C1 C2)| |apply (HG (_, _))].
  apply (pt_continuous nu); unfold nu, normal_of, cw, pt_scale; cbn [fst snd].
  - apply (continuous_mult (fun _ => o) (fun s => / EdgeSpec.norm (c' s) * snd (c' s))); [apply continuous_const|]. apply (continuous_mult (fun s => / EdgeSpec.norm (c' s)) (fun s => snd (c' s))); assumption.
  - apply (continuous_mult (fun _ => o) (fun s => - (/ EdgeSpec.norm (c' s) * fst (c' s)))); [apply continuous_const|]. apply (@continuous_opp R_UniformSpace R_AbsRing R_NormedModule (fun s => / EdgeSpec.norm (c' s) * fst (c' s))). apply (continuous_mult (fun s => / EdgeSpec.norm (c' s)) (fun s => fst (c' s))); assumption.
Qed.
Lemma normal_scale k d : 0 < k -> 0 < norm2 d -> normal_of (pt_scale k d) = normal_of d /\ EdgeSpec.norm (pt_scale k d) = k * EdgeSpec.norm d.
Proof.
  intros Hk Hd. pose proof (norm_pos _ Hd) as Pn. assert (E : EdgeSpec.norm (pt_scale k d) = k * EdgeSpec.norm d). { unfold EdgeSpec.norm. rewrite norm2_scale, sqrt_mult, sqrt_square by (try apply Rmult_le_pos; try apply norm2_nonneg; lra). reflexivity. }
  split; [|exact E]. unfold normal_of. rewrite E, pt_scale_scale. do 2 f_equal. field. lra.
Qed.
Lemma integrand_scale G o Y Y' k t : 0 < k -> 0 < norm2 (Y' t) -> G (Y t) (pt_scale o (normal_of (pt_scale k (Y' t)))) * EdgeSpec.norm (pt_scale k (Y' t)) = k * line_integrand G o Y Y' t.
Proof. intros Hk Hn. destruct (normal_scale k (Y' t) Hk Hn) as [-> ->]. unfold line_integrand. ring. Qed.
Lemma derive_unique c t d d' : pt_derive c t d -> pt_derive c t d' -> d = d'.
Proof.
  intros [A1 A2] [B1 B2]. rewrite (surjective_pairing d), (surjective_pairing d'). f_equal.
  - rewrite <- (is_derive_unique _ _ _ A1). apply is_derive_unique. exact B1.
  - rewrite <- (is_derive_unique _ _ _ A2). apply is_derive_unique. exact B2.
Qed.

(** ** The samples of an edge as values of one function *)
Lemma kress_range p t : (2 <= p)%nat -> 0 <= t <= 2 * PI -> 0 <= kress_node p t <= 2 * PI.
Proof.
  intros P2 Ht. pose proof PI_RGT_0 as HP. split.
  - destruct (Req_dec t 0) as [->|]; [rewrite kress_0 by exact P2; lra|]. apply Rle_trans with (kress_node p 0); [rewrite kress_0 by exact P2; lra|]. left. apply kress_incr; lra || exact P2.
  - destruct (Req_dec t (2 * PI)) as [->|]; [rewrite kress_2PI by exact P2; lra|]. apply Rle_trans with (kress_node p (2 * PI)); [|rewrite kress_2PI by exact P2; lra]. left. apply kress_incr; lra || exact P2.
Qed.
(** The substitution of a rule *)
Definition rule_ok (phi phi' : R -> R) : Prop := (forall t, 0 <= t <= 2 * PI -> 0 <= phi t <= 2 * PI /\ continuous phi t /\ continuous phi' t) /\
  forall f, (forall t, 0 <= t <= 2 * PI -> continuous f t) -> RInt (fun t => phi' t * f (phi t)) 0 (2 * PI) = RInt f 0 (2 * PI).
Lemma rule_trap : rule_ok (fun t => t) (fun _ => 1).
Proof.
  split; [intros t Ht; split; [exact Ht|split; [apply continuous_id|apply continuous_const]]|]. intros f _. apply RInt_ext. intros t _. apply Rmult_1_l.
Qed.
Lemma rule_kress p : (2 <= p)%nat -> rule_ok (kress_node p) (kress_wgt p).
Proof.
  intros P2. pose proof PI_RGT_0 as HP. assert (CW : forall x, 0 <= x <= 2 * PI -> continuous (kress_wgt p) x). { intros x Hx. apply (ex_derive_continuous (kress_wgt p)). pose proof (kress_den_pos _ _ P2 Hx) as D. unfold kress_wgt, kress_den, kress_c, kress_s.
    auto_derive. apply Rgt_not_eq. change (kress_den p x ^ 2 > 0). apply pow_lt, D. }
  split.
  - intros t Ht. split; [apply kress_range; assumption|]. split; [|apply CW, Ht]. apply (ex_derive_continuous (kress_node p)). exists (kress_wgt p t). apply kress_derive; assumption.
  - intros f Hf. apply is_RInt_unique. replace (RInt f 0 (2 * PI)) with (RInt f (kress_node p 0) (kress_node p (2 * PI))) by (rewrite kress_0, kress_2PI by exact P2; reflexivity).
    apply (is_RInt_comp f (kress_node p) (kress_wgt p)).
    + intros x Hx. rewrite Rmin_left, Rmax_right in Hx by lra. apply Hf, kress_range; assumption.
    + intros x Hx. rewrite Rmin_left, Rmax_right in Hx by lra. split; [apply kress_derive; assumption|apply CW, Hx].
Qed.
Lemma linspace_form m : linspace 0 (2 * PI) m = map (fun i => INR i * (2 * PI / INR m)) (seq 0 (m + 1)).
Proof. unfold linspace. rewrite Nat.add_1_r. apply map_ext. intros i. rewrite Rminus_0_r. ring. Qed.
Lemma combine_map_same {A B C} (f : A -> B) (g : A -> C) l : combine (map f l) (map g l) = map (fun a => (f a, g a)) l.
Proof. induction l as [|a l IH]; cbn; [reflexivity|rewrite IH; reflexivity]. Qed.

(** The rule an edge uses *)
Definition rule_phi (p : Z) (e : edge) : R -> R := if String.eqb (e_qtype e) "trap" then fun t => t else kress_node (Z.to_nat p).
Definition rule_dphi (p : Z) (e : edge) : R -> R := if String.eqb (e_qtype e) "trap" then fun _ => 1 else kress_wgt (Z.to_nat p).
Lemma edge_rule p e : (2 <= p)%Z -> rule_ok (rule_phi p e) (rule_dphi p e).
Proof. intros H. unfold rule_phi, rule_dphi. destruct (String.eqb _ _); [apply rule_trap|apply rule_kress; lia]. Qed.
Lemma edge_dict p e n : (2 <= p)%Z -> (4 <= n)%Z -> e_qtype e = "trap"%string \/ e_qtype e = "kress"%string -> exists qd q, get_quad_dict (PInt n) p = Ok qd /\ pick qd e = Ok q /\ q_n q = Z.to_nat n /\
  let l := map (fun i => INR i * (2 * PI / INR (2 * Z.to_nat n))) (seq 0 (2 * Z.to_nat n + 1)) in q_t q = map (rule_phi p e) l /\ q_wgt q = map (rule_dphi p e) l.
Proof.
  intros Hp Hn Hq. destruct (C19_dict n p Hn Hp) as (a & b & E & Ea & Eb & _). rewrite quad_trap in Ea. rewrite quad_kress in Eb. destruct (Z.ltb_spec n 4); [lia|]. destruct (Z.ltb_spec p 2); [lia|]. cbv zeta in Ea, Eb. apply Ok_inj in Ea. apply Ok_inj in Eb.
  exists (a, b). unfold pick, rule_phi, rule_dphi. destruct Hq as [-> | ->]; cbn [String.eqb Ascii.eqb Bool.eqb fst snd].
  - exists a. subst a. split; [exact E|]. split; [reflexivity|]. cbn [q_n q_t q_wgt]. split; [reflexivity|]. rewrite linspace_form. split; [rewrite map_id; reflexivity|reflexivity].
  - exists b. subst b. split; [exact E|]. split; [reflexivity|]. cbn [q_n q_t q_wgt]. split; [reflexivity|]. rewrite linspace_form. split; reflexivity.
Qed.
Lemma edge_limit G o e X DX p : continuous_field G -> smooth_edge e X DX -> (2 <= p)%Z -> exists D : R -> R,
  (forall t, 0 <= t <= 2 * PI -> continuous D t) /\
  (forall Y', velocity e X Y' -> RInt D 0 (2 * PI) = line_integral G o (traced X e) Y' (fst (e_tb e)) (snd (e_tb e)) /\ forall t, 0 <= t <= 2 * PI -> D t = param_dt e * line_integrand G o (traced X e) Y' (param_arg e t)) /\
  forall n, (4 <= n)%Z -> exists qd e1, get_quad_dict (PInt n) p = Ok qd /\ parameterize qd e = Ok e1 /\ e_npts e1 = (2 * n + 1)%Z /\
    map (fun s => G (sx s) (pt_scale o (sN s)) * sw s) (e_smp e1) = map (fun i => let t := INR i * (2 * PI / INR (2 * Z.to_nat n)) in rule_dphi p e t * D (rule_phi p e t)) (seq 0 (2 * Z.to_nat n + 1)).
Proof.
  intros HG (Hq & Ht & Hsp & HX & HDX & HR & HF) Hp. pose proof PI_RGT_0 as HP.
  destruct (C22_derivatives _ _ _ Hsp HX) as (DX' & DDX & HDX' & HDDX & HDer). rewrite HDX in HDX'. apply Ok_inj in HDX'. subst DX'.
  assert (Hdt : 0 < param_dt e) by (unfold param_dt; apply Rdiv_lt_0_compat; lra).
  assert (Harg : forall t, 0 <= t <= 2 * PI -> fst (e_tb e) <= param_arg e t <= snd (e_tb e)).
  { intros t Ht'. unfold param_arg. split; [nra|]. apply Rle_trans with (fst (e_tb e) + 2 * PI * param_dt e); [nra|]. unfold param_dt. right. field. lra. }
  assert (HR' : forall t, 0 <= t <= 2 * PI -> 0 < norm2 (pt_scale (param_dt e) (DX (param_arg e t)))).
  { intros t Ht'. rewrite norm2_scale. apply Rmult_lt_0_compat; [nra|]. apply HR, Harg, Ht'. }
  pose proof (diary_c_pos _ _ _ HF) as HS. set (S := diary_sim (X (fst (e_tb e))) (X (snd (e_tb e))) (e_diary e)) in *.
  set (Y := fun t => sapp S (X t)). set (Y1 := fun t => lin S (DX t)). assert (EY : traced X e = Y) by reflexivity.
  assert (DY : forall t, pt_derive Y t (Y1 t)) by (intros t; apply sapp_derive, HDer). assert (DY1 : forall t, pt_derive Y1 t (lin S (DDX t))) by (intros t; apply lin_derive, HDer).
  assert (NY : forall t, fst (e_tb e) <= t <= snd (e_tb e) -> 0 < norm2 (Y1 t)). { intros t Hi. unfold Y1. rewrite norm2_lin. apply Rmult_lt_0_compat; [exact HS|apply HR, Hi]. }
  assert (CL : forall t, fst (e_tb e) <= t <= snd (e_tb e) -> continuous (line_integrand G o Y Y1) t) by (intros t Hi; apply (field_continuous G o Y Y1 t _ _ HG (DY t) (DY1 t) (NY t Hi))).
  exists (fun t => param_dt e * line_integrand G o Y Y1 (param_arg e t)). split; [|split].
  - intros t Hi. apply (continuous_mult (fun _ => param_dt e) (fun t => line_integrand G o Y Y1 (param_arg e t))); [apply continuous_const|]. apply (continuous_comp (param_arg e) (line_integrand G o Y Y1)); [|apply CL, Harg, Hi].
    apply (ex_derive_continuous (param_arg e)). unfold param_arg. auto_derive. trivial.
  - intros Y' HY'. assert (EQ : forall t, fst (e_tb e) <= t <= snd (e_tb e) -> line_integrand G o Y Y1 t = line_integrand G o Y Y' t). { intros t Hi. unfold line_integrand. rewrite (derive_unique Y t (Y1 t) (Y' t) (DY t) (HY' t Hi)). reflexivity. }
    rewrite EY. split; [|intros t Hi; rewrite EQ; [reflexivity|apply Harg, Hi]]. unfold line_integral.
    transitivity (RInt (line_integrand G o Y Y1) (fst (e_tb e)) (snd (e_tb e))).
    + pose proof (RInt_comp_lin (V:=R_CompleteNormedModule) (line_integrand G o Y Y1) (param_dt e) (fst (e_tb e)) 0 (2 * PI)) as X1. replace (param_dt e * 0 + fst (e_tb e)) with (fst (e_tb e)) in X1 by ring. replace (param_dt e * (2 * PI) + fst (e_tb e)) with (snd (e_tb e)) in X1 by (unfold param_dt; field; lra).
      rewrite <- X1. * apply RInt_ext. intros t _. match goal with |- _ = ?r => change r with (param_dt e * line_integrand G o Y Y1 (param_dt e * t + fst (e_tb e))) end. unfold param_arg. do 2 f_equal. ring.
      * apply (@ex_RInt_continuous R_CompleteNormedModule). intros z Hz. rewrite Rmin_left, Rmax_right in Hz by lra. apply CL, Hz.
    + apply RInt_ext. intros t Hi. rewrite Rmin_left, Rmax_right in Hi by lra. apply EQ. lra.
  - intros n Hn. destruct (edge_dict p e n Hp Hn Hq) as (qd & q & E & Epick & En & Et & Ew). exists qd. pose proof (parameterize_jets (PInt n) p qd e q X DX DDX E Epick HX HDX HDDX HR' HF) as PJ. cbv zeta in PJ. fold S in PJ.
    eexists. split; [exact E|]. split; [exact PJ|]. match type of PJ with _ = Ok (with_qtype (after_diary ?l ?e0 ?m) ?y) => destruct (after_diary_fields l e0 m y) as (F1 & F2 & F3) end.
    split; [rewrite F2; cbn [e_npts with_param]; rewrite En; lia|]. rewrite F3, Et, Ew. unfold curve_jets. rewrite !map_map. rewrite combine_map_same, map_map. apply map_ext_in. intros i Hi. apply in_seq in Hi. cbn [fst snd].
    set (t := INR i * (2 * PI / INR (2 * Z.to_nat n))). cbv zeta. fold t. assert (HN : 0 < INR (2 * Z.to_nat n)) by (apply lt_0_INR; lia). assert (Hi' : 0 <= INR i <= INR (2 * Z.to_nat n)) by (split; [apply pos_INR|apply le_INR; lia]).
    assert (T0 : 0 <= t <= 2 * PI). { unfold t. split; [apply Rmult_le_pos; [lra|apply Rlt_le, Rdiv_lt_0_compat; lra]|]. apply Rle_trans with (INR (2 * Z.to_nat n) * (2 * PI / INR (2 * Z.to_nat n))); [apply Rmult_le_compat_r; [apply Rlt_le, Rdiv_lt_0_compat; lra|lra]|right; field; lra]. }
    destruct (proj1 (edge_rule p e Hp) t T0) as (T1 & _). set (u := rule_phi p e t) in *. unfold sample_of. cbn [jx jd jdd jw sx sN sw]. change (cw (pt_scale (/ EdgeSpec.norm ?d) ?d)) with (normal_of d).
    rewrite <- (integrand_scale G o Y Y1 (param_dt e) (param_arg e u) Hdt (NY _ (Harg _ T1))). unfold Y1. rewrite lin_scale. unfold Y. fold (normal_of (pt_scale (param_dt e) (lin S (DX (param_arg e u))))). ring.
Qed.
