(** Lemmas for C82: the samples of rectangles and circles are different points. *)
From Coq Require Import List ZArith Reals Lia Lra Psatz Bool String Permutation.
From Coquelicot Require Import Coquelicot.
From Verif Require Import PyBase PolyModel PolySpec BaryModel BBoxModel QuadModel QuadSpec QuadProofs QuadProps CurveModel CurveSpec CurveProps VertModel EdgeModel ContourModel CellModel CellSpec EdgeSpec EdgeProofs EdgeProofs2 EdgeProps EdgeProps3 EdgeProps4 CellProofs CellProps ContourProofs ContourProofs2 ContourProofs3 InteriorProofs ContourProofs4 CellProofs2 Annulus ConvSpec ConvProofs ConvProofs2 ConvProofs3 ConvProofs4 ConvProofs5.
Import List ListNotations.
Open Scope R_scope.

Lemma nodup_app_intro {A} (l l' : list A) : NoDup l -> NoDup l' -> (forall x, In x l -> In x l' -> False) -> NoDup (l ++ l').
Proof.
  intros N N' D. induction N as [|x l I N IH]; [exact N'|]. cbn [app]. constructor; [|apply IH; intros y Iy; apply D; right; exact Iy]. intros J. apply in_app_or in J. destruct J as [J|J]; [exact (I J)|exact (D x (or_introl eq_refl) J)].
Qed.
Lemma nodup_map_seq {A} (f : nat -> A) a m : (forall i j, (a <= i < a + m)%nat -> (a <= j < a + m)%nat -> f i = f j -> i = j) -> NoDup (map f (seq a m)).
Proof.
  revert a. induction m as [|m IH]; intros a Hf; [constructor|]. cbn [seq map]. constructor.
  - intros I. apply in_map_iff in I. destruct I as (j & E & Ij). apply in_seq in Ij. assert (j = a) by (apply Hf; [lia|lia|exact E]). lia.
  - apply IH. intros i j Hi Hj. apply Hf; lia.
Qed.
Lemma rule_incr p e x y : (2 <= p)%Z -> 0 <= x -> x < y -> y <= 2 * PI -> rule_phi p e x < rule_phi p e y.
Proof. intros Hp Hx Hxy Hy. unfold rule_phi. destruct (String.eqb _ _); [exact Hxy|]. apply kress_incr; [lia|exact Hx|exact Hxy|exact Hy]. Qed.

(** ** Straight edges *)
Definition on_open (u v q : pt) : Prop := exists s, 0 <= s < 1 /\ q = pt_add u (pt_scale s (pt_sub v u)).
Lemma segment_inj a b s t : a <> b -> pt_add a (pt_scale s (pt_sub b a)) = pt_add a (pt_scale t (pt_sub b a)) -> s = t.
Proof.
  destruct a as [a1 a2], b as [b1 b2]. unfold pt_add, pt_scale, pt_sub. cbn [fst snd]. intros N E. injection E as E1 E2. destruct (Req_dec a1 b1) as [X|X].
  - destruct (Req_dec a2 b2) as [Y|Y]; [congruence|]. apply Rmult_eq_reg_r with (b2 - a2); lra.
  - apply Rmult_eq_reg_r with (b1 - a1); lra.
Qed.
Lemma far_ne u v : TOL <= pdist u v -> u <> v.
Proof. intros D ->. unfold pdist, TOL in D. replace ((fst v - fst v) * (fst v - fst v) + (snd v - snd v) * (snd v - snd v)) with 0 in D by ring. replace ((fst v - fst v) ^ 2 + (snd v - snd v) ^ 2) with 0 in D by ring. rewrite sqrt_0 in D. lra. Qed.
Lemma runs_open z e u v p n qd e' : runs z e u v -> TOL <= pdist u v -> (2 <= p)%Z -> (4 <= n)%Z -> get_quad_dict (PInt n) p = Ok qd -> resampled qd (sign_for z e) e e' -> NoDup (spots e') /\ forall q, In q (spots e') -> on_open u v q.
Proof.
  intros R D Hp Hn Eq (e1' & Ep' & ->). pose proof PI_RGT_0 as HP. destruct (runs_smooth z e u v R D) as (Sm & _). destruct (smooth_positions e line_X line_DX p n qd Sm Hp Hn Eq) as (e1 & Ep & Pe & Ps). rewrite Ep in Ep'. apply Ok_inj in Ep'. subst e1'.
  set (P := fun i : nat => traced line_X e (param_arg e (rule_phi p e (INR i * (2 * PI / INR (2 * Z.to_nat n)))))) in *. set (m := (2 * Z.to_nat n)%nat) in *. pose (S := fun i : nat => rule_phi p e (INR i * (2 * PI / INR m)) / (2 * PI)).
  assert (Hm : 0 < INR m) by (apply lt_0_INR; unfold m; lia). assert (S0 : S 0%nat = 0) by (unfold S; cbn [INR]; rewrite Rmult_0_l, rule_0 by exact Hp; unfold Rdiv; ring). assert (Sm' : S m = 1) by (unfold S, m; rewrite node_last, rule_2PI by assumption; field; lra).
  assert (SI : forall i j, (i < j)%nat -> (j <= m)%nat -> S i < S j).
  { intros i j Hij Hj. unfold S. apply Rmult_lt_compat_r; [apply Rinv_0_lt_compat; lra|]. assert (Hi : (i <= m)%nat) by lia. pose proof (node_range n i Hn Hi) as Ni. pose proof (node_range n j Hn Hj) as Nj. fold m in Ni, Nj. apply rule_incr; [exact Hp|apply Ni| |apply Nj]. apply Rmult_lt_compat_r; [apply Rdiv_lt_0_compat; lra|apply lt_INR, Hij]. }
  assert (SJ : forall i j, (i <= m)%nat -> (j <= m)%nat -> S i = S j -> i = j). { intros i j Hi Hj E. destruct (lt_eq_lt_dec i j) as [[L|L]|L]; [pose proof (SI i j L Hj); lra|exact L|pose proof (SI j i L Hi); lra]. }
  assert (G : forall a b, straight e a b -> forall i, P i = pt_add a (pt_scale (S i) (pt_sub b a))).
  { intros a b St i. pose proof St as (_ & Tb & _). unfold P. assert (PA : forall t, param_arg e t = t) by (intros t; unfold param_arg, param_dt; rewrite Tb; cbn [fst snd]; field; lra). rewrite PA, (straight_traced e a b _ St). reflexivity. }
  pose proof (far_ne _ _ D) as Nuv. unfold sign_for. destruct R as [[Ez St]|[Ez St]]; pose proof (G _ _ St) as EP.
  - rewrite <- Ez, Z.eqb_refl. change (Z.eqb 1 (-1)) with false. cbn iota. rewrite (reversed_spots e1 1 P m Pe Ps : spots e1 = map P (seq 0 m)). split.
    + apply nodup_map_seq. intros i j Hi Hj E. rewrite !EP in E. apply segment_inj in E; [|exact Nuv]. apply SJ; [lia|lia|exact E].
    + intros q Iq. apply in_map_iff in Iq. destruct Iq as (i & <- & Ii). apply in_seq in Ii. exists (S i). split; [|apply EP]. assert (L : (i < m)%nat) by lia. pose proof (SI i m L (le_n m)). split; [|lra]. destruct i; [lra|]. assert (L0 : (0 < Datatypes.S i)%nat) by lia. assert (L1 : (Datatypes.S i <= m)%nat) by lia. pose proof (SI 0%nat (Datatypes.S i) L0 L1). lra.
  - destruct (Z.eqb_spec z (e_pos e)) as [X|_]; [contradiction|]. change (Z.eqb (-1) (-1)) with true. cbn iota. rewrite (reversed_spots e1 (-1) P m Pe Ps : spots (reverse_orientation e1) = rev (map P (seq 1 m))). split.
    + apply NoDup_rev, nodup_map_seq. intros i j Hi Hj E. rewrite !EP in E. apply segment_inj in E; [|congruence]. apply SJ; [lia|lia|exact E].
    + intros q Iq. apply in_rev in Iq. apply in_map_iff in Iq. destruct Iq as (i & <- & Ii). apply in_seq in Ii. exists (1 - S i). split; [|rewrite EP; unfold pt_add, pt_scale, pt_sub; cbn [fst snd]; f_equal; ring]. assert (L0 : (0 < i)%nat) by lia. assert (L1 : (i <= m)%nat) by lia. pose proof (SI 0%nat i L0 L1). split; [|lra]. destruct (Nat.eq_dec i m) as [->|Ni]; [lra|]. assert (L2 : (i < m)%nat) by lia. pose proof (SI i m L2 (le_n m)). lra.
Qed.

(** ** Circles *)
Lemma angle_inj a b : Rabs (a - b) < 2 * PI -> cos a = cos b -> sin a = sin b -> a = b.
Proof.
  intros D C S. assert (K : forall d, 0 <= d < 2 * PI -> cos d = 1 -> d = 0).
  { intros d Hd Cd. destruct (Req_dec d 0) as [E|E]; [exact E|]. exfalso. assert (P : 0 < sin (d / 2)) by (apply sin_gt_0; lra). replace d with (2 * (d / 2)) in Cd by field. rewrite cos_2a_sin in Cd. nra. }
  assert (E : cos (a - b) = 1). { rewrite cos_minus, C, S. pose proof (sin2_cos2 b) as X. unfold Rsqr in X. lra. }
  destruct (Rle_dec b a) as [L|L].
  - rewrite Rabs_right in D by lra. pose proof (K (a - b) ltac:(lra) E). lra.
  - rewrite Rabs_left in D by lra. assert (E' : cos (b - a) = 1) by (rewrite <- E, <- (cos_neg (a - b)); f_equal; ring). pose proof (K (b - a) ltac:(lra) E'). lra.
Qed.
Lemma round_open e c r o p n qd e' : (2 <= p)%Z -> (4 <= n)%Z -> get_quad_dict (PInt n) p = Ok qd -> round_edge e c r -> e_qtype e = "trap"%string -> resampled qd o e e' ->
  NoDup (spots e') /\ forall q, In q (spots e') -> exists t, q = (fst c + r * cos t, snd c + r * sin t).
Proof.
  intros Hp Hn Eq Re Qt (e1' & Ep' & ->). pose proof PI_RGT_0 as HP. pose proof (round_smooth e c r Re) as Sm. destruct (smooth_positions e _ _ p n qd Sm Hp Hn Eq) as (e1 & Ep & Pe & Ps). rewrite Ep in Ep'. apply Ok_inj in Ep'. subst e1'. pose proof Re as (_ & Tb & _ & Hr & _).
  set (m := (2 * Z.to_nat n)%nat) in *. assert (Hm : 0 < INR m) by (apply lt_0_INR; unfold m; lia). set (T := fun i : nat => INR i * (2 * PI / INR m)) in *. set (P := fun i : nat => (fst c + r * cos (T i), snd c + r * sin (T i))).
  assert (Ps' : map sx (e_smp e1) = map P (seq 0 (m + 1))).
  { rewrite Ps. apply map_ext. intros j. assert (PA : forall t, param_arg e t = t) by (intros t; unfold param_arg, param_dt; rewrite Tb; cbn [fst snd]; field; lra). rewrite PA. unfold rule_phi. rewrite Qt. cbn [String.eqb Ascii.eqb Bool.eqb]. rewrite (round_traced e c r _ Re). unfold px, py, P. reflexivity. }
  assert (TI : forall i j, (i <= m)%nat -> (j <= m)%nat -> (i - j < m)%nat -> (j - i < m)%nat -> P i = P j -> i = j).
  { intros i j Hi Hj Hd Hd' E. unfold P in E. injection E as E1 E2. assert (C : cos (T i) = cos (T j)) by (apply Rmult_eq_reg_l with r; lra). assert (S : sin (T i) = sin (T j)) by (apply Rmult_eq_reg_l with r; lra).
    assert (Et : T i = T j).
    { apply angle_inj; [|exact C|exact S]. unfold T. rewrite <- Rmult_minus_distr_r, Rabs_mult. rewrite (Rabs_right (2 * PI / INR m)) by (apply Rle_ge, Rlt_le, Rdiv_lt_0_compat; lra). apply Rlt_le_trans with (INR m * (2 * PI / INR m)); [|right; field; lra]. apply Rmult_lt_compat_r; [apply Rdiv_lt_0_compat; lra|].
      destruct (Nat.le_ge_cases i j) as [L|L]; [rewrite Rabs_minus_sym|]; rewrite <- minus_INR by exact L; rewrite Rabs_right by (apply Rle_ge, pos_INR); apply lt_INR; assumption. }
    apply INR_eq. unfold T in Et. apply Rmult_eq_reg_r in Et; [exact Et|]. apply Rgt_not_eq, Rdiv_lt_0_compat; lra. }
  rewrite (reversed_spots e1 o P m Pe Ps'). split.
  - destruct (Z.eqb o (-1)); [apply NoDup_rev|]; apply nodup_map_seq; intros i j Hi Hj E; apply TI; try lia; exact E.
  - intros q Iq. assert (X : exists i, q = P i) by (destruct (Z.eqb o (-1)); [apply in_rev in Iq|]; apply in_map_iff in Iq; destruct Iq as (i & <- & _); eauto). destruct X as (i & ->). exists (T i). reflexivity.
Qed.

(** ** Rectangles *)
Lemma box_open H z x0 x1 y0 y1 i1 i2 i3 i4 p n qd F : (2 <= p)%Z -> (4 <= n)%Z -> get_quad_dict (PInt n) p = Ok qd -> bounded_by H z true (Box x0 x1 y0 y1 i1 i2 i3 i4) ->
  (forall i e, In i [i1; i2; i3; i4] -> nth_error H i = Some e -> resampled qd (sign_for z e) e (F i)) ->
  let l := concat (map (fun i => spots (F i)) [i1; i2; i3; i4]) in NoDup l /\ forall q, In q l -> fst q = x0 \/ fst q = x1 \/ snd q = y0 \/ snd q = y1.
Proof.
  intros Hp Hn Eq (Hx & Hy & e1 & e2 & e3 & e4 & N1 & N2 & N3 & N4 & R1 & R2 & R3 & R4) Rs l. assert (T0 : 0 < TOL) by (unfold TOL; lra).
  assert (D1 : TOL <= pdist (x0, y0) (x1, y0)) by (apply pdist_flat_x, Hx). assert (D2 : TOL <= pdist (x1, y0) (x1, y1)) by (apply pdist_flat_y, Hy).
  assert (D3 : TOL <= pdist (x1, y1) (x0, y1)) by (rewrite pdist_sym; apply pdist_flat_x, Hx). assert (D4 : TOL <= pdist (x0, y1) (x0, y0)) by (rewrite pdist_sym; apply pdist_flat_y, Hy).
  destruct (runs_open _ _ _ _ p n qd _ R1 D1 Hp Hn Eq (Rs i1 e1 ltac:(cbn; tauto) N1)) as (M1 & S1). destruct (runs_open _ _ _ _ p n qd _ R2 D2 Hp Hn Eq (Rs i2 e2 ltac:(cbn; tauto) N2)) as (M2 & S2).
  destruct (runs_open _ _ _ _ p n qd _ R3 D3 Hp Hn Eq (Rs i3 e3 ltac:(cbn; tauto) N3)) as (M3 & S3). destruct (runs_open _ _ _ _ p n qd _ R4 D4 Hp Hn Eq (Rs i4 e4 ltac:(cbn; tauto) N4)) as (M4 & S4).
  assert (K1 : forall q, In q (spots (F i1)) -> snd q = y0 /\ x0 <= fst q < x1) by (intros q I; destruct (S1 q I) as (s & Hs & ->); unfold pt_add, pt_scale, pt_sub; cbn [fst snd]; split; [ring|nra]).
  assert (K2 : forall q, In q (spots (F i2)) -> fst q = x1 /\ y0 <= snd q < y1) by (intros q I; destruct (S2 q I) as (s & Hs & ->); unfold pt_add, pt_scale, pt_sub; cbn [fst snd]; split; [ring|nra]).
  assert (K3 : forall q, In q (spots (F i3)) -> snd q = y1 /\ x0 < fst q <= x1) by (intros q I; destruct (S3 q I) as (s & Hs & ->); unfold pt_add, pt_scale, pt_sub; cbn [fst snd]; split; [ring|nra]).
  assert (K4 : forall q, In q (spots (F i4)) -> fst q = x0 /\ y0 < snd q <= y1) by (intros q I; destruct (S4 q I) as (s & Hs & ->); unfold pt_add, pt_scale, pt_sub; cbn [fst snd]; split; [ring|nra]).
  unfold l. cbn [map concat]. rewrite app_nil_r. split.
  - repeat apply nodup_app_intro; try assumption; intros q; rewrite ?in_app_iff; intros A B.
    + specialize (K3 q A). specialize (K4 q B). lra.
    + specialize (K2 q A). destruct B as [B|B]; [specialize (K3 q B)|specialize (K4 q B)]; lra.
    + specialize (K1 q A). destruct B as [B|[B|B]]; [specialize (K2 q B)|specialize (K3 q B)|specialize (K4 q B)]; lra.
  - intros q. rewrite !in_app_iff. intros [I|[I|[I|I]]]; [specialize (K1 q I)|specialize (K2 q I)|specialize (K3 q I)|specialize (K4 q I)]; tauto.
Qed.
