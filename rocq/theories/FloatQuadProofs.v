(** Integrals over edges with doubles *)
From Coq Require Import List ZArith Reals Machin Lia Lra Permutation.
From Flocq Require Import Core Relative BinarySingleNaN.
From Verif Require Import PyBase PolyModel FloatIdxModel FloatPolyModel FloatQuadModel FloatErr.
Import ListNotations.
Open Scope R_scope.

(** ** The step *)
Lemma two_pi_val : fin (dmul (of_int 2) np_pi) = true /\ val (dmul (of_int 2) np_pi) = 884279719003555 / 2 ^ 47.
Proof.
  assert (E : B2SF (dmul (of_int 2) np_pi) = SpecFloat.S754_finite false 7074237752028440 (-50)) by (vm_compute; reflexivity). destruct (dmul (of_int 2) np_pi) as [s|s| |s m e B]; try discriminate. injection E as -> -> ->. split; [reflexivity|]. unfold val. cbn [B2R SpecFloat.cond_Zopp]. unfold F2R. cbn [Fnum Fexp cond_Zopp]. rewrite (bpow_inv 50) by reflexivity. field.
Qed.
Lemma pi_digits : 31415926535897932 / 10 ^ 16 <= PI <= 31415926535897933 / 10 ^ 16.
Proof. pose proof (PI_2_3_7_ineq 9) as H. change (S (2 * 9)) with 19%nat in H. change (2 * 9)%nat with 18%nat in H. unfold tg_alt, PI_2_3_7_tg, Ratan_seq in H. cbn [sum_f_R0 Nat.mul Nat.add] in H. rewrite !INR_IZR_INZ in H. cbn [Z.of_nat Pos.of_succ_nat Pos.succ] in H. simpl pow in H. lra. Qed.
Lemma two_pi_near : near 1 (2 * PI) (2 * PI) 0 (dmul (of_int 2) np_pi).
Proof.
  destruct two_pi_val as [F V]. pose proof PI_RGT_0. split; [exact F|]. split; [rewrite Rabs_pos_eq; lra|]. split; [lra|]. rewrite V. pose proof pi_digits as D. rewrite Rmult_0_l, Rplus_0_r, pow_1. unfold uro. apply Rabs_le. lra.
Qed.
Lemma div_val x (n : Z) : fin x = true -> (1 <= n <= 2 ^ 53)%Z -> 1 <= Rabs (val x) <= 2 ^ 60 -> fin (ddiv x (of_int n)) = true /\ exists eps, Rabs eps <= uro /\ val (ddiv x (of_int n)) = val x / IZR n * (1 + eps).
Proof.
  intros F N B. destruct (of_int_val n ltac:(lia)) as [Fn Vn]. assert (Pn : 1 <= IZR n) by (apply IZR_le; lia). assert (Un : IZR n <= IZR (2 ^ 53)) by (apply IZR_le; lia). pose proof (Bdiv_correct 53 1024 _ _ mode_NE x (of_int n)) as C. unfold val in Vn. rewrite Vn in C. specialize (C ltac:(lra)). cbn [round_mode] in C. fold (val x) in C.
  assert (Q : Rabs (val x / IZR n) = Rabs (val x) / IZR n) by (unfold Rdiv; rewrite Rabs_mult, Rabs_inv, (Rabs_pos_eq (IZR n)) by lra; reflexivity).
  assert (In1 : / IZR n <= 1) by (rewrite <- Rinv_1; apply Rinv_le; lra). assert (In0 : / IZR (2 ^ 53) <= / IZR n) by (apply Rinv_le; lra).
  assert (Lo : bpow radix2 (-1074 + 53 - 1) <= Rabs (val x / IZR n)). { rewrite Q. apply Rle_trans with (/ IZR (2 ^ 53)). - change (2 ^ 53)%Z with (Zpower radix2 53). rewrite IZR_Zpower by lia. rewrite <- bpow_opp. apply bpow_le. lia. - unfold Rdiv. nra. }
  destruct (relative_error_N_FLT_ex radix2 (-1074) 53 ltac:(lia) (fun z => negb (Z.even z)) _ Lo) as (eps & He & Re). rewrite <- fexp_flt in Re.
  assert (Hu : Rabs eps <= uro). { eapply Rle_trans; [exact He|]. rewrite (bpow_inv 52) by reflexivity. unfold uro. rewrite <- (tech_pow_Rmult 2 52), Rinv_mult. apply Rle_refl. }
  rewrite Rlt_bool_true in C.
  - destruct C as (V & Fd & _). split; [unfold fin, ddiv; rewrite Fd; exact F|]. exists eps. split; [exact Hu|]. unfold val, ddiv. rewrite V. exact Re.
  - rewrite Re, Rabs_mult, Q. apply Rle_lt_trans with (2 ^ 60 * 2); [|rewrite Rmult_comm, tech_pow_Rmult; replace (2 ^ S 60) with (bpow radix2 61) by (rewrite <- (IZR_Zpower radix2) by lia; rewrite pow_IZR; f_equal); apply bpow_lt; lia]. assert (Rabs (1 + eps) <= 2) by (eapply Rle_trans; [apply Rabs_triang|]; rewrite Rabs_R1; pose proof uro_small; lra). assert (Rabs (val x) / IZR n <= 2 ^ 60) by (unfold Rdiv; pose proof (Rabs_pos (val x)); assert (Rabs (val x) * / IZR n <= Rabs (val x) * 1) by (apply Rmult_le_compat_l; lra); lra). assert (0 <= Rabs (val x) / IZR n) by (rewrite <- Q; apply Rabs_pos). pose proof (Rabs_pos (1 + eps)). apply Rmult_le_compat; assumption.
Qed.
Lemma step_near n : (2 <= n <= 2 ^ 53 + 1)%Z -> near 2 (2 * PI / IZR (n - 1)) (2 * PI / IZR (n - 1)) 0 (d_h n).
Proof.
  intros N. unfold d_h. pose proof PI_RGT_0. destruct two_pi_near as (F & _ & _ & E). destruct two_pi_val as [_ V]. assert (B : 1 <= Rabs (val (dmul (of_int 2) np_pi)) <= 2 ^ 60) by (rewrite V, Rabs_pos_eq; lra). destruct (div_val _ (n - 1) F ltac:(lia) B) as (Fd & eps & He & Vd). assert (Pn : 1 <= IZR (n - 1)) by (apply IZR_le; lia). assert (In0 : 0 < / IZR (n - 1)) by (apply Rinv_0_lt_compat; lra).
  split; [exact Fd|]. split; [rewrite Rabs_pos_eq; [apply Rle_refl|unfold Rdiv; nra]|]. split; [lra|]. rewrite Vd. set (q := val _) in *. replace (q / IZR (n - 1) * (1 + eps) - 2 * PI / IZR (n - 1)) with ((q * (1 + eps) - 2 * PI) * / IZR (n - 1)) by (unfold Rdiv; ring). rewrite Rabs_mult, (Rabs_pos_eq (/ _)) by lra. replace (((1 + uro) ^ 2 - 1) * (2 * PI / IZR (n - 1)) + 0 * (1 + uro) ^ 2) with (((1 + uro) ^ 2 - 1) * (2 * PI) * / IZR (n - 1)) by (unfold Rdiv; ring). apply Rmult_le_compat_r; [lra|].
  cbn [pow] in *. rewrite Rmult_0_l, Rplus_0_r, !Rmult_1_r in *. replace (q * (1 + eps) - 2 * PI) with ((q - 2 * PI) + eps * (q - 2 * PI + 2 * PI)) by ring. eapply Rle_trans; [apply Rabs_triang|]. rewrite Rabs_mult. assert (Rabs (q - 2 * PI + 2 * PI) <= uro * (2 * PI) + 2 * PI) by (eapply Rle_trans; [apply Rabs_triang|]; rewrite (Rabs_pos_eq (2 * PI)) by lra; lra). assert (Rabs eps * Rabs (q - 2 * PI + 2 * PI) <= uro * (uro * (2 * PI) + 2 * PI)) by (apply Rmult_le_compat; try apply Rabs_pos; assumption). lra.
Qed.
Lemma mul_val x (n : Z) : fin x = true -> (1 <= n <= 2 ^ 53)%Z -> 1 <= Rabs (val x) <= 8 -> fin (dmul x (of_int n)) = true /\ exists eps, Rabs eps <= uro /\ val (dmul x (of_int n)) = val x * IZR n * (1 + eps).
Proof.
  intros F N B. destruct (of_int_val n ltac:(lia)) as [Fn Vn]. assert (Pn : 1 <= IZR n) by (apply IZR_le; lia). assert (Un : IZR n <= IZR (2 ^ 53)) by (apply IZR_le; lia). pose proof (Bmult_correct 53 1024 _ _ mode_NE x (of_int n)) as C. unfold val in Vn. rewrite Vn in C. cbn [round_mode] in C. fold (val x) in C.
  assert (Q : Rabs (val x * IZR n) = Rabs (val x) * IZR n) by (rewrite Rabs_mult, (Rabs_pos_eq (IZR n)) by lra; reflexivity).
  assert (Lo : bpow radix2 (-1074 + 53 - 1) <= Rabs (val x * IZR n)). { rewrite Q. apply Rle_trans with 1; [change 1 with (bpow radix2 0); apply bpow_le; lia|nra]. }
  destruct (relative_error_N_FLT_ex radix2 (-1074) 53 ltac:(lia) (fun z => negb (Z.even z)) _ Lo) as (eps & He & Re). rewrite <- fexp_flt in Re.
  assert (Hu : Rabs eps <= uro). { eapply Rle_trans; [exact He|]. rewrite (bpow_inv 52) by reflexivity. unfold uro. rewrite <- (tech_pow_Rmult 2 52), Rinv_mult. apply Rle_refl. }
  rewrite Rlt_bool_true in C.
  - destruct C as (V & Fd & _). unfold fin in *. split; [unfold fin, dmul; rewrite Fd, F, Fn; reflexivity|]. exists eps. split; [exact Hu|]. unfold val, dmul. rewrite V. exact Re.
  - rewrite Re, Rabs_mult, Q. apply Rle_lt_trans with (bpow radix2 57); [|apply bpow_lt; lia]. replace (bpow radix2 57) with (8 * IZR (2 ^ 53) * 2) by (rewrite <- (IZR_Zpower radix2) by lia; rewrite <- !mult_IZR; f_equal). assert (Rabs (1 + eps) <= 2) by (eapply Rle_trans; [apply Rabs_triang|]; rewrite Rabs_R1; pose proof uro_small; lra). apply Rmult_le_compat; [apply Rmult_le_pos; [apply Rabs_pos|lra]|apply Rabs_pos| |assumption]. apply Rmult_le_compat; [apply Rabs_pos|lra|lra|lra].
Qed.
Lemma cell_step_near ne np : (1 <= ne <= 2 ^ 53)%Z -> (1 <= np <= 2 ^ 53)%Z -> near 3 (2 * PI * IZR ne / IZR np) (2 * PI * IZR ne / IZR np) 0 (d_hc ne np).
Proof.
  intros Ne Np. unfold d_hc. pose proof pi_digits as D. pose proof uro_pos as U. pose proof uro_small as Us. destruct two_pi_near as (F & _ & _ & E). destruct two_pi_val as [_ V]. set (q := dmul (of_int 2) np_pi) in *. assert (B : 1 <= Rabs (val q) <= 8) by (rewrite V, Rabs_pos_eq; lra). destruct (mul_val q ne F Ne B) as (Fm & e1 & H1 & V1). set (m := dmul q (of_int ne)) in *. assert (P1 : 1 <= IZR ne) by (apply IZR_le; lia). assert (P2 : 1 <= IZR np) by (apply IZR_le; lia). assert (P1' : IZR ne <= IZR (2 ^ 53)) by (apply IZR_le; lia). assert (Vq : 6 <= val q <= 7) by (rewrite V; lra). apply Rabs_le_inv in H1.
  assert (QE : 6 <= val q * IZR ne <= 7 * IZR (2 ^ 53)) by (split; [nra|apply Rmult_le_compat; lra]). assert (Bm : 1 <= Rabs (val m) <= 2 ^ 60). { assert (X : 6 * (1 - uro) <= val m <= 7 * IZR (2 ^ 53) * 2) by (rewrite V1; split; [apply Rmult_le_compat; lra|apply Rmult_le_compat; lra]). rewrite Rabs_pos_eq by lra. split; [lra|]. apply Rle_trans with (7 * IZR (2 ^ 53) * 2); [lra|]. rewrite pow_IZR, <- !mult_IZR. apply IZR_le. vm_compute. discriminate. }
  destruct (div_val m np Fm Np Bm) as (Fd & e2 & H2 & V2). split; [exact Fd|]. assert (I0 : 0 < / IZR np) by (apply Rinv_0_lt_compat; lra). assert (G0 : 0 <= 2 * PI * IZR ne / IZR np) by (unfold Rdiv; apply Rmult_le_pos; [nra|lra]). split; [rewrite Rabs_pos_eq by exact G0; apply Rle_refl|]. split; [lra|]. rewrite V2, V1.
  replace (val q * IZR ne * (1 + e1) / IZR np * (1 + e2) - 2 * PI * IZR ne / IZR np) with ((val q * (1 + e1) * (1 + e2) - 2 * PI) * (IZR ne * / IZR np)) by (unfold Rdiv; ring). rewrite Rmult_0_l, Rplus_0_r. replace (2 * PI * IZR ne / IZR np) with (2 * PI * (IZR ne * / IZR np)) by (unfold Rdiv; ring). rewrite Rabs_mult, (Rabs_pos_eq (IZR ne * / IZR np)) by nra. apply Rle_trans with (((1 + uro) ^ 3 - 1) * (2 * PI) * (IZR ne * / IZR np)); [|apply Req_le; ring]. apply Rmult_le_compat_r; [nra|]. rewrite Rmult_0_l, Rplus_0_r, pow_1 in E. apply Rabs_le_inv in E. apply Rabs_le_inv in H2. cbn [pow]. rewrite Rmult_1_r.
  assert (A1 : 0 <= 1 + e1 <= 1 + uro) by lra. assert (A2 : 0 <= 1 + e2 <= 1 + uro) by lra. assert (Up : val q * (1 + e1) * (1 + e2) <= 2 * PI * (1 + uro) * (1 + uro) * (1 + uro)) by (apply Rmult_le_compat; [apply Rmult_le_pos; lra|lra| |lra]; apply Rmult_le_compat; lra). assert (Lw : 2 * PI * (1 - uro) * (1 - uro) * (1 - uro) <= val q * (1 + e1) * (1 + e2)) by (apply Rmult_le_compat; [apply Rmult_le_pos; [apply Rmult_le_pos|]; lra|lra| |lra]; apply Rmult_le_compat; [apply Rmult_le_pos; lra|lra|lra|lra]). apply Rabs_le. assert (C : (1 + uro) * ((1 + uro) * (1 + uro)) - 1 >= 1 - (1 - uro) * (1 - uro) * (1 - uro)) by nra. split; [|lra]. assert (2 * PI * (1 - (1 - uro) * (1 - uro) * (1 - uro)) <= 2 * PI * ((1 + uro) * ((1 + uro) * (1 + uro)) - 1)) by (apply Rmult_le_compat_l; lra). lra.
Qed.
Lemma step_pos n : (2 <= n <= 2 ^ 53 + 1)%Z -> 0 < val (d_h n).
Proof.
  intros N. destruct (step_near n N) as (_ & _ & _ & E). pose proof PI_RGT_0. pose proof uro_small. pose proof uro_pos. assert (Pn : 1 <= IZR (n - 1)) by (apply IZR_le; lia). assert (0 < 2 * PI / IZR (n - 1)) by (apply Rdiv_lt_0_compat; lra). cbn [pow] in E. rewrite Rmult_0_l, Rplus_0_r, Rmult_1_r in E. apply Rabs_le_inv in E. set (G := 2 * PI / IZR (n - 1)) in *. assert (((1 + uro) * (1 + uro) - 1) * G <= 1 / 2 * G) by (apply Rmult_le_compat_r; nra). lra.
Qed.
Lemma half_val : fin half = true /\ val half = / 2.
Proof.
  assert (E : B2SF half = SpecFloat.S754_finite false 4503599627370496 (-53)) by (vm_compute; reflexivity). destruct half as [s|s| |s m e B]; try discriminate. injection E as -> -> ->. split; [reflexivity|]. unfold val. cbn [B2R]. unfold F2R. cbn [Fnum Fexp cond_Zopp SpecFloat.cond_Zopp]. rewrite (bpow_inv 53) by reflexivity. field.
Qed.
Lemma half_near : near 0 (/ 2) (/ 2) 0 half.
Proof. destruct half_val as [F V]. pose proof (near_exact half F) as N. rewrite V, (Rabs_pos_eq (/ 2)) in N by lra. exact N. Qed.

(** ** Finite sums have finite terms. *)
Lemma tsum_fin t : fin (tsum t) = true -> Forall (fun x => fin x = true) (leaves t).
Proof.
  induction t as [x|a IHa b IHb]; intros F; cbn [leaves tsum] in *; [constructor; [exact F|constructor]|]. destruct (dadd_fin _ _ F) as (A & B & _). apply Forall_app. split; [apply IHa, A|apply IHb, B].
Qed.
Lemma orders_fin l t : orders l t -> fin (tsum t) = true -> Forall (fun x => fin x = true) l.
Proof. intros (pad & _ & Pm) F. apply tsum_fin in F. apply (Permutation_Forall Pm) in F. apply Forall_app in F. apply F. Qed.
Definition aX (a : aim) : R := fst (fst a).
Definition aB (a : aim) : R := snd (fst a).
Definition ae (a : aim) : R := snd a.
Lemma scaled_near j n l (m : list aim) t : (2 <= n <= 2 ^ 53 + 1)%Z -> Forall2 (meets j) m l -> orders (map (dmul (d_h n)) l) t -> fin (tsum t) = true ->
  let H := 2 * PI / IZR (n - 1) in near (depth t + (j + 3)) (H * rsum (map aX m)) (H * rsum (map aB m)) (H * rsum (map ae m) + INR (List.length l) * tiny) (tsum t).
Proof.
  intros N M O F H. pose proof (step_near n N) as NH. fold H in NH. pose proof (orders_fin _ _ O F) as Fl. set (m' := map (fun a => ((H * aX a, H * aB a, H * ae a + tiny) : aim)) m).
  assert (M' : Forall2 (meets (j + 3)) m' (map (dmul (d_h n)) l)).
  { unfold m'. clear -NH Fl M. induction M as [|a v m l Ma Mm IH]; cbn [map]; [constructor|]. inversion Fl as [|? ? Fv Fr]; subst. constructor; [|apply IH; exact Fr]. unfold meets in *. cbn [fst snd]. pose proof (near_mul _ _ _ _ _ _ _ _ _ _ NH Ma Fv) as X. eapply near_weaken; [| |exact X]; [lia|unfold ae; lra]. }
  pose proof (order_near (j + 3) t _ m' O M' F) as X. unfold meets, total, m' in X. cbn [fst snd] in X. rewrite !map_map in X. cbn [fst snd] in X. replace (H * rsum (map aX m)) with (rsum (map (fun x => H * aX x) m)) by (clear; induction m as [|v l IH]; cbn; [ring|rewrite IH; ring]). replace (H * rsum (map aB m)) with (rsum (map (fun x => H * aB x) m)) by (clear; induction m as [|v l IH]; cbn; [ring|rewrite IH; ring]). replace (H * rsum (map ae m) + INR (List.length l) * tiny) with (rsum (map (fun x => H * ae x + tiny) m)) by (clear -M; induction M as [|a v m l Ma Mm IH]; cbn [map rsum List.length]; [cbn; ring|rewrite IH, S_INR; ring]). exact X.
Qed.
Lemma Forall2_removelast {A B} (P : A -> B -> Prop) l m : Forall2 P l m -> Forall2 P (removelast l) (removelast m).
Proof. induction 1 as [|a b l m Pab Plm IH]; [constructor|]. cbn [removelast]. destruct Plm as [|a' b' l m P' Plm]; [constructor|]. constructor; [exact Pab|exact IH]. Qed.
Lemma Forall2_last {A B} (P : A -> B -> Prop) l m da db : P da db -> Forall2 P l m -> P (last l da) (last m db).
Proof. intros D. induction 1 as [|a b l m Pab Plm IH]; [exact D|]. cbn [last]. destruct Plm; [exact Pab|exact IH]. Qed.
Theorem trapezoid_near j order n v0 v' a0 m' : (2 <= n <= 2 ^ 53 + 1)%Z -> meets j a0 v0 -> Forall2 (meets j) m' v' -> orders (map (dmul (d_h n)) (removelast v')) (order (map (dmul (d_h n)) (removelast v'))) -> fin (d_trapezoid order n v0 v') = true ->
  let H := 2 * PI / IZR (n - 1) in let al := last (a0 :: m') a0 in let l := removelast m' in
  near (depth (order (map (dmul (d_h n)) (removelast v'))) + (j + 6)) (H * ((aX a0 + aX al) / 2 + rsum (map aX l))) (H * ((aB a0 + aB al) / 2 + rsum (map aB l)))
    (H * ((ae a0 + ae al) / 2 + rsum (map ae l)) + (aB a0 + aB al + ae a0 + ae al + 1 + INR (List.length l)) * tiny) (d_trapezoid order n v0 v').
Proof.
  intros N M0 M O F H al l. unfold d_trapezoid in *. set (vl := last (v0 :: v') v0) in *. assert (Ml : meets j al vl) by (apply Forall2_last; [exact M0|constructor; assumption]). set (t := order (map (dmul (d_h n)) (removelast v'))) in *. destruct (dadd_fin _ _ F) as (F1 & F2 & _). pose proof (Forall2_removelast _ _ _ M) as MR. fold l in MR. pose proof (scaled_near j n _ _ t N MR O F2) as NS. cbv zeta in NS. fold H in NS. destruct (dmul_fin _ _ F1) as (F3 & F4 & _). pose proof (step_near n N) as NH. fold H in NH.
  pose proof (near_mul _ _ _ _ _ _ _ _ _ _ half_near NH F3) as NHH. pose proof (near_add _ _ _ _ _ _ _ _ _ M0 Ml F4) as NA. pose proof (near_mul _ _ _ _ _ _ _ _ _ _ NHH NA F1) as NM. pose proof tiny_pos as T. fold (aX a0) (aX al) (aB a0) (aB al) (ae a0) (ae al) in NM.
  assert (NM' : near (depth t + (j + 5)) (/ 2 * H * (aX a0 + aX al)) (/ 2 * H * (aB a0 + aB al)) (/ 2 * H * (ae a0 + ae al) + (aB a0 + aB al + ae a0 + ae al + 1) * tiny) (dmul (dmul half (d_h n)) (dadd v0 vl))) by (eapply near_weaken; [| |exact NM]; [lia|lra]).
  assert (NS' := near_weaken (depth t + (j + 3)) (depth t + (j + 5)) _ _ _ _ _ ltac:(lia) (Rle_refl _) NS). pose proof (near_add _ _ _ _ _ _ _ _ _ NM' NS' F) as X. replace (depth t + (j + 6))%nat with (S (depth t + (j + 5))) by lia.
  replace (List.length l) with (List.length (removelast v')) by (clear -MR; induction MR; cbn; congruence).
  replace (H * ((aX a0 + aX al) / 2 + rsum (map aX l))) with (/ 2 * H * (aX a0 + aX al) + H * rsum (map aX l)) by field. replace (H * ((aB a0 + aB al) / 2 + rsum (map aB l))) with (/ 2 * H * (aB a0 + aB al) + H * rsum (map aB l)) by field.
  eapply near_weaken; [apply le_n| |exact X]. lra.
Qed.
Lemma exact_meets l : Forall (fun v => fin v = true) l -> Forall2 (meets 0) (map (fun v => ((val v, Rabs (val v), 0) : aim)) l) l.
Proof. induction 1 as [|v l Fv Fl IH]; cbn [map]; constructor; [exact (near_exact v Fv)|exact IH]. Qed.
(** Finite integrals have finite values. *)
Lemma map_mul_fin h l : Forall (fun v => fin v = true) (map (dmul h) l) -> Forall (fun v => fin v = true) l.
Proof. intros F. apply Forall_map in F. eapply Forall_impl; [|exact F]. intros v Fv. exact (proj1 (proj2 (dmul_fin _ _ Fv))). Qed.
Lemma trapezoid_fin order n v0 v' : orders (map (dmul (d_h n)) (removelast v')) (order (map (dmul (d_h n)) (removelast v'))) -> fin (d_trapezoid order n v0 v') = true -> Forall (fun v => fin v = true) (v0 :: v').
Proof.
  intros O F. unfold d_trapezoid in F. destruct (dadd_fin _ _ F) as (F1 & F2 & _). destruct (dmul_fin _ _ F1) as (_ & F4 & _). destruct (dadd_fin _ _ F4) as (F5 & F6 & _). pose proof (map_mul_fin _ _ (orders_fin _ _ O F2)) as Fr. constructor; [exact F5|]. destruct v' as [|v1 w] eqn:E; [constructor|]. rewrite <- E in *. rewrite (app_removelast_last v0) by (rewrite E; discriminate). apply Forall_app. split; [exact Fr|]. constructor; [|constructor]. rewrite E in *. exact F6.
Qed.

(** ** Signs *)
Lemma rnd_nonneg x : 0 <= x -> 0 <= rnd x.
Proof. intros H. rewrite <- (round_0 radix2 (SpecFloat.fexp 53 1024) ZnearestE). apply round_le; [apply fexp_correct; reflexivity|apply valid_rnd_N|exact H]. Qed.
Lemma dadd_nonneg x y : fin (dadd x y) = true -> 0 <= val x -> 0 <= val y -> 0 <= val (dadd x y).
Proof. intros F A B. destruct (dadd_fin _ _ F) as (_ & _ & V). rewrite V. apply rnd_nonneg. lra. Qed.
Lemma dmul_nonneg x y : fin (dmul x y) = true -> 0 <= val x -> 0 <= val y -> 0 <= val (dmul x y).
Proof. intros F A B. destruct (dmul_fin _ _ F) as (_ & _ & V). rewrite V. apply rnd_nonneg. nra. Qed.
Lemma tsum_nonneg t : fin (tsum t) = true -> Forall (fun x => 0 <= val x) (leaves t) -> 0 <= val (tsum t).
Proof.
  induction t as [x|a IHa b IHb]; intros F A; cbn [leaves tsum] in *; [inversion A; subst; assumption|]. destruct (dadd_fin _ _ F) as (Fa & Fb & _). apply Forall_app in A. apply dadd_nonneg; [exact F|apply IHa; [exact Fa|apply A]|apply IHb; [exact Fb|apply A]].
Qed.
Lemma scaled_nonneg n l t : (2 <= n <= 2 ^ 53 + 1)%Z -> orders (map (dmul (d_h n)) l) t -> fin (tsum t) = true -> Forall (fun v => 0 <= val v) l -> 0 <= val (tsum t).
Proof.
  intros N O F A. pose proof (orders_fin _ _ O F) as Fl. apply tsum_nonneg; [exact F|]. destruct O as (pad & Pd & Pm). apply (Permutation_Forall (Permutation_sym Pm)). apply Forall_app. split.
  - pose proof (step_pos n N) as P. clear -P Fl A. induction l as [|v l IH]; cbn [map]; constructor; inversion Fl; inversion A; subst; [apply dmul_nonneg; try assumption; lra|apply IH; assumption].
  - eapply Forall_impl; [|exact Pd]. intros x Hx. destruct x; try discriminate. unfold val. cbn [B2R]. lra.
Qed.
Lemma depth_leaves t : (depth t < List.length (leaves t))%nat.
Proof. induction t as [x|a IHa b IHb]; cbn [depth leaves]; [cbn; lia|]. rewrite app_length. lia. Qed.
