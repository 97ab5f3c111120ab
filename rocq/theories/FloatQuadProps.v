(** C76: integrals over edges in double precision *)
From Coq Require Import List ZArith Reals Lia Lra Permutation.
From Flocq Require Import Core BinarySingleNaN.
From Verif Require Import PyBase PolyModel CurveModel EdgeModel EdgeSpec VertModel EdgeProps FloatIdxModel FloatPolyModel FloatErr FloatQuadModel FloatQuadSpec FloatQuadProofs.
Import ListNotations.
Open Scope R_scope.

Lemma np_sum_scale h l : np_sum (map (fun x => h * x) l) = h * rsum l.
Proof. induction l as [|x l IH]; cbn [map np_sum fold_right rsum]; [ring|]. unfold np_sum in IH. rewrite IH. ring. Qed.
Lemma map_removelast {A B} (f : A -> B) l : map f (removelast l) = removelast (map f l).
Proof. induction l as [|a l IH]; [reflexivity|]. cbn [removelast map]. destruct l; [reflexivity|]. cbn [map] in *. rewrite IH. reflexivity. Qed.
Lemma map_last {A B} (f : A -> B) l d : last (map f l) (f d) = f (last l d).
Proof. induction l as [|a l IH]; [reflexivity|]. cbn [last map]. destruct l; [reflexivity|exact IH]. Qed.
Lemma rsum_nonneg l : Forall (fun x => 0 <= x) l -> 0 <= rsum l.
Proof. induction 1; cbn [rsum]; lra. Qed.
Lemma length_removelast {A} (l : list A) : List.length (removelast l) = (List.length l - 1)%nat.
Proof. induction l as [|a l IH]; [reflexivity|]. cbn [removelast]. destruct l; [reflexivity|]. cbn [List.length] in *. lia. Qed.
Lemma rsum_ends (x : R) l : (1 <= List.length l)%nat -> rsum (x :: l) = x + rsum (removelast l) + last (x :: l) x.
Proof. intros H. destruct l as [|y l]; [cbn in H; lia|]. cbn [last]. cbn [rsum]. assert (G : forall l (y d : R), rsum (y :: l) = rsum (removelast (y :: l)) + last (y :: l) d). { clear. induction l as [|z l IH]; intros y d; [cbn; ring|]. cbn [removelast last]. cbn [rsum]. specialize (IH z d). cbn [removelast last rsum] in IH |- *. destruct l; cbn [removelast last rsum] in *; lra. } specialize (G l y x). cbn [rsum] in G. cbn [last] in G |- *. lra. Qed.

(** ** Errors *)
(** Values with weights already applied: whatever the order of summation, at most [depth + 6] roundings act on any value. *)
Theorem C76_preweighted order e v ign x : (forall l, orders l (order l)) -> e_param e = true -> (2 <= e_npts e <= 2 ^ 53 + 1)%Z ->
  d_preweighted order true (e_npts e) v ign = Ok x -> fin x = true -> exists I A, integrate_preweighted (map val v) ign e = Ok I /\ integrate_preweighted (mags v) ign e = Ok A /\
    let k := (sum_depth order (e_npts e) v ign + 6)%nat in Rabs (val x - I) <= ((1 + uro) ^ k - 1) * A + (INR (List.length v) + rsum (mags v)) * tiny * (1 + uro) ^ k.
Proof.
  intros O P N E F. unfold integrate_preweighted. rewrite P. unfold d_preweighted in E. unfold mags. rewrite !map_length. pose proof tiny_pos as T. assert (Nn : forall l, 0 <= rsum (map (fun x => Rabs (val x)) l)) by (intros l; apply rsum_nonneg, Forall_map, Forall_forall; intros; apply Rabs_pos). destruct ign.
  - destruct (Z.eqb_spec (Z.of_nat (List.length v)) (e_npts e - 1)) as [L|L]; [|discriminate]. injection E as <-. do 2 eexists. split; [reflexivity|]. split; [reflexivity|]. cbv zeta. rewrite !np_sum_scale, <- !map_removelast. unfold d_left, sum_depth in *. set (w := removelast v) in *. set (t := order (map (dmul (d_h (e_npts e))) w)) in *. pose proof (exact_meets w (map_mul_fin _ _ (orders_fin _ _ (O _) F))) as M. pose proof (scaled_near 0 (e_npts e) w _ t N M (O _) F) as X. cbv zeta in X. unfold aX, aB, ae in X. rewrite !map_map in X. cbn [fst snd] in X. set (H := 2 * PI / IZR (e_npts e - 1)) in *.
    replace (rsum (map (fun _ : double => 0) w)) with 0 in X by (clear; induction w as [|y w IH]; cbn; lra). apply (near_weaken _ (depth t + 6) _ _ _ ((INR (List.length v) + rsum (map (fun x => Rabs (val x)) v)) * tiny)) in X; [exact (proj2 (proj2 (proj2 X)))|lia|]. specialize (Nn v). assert (INR (List.length w) <= INR (List.length v)) by (apply le_INR; unfold w; rewrite length_removelast; lia). nra.
  - destruct (Z.eqb_spec (Z.of_nat (List.length v)) (e_npts e)) as [L|L]; [|discriminate]. destruct v as [|v0 v']; [discriminate|]. injection E as <-. cbn [map]. do 2 eexists. split; [reflexivity|]. split; [reflexivity|]. cbv zeta. rewrite !np_sum_scale, <- !map_removelast. change (val v0 :: map val v') with (map val (v0 :: v')). change (Rabs (val v0) :: map (fun x => Rabs (val x)) v') with (map (fun x => Rabs (val x)) (v0 :: v')). rewrite (map_last val), (map_last (fun x => Rabs (val x))). unfold sum_depth. cbn [tl]. set (H := 2 * PI / IZR (e_npts e - 1)) in *. pose proof (trapezoid_fin order (e_npts e) v0 v' (O _) F) as Fv. inversion Fv as [|? ? F0 F1]; subst. pose proof (trapezoid_near 0 order (e_npts e) v0 v' (val v0, Rabs (val v0), 0) (map (fun v => ((val v, Rabs (val v), 0) : aim)) v') N (near_exact v0 F0) (exact_meets v' F1) (O _) F) as X. cbv zeta in X.
    change ((val v0, Rabs (val v0), 0) :: map (fun v => ((val v, Rabs (val v), 0) : aim)) v') with (map (fun v => ((val v, Rabs (val v), 0) : aim)) (v0 :: v')) in X. rewrite (map_last (fun v => ((val v, Rabs (val v), 0) : aim)) (v0 :: v') v0), <- map_removelast, map_length in X. unfold aX, aB, ae in X. rewrite !map_map in X. cbn [fst snd] in X. fold H in X. set (vl := last (v0 :: v') v0) in *. set (w := removelast v') in *. unfold rabs in X.
    change (map (fun x => val x) w) with (map val w) in X. replace (rsum (map (fun _ : double => 0) w)) with 0 in X by (clear; induction w as [|y w IH]; cbn; lra). replace (H * ((val v0 + val vl) / 2 + rsum (map val w))) with (1 / 2 * H * (val v0 + val vl) + H * rsum (map val w)) in X by field. replace (H * ((Rabs (val v0) + Rabs (val vl)) / 2 + rsum (map (fun x => Rabs (val x)) w))) with (1 / 2 * H * (Rabs (val v0) + Rabs (val vl)) + H * rsum (map (fun x => Rabs (val x)) w)) in X by field.
    apply (near_weaken _ (depth (order (map (dmul (d_h (e_npts e))) w)) + 6) _ _ _ ((INR (List.length (v0 :: v')) + rsum (map (fun x => Rabs (val x)) (v0 :: v'))) * tiny)) in X; [exact (proj2 (proj2 (proj2 X)))|lia|]. assert (L1 : (1 <= List.length v')%nat) by (cbn [List.length] in L; lia). cbn [map]. rewrite (rsum_ends (Rabs (val v0)) (map (fun x => Rabs (val x)) v')) by (rewrite map_length; exact L1). change (Rabs (val v0) :: map (fun x => Rabs (val x)) v') with (map (fun x => Rabs (val x)) (v0 :: v')). rewrite (map_last (fun x => Rabs (val x)) (v0 :: v') v0), <- map_removelast. fold vl w. specialize (Nn w). assert (Lw : INR (List.length w) + 1 <= INR (List.length (v0 :: v'))) by (rewrite <- S_INR; apply le_INR; unfold w; rewrite length_removelast; cbn [List.length]; lia). nra.
Qed.
Print Assumptions C76_preweighted.

(** The same with weights: one rounding more. *)
Definition goal (p : double * double) : aim := (val (fst p) * val (snd p), Rabs (val (fst p) * val (snd p)), tiny).
Definition prod (p : double * double) : double := dmul (fst p) (snd p).
Lemma goal_meets l : Forall (fun v => fin v = true) (map prod l) -> Forall2 (meets 1) (map goal l) (map prod l).
Proof.
  induction l as [|[a b] l IH]; intros F; cbn [map]; [constructor|]. inversion F as [|? ? Fp Fl]; subst. constructor; [|apply IH; exact Fl]. unfold prod in *. cbn [fst snd] in *. destruct (dmul_fin _ _ Fp) as (Fa & Fb & _). pose proof (near_mul _ _ _ _ _ _ _ _ _ _ (near_exact a Fa) (near_exact b Fb) Fp) as X. unfold meets, goal. cbn [fst snd]. rewrite Rabs_mult. eapply near_weaken; [| |exact X]; [lia|lra].
Qed.
Lemma combine_removelast {A B} (l : list A) : forall (m : list B), (List.length l <= List.length m - 1)%nat -> combine l (removelast m) = combine l m.
Proof. induction l as [|a l IH]; intros [|b m] L; try reflexivity. cbn [List.length] in L. cbn [removelast]. destruct m as [|b' m]; [cbn in L; lia|]. cbn [combine] in *. f_equal. apply IH. cbn [List.length] in *. lia. Qed.
Lemma combine_map2 {A B C D} (f : A -> C) (g : B -> D) l : forall m, combine (map f l) (map g m) = map (fun p => (f (fst p), g (snd p))) (combine l m).
Proof. induction l as [|a l IH]; intros [|b m]; cbn; try reflexivity. rewrite IH. reflexivity. Qed.
Lemma sum_tiny (l : list (double * double)) : rsum (map (fun p => ae (goal p)) l) = INR (List.length l) * tiny.
Proof. induction l as [|p l IH]; cbn [map rsum List.length]; [cbn; ring|]. rewrite IH, S_INR. unfold ae, goal. cbn [snd]. ring. Qed.
Theorem C76_over_edge order e w v ign x : (forall l, orders l (order l)) -> e_param e = true -> (2 <= e_npts e <= 2 ^ 53 + 1)%Z -> Z.of_nat (List.length w) = e_npts e -> map sw (e_smp e) = map val w ->
  d_over_edge order true (e_npts e) w v ign = Ok x -> fin x = true -> let sizes := map (fun p => Rabs (val (fst p) * val (snd p))) (combine v w) in
  exists I A, integrate_over_edge (map val v) ign e = Ok I /\ integrate_preweighted sizes ign e = Ok A /\
    let k := (sum_depth order (e_npts e) (d_weighted v w) ign + 7)%nat in Rabs (val x - I) <= ((1 + uro) ^ k - 1) * A + (INR (List.length v) + rsum sizes + 8) * tiny * (1 + uro) ^ k.
Proof.
  intros O P N Lw W E F sizes. pose proof tiny_pos as T. assert (T1 : tiny <= 1 / 2). { unfold tiny. replace (1 / 2) with (/ 2) by lra. apply Rinv_le; [lra|]. change 1075%nat with (S 1074). rewrite <- tech_pow_Rmult. pose proof (pow_R1_Rle 2 1074 ltac:(lra)). lra. }
  pose proof PI_RGT_0 as Pi0. assert (Pi : PI <= 4) by apply PI_4. set (n := e_npts e) in *. assert (Nm : 1 <= IZR (n - 1)) by (apply IZR_le; lia). set (H := 2 * PI / IZR (n - 1)). assert (H0 : 0 < H) by (unfold H; apply Rdiv_lt_0_compat; lra). assert (HN : H * IZR (n - 1) = 2 * PI) by (unfold H; field; lra).
  assert (Nn : forall l : list (double * double), 0 <= rsum (map (fun p => Rabs (val (fst p) * val (snd p))) l)) by (intros l; apply rsum_nonneg, Forall_map, Forall_forall; intros; apply Rabs_pos).
  unfold d_over_edge in E. unfold integrate_over_edge, multiply_by_dx_norm. rewrite P, W, map_length. fold n. destruct (Z.eqb_spec (Z.of_nat (List.length v)) (if ign then n - 1 else n)) as [L|L]; [|discriminate].
  assert (Lc : List.length (combine v w) = List.length v) by (rewrite combine_length; destruct ign; lia). set (C := combine v w) in *.
  assert (U : d_weighted v (if ign then removelast w else w) = map prod C) by (unfold d_weighted, C; destruct ign; [rewrite combine_removelast by lia|]; reflexivity). rewrite U in E. change (d_weighted v w) with (map prod C).
  assert (NM : np_mul (map val v) (if ign then removelast (map val w) else map val w) = Ok (map (fun p => val (fst p) * val (snd p)) C)).
  { unfold np_mul. destruct ign.
    - rewrite <- map_removelast, !map_length, length_removelast, (proj2 (Nat.eqb_eq _ _)) by lia. rewrite combine_map2, combine_removelast, map_map by lia. reflexivity.
    - rewrite !map_length, (proj2 (Nat.eqb_eq _ _)) by lia. rewrite combine_map2, map_map. reflexivity. }
  assert (MB : (if ign then if (Z.of_nat (List.length v) =? n - 1)%Z then np_mul (map val v) (removelast (map val w)) else Err SizeMismatchError else if (Z.of_nat (List.length v) =? n)%Z then np_mul (map val v) (map val w) else Err SizeMismatchError) = Ok (map (fun p => val (fst p) * val (snd p)) C)) by (destruct ign; rewrite (proj2 (Z.eqb_eq _ _) L); exact NM). rewrite MB. cbn [bind]. clear MB NM.
  unfold integrate_preweighted, sizes. rewrite P, !map_length, Lc. fold n H. unfold d_preweighted in E. rewrite map_length, Lc in E. destruct ign; rewrite (proj2 (Z.eqb_eq _ _) L) in *.
  - injection E as <-. do 2 eexists. split; [reflexivity|]. split; [reflexivity|]. cbv zeta. rewrite !np_sum_scale, <- !map_removelast. unfold d_left, sum_depth in *. rewrite <- map_removelast in *. set (D := removelast C) in *. set (t := order (map (dmul (d_h n)) (map prod D))) in *. pose proof (goal_meets D (map_mul_fin _ _ (orders_fin _ _ (O _) F))) as M. pose proof (scaled_near 1 n _ _ t N M (O _) F) as X. cbv zeta in X. fold H in X. rewrite !map_map, map_length, sum_tiny in X. unfold aX, aB, goal in X. cbn [fst snd] in X.
    apply (near_weaken _ (depth t + 7) _ _ _ ((INR (List.length v) + rsum (map (fun p => Rabs (val (fst p) * val (snd p))) C) + 8) * tiny)) in X; [exact (proj2 (proj2 (proj2 X)))|lia|]. specialize (Nn C). assert (LD : List.length D = (List.length v - 1)%nat) by (unfold D; rewrite length_removelast; lia). assert (L1 : INR (List.length D) <= IZR (n - 1)) by (rewrite INR_IZR_INZ; apply IZR_le; lia). assert (L2 : INR (List.length D) <= INR (List.length v)) by (apply le_INR; lia). assert (H * INR (List.length D) <= 2 * PI) by (rewrite <- HN; apply Rmult_le_compat_l; lra). nra.
  - destruct C as [|c0 C'] eqn:EC; [cbn [List.length] in Lc; lia|]. cbn [map] in E |- *. injection E as <-. do 2 eexists. split; [reflexivity|]. split; [reflexivity|]. cbv zeta. rewrite !np_sum_scale, <- !map_removelast. rewrite <- (map_cons (fun p => val (fst p) * val (snd p)) c0 C'), <- (map_cons (fun p => Rabs (val (fst p) * val (snd p))) c0 C'). rewrite (map_last (fun p => val (fst p) * val (snd p))), (map_last (fun p => Rabs (val (fst p) * val (snd p)))). unfold sum_depth. cbn [tl]. pose proof (trapezoid_fin order n _ _ (O _) F) as Fv. rewrite <- (map_cons prod) in Fv. pose proof (goal_meets (c0 :: C') Fv) as M. cbn [map] in M. inversion M as [|? ? ? ? M0 M1]; subst. pose proof (trapezoid_near 1 order n _ _ _ _ N M0 M1 (O _) F) as X. cbv zeta in X. fold H in X. set (t := order (map (dmul (d_h n)) (removelast (map prod C')))) in *. rewrite <- (map_cons goal), (map_last goal), <- !map_removelast, !map_map, map_length, sum_tiny in X. set (cl := last (c0 :: C') c0) in *. set (D := removelast C') in *. unfold aX, aB, ae, goal in X. cbn [fst snd] in X. set (y0 := Rabs (val (fst c0) * val (snd c0))) in *. set (yl := Rabs (val (fst cl) * val (snd cl))) in *. set (s := rsum (map (fun p => Rabs (val (fst p) * val (snd p))) D)) in *. set (z := rsum (map (fun p => val (fst p) * val (snd p)) D)) in *.
    replace (H * ((val (fst c0) * val (snd c0) + val (fst cl) * val (snd cl)) / 2 + z)) with (1 / 2 * H * (val (fst c0) * val (snd c0) + val (fst cl) * val (snd cl)) + H * z) in X by field. replace (H * ((y0 + yl) / 2 + s)) with (1 / 2 * H * (y0 + yl) + H * s) in X by field.
    apply (near_weaken _ (depth t + 7) _ _ _ ((INR (List.length v) + rsum (map (fun p => Rabs (val (fst p) * val (snd p))) (c0 :: C')) + 8) * tiny)) in X; [exact (proj2 (proj2 (proj2 X)))|lia|]. assert (L1 : (1 <= List.length C')%nat) by (cbn [List.length] in Lc; lia). cbn [map]. rewrite (rsum_ends _ (map (fun p => Rabs (val (fst p) * val (snd p))) C')) by (rewrite map_length; exact L1). rewrite <- (map_cons (fun p => Rabs (val (fst p) * val (snd p)))), (map_last (fun p => Rabs (val (fst p) * val (snd p)))), <- map_removelast. fold D cl s y0 yl.
    assert (LD : (List.length D + 2 = List.length v)%nat) by (unfold D; rewrite length_removelast; cbn [List.length] in Lc; lia). assert (L2 : INR (List.length D) + 1 = IZR (n - 1)) by (rewrite <- S_INR, INR_IZR_INZ; f_equal; lia). assert (L3 : INR (List.length D) + 2 = INR (List.length v)) by (rewrite <- LD, plus_INR; cbn; lra). assert (HD : H * ((tiny + tiny) / 2 + INR (List.length D) * tiny) <= 8 * tiny) by (replace (H * ((tiny + tiny) / 2 + INR (List.length D) * tiny)) with (H * (INR (List.length D) + 1) * tiny) by field; rewrite L2, HN; apply Rmult_le_compat_r; lra). rewrite <- L3. assert (tiny * tiny <= 1 / 2 * tiny) by (apply Rmult_le_compat_r; lra). assert (0 <= s * tiny) by (apply Rmult_le_pos; [apply Nn|lra]). lra.
Qed.
Print Assumptions C76_over_edge.

(** ** Refusals *)
Theorem C76_refused order e w v ign x : e_param e = true -> (2 <= e_npts e)%Z -> Z.of_nat (List.length w) = e_npts e -> List.length (e_smp e) = List.length w ->
  (d_preweighted order true (e_npts e) v ign = Err x <-> integrate_preweighted (map val v) ign e = Err x) /\ (d_over_edge order true (e_npts e) w v ign = Err x <-> integrate_over_edge (map val v) ign e = Err x).
Proof.
  intros P N Lw Ls. assert (A : forall v, d_preweighted order true (e_npts e) v ign = Err x <-> integrate_preweighted (map val v) ign e = Err x).
  { intros u. unfold d_preweighted, integrate_preweighted. rewrite P, map_length. destruct ign; [destruct (Z.eqb (Z.of_nat (List.length u)) (e_npts e - 1)); split; intros X; (discriminate || (injection X as <-; reflexivity))|]. destruct (Z.eqb (Z.of_nat (List.length u)) (e_npts e)); [|split; intros X; injection X as <-; reflexivity]. destruct u; cbn [map]; split; intros X; (discriminate || (injection X as <-; reflexivity)). }
  split; [apply A|]. unfold d_over_edge, integrate_over_edge, multiply_by_dx_norm. rewrite P, map_length. destruct (Z.eqb_spec (Z.of_nat (List.length v)) (if ign then e_npts e - 1 else e_npts e)) as [L|L].
  - assert (NE : d_preweighted order true (e_npts e) (d_weighted v (if ign then removelast w else w)) ign <> Err x). { unfold d_preweighted, d_weighted. rewrite map_length, combine_length. replace (Nat.min _ _) with (List.length v) by (destruct ign; rewrite ?length_removelast; lia). destruct ign; rewrite (proj2 (Z.eqb_eq _ _) L); [discriminate|]. destruct v as [|v0 v]; [cbn [List.length] in L; lia|]. destruct w; [cbn [List.length] in Lw; lia|]. discriminate. }
    split; [intros X; contradiction|]. intros X. exfalso. destruct ign; rewrite (proj2 (Z.eqb_eq _ _) L) in X; unfold np_mul in X; rewrite ?length_removelast, ?map_length in X; rewrite ?length_removelast, ?map_length in X; rewrite (proj2 (Nat.eqb_eq _ _)) in X by lia; cbn [bind] in X; unfold integrate_preweighted in X; rewrite P, map_length, combine_length, ?length_removelast, ?map_length, ?length_removelast, ?map_length in X; (replace (Nat.min _ _) with (List.length v) in X by lia); rewrite (proj2 (Z.eqb_eq _ _) L) in X; [discriminate|]. destruct v as [|v0 v]; [cbn [List.length] in L; lia|]. destruct (e_smp e); [cbn [List.length] in Ls; lia|]. cbn in X. discriminate.
  - destruct ign; rewrite (proj2 (Z.eqb_neq _ _) L); cbn [bind]; split; intros X; injection X as <-; reflexivity.
Qed.
Print Assumptions C76_refused.

(** ** Order *)
(** Rounding keeps order: larger values have larger integrals, if the order of summation depends on positions only. *)
Lemma place_le l m s : Forall2 (fun x y => val x <= val y) l m -> fin (tsum (place l s)) = true -> fin (tsum (place m s)) = true -> val (tsum (place l s)) <= val (tsum (place m s)).
Proof.
  intros L. induction s as [i| |a IHa b IHb]; cbn [place tsum]; intros F G; [|lra|].
  - clear F G. revert i. induction L as [|x y l m Hxy Hlm IH]; intros [|i]; cbn [nth]; try lra; try exact Hxy. apply IH.
  - destruct (dadd_fin _ _ F) as (F1 & F2 & V). destruct (dadd_fin _ _ G) as (G1 & G2 & W). rewrite V, W. apply round_le; [apply fexp_correct; reflexivity|apply valid_rnd_N|]. specialize (IHa F1 G1). specialize (IHb F2 G2). lra.
Qed.
Lemma rnd_mono x y : x <= y -> rnd x <= rnd y.
Proof. intros H. apply round_le; [apply fexp_correct; reflexivity|apply valid_rnd_N|exact H]. Qed.
Lemma scaled_le n l m : (2 <= n <= 2 ^ 53 + 1)%Z -> Forall (fun v => fin v = true) (map (dmul (d_h n)) l) -> Forall (fun v => fin v = true) (map (dmul (d_h n)) m) -> Forall2 (fun x y => val x <= val y) l m -> Forall2 (fun x y => val x <= val y) (map (dmul (d_h n)) l) (map (dmul (d_h n)) m).
Proof.
  intros N F G L. pose proof (step_pos n N) as P. induction L as [|x y l m Hxy Hlm IH]; cbn [map] in *; constructor; inversion F as [|? ? Fx Fl]; inversion G as [|? ? Gx Gl]; subst; [|apply IH; assumption]. destruct (dmul_fin _ _ Fx) as (_ & _ & V). destruct (dmul_fin _ _ Gx) as (_ & _ & W). rewrite V, W. apply rnd_mono, Rmult_le_compat_l; lra.
Qed.
Theorem C76_monotone order n u v ign x y : by_position order -> (forall l, orders l (order l)) -> (2 <= n <= 2 ^ 53 + 1)%Z -> Forall2 (fun a b => val a <= val b) u v ->
  d_preweighted order true n u ign = Ok x -> d_preweighted order true n v ign = Ok y -> fin x = true -> fin y = true -> val x <= val y.
Proof.
  intros (s & S) O N L Ex Ey Fx Fy. assert (Le : List.length u = List.length v) by (clear -L; induction L; cbn; congruence). unfold d_preweighted in Ex, Ey. rewrite <- Le in Ey. destruct ign.
  - destruct (Z.eqb (Z.of_nat (List.length u)) (n - 1)); [|discriminate]. injection Ex as <-. injection Ey as <-. unfold d_left in *. pose proof (orders_fin _ _ (O _) Fx) as Gx. pose proof (orders_fin _ _ (O _) Fy) as Gy. rewrite !S in *. rewrite !map_length, !length_removelast in *. rewrite <- Le in *. apply place_le; [|assumption|assumption]. apply scaled_le; try assumption. apply Forall2_removelast. exact L.
  - destruct (Z.eqb (Z.of_nat (List.length u)) n); [|discriminate]. destruct L as [|u0 v0 u v H0 L]; [discriminate|]. injection Ex as <-. injection Ey as <-. unfold d_trapezoid in *. destruct (dadd_fin _ _ Fx) as (F1 & F2 & V1). destruct (dadd_fin _ _ Fy) as (G1 & G2 & W1). rewrite V1, W1. apply rnd_mono, Rplus_le_compat.
    + destruct (dmul_fin _ _ F1) as (F3 & F4 & V2). destruct (dmul_fin _ _ G1) as (_ & G4 & W2). rewrite V2, W2. apply rnd_mono, Rmult_le_compat_l; [apply dmul_nonneg; [exact F3|rewrite (proj2 half_val); lra|apply Rlt_le, step_pos, N]|]. destruct (dadd_fin _ _ F4) as (_ & _ & V3). destruct (dadd_fin _ _ G4) as (_ & _ & W3). rewrite V3, W3. apply rnd_mono, Rplus_le_compat; [exact H0|]. apply (Forall2_last (fun a b => val a <= val b)); [exact H0|constructor; assumption].
    + pose proof (orders_fin _ _ (O _) F2) as Gx. pose proof (orders_fin _ _ (O _) G2) as Gy. cbn [List.length] in Le. injection Le as Le. rewrite !S in *. rewrite !map_length, !length_removelast in *. rewrite <- Le in *. apply place_le; [|assumption|assumption]. apply scaled_le; try assumption. apply Forall2_removelast. exact L.
Qed.
Print Assumptions C76_monotone.

(** Nonnegative values have nonnegative integrals, in any order of summation. *)
Theorem C76_nonneg order n v ign x : (forall l, orders l (order l)) -> (2 <= n <= 2 ^ 53 + 1)%Z -> Forall (fun a => 0 <= val a) v -> d_preweighted order true n v ign = Ok x -> fin x = true -> 0 <= val x.
Proof.
  intros O N A E F. assert (RL : forall l, Forall (fun a => 0 <= val a) l -> Forall (fun a => 0 <= val a) (removelast l)) by (intros l Hl; apply Forall_forall; intros y Iy; rewrite Forall_forall in Hl; apply Hl; clear -Iy; induction l as [|a l IH]; [exact Iy|]; cbn [removelast] in Iy; destruct l; [destruct Iy|]; destruct Iy as [->|Iy]; [left; reflexivity|right; apply IH; exact Iy]). unfold d_preweighted in E. destruct ign.
  - destruct (Z.eqb (Z.of_nat (List.length v)) (n - 1)); [|discriminate]. injection E as <-. unfold d_left in *. eapply scaled_nonneg; [exact N|apply O|exact F|apply RL; exact A].
  - destruct (Z.eqb (Z.of_nat (List.length v)) n); [|discriminate]. destruct v as [|v0 v]; [discriminate|]. injection E as <-. unfold d_trapezoid in *. destruct (dadd_fin _ _ F) as (F1 & F2 & _). destruct (dmul_fin _ _ F1) as (F3 & F4 & _). inversion A as [|? ? A0 A1]; subst. apply dadd_nonneg; [exact F| |eapply scaled_nonneg; [exact N|apply O|exact F2|apply RL; exact A1]]. apply dmul_nonneg; [exact F1|apply dmul_nonneg; [exact F3|rewrite (proj2 half_val); lra|apply Rlt_le, step_pos, N]|]. apply dadd_nonneg; [exact F4|exact A0|]. assert (X := Forall2_last (fun (_ : unit) b => 0 <= val b) (map (fun _ => tt) (v0 :: v)) (v0 :: v) tt v0 A0). apply X. clear -A. induction A; cbn [map]; constructor; assumption.
Qed.
Print Assumptions C76_nonneg.

(** ** Two orders of summation *)
Lemma chain_leaves l : forall t, leaves (chain t l) = leaves t ++ l.
Proof. induction l as [|x l IH]; intros t; cbn [chain]; [rewrite app_nil_r; reflexivity|]. rewrite IH. cbn [leaves]. rewrite <- app_assoc. reflexivity. Qed.
Lemma chain_depth l : forall t, depth (chain t l) = (depth t + List.length l)%nat.
Proof. induction l as [|x l IH]; intros t; cbn [chain List.length]; [lia|]. rewrite IH. cbn [depth]. lia. Qed.
Theorem C76_from_left l : orders l (from_left l) /\ depth (from_left l) = List.length l.
Proof.
  unfold from_left. split; [|rewrite chain_depth; reflexivity]. exists [of_int 0]. split; [constructor; [reflexivity|constructor]|]. rewrite chain_leaves. cbn [leaves]. apply Permutation_app_comm.
Qed.
Print Assumptions C76_from_left.
(** In halves the depth is at most [k] for up to 2^k values. *)
Theorem C76_halves k : forall l, orders l (halves k l) /\ ((List.length l <= 2 ^ k)%nat -> (depth (halves k l) <= k + 1)%nat).
Proof.
  induction k as [|k IH]; intros l.
  - cbn [halves]. destruct (C76_from_left l) as [A B]. split; [exact A|]. rewrite B. cbn [Nat.pow]. lia.
  - destruct l as [|x [|y l]]; cbn [halves].
    + split; [exists [of_int 0]; split; [constructor; [reflexivity|constructor]|apply Permutation_refl]|cbn [depth]; lia].
    + split; [exists []; split; [constructor|apply Permutation_refl]|cbn [depth]; lia].
    + set (m := x :: y :: l). set (h := Nat.div2 (List.length m)). destruct (IH (firstn h m)) as [(p & Pp & Qp) Dp]. destruct (IH (skipn h m)) as [(q & Pq & Qq) Dq]. split.
      * exists (p ++ q). split; [apply Forall_app; split; assumption|]. cbn [leaves]. rewrite Qp, Qq. apply Permutation_trans with ((firstn h m ++ skipn h m) ++ p ++ q); [|rewrite firstn_skipn; apply Permutation_refl]. rewrite <- !app_assoc. apply Permutation_app_head. rewrite !app_assoc. apply Permutation_app_tail, Permutation_app_comm.
      * intros Hl. cbn [depth]. rewrite firstn_length, skipn_length in *. cbn [Nat.pow] in Hl. assert (Hh : (h <= 2 ^ k /\ List.length m - h <= 2 ^ k)%nat). { unfold h. pose proof (Nat.div2_odd (List.length m)) as O. destruct (Nat.odd (List.length m)); cbn [Nat.b2n] in O; lia. } specialize (Dp ltac:(lia)). specialize (Dq ltac:(lia)). lia.
Qed.
Print Assumptions C76_halves.

(** From left to right is an order by position. *)
Fixpoint in_turn (s : shape) (l : list nat) : shape := match l with [] => s | i :: l => in_turn (Plus s (At i)) l end.
Theorem C76_from_left_position : by_position from_left.
Proof.
  exists (fun n => in_turn Zero (seq 0 n)). intros l. unfold from_left. assert (G : forall (r pre : list double) t s, place (pre ++ r) s = t -> chain t r = place (pre ++ r) (in_turn s (seq (List.length pre) (List.length r)))).
  { induction r as [|x r IH]; intros pre t s E; cbn [chain seq in_turn List.length]; [symmetry; exact E|]. specialize (IH (pre ++ [x]) (Node t (Leaf x)) (Plus s (At (List.length pre)))). rewrite <- app_assoc in IH. cbn [app] in IH. rewrite app_length in IH. cbn [List.length] in IH. rewrite Nat.add_1_r in IH. apply IH. cbn [place]. rewrite E, app_nth2, Nat.sub_diag by lia. reflexivity. }
  exact (G l [] (Leaf (of_int 0)) Zero eq_refl).
Qed.
Print Assumptions C76_from_left_position.

(** ** Examples *)
Definition ex_edge : edge := with_param (line_edge (mkvert 0 0) (mkvert 1 0)) true 3 [Smp (0, 0) (1, 0) (0, -1) 2 0; Smp (1, 0) (1, 0) (0, -1) 3 0; Smp (2, 0) (1, 0) (0, -1) 5 0].
(** Three values with weights 2, 3, 5: the exact integral is 31/2 pi; the computed one is finite. *)
Example C76_example : let v := map of_int [1; 4; 1]%Z in let w := map of_int [2; 3; 5]%Z in
  e_param ex_edge = true /\ (2 <= e_npts ex_edge <= 2 ^ 53 + 1)%Z /\ map sw (e_smp ex_edge) = map val w /\ Z.of_nat (List.length w) = e_npts ex_edge /\
  (exists x, d_over_edge from_left true (e_npts ex_edge) w v false = Ok x /\ B2SF x = SpecFloat.S754_finite false 6853167822277551 (-47)) /\ sum_depth from_left 3 (d_weighted v w) false = 1%nat /\ integrate_over_edge (map val v) false ex_edge = Ok (31 / 2 * PI).
Proof.
  cbv zeta. assert (V : forall n, (Z.abs n <= 2 ^ 53)%Z -> val (of_int n) = IZR n) by (intros n H; exact (proj2 (of_int_val n H))). split; [reflexivity|]. split; [cbn; lia|]. split; [cbn [map]; rewrite !V by (cbn; lia); reflexivity|]. split; [reflexivity|]. split; [eexists; split; [reflexivity|vm_compute; reflexivity]|]. split; [reflexivity|]. cbn [map]. rewrite !V by (cbn; lia). unfold integrate_over_edge, multiply_by_dx_norm, ex_edge. cbn. f_equal. field.
Qed.
