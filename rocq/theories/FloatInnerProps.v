(** C78: inner products of local functions and integrals of polynomials over cells in double precision *)
From Coq Require Import List ZArith Reals Lia Lra Permutation.
From Flocq Require Import Core BinarySingleNaN.
From Verif Require Import BaryModel BBoxModel QuadModel QuadSpec QuadProofs QuadProps CurveModel VertModel EdgeModel EdgeSpec EdgeProofs EdgeProofs2 EdgeProps EdgeProps3 ContourModel CellModel CellSpec CellProofs CellProps ContourProofs ContourProofs2 ContourProofs3 InteriorProofs ContourProofs4 VertProps EdgeProps4 ContourProps CellProofs2 Annulus CellProps2 CellProps3.
From Verif Require Import PyBase PolyModel FloatIdxModel FloatPolyModel FloatErr FloatPolySpec FloatPolyProofs FloatQuadModel FloatQuadSpec FloatQuadProofs FloatQuadProps FloatBdryModel FloatBdryProofs FloatBdryProps FloatInnerModel FloatInnerProofs.
From Verif Require Import LocalModel.
From Verif Require LocalSpec LocalProofs.
Import List ListNotations.
Open Scope R_scope.

(** An aim is an exact value, a size (at least that of the value) and an absolute error. A number meets it with [j] roundings
    if its distance from the exact value is at most the growth of [j] roundings times the size, plus the absolute error with
    that growth (FloatErr.v). *)
Section Blocks.
Context {K : Type} (hd : K -> double) (hr : K -> R) (sz : K -> Z) (ks : list K) (i : nat) (order : list double -> tree) (int : list R -> res R).
Hypothesis Ord : forall l, orders l (order l).
Hypothesis Near : Forall (fun k => near i (hr k) (hr k) 0 (hd k)) ks.
Hypothesis Pos : Forall (fun k => (0 <= sz k)%Z) ks.
Hypothesis Int : forall vs, sized sz ks vs -> int (concat vs) = Ok (block_int hr ks vs).
Let blocks := d_blocks (map (fun k => (hd k, sz k)) ks).
Lemma gen_goal (G : list aim) v j : Forall2 (fun g x => fin x = true -> meets j g x) G v -> Z.of_nat (List.length v) = CellSpec.total (map sz ks) -> fin (tsum (order (blocks v))) = true ->
  exists I A E, int (map aX G) = Ok I /\ int (map aB G) = Ok A /\ int (map ae G) = Ok E /\ near (depth (order (blocks v)) + S (i + j)) I A (E + INR (List.length v) * tiny) (tsum (order (blocks v))).
Proof.
  intros M L F. set (p := combine G v). assert (Lg : List.length G = List.length v) by (clear -M; induction M; cbn; congruence). assert (Lp : List.length p = List.length v) by (unfold p; rewrite combine_length; lia).
  assert (E1 : v = map snd p) by (unfold p; clear -Lg; revert v Lg; induction G as [|g G IH]; intros [|x v] L; try discriminate; [reflexivity|]; cbn [combine map snd]; f_equal; apply IH; injection L as L; exact L).
  assert (E2 : G = map fst p) by (unfold p; clear -Lg; revert v Lg; induction G as [|g G IH]; intros [|x v] L; try discriminate; [reflexivity|]; cbn [combine map fst]; f_equal; apply IH; injection L as L; exact L).
  assert (Mp : Forall (fun q => fin (snd q) = true -> meets j (fst q) (snd q)) p) by (unfold p; clear -M; induction M; cbn [combine]; constructor; assumption). clearbody p. rewrite <- Lp in L. destruct (sized_exists sz ks Pos p L) as (bs & -> & Sb). rewrite <- Lp. rewrite E1 in *. rewrite E2. rewrite !map_map, !concat_map, !Int by (apply sized_map; exact Sb).
  do 3 eexists. split; [reflexivity|]. split; [reflexivity|]. split; [reflexivity|]. rewrite <- concat_map in *. pose proof (blocks_near hd hr sz (@snd aim double) (@fst aim double) i j order ks bs Ord Near Mp Sb F) as X. rewrite !block_rsum. cbv zeta in X. fold blocks in X.
  replace (rsum (map (fun kb : K * list (aim * double) => hr (fst kb) * rsum (map (fun x => ae (fst x)) (snd kb))) (combine ks bs)) + INR (List.length (concat bs)) * tiny) with (rsum (map (fun q : K * (aim * double) => hr (fst q) * ae (fst (snd q)) + tiny) (spread ks bs))); [exact X|].
  rewrite <- (spread_sum hr (fun x : aim * double => ae (fst x))), <- (spread_length sz ks bs Sb). clear. induction (spread ks bs) as [|q l IH]; [cbn; ring|]. cbn [map rsum List.length]. rewrite IH, S_INR. ring.
Qed.
End Blocks.

(** ** Errors of the data pass through the integral over the boundary. *)
Theorem C78_boundary contains order H c ess (G : list aim) v j x : (forall l, orders l (order l)) -> ready contains H c -> boundary_edges H c ess -> Forall (fun es => (csize es <= 2 ^ 53)%Z) ess -> Forall2 (fun g y => fin y = true -> meets j g y) G v ->
  d_cell order v H c = Ok x -> fin x = true -> exists s I A E, d_cell_steps c = Ok s /\ cell_integrate_preweighted (map aX G) H c = Ok I /\ cell_integrate_preweighted (map aB G) H c = Ok A /\ cell_integrate_preweighted (map ae G) H c = Ok E /\
    near (depth (order (d_blocks s v)) + (j + 4)) I A (E + INR (List.length v) * tiny) x.
Proof.
  intros O Rd B Sm M E Fx. destruct (ready_uniform _ _ _ _ Rd B) as (F & NE & _). pose proof (fresh_all _ _ _ (proj1 F)) as W. destruct (contour_steps ess W NE Sm) as (N & P & _). unfold d_cell in E. rewrite (comps_guard _ _ _ (proj1 F)), (proj1 (proj2 (proj2 F))) in E. cbn [attr bind] in E. destruct (Z.eqb_spec (Z.of_nat (List.length v)) (CellSpec.total (map csize ess))) as [L|L]; [|discriminate]. rewrite (d_cell_steps_ok _ _ _ F NE) in *. cbn [bind] in E. apply Ok_inj in E. subst x. eexists.
  destruct (gen_goal k_step k_len csize ess 3 order (fun v => cell_integrate_preweighted v H c) O N P (cell_int H c ess F NE) G v j M L Fx) as (I & A & E & X1 & X2 & X3 & X4). exists I, A, E. split; [reflexivity|]. split; [exact X1|]. split; [exact X2|]. split; [exact X3|]. replace (j + 4)%nat with (S (3 + j)) by lia. exact X4.
Qed.
Print Assumptions C78_boundary.

(** ** Products of a weighted normal derivative and a trace *)
(** Exact arrays, sizes and errors of the products of two arrays *)
Definition times (g h : aim) : aim := (aX g * aX h, aB g * aB h, aB g * ae h + ae g * aB h + ae g * ae h + tiny).
Definition pairwise (G K : list aim) : list aim := map (fun p => times (fst p) (snd p)) (combine G K).
Lemma pairwise_meets G K w v j k : Forall2 (fun g y => fin y = true -> meets j g y) G w -> Forall2 (fun g y => fin y = true -> meets k g y) K v -> Forall2 (fun g y => fin y = true -> meets (S (j + k)) g y) (pairwise G K) (d_weighted w v).
Proof.
  intros A. revert K v. unfold pairwise, zip_with, d_weighted. induction A as [|g x G w M A IH]; intros K v B; [constructor|]. destruct B as [|h y K v N B]; cbn [combine map]; [constructor|]. constructor; [|apply IH; exact B]. cbn [fst snd]. intros F. destruct (dmul_fin _ _ F) as (Fx & Fy & _). apply near_product; auto.
Qed.
Theorem C78_flux contains order H c ess (G K : list aim) w v j k x : (forall l, orders l (order l)) -> ready contains H c -> boundary_edges H c ess -> Forall (fun es => (csize es <= 2 ^ 53)%Z) ess -> Forall2 (fun g y => fin y = true -> meets j g y) G w -> Forall2 (fun g y => fin y = true -> meets k g y) K v ->
  d_flux order w v H c = Ok x -> fin x = true -> exists s I A E, d_cell_steps c = Ok s /\ cell_integrate_preweighted (zip_with Rmult (map aX G) (map aX K)) H c = Ok I /\ cell_integrate_preweighted (zip_with Rmult (map aB G) (map aB K)) H c = Ok A /\ cell_integrate_preweighted (map ae (pairwise G K)) H c = Ok E /\
    near (depth (order (d_blocks s (d_weighted w v))) + (j + k + 5)) I A (E + INR (List.length v) * tiny) x.
Proof.
  intros O Rd B Sm M N E Fx. unfold d_flux in E. destruct (Nat.eqb_spec (List.length w) (List.length v)) as [L|]; [|discriminate]. destruct (C78_boundary contains order H c ess _ _ _ x O Rd B Sm (pairwise_meets _ _ _ _ _ _ M N) E Fx) as (s & I & A & E' & X1 & X2 & X3 & X4 & X5). exists s, I, A, E'. split; [exact X1|].
  assert (Z : forall (f : aim -> R), (forall g h, f (times g h) = f g * f h) -> map f (pairwise G K) = zip_with Rmult (map f G) (map f K)). { intros f Hf. unfold pairwise, zip_with. clear -Hf. revert K. induction G as [|g G IH]; intros [|h K]; [reflexivity|reflexivity|reflexivity|]. cbn [combine map fst snd]. rewrite Hf, IH. reflexivity. }
  rewrite Z in X2, X3 by reflexivity. split; [exact X2|]. split; [exact X3|]. split; [exact X4|]. replace (List.length (d_weighted w v)) with (List.length v) in X5 by (unfold d_weighted; rewrite map_length, combine_length; lia). replace (j + k + 5)%nat with (S (j + k) + 4)%nat by lia. exact X5.
Qed.
Print Assumptions C78_flux.
(** With the numbers as they are *)
Definition itself (x : double) : aim := (val x, Rabs (val x), 0).
Lemma itself_meets v : Forall2 (fun g y => fin y = true -> meets 0 g y) (map itself v) v.
Proof. induction v as [|x v IH]; cbn [map]; constructor; [intros F; exact (near_exact x F)|exact IH]. Qed.
Lemma cell_int_total H c ess : cell_fresh H c ess -> Forall (fun es => es <> []) ess -> Forall (fun es => k_len es <= 4) ess -> forall l, Forall (fun y => y = tiny) l -> forall E, cell_integrate_preweighted l H c = Ok E -> E <= 4 * INR (List.length l) * tiny.
Proof.
  intros F NE H4 l T E X. pose proof (fresh_all _ _ _ (proj1 F)) as W. pose proof tiny_pos as TP. unfold cell_integrate_preweighted in X. pose proof X as X'. rewrite (comps_guard _ _ _ (proj1 F)), (proj1 (proj2 (proj2 F))) in X'. cbn [attr bind] in X'. destruct (Z.eqb_spec (Z.of_nat (List.length l)) (CellSpec.total (map csize ess))) as [L|L]; [|discriminate]. clear X'. fold (cell_integrate_preweighted l H c) in X.
  destruct (ccut_exists ess l W L) as (vs & -> & C). rewrite (cell_integrate_pre_ok H c ess vs F NE C) in X. apply Ok_inj in X. subst E. clear -T C H4 TP. unfold ccut in C. revert vs C T. induction ess as [|es ess IH]; intros vs C T; inversion C as [|? v ? vs' Cv C']; subst; [cbn; lra|]. cbn [map combine concat fst snd] in *. apply Forall_app in T. destruct T as [T1 T2]. inversion H4; subst. specialize (IH ltac:(assumption) vs' C' T2). unfold sum_list in *. cbn [fold_right]. rewrite app_length, plus_INR.
  assert (S : sum_list v = INR (List.length v) * tiny). { clear -T1. induction T1 as [|y v Ey T IH]; [cbn; ring|]. subst y. unfold sum_list in *. cbn [fold_right List.length]. rewrite IH, S_INR. ring. } unfold sum_list in S. change (2 * PI * INR (List.length es) / IZR (csize es)) with (k_len es). rewrite S. pose proof (pos_INR (List.length v)). assert (k_len es * (INR (List.length v) * tiny) <= 4 * (INR (List.length v) * tiny)) by (apply Rmult_le_compat_r; [apply Rmult_le_pos; lra|assumption]). lra.
Qed.
(** H1 products: the integral of a weighted normal derivative times a trace *)
Theorem C78_h1 contains order H c ess w v x : (forall l, orders l (order l)) -> ready contains H c -> boundary_edges H c ess -> Forall (fun es => (csize es <= 2 ^ 53)%Z) ess -> d_flux order w v H c = Ok x -> fin x = true ->
  exists s I A, d_cell_steps c = Ok s /\ cell_integrate_preweighted (zip_with Rmult (map val w) (map val v)) H c = Ok I /\ cell_integrate_preweighted (zip_with Rmult (mags w) (mags v)) H c = Ok A /\
    near (depth (order (d_blocks s (d_weighted w v))) + 5) I A (5 * INR (List.length v) * tiny) x.
Proof.
  intros O Rd B Sm E Fx. destruct (C78_flux contains order H c ess _ _ w v 0 0 x O Rd B Sm (itself_meets w) (itself_meets v) E Fx) as (s & I & A & E' & X1 & X2 & X3 & X4 & X5). exists s, I, A. split; [exact X1|]. rewrite !map_map in X2, X3. split; [exact X2|]. split; [exact X3|]. eapply near_weaken; [apply le_n| |exact X5].
  destruct (ready_uniform _ _ _ _ Rd B) as (F & NE & _). pose proof (fresh_all _ _ _ (proj1 F)) as W. destruct (contour_steps ess W NE Sm) as (_ & _ & H4 & _). assert (L : List.length w = List.length v) by (unfold d_flux in E; destruct (Nat.eqb_spec (List.length w) (List.length v)); [assumption|discriminate]).
  assert (T : Forall (fun y => y = tiny) (map ae (pairwise (map itself w) (map itself v)))). { apply Forall_forall. intros y Iy. apply in_map_iff in Iy. destruct Iy as (g & <- & Ig). unfold pairwise in Ig. apply in_map_iff in Ig. destruct Ig as ([a b] & <- & Iab). pose proof (in_combine_l _ _ _ _ Iab) as Ia. pose proof (in_combine_r _ _ _ _ Iab) as Ib. apply in_map_iff in Ia. apply in_map_iff in Ib. destruct Ia as (a' & <- & _). destruct Ib as (b' & <- & _). unfold times, ae, aB, itself. cbn [fst snd]. ring. }
  pose proof (cell_int_total H c ess F NE H4 _ T E' X4) as Y. rewrite map_length in Y. unfold pairwise in Y. rewrite map_length, combine_length, !map_length, L, Nat.min_id in Y. lra.
Qed.
Print Assumptions C78_h1.
(** The product of the two arrays does not depend on their order, bit for bit. *)
Lemma dmul_comm x y : dmul x y = dmul y x.
Proof.
  unfold dmul. destruct x as [s|s| |s m e B], y as [s'|s'| |s' m' e' B']; try reflexivity; try (cbn; rewrite Bool.xorb_comm; reflexivity). 
  apply B2SF_inj. cbv beta iota zeta delta [Bmult]. rewrite !B2SF_SF2B. rewrite (Bool.xorb_comm s s'), (Pos.mul_comm m m'), (Z.add_comm e e'). reflexivity.
Qed.
Theorem C78_flux_commutes order w v H c : d_flux order w v H c = d_flux order v w H c.
Proof.
  unfold d_flux. rewrite (Nat.eqb_sym (List.length w)). destruct (Nat.eqb_spec (List.length v) (List.length w)) as [L|]; [|reflexivity]. f_equal. unfold d_weighted. clear -L. revert w L. induction v as [|x v IH]; intros [|y w] L; try discriminate; [reflexivity|]. cbn [combine map fst snd]. rewrite dmul_comm. f_equal. apply IH. injection L as L. exact L.
Qed.
Print Assumptions C78_flux_commutes.

(** L2 products: the difference of two such integrals *)
Theorem C78_l2 contains order H c ess w1 v2 v1 w2 x : (forall l, orders l (order l)) -> ready contains H c -> boundary_edges H c ess -> Forall (fun es => (csize es <= 2 ^ 53)%Z) ess -> d_green order w1 v2 v1 w2 H c = Ok x -> fin x = true ->
  exists s I J A B, d_cell_steps c = Ok s /\ cell_integrate_preweighted (zip_with Rmult (map val w1) (map val v2)) H c = Ok I /\ cell_integrate_preweighted (zip_with Rmult (map val v1) (map val w2)) H c = Ok J /\
    cell_integrate_preweighted (zip_with Rmult (mags w1) (mags v2)) H c = Ok A /\ cell_integrate_preweighted (zip_with Rmult (mags v1) (mags w2)) H c = Ok B /\
    near (Nat.max (depth (order (d_blocks s (d_weighted w1 v2)))) (depth (order (d_blocks s (d_weighted v1 w2)))) + 6) (I - J) (A + B) (5 * INR (List.length v2) * tiny + 5 * INR (List.length w2) * tiny) x.
Proof.
  intros O Rd B Sm E Fx. unfold d_green in E. destruct (d_flux order w1 v2 H c) as [a|] eqn:Ea; [|discriminate]. cbn [bind] in E. destruct (d_flux order v1 w2 H c) as [b|] eqn:Eb; [|discriminate]. cbn [bind] in E. apply Ok_inj in E. subst x. destruct (dsub_fin _ _ Fx) as (Fa & Fb & _).
  destruct (C78_h1 contains order H c ess _ _ _ O Rd B Sm Ea Fa) as (s & I & A & X1 & X2 & X3 & X4). destruct (C78_h1 contains order H c ess _ _ _ O Rd B Sm Eb Fb) as (s' & J & A' & Y1 & Y2 & Y3 & Y4). assert (s' = s) by congruence. subst s'. exists s, I, J, A, A'. do 5 (split; [assumption|]). rewrite Nat.add_succ_r. apply near_sub; [| |exact Fx]; (eapply near_weaken; [|apply Rle_refl|]; [|eassumption]; lia).
Qed.
Print Assumptions C78_l2.

(** The four blocks of an inner product *)
Theorem C78_four k a b c d A B C D (x y z w : double) e f g h : near k a A e x -> near k b B f y -> near k c C g z -> near k d D h w -> fin (d_four x y z w) = true -> near (k + 3) (a + b + c + d) (A + B + C + D) (e + f + g + h) (d_four x y z w).
Proof.
  intros Nx Ny Nz Nw F. unfold d_four in *. destruct (dadd_fin _ _ F) as (F1 & _ & _). destruct (dadd_fin _ _ F1) as (F2 & _ & _). replace (k + 3)%nat with (S (S (S k))) by lia.
  apply near_add; [|eapply near_weaken; [|apply Rle_refl|exact Nw]; lia|exact F]. apply near_add; [|eapply near_weaken; [|apply Rle_refl|exact Nz]; lia|exact F1]. apply near_add; assumption.
Qed.
Print Assumptions C78_four.

(** ** Integrals of polynomials over cells *)
Lemma fold_results {A} (F : A -> res double) : forall l v x, fold_res (fun v m => do i <- F m; Ok (dadd v i)) l v = Ok x -> exists is, map_res F l = Ok is /\ x = fold_left dadd is v.
Proof.
  induction l as [|m l IH]; intros v x E; cbn [fold_res map_res] in *; [apply Ok_inj in E; exists []; auto|]. destruct (F m) as [i|]; [|discriminate]. cbn [bind] in *. destruct (IH _ _ E) as (is & -> & ->). exists (i :: is). auto.
Qed.
Lemma fold_add_near k : forall (G : list aim) is v X B e, near k X B e v -> Forall2 (fun g i => fin i = true -> meets k g i) G is -> fin (fold_left dadd is v) = true ->
  near (List.length is + k) (X + rsum (map aX G)) (B + rsum (map aB G)) (e + rsum (map ae G)) (fold_left dadd is v).
Proof.
  assert (Fst : forall is v, fin (fold_left dadd is v) = true -> fin v = true) by (induction is as [|i is IH]; intros v F; [exact F|]; apply IH in F; exact (proj1 (dadd_fin _ _ F))).
  assert (Gen : forall (G : list aim) is j v X B e, near (j + k) X B e v -> Forall2 (fun g i => fin i = true -> meets k g i) G is -> fin (fold_left dadd is v) = true -> near (List.length is + j + k) (X + rsum (map aX G)) (B + rsum (map aB G)) (e + rsum (map ae G)) (fold_left dadd is v)).
  { intros G is j v X B e N M. revert j v X B e N. induction M as [|g i G is Mi M IH]; intros j v X B e N F; cbn [map rsum fold_left List.length] in *; [rewrite !Rplus_0_r; exact N|]. pose proof (Fst _ _ F) as F1. destruct (dadd_fin _ _ F1) as (_ & Fi & _). specialize (Mi Fi). rewrite <- !Rplus_assoc. replace (S (List.length is) + j + k)%nat with (List.length is + S j + k)%nat by lia. apply IH; [|exact F]. apply near_add; [exact N| |exact F1]. eapply near_weaken; [|apply Rle_refl|exact Mi]. change (k <= j + k)%nat. lia. }
  intros G is v X B e N M F. replace (List.length is + k)%nat with (List.length is + 0 + k)%nat by lia. apply Gen; assumption.
Qed.
(** A sample in doubles within [k] roundings of the exact one, measured against given sizes *)
Definition matches (k : nat) (s : sample) (dz : dsample * dsize) : Prop :=
  let (d, z) := dz in near k (fst (sx s)) (zx z) 0 (dx d) /\ near k (snd (sx s)) (zy z) 0 (dy d) /\ near k (fst (sN s)) (znx z) 0 (dnx d) /\ near k (snd (sN s)) (zny z) 0 (dny d) /\ near k (sw s) (zw z) 0 (dw d).
Definition term_exact (m : dmono) (s : sample) : R :=
  (fst (sx s) * fst (sN s) + snd (sx s) * snd (sN s)) * (val (coefd m) * fst (sx s) ^ mx (malpha m) * snd (sx s) ^ my (malpha m)) / IZR (2 + Z.of_nat (morder (malpha m))).
Definition term_rounds (j : nat -> nat) (k : nat) (m : dmono) : nat := j (mx (malpha m)) + j (my (malpha m)) + (mx (malpha m) + my (malpha m) + 3) * k.
Lemma terms_meet pw j f k m smp dzs : accurate pw j f -> (2 + Z.of_nat (morder (malpha m)) <= 2 ^ 53)%Z -> Forall2 (matches k) smp dzs ->
  exists G, Forall2 (fun g y => fin y = true -> meets (term_rounds j k m + 7) g y) G (d_weighted (map (d_integrand pw m) (map fst dzs)) (map dw (map fst dzs))) /\
    map aX G = map (fun s => term_exact m s * sw s) smp /\ map aB G = map (fun dz => term_size m (snd dz) * zw (snd dz)) dzs /\ map ae G = map (fun dz => term_under f m (fst dz) (snd dz) * zw (snd dz) + tiny) dzs.
Proof.
  intros A D M. induction M as [|s [d z] smp dzs Ms M IH]; [exists []; repeat split; constructor|]. destruct IH as (G & I1 & I2 & I3 & I4). destruct Ms as (M1 & M2 & M3 & M4 & M5).
  exists ((term_exact m s * sw s, term_size m z * zw z, term_under f m d z * zw z + tiny) :: G). cbn [map fst snd]. split; [|split; [|split]]; [|unfold aX at 1; cbn [fst snd]; congruence|unfold aB at 1; cbn [fst snd]; congruence|unfold ae at 1; cbn [fst snd]; congruence].
  change (d_weighted (?a :: ?b) (?e :: ?g)) with (dmul a e :: d_weighted b g). constructor; [|exact I1]. intros F. destruct (dmul_fin _ _ F) as (F1 & _ & _). pose proof (integrand_near pw j f k m d z _ _ _ _ A D M1 M2 M3 M4 F1) as N. pose proof (near_mul _ _ _ _ _ _ _ _ _ _ N M5 F) as N2. unfold meets. cbn [fst snd]. unfold term_rounds. eapply near_weaken; [| |exact N2]; [lia|lra].
Qed.
Lemma real_eval m x y : m_eval RS (@Mono RS (malpha m) (val (coefd m))) x y = val (coefd m) * x ^ mx (malpha m) * y ^ my (malpha m).
Proof. pose proof (PolyProofs.peval_value [@Mono RS (malpha m) (val (coefd m))] x y) as E. cbn [PolySpec.value malpha mcoef] in E. unfold peval in E. cbn [fold_left] in E. change (sadd RS) with Rplus in E. change (szero RS) with 0 in E. rewrite Rplus_0_l, Rplus_0_r in E. exact E. Qed.
Lemma int_poly_terms H c ess p is : cell_fresh H c ess -> Forall2 (fun m i => cell_integrate_preweighted (map (fun s => term_exact m s * sw s) (cell_smp ess)) H c = Ok i) p is -> int_poly (real p) H c = Ok (rsum is).
Proof.
  intros F M. unfold int_poly. rewrite (LocalProofs.points_ok F). cbn [bind]. change dot_with_normal with (dot_with sN). set (es := concat ess). change (map (fun s => fst (sx s)) (contour_smp es)) with (LocalSpec.samples_of es (fun s => fst (sx s))). change (map (fun s => snd (sx s)) (contour_smp es)) with (LocalSpec.samples_of es (fun s => snd (sx s))). unfold es. rewrite (LocalProofs.dot_ok F). cbn [bind]. fold es.
  assert (CI : forall g, cell_integrate (LocalSpec.samples_of es g) H c = cell_integrate_preweighted (LocalSpec.samples_of es (fun s => g s * sw s)) H c) by (intros g; unfold cell_integrate; rewrite (comps_guard _ _ _ (proj1 F)); cbn [bind]; unfold es; rewrite (LocalProofs.dx_ok F g); reflexivity).
  assert (G : forall a, fold_res (fun v (m : mono RS) => do f <- np_mul (LocalSpec.samples_of es (fun s => fst (sx s) * fst (sN s) + snd (sx s) * snd (sN s))) (map (fun z => m_eval RS m (fst z) (snd z)) (combine (LocalSpec.samples_of es (fun s => fst (sx s))) (LocalSpec.samples_of es (fun s => snd (sx s))))); do i <- cell_integrate (map (fun x => x / (2 + INR (morder (malpha m)))) f) H c; Ok (v + i)) (real p) a = Ok (a + rsum is)).
  { induction M as [|m i p is Mi M IH]; intros a; [cbn; rewrite Rplus_0_r; reflexivity|]. cbn [real map fold_res]. fold (real p). unfold LocalSpec.samples_of at 2 3. rewrite LocalProofs.combine_map, map_map. cbn [fst snd]. rewrite LocalProofs.np_mul_zip by (unfold LocalSpec.samples_of; rewrite !map_length; reflexivity). cbn [bind]. unfold LocalSpec.samples_of at 1. rewrite LocalProofs.zip_map, map_map.
    match goal with |- context [cell_integrate (map ?g (contour_smp es)) H c] => change (map g (contour_smp es)) with (LocalSpec.samples_of es g); rewrite (CI g); replace (LocalSpec.samples_of es (fun s => g s * sw s)) with (map (fun s => term_exact m s * sw s) (cell_smp ess)) end.
    - rewrite Mi. cbn [bind]. etransitivity; [exact (IH (a + i))|]. cbn [rsum]. f_equal. ring.
    - rewrite LocalProofs.smp_cell. unfold LocalSpec.samples_of. fold es. apply map_ext. intros s. rewrite real_eval. unfold term_exact. cbn [malpha]. rewrite plus_IZR, <- INR_IZR_INZ. reflexivity. }
  etransitivity; [exact (G 0)|]. rewrite Rplus_0_l. reflexivity.
Qed.
Theorem C78_int_poly contains order pw j f k D r H c ess dzs p x : (forall l, orders l (order l)) -> accurate pw j f -> ready contains H c -> boundary_edges H c ess -> Forall (fun es => (csize es <= 2 ^ 53)%Z) ess -> Forall2 (matches k) (cell_smp ess) dzs ->
  Forall (fun m => (2 + Z.of_nat (morder (malpha m)) <= 2 ^ 53)%Z /\ (term_rounds j k m <= r)%nat) p -> (forall l s, List.length l = List.length dzs -> d_cell_steps c = Ok s -> (depth (order (d_blocks s l)) <= D)%nat) ->
  d_int_poly order pw (map fst dzs) p H c = Ok x -> fin x = true -> exists I As Es, int_poly (real p) H c = Ok I /\
    map_res (fun m => cell_integrate_preweighted (map (fun dz => term_size m (snd dz) * zw (snd dz)) dzs) H c) p = Ok As /\ map_res (fun m => cell_integrate_preweighted (map (fun dz => term_under f m (fst dz) (snd dz) * zw (snd dz) + tiny) dzs) H c) p = Ok Es /\
    near (List.length p + (D + (r + 11))) I (rsum As) (rsum Es + INR (List.length p) * (INR (List.length dzs) * tiny)) x.
Proof.
  intros O A Rd B Sm M Hp Dp E Fx. destruct (ready_uniform _ _ _ _ Rd B) as (F & NE & _). unfold d_int_poly in E. rewrite (comps_guard _ _ _ (proj1 F)) in E. cbn [bind] in E. destruct (fold_results _ _ _ _ E) as (is & Em & ->). clear E. apply CellProofs.map_res_ok in Em.
  assert (Fst : forall is v, fin (fold_left dadd is v) = true -> fin v = true /\ Forall (fun i => fin i = true) is). { induction is0 as [|i is0 IH]; intros v Fv; [split; [exact Fv|constructor]|]. apply IH in Fv. destruct Fv as [Fv Fr]. destruct (dadd_fin _ _ Fv) as (F1 & F2 & _). split; [exact F1|]. constructor; assumption. }
  destruct (Fst _ _ Fx) as [_ Fi].
  assert (T : exists Is As Es, Forall2 (fun m i => cell_integrate_preweighted (map (fun s => term_exact m s * sw s) (cell_smp ess)) H c = Ok i) p Is /\ Forall2 (fun m a => cell_integrate_preweighted (map (fun dz => term_size m (snd dz) * zw (snd dz)) dzs) H c = Ok a) p As /\
    Forall2 (fun m e => cell_integrate_preweighted (map (fun dz => term_under f m (fst dz) (snd dz) * zw (snd dz) + tiny) dzs) H c = Ok e) p Es /\ exists G, Forall2 (fun g i => fin i = true -> meets (D + (r + 11)) g i) G is /\ map aX G = Is /\ map aB G = As /\ map ae G = map (fun e => e + INR (List.length dzs) * tiny) Es).
  { clear Fx Fst. revert Hp Fi. induction Em as [|m i p is Ei Em IH]; intros Hp Fi; [exists [], [], []; repeat split; try constructor; exists []; repeat split; constructor|]. inversion Hp as [|? ? [Hm Hr] Hp']; subst. inversion Fi as [|? ? Fi1 Fi2]; subst. destruct (IH Hp' Fi2) as (Is & As & Es & I1 & I2 & I3 & G & I4 & I5 & I6 & I7).
    destruct (terms_meet pw j f k m _ _ A Hm M) as (Gm & G1 & G2 & G3 & G4). set (v := d_weighted _ _) in G1. assert (Lv : List.length v = List.length dzs) by (unfold v, d_weighted; rewrite map_length, combine_length, !map_length; lia).
    assert (Ei' : d_cell order v H c = Ok i). { unfold d_cell_weighted in Ei. rewrite (comps_guard _ _ _ (proj1 F)) in Ei. cbn [bind] in Ei. destruct (attr (c_npts c)) as [n|]; [|discriminate]. cbn [bind] in Ei. destruct (Z.eqb _ _) in Ei; [exact Ei|discriminate]. }
    destruct (C78_boundary contains order H c ess Gm v _ i O Rd B Sm G1 Ei' Fi1) as (s & I0 & A0 & E0 & X1 & X2 & X3 & X4 & X5). rewrite G2 in X2. rewrite G3 in X3. rewrite G4 in X4. rewrite Lv in X5. exists (I0 :: Is), (A0 :: As), (E0 :: Es). split; [constructor; assumption|]. split; [constructor; assumption|]. split; [constructor; assumption|].
    exists ((I0, A0, E0 + INR (List.length dzs) * tiny) :: G). split; [constructor; [|exact I4]|cbn [map]; unfold aX at 1, aB at 1, ae at 1; cbn [fst snd]; rewrite I5, I6, I7; auto]. intros _. unfold meets. cbn [fst snd]. eapply near_weaken; [|apply Rle_refl|exact X5]. pose proof (Dp v s Lv X1). lia. }
  destruct T as (Is & As & Es & T1 & T2 & T3 & G & T4 & T5 & T6 & T7). exists (rsum Is), As, Es. split; [exact (int_poly_terms H c ess p Is F T1)|]. split; [apply CellProofs.map_res_ok; exact T2|]. split; [apply CellProofs.map_res_ok; exact T3|].
  assert (N0 : near (D + (r + 11)) 0 0 0 (of_int 0)) by (apply null_near; reflexivity). pose proof (fold_add_near _ G is (of_int 0) 0 0 0 N0 T4 Fx) as N. rewrite T5, T6, T7, !Rplus_0_l in N. rewrite <- (Forall2_len _ _ _ Em) in N. 
  replace (rsum (map (fun e => e + INR (List.length dzs) * tiny) Es)) with (rsum Es + INR (List.length p) * (INR (List.length dzs) * tiny)) in N; [exact N|]. rewrite (Forall2_len _ _ _ T3). clear. generalize (INR (List.length dzs) * tiny) as t. intros t. induction Es as [|e Es IH]; [cbn; ring|]. cbn [map rsum List.length]. rewrite <- IH, S_INR. ring.
Qed.
Print Assumptions C78_int_poly.
