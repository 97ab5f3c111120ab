(** C76: integrals over contours and boundaries in double precision *)
From Coq Require Import List ZArith Reals Lia Lra Permutation.
From Flocq Require Import Core BinarySingleNaN.
From Verif Require Import BaryModel BBoxModel QuadModel QuadSpec QuadProofs QuadProps CurveModel VertModel EdgeModel EdgeSpec EdgeProofs EdgeProofs2 EdgeProps EdgeProps3 ContourModel CellModel CellSpec CellProofs CellProps ContourProofs ContourProofs2 ContourProofs3 InteriorProofs ContourProofs4 VertProps EdgeProps4 ContourProps CellProofs2 Annulus CellProps2 CellProps3.
From Verif Require Import PyBase PolyModel FloatIdxModel FloatPolyModel FloatErr FloatQuadModel FloatQuadSpec FloatQuadProofs FloatQuadProps FloatBdryModel FloatBdryProofs.
Import List ListNotations.
Open Scope R_scope.

Lemma rsum_list l : sum_list l = rsum l.
Proof. induction l as [|x l IH]; [reflexivity|]. cbn [rsum]. rewrite <- IH. reflexivity. Qed.
Definition block_int {K} (hr : K -> R) (ks : list K) (vs : list (list R)) : R := sum_list (map (fun kv => hr (fst kv) * sum_list (snd kv)) (combine ks vs)).
Lemma block_rsum {K T} (hr : K -> R) (f : T -> R) (ks : list K) bs : block_int hr ks (map (map f) bs) = rsum (map (fun kb => hr (fst kb) * rsum (map f (snd kb))) (combine ks bs)).
Proof. unfold block_int. rewrite rsum_list. revert bs. induction ks as [|k ks IH]; intros [|b bs]; try reflexivity. cbn [combine map rsum fst snd]. rewrite IH, rsum_list. reflexivity. Qed.

Section Blocks.
Context {K : Type} (hd : K -> double) (hr : K -> R) (sz : K -> Z) (ks : list K) (i : nat) (order : list double -> tree) (int : list R -> res R).
Hypothesis Ord : forall l, orders l (order l).
Hypothesis Near : Forall (fun k => near i (hr k) (hr k) 0 (hd k)) ks.
Hypothesis Pos : Forall (fun k => (0 <= sz k)%Z) ks.
Hypothesis Int : forall vs, sized sz ks vs -> int (concat vs) = Ok (block_int hr ks vs).
Let blocks := d_blocks (map (fun k => (hd k, sz k)) ks).

Lemma gen_pre v : Z.of_nat (List.length v) = CellSpec.total (map sz ks) -> fin (tsum (order (blocks v))) = true ->
  exists I A, int (map val v) = Ok I /\ int (mags v) = Ok A /\ let k := (depth (order (blocks v)) + S i)%nat in Rabs (val (tsum (order (blocks v))) - I) <= ((1 + uro) ^ k - 1) * A + INR (List.length v) * tiny * (1 + uro) ^ k.
Proof.
  intros L F. destruct (sized_exists sz ks Pos v L) as (bs & -> & Sb). exists (block_int hr ks (map (map val) bs)), (block_int hr ks (map (map (fun x => Rabs (val x))) bs)). unfold mags. rewrite !concat_map, !Int by (apply sized_map; exact Sb). split; [reflexivity|]. split; [reflexivity|]. cbv zeta. rewrite !block_rsum.
  pose proof (blocks_near hd hr sz (fun x : double => x) (fun v => ((val v, Rabs (val v), 0) : aim)) i 0 order ks bs Ord Near) as X. rewrite map_id in X. specialize (X ltac:(apply Forall_forall; intros x _ Fx; exact (near_exact x Fx)) Sb). cbv zeta in X. fold blocks in X. specialize (X F). rewrite Nat.add_0_r in X. unfold aX, aB, ae in X. cbn [fst snd] in X. rewrite <- (spread_length sz ks bs Sb). replace (rsum (map (fun q => hr (fst q) * 0 + tiny) (spread ks bs))) with (INR (List.length (spread ks bs)) * tiny) in X by (clear; induction (spread ks bs) as [|q l IH]; [cbn; ring|]; cbn [List.length map rsum]; rewrite <- IH, S_INR; ring). exact (proj2 (proj2 (proj2 X))).
Qed.

(** With weights, each within [j] roundings of the exact one *)
Lemma gen_weighted (ss : list sample) w v j : Forall (fun k => hr k <= 4) ks -> List.length ss = List.length v -> Forall2 (fun s x => near j (sw s) (sw s) 0 x) ss w -> Z.of_nat (List.length v) = CellSpec.total (map sz ks) -> fin (tsum (order (blocks (d_weighted v w)))) = true ->
  exists I A, int (zip_with Rmult (map val v) (map sw ss)) = Ok I /\ int (zip_with Rmult (mags v) (map sw ss)) = Ok A /\
    let k := (depth (order (blocks (d_weighted v w))) + (i + j + 2))%nat in Rabs (val (tsum (order (blocks (d_weighted v w)))) - I) <= ((1 + uro) ^ k - 1) * A + 5 * INR (List.length v) * tiny * (1 + uro) ^ k.
Proof.
  intros H4 Ls W L F. pose proof tiny_pos as T. set (p := combine v (combine ss w)). assert (Lw : List.length ss = List.length w) by (clear -W; induction W; cbn; congruence).
  assert (E1 : d_weighted v w = map (fun q => dmul (fst q) (snd (snd q))) p). { unfold p, d_weighted. clear -Ls Lw. revert ss w Ls Lw. induction v as [|x v IH]; intros [|s ss] [|y w] Ls Lw; try discriminate; [reflexivity|]. cbn [combine map fst snd] in *. f_equal. apply IH; [injection Ls as Ls; exact Ls|injection Lw as Lw; exact Lw]. }
  assert (E2 : forall f : double -> R, zip_with Rmult (map f v) (map sw ss) = map (fun q => f (fst q) * sw (fst (snd q))) p). { intros f. unfold p, zip_with. clear -Ls Lw. revert ss w Ls Lw. induction v as [|x v IH]; intros [|s ss] [|y w] Ls Lw; try discriminate; [reflexivity|]. cbn [combine map fst snd] in *. f_equal. apply IH; [injection Ls as Ls; exact Ls|injection Lw as Lw; exact Lw]. }
  assert (Lp : Z.of_nat (List.length p) = CellSpec.total (map sz ks)) by (unfold p; rewrite !combine_length; lia). assert (Wp : Forall (fun q => near j (sw (fst (snd q))) (sw (fst (snd q))) 0 (snd (snd q))) p). { unfold p. clear -W. revert v. induction W as [|s x ss w N W IH]; intros [|y v]; cbn [combine]; constructor; [exact N|apply IH]. }
  assert (El : List.length p = List.length v) by lia. destruct (sized_exists sz ks Pos p Lp) as (bs & Eb & Sb). unfold mags. rewrite !E2, E1 in *. rewrite <- El. rewrite Eb in *. clear E1 E2 Lp Eb El p. eexists _, _. rewrite !concat_map, !Int by (apply sized_map; exact Sb). split; [reflexivity|]. split; [reflexivity|]. cbv zeta. rewrite <- !concat_map, !block_rsum.
  pose proof (blocks_near hd hr sz (fun q : double * (sample * double) => dmul (fst q) (snd (snd q))) (fun q => ((val (fst q) * sw (fst (snd q)), Rabs (val (fst q)) * sw (fst (snd q)), tiny) : aim)) i (S j) order ks bs Ord Near) as X.
  assert (G : Forall (fun q : double * (sample * double) => fin (dmul (fst q) (snd (snd q))) = true -> meets (S j) (val (fst q) * sw (fst (snd q)), Rabs (val (fst q)) * sw (fst (snd q)), tiny) (dmul (fst q) (snd (snd q)))) (concat bs)).
  { eapply Forall_impl; [|exact Wp]. intros q Nq Fq. destruct (dmul_fin _ _ Fq) as (Fa & _ & _). pose proof (near_mul _ _ _ _ _ _ _ _ _ _ (near_exact _ Fa) Nq Fq) as Y. unfold meets. cbn [fst snd]. eapply near_weaken; [apply le_n| |exact Y]. lra. }
  specialize (X G Sb). cbv zeta in X. fold blocks in X. specialize (X F). unfold aX, aB, ae in X. cbn [fst snd] in X. replace (S (i + S j)) with (i + j + 2)%nat in X by lia. rewrite <- (spread_length sz ks bs Sb).
  assert (Le : rsum (map (fun q => hr (fst q) * tiny + tiny) (spread ks bs)) <= 5 * INR (List.length (spread ks bs)) * tiny).
  { rewrite Forall_forall in H4. assert (I : forall q, In q (spread ks bs) -> hr (fst q) <= 4) by (intros q Iq; apply H4, (spread_in ks bs q Iq)). revert I. generalize (spread ks bs) as l. clear -T. induction l as [|q l IH]; intros I; [cbn; lra|]. cbn [List.length map rsum]. rewrite S_INR. specialize (IH (fun q Iq => I q (or_intror Iq))). pose proof (I q (or_introl eq_refl)). nra. }
  exact (proj2 (proj2 (proj2 (near_weaken _ _ _ _ _ _ _ (le_n _) Le X)))).
Qed.

Lemma gen_monotone u v : by_position order -> Z.of_nat (List.length u) = CellSpec.total (map sz ks) -> Forall2 (fun a b => val a <= val b) u v -> Forall (fun k => 0 <= val (hd k)) ks ->
  fin (tsum (order (blocks u))) = true -> fin (tsum (order (blocks v))) = true -> val (tsum (order (blocks u))) <= val (tsum (order (blocks v))).
Proof.
  intros (s & Es) L Le P Fu Fv. pose proof (orders_fin _ _ (Ord _) Fu) as Gu. pose proof (orders_fin _ _ (Ord _) Fv) as Gv. destruct (blocks_le hd sz ks u v P Pos Le L Gu Gv) as [A B]. fold blocks in A, B. rewrite !Es in *. rewrite <- B in *. apply place_le; assumption.
Qed.
Lemma gen_nonneg v : Z.of_nat (List.length v) = CellSpec.total (map sz ks) -> Forall (fun a => 0 <= val a) v -> Forall (fun k => 0 <= val (hd k)) ks -> fin (tsum (order (blocks v))) = true -> 0 <= val (tsum (order (blocks v))).
Proof.
  intros L A P F. pose proof (Ord (blocks v)) as (pad & Pd & Pm). pose proof (orders_fin _ _ (Ord _) F) as G. apply tsum_nonneg; [exact F|]. apply (Permutation_Forall (Permutation_sym Pm)). apply Forall_app. split.
  - destruct (sized_exists sz ks Pos v L) as (bs & -> & Sb). pose proof (blocks_spread hd sz (fun x : double => x) ks bs Sb) as E. rewrite map_id in E. fold blocks in E. rewrite E in *. rewrite Forall_forall in A, P. apply Forall_forall. intros y Iy. rewrite Forall_forall in G. pose proof (G y Iy) as Fy. apply in_map_iff in Iy. destruct Iy as (q & <- & Iq). destruct (spread_in _ _ _ Iq) as [I1 I2]. apply dmul_nonneg; [exact Fy|apply P, I1|apply A, I2].
  - eapply Forall_impl; [|exact Pd]. intros x Hx. destruct x; try discriminate. unfold val. cbn [B2R]. lra.
Qed.
End Blocks.

(** ** Steps *)
Definition e_step (e : edge) : double := d_h (e_npts e).
Definition e_len (e : edge) : R := 2 * PI / IZR (e_npts e - 1).
Definition k_step (es : list edge) : double := d_hc (Z.of_nat (List.length es)) (csize es).
Definition k_len (es : list edge) : R := 2 * PI * INR (List.length es) / IZR (csize es).
Lemma csize_edges es : Forall well_sampled es -> (2 * Z.of_nat (List.length es) <= csize es)%Z.
Proof. unfold csize. induction 1 as [|e es We W IH]; [cbn; lia|]. pose proof (proj1 (open_pos e We)). cbn [map List.length]. change (CellSpec.total (open_num e :: map open_num es)) with (open_num e + CellSpec.total (map open_num es))%Z. lia. Qed.
Lemma len_small n d : (0 <= n)%Z -> (0 < d)%Z -> (2 * n <= d)%Z -> 2 * PI * IZR n / IZR d <= 4.
Proof.
  intros Hn Hd Hl. assert (D : 0 < IZR d) by (apply IZR_lt; lia). assert (N : 0 <= IZR n) by (apply IZR_le; lia). assert (L : 2 * IZR n <= IZR d) by (rewrite <- mult_IZR; apply IZR_le; lia). pose proof PI_4. pose proof PI_RGT_0. apply (Rmult_le_reg_r (IZR d)); [exact D|]. unfold Rdiv. rewrite Rmult_assoc, Rinv_l, Rmult_1_r by lra. nra.
Qed.
Lemma edge_steps es : Forall well_sampled es -> Forall (fun e => (e_npts e <= 2 ^ 53)%Z) es ->
  Forall (fun e => near 2 (e_len e) (e_len e) 0 (e_step e)) es /\ Forall (fun e => (0 <= open_num e)%Z) es /\ Forall (fun e => e_len e <= 4) es /\ Forall (fun e => 0 <= val (e_step e)) es.
Proof.
  intros W Sm. rewrite Forall_forall in W, Sm. repeat split; apply Forall_forall; intros e I; specialize (W e I); specialize (Sm e I); destruct W as (_ & _ & N & _).
  - apply step_near. lia.
  - unfold open_num. lia.
  - unfold e_len. replace (2 * PI) with (2 * PI * IZR 1) by ring. apply len_small; lia.
  - apply Rlt_le, step_pos. lia.
Qed.
Lemma near_nonneg k X B e x : near k X B e x -> 0 <= X -> B = X -> e = 0 -> (1 + uro) ^ k <= 2 -> 0 <= val x.
Proof. intros (_ & _ & _ & E) P -> -> Sm. apply Rabs_le_inv in E. nra. Qed.
Lemma contour_steps ess : Forall (Forall well_sampled) ess -> Forall (fun es => es <> []) ess -> Forall (fun es => (csize es <= 2 ^ 53)%Z) ess ->
  Forall (fun es => near 3 (k_len es) (k_len es) 0 (k_step es)) ess /\ Forall (fun es => (0 <= csize es)%Z) ess /\ Forall (fun es => k_len es <= 4) ess /\ Forall (fun es => 0 <= val (k_step es)) ess.
Proof.
  intros W NE Sm. rewrite Forall_forall in W, NE, Sm.
  assert (A : forall es, In es ess -> (1 <= Z.of_nat (List.length es) /\ 2 * Z.of_nat (List.length es) <= csize es <= 2 ^ 53)%Z). { intros es I. pose proof (csize_edges es (W es I)). specialize (NE es I). specialize (Sm es I). destruct es; [congruence|]. cbn [List.length] in *. lia. }
  assert (G : forall es, In es ess -> near 3 (k_len es) (k_len es) 0 (k_step es)) by (intros es I; specialize (A es I); unfold k_len, k_step; rewrite INR_IZR_INZ; apply cell_step_near; lia).
  repeat split; apply Forall_forall; intros es I; specialize (A es I).
  - apply G, I.
  - lia.
  - unfold k_len. rewrite INR_IZR_INZ. apply len_small; lia.
  - eapply near_nonneg; [apply G, I| |reflexivity|reflexivity|]; [unfold k_len; pose proof PI_RGT_0; pose proof (pos_INR (List.length es)); assert (0 < IZR (csize es)) by (apply IZR_lt; lia); unfold Rdiv; apply Rmult_le_pos; [nra|apply Rlt_le, Rinv_0_lt_compat; assumption]|]. pose proof uro_small. pose proof uro_pos. cbn [pow]. nra.
Qed.
Lemma d_contour_steps_ok H k es : fresh H k es -> d_contour_steps H k = Ok (map (fun e => (e_step e, open_num e)) es).
Proof.
  intros (Rf & W & _). unfold d_contour_steps. apply map_res_ok. revert W. unfold refs in Rf. induction Rf as [|i e ids es Ei Rf IH]; intros W; cbn [map]; constructor; inversion W as [|? ? We Ws]; subst; [|apply IH; exact Ws]. unfold deref. rewrite Ei. cbn [bind]. destruct We as (_ & _ & N & _). rewrite (proj2 (Z.eqb_neq _ _)) by lia. reflexivity.
Qed.
Lemma d_cell_steps_ok H c ess : cell_fresh H c ess -> Forall (fun es => es <> []) ess -> d_cell_steps c = Ok (map (fun es => (k_step es, csize es)) ess).
Proof.
  intros (F & _) NE. unfold d_cell_steps. apply map_res_ok. revert NE. induction F as [|k es ks ess Fk F IH]; intros NE; cbn [map]; constructor; inversion NE as [|? ? Ne NEs]; subst; [|apply IH; exact NEs]. destruct Fk as (Rf & W & N & _). rewrite N. cbn [attr bind]. fold (csize es). pose proof (csize_edges es W). assert (List.length es <> 0%nat) by (destruct es; [congruence|discriminate]). rewrite (proj2 (Z.eqb_neq _ _)) by lia. unfold k_step, k_num. rewrite (Forall2_len _ _ _ Rf). reflexivity.
Qed.
Lemma contour_int H k es : fresh H k es -> forall vs, sized open_num es vs -> contour_integrate_preweighted (concat vs) H k = Ok (block_int e_len es vs).
Proof. intros F vs Sz. apply integrate_contour_pre_ok; [exact F|exact Sz]. Qed.
Lemma cell_int H c ess : cell_fresh H c ess -> Forall (fun es => es <> []) ess -> forall vs, sized csize ess vs -> cell_integrate_preweighted (concat vs) H c = Ok (block_int k_len ess vs).
Proof. intros F NE vs Sz. apply cell_integrate_pre_ok; [exact F|exact NE|]. unfold ccut, sized in *. clear -Sz. induction Sz; cbn [map]; constructor; assumption. Qed.
Lemma contour_weigh H k es v : fresh H k es -> Z.of_nat (List.length v) = csize es -> contour_integrate v H k = contour_integrate_preweighted (zip_with Rmult v (map sw (contour_smp es))) H k.
Proof. intros F L. unfold contour_integrate, guard. rewrite (fresh_guard _ _ _ F). cbn [bind]. rewrite (contour_dx_ok H k es v F L). reflexivity. Qed.
Lemma cell_weigh H c ess v : cell_fresh H c ess -> Z.of_nat (List.length v) = CellSpec.total (map csize ess) -> cell_integrate v H c = cell_integrate_preweighted (zip_with Rmult v (map sw (cell_smp ess))) H c.
Proof. intros F L. unfold cell_integrate. rewrite (comps_guard _ _ _ (proj1 F)). cbn [bind]. rewrite (cell_dx_ok H c ess v F L). reflexivity. Qed.
Lemma cell_smp_len ess : Forall (Forall well_sampled) ess -> Z.of_nat (List.length (cell_smp ess)) = CellSpec.total (map csize ess).
Proof. unfold cell_smp. induction 1 as [|es ess W Ws IH]; [reflexivity|]. cbn [map concat]. rewrite app_length, Nat2Z.inj_add, IH, (contour_smp_length es W). reflexivity. Qed.
Lemma ready_contour contains H c i k es : ready contains H c -> nth_error (c_comps c) i = Some k -> refs H (k_edges k) es -> fresh H k es.
Proof.
  intros Rd Ek Rf. destruct (ready_fresh _ _ _ Rd) as (ess & (F & _) & _). pose proof (Forall2_len _ _ _ F) as L. assert (Li : (i < List.length (c_comps c))%nat) by (apply nth_error_Some; congruence). destruct (nth_error ess i) as [es'|] eqn:Ee; [|apply nth_error_None in Ee; lia]. pose proof (Forall2_nth _ _ _ F _ _ _ Ek Ee) as Fk. assert (es' = es) by (eapply refs_unique; [apply Fk|exact Rf]). subst es'. exact Fk.
Qed.

(** ** Errors of integrals over the boundary of a cell *)
Theorem C76_boundary contains order H c ess v x : (forall l, orders l (order l)) -> ready contains H c -> boundary_edges H c ess -> Forall (fun es => (csize es <= 2 ^ 53)%Z) ess ->
  d_cell order v H c = Ok x -> fin x = true -> exists s I A, d_cell_steps c = Ok s /\ cell_integrate_preweighted (map val v) H c = Ok I /\ cell_integrate_preweighted (mags v) H c = Ok A /\
    let k := (depth (order (d_blocks s v)) + 4)%nat in Rabs (val x - I) <= ((1 + uro) ^ k - 1) * A + INR (List.length v) * tiny * (1 + uro) ^ k.
Proof.
  intros O Rd B Sm E Fx. destruct (ready_uniform _ _ _ _ Rd B) as (F & NE & _). pose proof (fresh_all _ _ _ (proj1 F)) as W. destruct (contour_steps ess W NE Sm) as (N & P & _). unfold d_cell in E. rewrite (comps_guard _ _ _ (proj1 F)), (proj1 (proj2 (proj2 F))) in E. cbn [attr bind] in E. destruct (Z.eqb_spec (Z.of_nat (List.length v)) (CellSpec.total (map csize ess))) as [L|L]; [|discriminate]. rewrite (d_cell_steps_ok _ _ _ F NE) in *. cbn [bind] in E. apply Ok_inj in E. subst x. eexists. 
  destruct (gen_pre k_step k_len csize ess 3 order (fun v => cell_integrate_preweighted v H c) O N P (cell_int H c ess F NE) v L Fx) as (I & A & X). exists I, A. split; [reflexivity|exact X].
Qed.
Print Assumptions C76_boundary.
(** With weights that are within [j] roundings of the exact ones *)
Theorem C76_boundary_weighted contains order H c ess w v j x : (forall l, orders l (order l)) -> ready contains H c -> boundary_edges H c ess -> Forall (fun es => (csize es <= 2 ^ 53)%Z) ess -> Forall2 (fun s y => near j (sw s) (sw s) 0 y) (cell_smp ess) w ->
  d_cell_weighted order w v H c = Ok x -> fin x = true -> exists s I A, d_cell_steps c = Ok s /\ cell_integrate (map val v) H c = Ok I /\ cell_integrate (mags v) H c = Ok A /\
    let k := (depth (order (d_blocks s (d_weighted v w))) + (j + 5))%nat in Rabs (val x - I) <= ((1 + uro) ^ k - 1) * A + 5 * INR (List.length v) * tiny * (1 + uro) ^ k.
Proof.
  intros O Rd B Sm Ws E Fx. destruct (ready_uniform _ _ _ _ Rd B) as (F & NE & _). pose proof (fresh_all _ _ _ (proj1 F)) as W. destruct (contour_steps ess W NE Sm) as (N & P & H4 & _). unfold d_cell_weighted, d_cell in E. rewrite (comps_guard _ _ _ (proj1 F)), (proj1 (proj2 (proj2 F))) in E. cbn [attr bind] in E. destruct (Z.eqb_spec (Z.of_nat (List.length v)) (CellSpec.total (map csize ess))) as [L|L]; [|discriminate].
  pose proof (cell_smp_len ess W) as Ls. assert (Lw : List.length (cell_smp ess) = List.length w) by (clear -Ws; induction Ws; cbn; congruence). assert (Ld : List.length (d_weighted v w) = List.length v) by (unfold d_weighted; rewrite map_length, combine_length; lia). rewrite Ld, L, Z.eqb_refl in E. rewrite (d_cell_steps_ok _ _ _ F NE) in *. cbn [bind] in E. apply Ok_inj in E. subst x. eexists.
  assert (Ls' : List.length (cell_smp ess) = List.length v) by lia. destruct (gen_weighted k_step k_len csize ess 3 order (fun v => cell_integrate_preweighted v H c) O N P (cell_int H c ess F NE) (cell_smp ess) w v j H4 Ls' Ws L Fx) as (I & A & X1 & X2 & X3). exists I, A. split; [reflexivity|]. rewrite !(cell_weigh H c ess) by (exact F || (unfold mags; rewrite map_length; exact L)). split; [exact X1|]. split; [exact X2|]. replace (j + 5)%nat with (3 + j + 2)%nat by lia. exact X3.
Qed.
Print Assumptions C76_boundary_weighted.

(** ** and over one of its components *)
Theorem C76_contour contains order H c i k es v x : (forall l, orders l (order l)) -> ready contains H c -> nth_error (c_comps c) i = Some k -> refs H (k_edges k) es -> Forall (fun e => (e_npts e <= 2 ^ 53)%Z) es ->
  d_contour order v H k = Ok x -> fin x = true -> exists s I A, d_contour_steps H k = Ok s /\ contour_integrate_preweighted (map val v) H k = Ok I /\ contour_integrate_preweighted (mags v) H k = Ok A /\
    let r := (depth (order (d_blocks s v)) + 3)%nat in Rabs (val x - I) <= ((1 + uro) ^ r - 1) * A + INR (List.length v) * tiny * (1 + uro) ^ r.
Proof.
  intros O Rd Ek Rf Sm E Fx. pose proof (ready_contour _ _ _ _ _ _ Rd Ek Rf) as F. pose proof F as (_ & W & EN & _). destruct (edge_steps es W Sm) as (N & P & _). unfold d_contour, guard in E. rewrite (fresh_guard _ _ _ F), EN in E. cbn [attr bind] in E. destruct (Z.eqb_spec (Z.of_nat (List.length v)) (CellSpec.total (map open_num es))) as [L|L]; [|discriminate]. rewrite (d_contour_steps_ok _ _ _ F) in *. cbn [bind] in E. apply Ok_inj in E. subst x. eexists.
  destruct (gen_pre e_step e_len open_num es 2 order (fun v => contour_integrate_preweighted v H k) O N P (contour_int H k es F) v L Fx) as (I & A & X). exists I, A. split; [reflexivity|exact X].
Qed.
Print Assumptions C76_contour.
Theorem C76_contour_weighted contains order H c i k es w v j x : (forall l, orders l (order l)) -> ready contains H c -> nth_error (c_comps c) i = Some k -> refs H (k_edges k) es -> Forall (fun e => (e_npts e <= 2 ^ 53)%Z) es -> Forall2 (fun s y => near j (sw s) (sw s) 0 y) (contour_smp es) w ->
  d_contour_weighted order w v H k = Ok x -> fin x = true -> exists s I A, d_contour_steps H k = Ok s /\ contour_integrate (map val v) H k = Ok I /\ contour_integrate (mags v) H k = Ok A /\
    let r := (depth (order (d_blocks s (d_weighted v w))) + (j + 4))%nat in Rabs (val x - I) <= ((1 + uro) ^ r - 1) * A + 5 * INR (List.length v) * tiny * (1 + uro) ^ r.
Proof.
  intros O Rd Ek Rf Sm Ws E Fx. pose proof (ready_contour _ _ _ _ _ _ Rd Ek Rf) as F. pose proof F as (_ & W & EN & _). destruct (edge_steps es W Sm) as (N & P & H4 & _). unfold d_contour_weighted, d_contour, guard in E. rewrite (fresh_guard _ _ _ F), EN in E. cbn [attr bind] in E. fold (csize es) in E. destruct (Z.eqb_spec (Z.of_nat (List.length v)) (csize es)) as [L|L]; [|discriminate].
  pose proof (contour_smp_length es W) as Ls. assert (Lw : List.length (contour_smp es) = List.length w) by (clear -Ws; induction Ws; cbn; congruence). assert (Ld : List.length (d_weighted v w) = List.length v) by (unfold d_weighted; rewrite map_length, combine_length; lia). rewrite Ld, L, Z.eqb_refl in E. rewrite (d_contour_steps_ok _ _ _ F) in *. cbn [bind] in E. apply Ok_inj in E. subst x. eexists.
  assert (Ls' : List.length (contour_smp es) = List.length v) by lia. destruct (gen_weighted e_step e_len open_num es 2 order (fun v => contour_integrate_preweighted v H k) O N P (contour_int H k es F) (contour_smp es) w v j H4 Ls' Ws L Fx) as (I & A & X1 & X2 & X3). exists I, A. split; [reflexivity|]. rewrite !(contour_weigh H k es) by (exact F || (unfold mags; rewrite map_length; exact L)). split; [exact X1|]. split; [exact X2|]. replace (j + 4)%nat with (2 + j + 2)%nat by lia. exact X3.
Qed.
Print Assumptions C76_contour_weighted.

(** ** Refusals: the same as with real numbers *)
Theorem C76_boundary_refused contains order H c ess w v x : ready contains H c -> boundary_edges H c ess -> List.length w = List.length (cell_smp ess) ->
  (d_cell order v H c = Err x <-> cell_integrate_preweighted (map val v) H c = Err x) /\ (d_cell_weighted order w v H c = Err x <-> cell_integrate (map val v) H c = Err x).
Proof.
  intros Rd B Lw. destruct (ready_uniform _ _ _ _ Rd B) as (F & NE & _). pose proof (fresh_all _ _ _ (proj1 F)) as W. pose proof (cell_smp_len ess W) as Ls. pose proof (proj1 (proj2 (proj2 F))) as EN.
  assert (A : forall v, d_cell order v H c = Err x <-> Z.of_nat (List.length v) <> CellSpec.total (map csize ess) /\ x = SizeMismatchError). { intros u. unfold d_cell. rewrite (comps_guard _ _ _ (proj1 F)), EN. cbn [attr bind]. rewrite (d_cell_steps_ok _ _ _ F NE). cbn [bind]. destruct (Z.eqb_spec (Z.of_nat (List.length u)) (CellSpec.total (map csize ess))) as [L|L]; split; [discriminate|intros [X _]; contradiction|intros X; injection X as <-; auto|intros [_ ->]; reflexivity]. }
  assert (A' : forall v, cell_integrate_preweighted v H c = Err x <-> Z.of_nat (List.length v) <> CellSpec.total (map csize ess) /\ x = SizeMismatchError). { intros u. destruct (Z.eq_dec (Z.of_nat (List.length u)) (CellSpec.total (map csize ess))) as [L|L]. - destruct (ccut_exists ess u W L) as (us & -> & C). rewrite (cell_integrate_pre_ok H c ess us F NE C). split; [discriminate|intros [X _]; contradiction]. - unfold cell_integrate_preweighted. rewrite (comps_guard _ _ _ (proj1 F)), EN. cbn [attr bind]. rewrite (proj2 (Z.eqb_neq _ _) L). split; [intros X; injection X as <-; auto|intros [_ ->]; reflexivity]. }
  split; [rewrite A, A', map_length; reflexivity|]. destruct (Z.eq_dec (Z.of_nat (List.length v)) (CellSpec.total (map csize ess))) as [L|L].
  - rewrite (cell_weigh H c ess) by (exact F || (rewrite map_length; exact L)). rewrite A'. unfold d_cell_weighted. rewrite (comps_guard _ _ _ (proj1 F)), EN. cbn [attr bind]. rewrite (proj2 (Z.eqb_eq _ _) L), A. unfold d_weighted, zip_with. rewrite !map_length, !combine_length, !map_length. rewrite Lw. reflexivity.
  - unfold d_cell_weighted, cell_integrate, cell_dx_norm. rewrite (comps_guard _ _ _ (proj1 F)), EN. cbn [attr bind]. rewrite map_length, (proj2 (Z.eqb_neq _ _) L). cbn [bind]. split; intros X; injection X as <-; reflexivity.
Qed.
Print Assumptions C76_boundary_refused.

(** ** Order *)
Theorem C76_boundary_monotone contains order H c ess u v x y : by_position order -> (forall l, orders l (order l)) -> ready contains H c -> boundary_edges H c ess -> Forall (fun es => (csize es <= 2 ^ 53)%Z) ess -> Forall2 (fun a b => val a <= val b) u v ->
  d_cell order u H c = Ok x -> d_cell order v H c = Ok y -> fin x = true -> fin y = true -> val x <= val y.
Proof.
  intros Bp O Rd B Sm Le Ex Ey Fx Fy. destruct (ready_uniform _ _ _ _ Rd B) as (F & NE & _). pose proof (fresh_all _ _ _ (proj1 F)) as W. destruct (contour_steps ess W NE Sm) as (N & P & _ & P0). unfold d_cell in Ex, Ey. rewrite (comps_guard _ _ _ (proj1 F)), (proj1 (proj2 (proj2 F))) in Ex, Ey. cbn [attr bind] in Ex, Ey. rewrite (d_cell_steps_ok _ _ _ F NE) in *. cbn [bind] in Ex, Ey. destruct (Z.eqb_spec (Z.of_nat (List.length u)) (CellSpec.total (map csize ess))) as [L|L]; [|discriminate]. destruct (Z.eqb (Z.of_nat (List.length v)) (CellSpec.total (map csize ess))); [|discriminate]. apply Ok_inj in Ex. apply Ok_inj in Ey. subst x y.
  exact (gen_monotone k_step csize ess order O P u v Bp L Le P0 Fx Fy).
Qed.
Print Assumptions C76_boundary_monotone.
Theorem C76_boundary_nonneg contains order H c ess v x : (forall l, orders l (order l)) -> ready contains H c -> boundary_edges H c ess -> Forall (fun es => (csize es <= 2 ^ 53)%Z) ess -> Forall (fun a => 0 <= val a) v -> d_cell order v H c = Ok x -> fin x = true -> 0 <= val x.
Proof.
  intros O Rd B Sm A Ex Fx. destruct (ready_uniform _ _ _ _ Rd B) as (F & NE & _). pose proof (fresh_all _ _ _ (proj1 F)) as W. destruct (contour_steps ess W NE Sm) as (N & P & _ & P0). unfold d_cell in Ex. rewrite (comps_guard _ _ _ (proj1 F)), (proj1 (proj2 (proj2 F))) in Ex. cbn [attr bind] in Ex. rewrite (d_cell_steps_ok _ _ _ F NE) in *. cbn [bind] in Ex. destruct (Z.eqb_spec (Z.of_nat (List.length v)) (CellSpec.total (map csize ess))) as [L|L]; [|discriminate]. apply Ok_inj in Ex. subst x.
  exact (gen_nonneg k_step csize ess order O P v L A P0 Fx).
Qed.
Print Assumptions C76_boundary_nonneg.

(** ** Example: the annulus with radii 1 and 4; the integral of 1 is 10 pi. *)
Example C76_boundary_example : exists H c ess w x, ready disc H c /\ boundary_edges H c ess /\ Forall (fun es => (csize es <= 2 ^ 53)%Z) ess /\ Forall2 (fun s y => near 0 (sw s) (sw s) 0 y) (cell_smp ess) w /\
  cell_integrate (map val (repeat (of_int 1) 16)) H c = Ok (10 * PI) /\ d_cell_weighted from_left w (repeat (of_int 1) 16) H c = Ok x /\ fin x = true.
Proof.
  pose proof (ring_cell_outer (5, 5)%Z 1 ltac:(lra)) as B. set (c := made _ _ _ _ _) in B. assert (An : annulus c) by (exists 1%Z, [1; -1]%Z, (5, 5)%Z, 1; right; reflexivity). destruct (circles_param rings c rings_like (annulus_circles _ An)) as (H' & c' & P).
  assert (Rd : ready disc H' c') by (exists rings, 1%Z, [1; 0]%nat, (5, 5)%Z, 1, 1, c, (PInt 4), 7%Z, dict4, false, rings; split; [exact B|]; split; [exact dict4_ok|exact P]).
  destruct (ready_fresh _ _ _ Rd) as (ess & F & _). assert (BE : boundary_edges H' c' ess) by (unfold boundary_edges; destruct F as (F & _); eapply Forall2_impl; [|exact F]; intros k es Fk; apply Fk).
  pose proof (circles_wf _ (annulus_circles _ An)) as W.
  destruct (param_edge _ _ _ _ _ _ _ _ _ (unset 1 0 (-1)) O O (-1)%Z dict4_ok W P (or_intror (or_introl eq_refl)) eq_refl eq_refl) as (a0 & e0 & A0 & E0 & R0). destruct (param_edge _ _ _ _ _ _ _ _ _ (unset 1 1 1) O 1%nat 1%Z dict4_ok W P (or_introl eq_refl) eq_refl eq_refl) as (a1 & e1 & A1 & E1 & R1). cbn [rings nth_error] in A0, A1. injection A0 as <-. injection A1 as <-.
  destruct (ring_samples 1 1 2 1 _ _ _ Rlt_0_1 (like_self _ _ _ _) R0) as (N0 & W0 & C0). assert (L4 : 0 < 4) by lra. destruct (ring_samples 0 4 1 (-1) _ _ _ L4 (like_self _ _ _ _) R1) as (N1 & W1 & C1).
  assert (Pm : ess = [[e1]; [e0]] \/ ess = [[e0]; [e1]]).
  { destruct (param_cell_ok disc (fun _ _ => True) (fun _ _ _ _ _ _ => I) dict4 _ _ _ _ _ _ _ dict4_ok W P) as (ess0 & ess' & Pr). pose proof (Permutation_map fst (p_edges _ _ _ _ _ _ _ _ _ Pr)) as PE. rewrite !map_map in PE. cbn [fst] in PE. change (map (fun x => k_edges x) (c_comps c)) with [[1%nat]; [0%nat]] in PE. apply Permutation_sym, Permutation_length_2_inv in PE. unfold boundary_edges in BE. clear -PE BE E0 E1.
    destruct (c_comps c') as [|k0 [|k1 [|? ?]]]; destruct PE as [PE|PE]; try discriminate; injection PE as K0 K1; inversion BE as [|? x0 ? l0 X0 F0]; subst; inversion F0 as [|? x1 ? l1 X1 F1]; subst; inversion F1; subst; rewrite K0 in X0; rewrite K1 in X1; unfold refs in X0, X1; inversion X0 as [|? u0 ? v0 Y0 Z0]; subst; inversion Z0; subst; inversion X1 as [|? u1 ? v1 Y1 Z1]; subst; inversion Z1; subst; [left; assert (u0 = e1) by congruence; assert (u1 = e0) by congruence; subst; reflexivity|right; assert (u0 = e0) by congruence; assert (u1 = e1) by congruence; subst; reflexivity]. }
  assert (V : forall n, (Z.abs n <= 2 ^ 53)%Z -> val (of_int n) = IZR n) by (intros n Hn; exact (proj2 (of_int_val n Hn))).
  assert (S : forall e r, (0 <= r <= 4)%Z -> map sw (e_smp e) = repeat (IZR r) 9 -> Forall2 (fun s y => near 0 (sw s) (sw s) 0 y) (open_smp e) (repeat (of_int r) 8)).
  { intros e r Hr Hs. assert (L : map sw (open_smp e) = repeat (IZR r) 8) by (unfold open_smp; rewrite map_removelast, Hs; reflexivity). assert (X : near 0 (IZR r) (IZR r) 0 (of_int r)) by (pose proof (near_int r ltac:(lia)) as Y; rewrite Rabs_pos_eq in Y by (apply IZR_le; lia); exact Y). revert L. generalize (open_smp e) as l. generalize 8%nat as n. induction n as [|n IH]; intros [|s l] L; try discriminate; cbn [repeat] in *; constructor; injection L as L1 L2; [rewrite L1; exact X|apply IH; exact L2]. }
  assert (Z1 : csize [e1] = 8%Z /\ csize [e0] = 8%Z) by (unfold csize, open_num; cbn [map]; rewrite N0, N1; auto). destruct Z1 as [Z1 Z0].
  assert (G : forall e r, e_npts e = 9%Z -> map sw (e_smp e) = repeat r 9 -> edge_int (fun _ _ => 1) e = 2 * PI * r).
  { intros e r N Sr. unfold edge_int, at_smp. rewrite N. rewrite (map_ext _ sw) by (intros; ring). rewrite map_removelast', Sr. cbn [repeat removelast]. unfold sum_list. cbn [fold_right]. simpl. field. }
  destruct (proj1 (C40_sum_of_edges disc H' c' ess Rd BE) (fun _ _ => 1)) as (y & Y & Zy). destruct (ready_uniform _ _ _ _ Rd BE) as (Fr & NE & _). pose proof (fresh_all _ _ _ (proj1 Fr)) as Ws.
  assert (Ey : map val (repeat (of_int 1) 16) = y). { rewrite (eval_boundary_ok (fun _ _ => 1) H' c' ess Fr) in Y. apply Ok_inj in Y. subst y. pose proof (cell_smp_len ess Ws) as L. unfold at_smp. change (map val (repeat (of_int 1) 16)) with (repeat (val (of_int 1)) 16). rewrite V by lia. assert (Lc : List.length (cell_smp ess) = 16%nat) by (destruct Pm as [->| ->]; cbn [map CellSpec.total fold_right] in L; rewrite ?Z0, ?Z1 in L; lia). rewrite <- Lc. clear. induction (cell_smp ess) as [|s l IH]; [reflexivity|]. cbn. f_equal. exact IH. }
  exists H', c', ess. destruct Pm as [-> | ->].
  - exists (repeat (of_int 4) 8 ++ repeat (of_int 1) 8). eexists. split; [exact Rd|]. split; [exact BE|]. split; [constructor; [|constructor; [|constructor]]; lia|]. split.
    + unfold cell_smp, contour_smp. cbn [map concat]. rewrite !app_nil_r. apply Forall2_app; apply S; try lia; assumption.
    + split; [rewrite Ey, Zy; f_equal; cbn [concat app map]; unfold sum_list; cbn [fold_right]; rewrite (G e1 4 N1 W1), (G e0 1 N0 W0); ring|]. unfold d_cell_weighted, d_cell. rewrite (comps_guard _ _ _ (proj1 Fr)), (proj1 (proj2 (proj2 Fr))), (d_cell_steps_ok _ _ _ Fr NE). cbn [attr bind map CellSpec.total fold_right]. unfold k_step. rewrite Z0, Z1. cbn [List.length]. split; [reflexivity|]. vm_compute. reflexivity.
  - exists (repeat (of_int 1) 8 ++ repeat (of_int 4) 8). eexists. split; [exact Rd|]. split; [exact BE|]. split; [constructor; [|constructor; [|constructor]]; lia|]. split.
    + unfold cell_smp, contour_smp. cbn [map concat]. rewrite !app_nil_r. apply Forall2_app; apply S; try lia; assumption.
    + split; [rewrite Ey, Zy; f_equal; cbn [concat app map]; unfold sum_list; cbn [fold_right]; rewrite (G e1 4 N1 W1), (G e0 1 N0 W0); ring|]. unfold d_cell_weighted, d_cell. rewrite (comps_guard _ _ _ (proj1 Fr)), (proj1 (proj2 (proj2 Fr))), (d_cell_steps_ok _ _ _ Fr NE). cbn [attr bind map CellSpec.total fold_right]. unfold k_step. rewrite Z0, Z1. cbn [List.length]. split; [reflexivity|]. vm_compute. reflexivity.
Qed.
