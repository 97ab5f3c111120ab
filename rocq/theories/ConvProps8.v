(** The centroid of a local function space is a mean of boundary points and not the centroid of the cell (C59); examples for
    C79_area and C79_products *)
From Coq Require Import List ZArith Reals Lia Lra Psatz Bool String Permutation.
From Coquelicot Require Import Coquelicot.
From Verif Require Import PyBase PolyModel PolySpec PolyProofs PolyProofs2 PolyProofs4 PolyProps IntPolyModel IntPolyProofs BaryModel BBoxModel QuadModel QuadSpec QuadProofs QuadProps CurveModel CurveSpec CurveProps VertModel EdgeModel ContourModel CellModel CellSpec EdgeSpec EdgeProofs EdgeProofs2 EdgeProps EdgeProps3 EdgeProps4 CellProofs CellProps ContourProofs ContourProofs3 ContourProofs4 ContourProps CellProps2 CellProps3 Annulus LocalModel LocalSpec LocalProofs2 LocalProps2 LocSpaceModel LocSpaceProps3 ConvSpec ConvProofs ConvProofs2 ConvProps ConvProps2 ConvProofs3 ConvProofs4 ConvProps3.
From Verif Require Import MeshModel Labels PegSpec PegProofs PegProps PegProps2 ConvProps4 ConvProofs5 ConvProps5 ConvProps6 ConvProps7.
Import List ListNotations.
Open Scope R_scope.

Lemma sum_n_seq f m : sum_list (map f (seq 0 m)) = QuadSpec.sum_n f m.
Proof. induction m as [|m IH]; [reflexivity|]. rewrite seq_S, map_app. cbn [map QuadSpec.sum_n Nat.add]. rewrite <- IH. rewrite sum_app. unfold sum_list at 2. cbn [fold_right]. ring. Qed.
Lemma sum_const_add (k a : R) (f : nat -> R) m : QuadSpec.sum_n (fun i => k + a * f i) m = INR m * k + a * QuadSpec.sum_n f m.
Proof. induction m as [|m IH]; [cbn; ring|]. rewrite S_INR. cbn [QuadSpec.sum_n]. rewrite IH. ring. Qed.
Lemma sum_rev (l : list R) : sum_list (rev l) = sum_list l.
Proof. apply sum_perm, Permutation_sym, Permutation_rev. Qed.
(** The points of a circle have the mean of the circle, whichever way it is run through. *)
Lemma round_spots e c r o p n qd e' : round_edge e c r -> e_qtype e = "trap"%string -> (2 <= p)%Z -> (4 <= n)%Z -> get_quad_dict (PInt n) p = Ok qd -> resampled qd o e e' ->
  List.length (open_smp e') = (2 * Z.to_nat n)%nat /\ sum_list (map (fun s => fst (sx s)) (open_smp e')) = INR (2 * Z.to_nat n) * fst c /\ sum_list (map (fun s => snd (sx s)) (open_smp e')) = INR (2 * Z.to_nat n) * snd c.
Proof.
  intros Re Qt Hp Hn Eq (e1' & Ep' & ->). pose proof PI_RGT_0 as HP. destruct (smooth_positions e _ _ p n qd (round_smooth e c r Re) Hp Hn Eq) as (e1 & Ep & Pe & Ps). rewrite Ep in Ep'. apply Ok_inj in Ep'. subst e1'.
  set (N := Z.to_nat n) in *. assert (HN : 0 < INR N) by (apply lt_0_INR; unfold N; lia). assert (N0 : (4 <= N)%nat) by (unfold N; lia). set (P := fun i : nat => (fst c + r * cos (INR 1 * QuadSpec.grid N i), snd c + r * sin (INR 1 * QuadSpec.grid N i))).
  assert (Ps' : map sx (e_smp e1) = map P (seq 0 (2 * N + 1))).
  { rewrite Ps. apply map_ext. intros j. pose proof Re as (_ & Tb & _). assert (PA : forall t, param_arg e t = t) by (intros t; unfold param_arg, param_dt; rewrite Tb; cbn [fst snd]; field; lra). rewrite PA. unfold rule_phi. rewrite Qt. cbn [String.eqb Ascii.eqb Bool.eqb]. rewrite (round_traced e c r _ Re). unfold px, py, P.
    assert (ET : INR j * (2 * PI / INR (2 * N)) = INR 1 * QuadSpec.grid N j) by (unfold QuadSpec.grid; rewrite mult_INR; cbn [INR]; field; lra). rewrite ET. reflexivity. }
  pose proof (reversed_spots e1 o P (2 * N) Pe Ps') as SP. unfold spots in SP. set (e' := if Z.eqb o (-1) then reverse_orientation e1 else e1) in *.
  assert (SS : forall g : pt -> R, g (P (2 * N)%nat) = g (P 0%nat) -> sum_list (map (fun s => g (sx s)) (open_smp e')) = QuadSpec.sum_n (fun i => g (P i)) (2 * N)).
  { intros g Hg. rewrite <- (map_map sx g), SP. rewrite <- sum_n_seq. destruct (Z.eqb o (-1)); [|rewrite map_map; reflexivity]. rewrite map_rev, sum_rev, map_map.
    assert (A : sum_list (map (fun i => g (P i)) (seq 0 (S (2 * N)))) = sum_list (map (fun i => g (P i)) (seq 0 (2 * N))) + g (P (2 * N)%nat)). { rewrite seq_S, map_app, sum_app. cbn [map Nat.add]. unfold sum_list at 2. cbn [fold_right]. ring. }
    cbn [seq map] in A. change (sum_list (?x :: ?l)) with (x + sum_list l) in A. cbv beta in A. rewrite Hg in A. set (X := sum_list (map (fun i => g (P i)) (seq 1 (2 * N)))) in *. set (Y := sum_list (map (fun i => g (P i)) (seq 0 (2 * N)))) in *. lra. }
  assert (G2 : INR 1 * QuadSpec.grid N (2 * N) = 0 + 2 * INR 1 * PI) by (unfold QuadSpec.grid; rewrite mult_INR; cbn [INR]; field; lra). assert (G0 : INR 1 * QuadSpec.grid N 0 = 0) by (unfold QuadSpec.grid; cbn [INR]; field; lra).
  assert (M1 : Nat.eqb (1 mod (2 * N)) 0 = false) by (rewrite Nat.mod_small by lia; reflexivity).
  split; [|split].
  - rewrite <- (map_length sx), SP. destruct (Z.eqb o (-1)); [rewrite rev_length|]; rewrite map_length, seq_length; reflexivity.
  - rewrite (SS fst); [|unfold P; cbn [fst]; rewrite G2, G0, cos_period; reflexivity]. unfold P. cbn [fst]. rewrite (sum_const_add (fst c) r (fun i => cos (INR 1 * QuadSpec.grid N i))), grid_sum_cos, M1 by lia. ring.
  - rewrite (SS snd); [|unfold P; cbn [snd]; rewrite G2, G0, sin_period; reflexivity]. unfold P. cbn [snd]. rewrite (sum_const_add (snd c) r (fun i => sin (INR 1 * QuadSpec.grid N i))), grid_sum_sin by lia. ring.
Qed.

Lemma concat_sums {A} (f : A -> R) (ll : list (list A)) : sum_list (map f (concat ll)) = sum_list (map (fun l => sum_list (map f l)) ll).
Proof. induction ll as [|l ll IH]; [reflexivity|]. cbn [concat map]. rewrite map_app, sum_app, IH. reflexivity. Qed.

(** A cell bounded by circles: the centroid is the mean of their centres, whatever their radii and whichever of them are holes. *)
Theorem C59_round_centroid contains H z ids mesh rtol atol c p n qd w H' c' (ctr : nat -> pt) (rad : nat -> R) : (2 <= p)%Z -> (4 <= n)%Z -> mk_cell H z ids mesh rtol atol = Ok c -> ids <> [] ->
  (forall i, In i ids -> exists e, nth_error H i = Some e /\ round_edge e (ctr i) (rad i) /\ e_qtype e = "trap"%string) ->
  get_quad_dict (PInt n) p = Ok qd -> param_cell contains qd w H c = Ok (H', c') ->
  centroid H' c' = Ok (sum_list (map (fun i => fst (ctr i)) ids) / INR (List.length ids), sum_list (map (fun i => snd (ctr i)) ids) / INR (List.length ids)).
Proof.
  intros Hp Hn M NE Rd Eq Pc. destruct (C36_contours _ _ _ _ _ _ _ M) as (_ & Pm & _). pose proof (built_wf _ _ _ _ _ _ _ M) as W.
  destruct (made_ready contains _ _ _ _ _ _ _ _ _ _ _ _ _ M Eq Pc) as (Rdy & ess & B). destruct (C59_centroid_area contains H' c' ess Rdy B) as (-> & _).
  destruct (param_cell_ok contains (fun _ _ => True) (fun _ _ _ _ _ _ => I) qd (PInt n) p w H c H' c' Eq W Pc) as (ess0 & ess' & Pr). assert (ess = ess') by (eapply edges_unique; [apply Pr|exact B]). subst ess'.
  pose proof (oriented_perm _ _ _ _ _ _ _ _ _ Pr) as Po.
  assert (Ls : Forall (fun k => List.length (k_edges k) = List.length (k_orients k)) (c_comps c')).
  { pose proof (p_edges _ _ _ _ _ _ _ _ _ Pr) as PE. apply Forall_forall. intros k Ik. assert (I2 : In (k_edges k, k_orients k) (map (fun k => (k_edges k, k_orients k)) (c_comps c))) by (eapply Permutation_in; [exact PE|apply (in_map (fun k => (k_edges k, k_orients k)) _ _ Ik)]). apply in_map_iff in I2. destruct I2 as (k0 & E0 & I0). injection E0 as E1 E2. rewrite <- E1, <- E2. destruct W as (_ & _ & F). rewrite Forall_forall in F. apply (proj1 (F k0 I0)). }
  pose proof (oriented_edges _ _ _ _ _ _ _ _ _ Pr Ls) as Fe.
  assert (PI' : Permutation (map fst (oriented c')) ids) by (eapply Permutation_trans; [apply Permutation_map, Po|]; rewrite oriented_fst by exact W; exact Pm).
  set (m := INR (2 * Z.to_nat n)). assert (Hm : 0 < m) by (apply lt_0_INR; lia).
  assert (G : forall l es, Forall2 (fun io e' => exists e, nth_error H (fst io) = Some e /\ resampled qd (snd io) e e') l es -> (forall i, In i (map fst l) -> In i ids) ->
    INR (List.length (contour_smp es)) = m * INR (List.length (map fst l)) /\ sum_list (map (fun s => fst (sx s)) (contour_smp es)) = m * sum_list (map (fun i => fst (ctr i)) (map fst l)) /\ sum_list (map (fun s => snd (sx s)) (contour_smp es)) = m * sum_list (map (fun i => snd (ctr i)) (map fst l))).
  { intros l es F. induction F as [|io e' l es (e & Ei & Rs) F IH]; intros S; [cbn; unfold sum_list; cbn; repeat split; ring|]. destruct IH as (I1 & I2 & I3); [intros i Hi; apply S; right; exact Hi|]. destruct (Rd (fst io)) as (e0 & E0 & R0 & Q0); [apply S; left; reflexivity|]. rewrite Ei in E0. injection E0 as <-.
    destruct (round_spots e _ _ (snd io) p n qd e' R0 Q0 Hp Hn Eq Rs) as (L1 & L2 & L3). change (contour_smp (e' :: es)) with (open_smp e' ++ contour_smp es)%list. rewrite app_length, plus_INR, !map_app, !sum_app, L1, L2, L3, I1, I2, I3. cbn [map List.length]. rewrite S_INR. change (sum_list (?x :: ?t)) with (x + sum_list t). unfold m. repeat split; ring. }
  destruct (G _ _ Fe) as (G1 & G2 & G3); [intros i Hi; eapply Permutation_in; [exact PI'|exact Hi]|]. rewrite G1, G2, G3. rewrite (sum_perm _ _ (Permutation_map (fun i => fst (ctr i)) PI')), (sum_perm _ _ (Permutation_map (fun i => snd (ctr i)) PI')), (Permutation_length PI').
  assert (HL : 0 < INR (List.length ids)) by (apply lt_0_INR; destruct ids; [contradiction|cbn; lia]). f_equal. f_equal; field; lra.
Qed.
Print Assumptions C59_round_centroid.

(** ** Integrals over discs *)
Lemma disc_moment (k0 k1 k2 : R) c r : disc_integral (fun x y => k0 + k1 * x + k2 * (x * x)) c r = PI * (r * r) * (k0 + k1 * fst c + k2 * (fst c * fst c + r * r / 4)).
Proof.
  pose proof PI_RGT_0 as HP. unfold disc_integral. set (a := fst c). transitivity (RInt (fun s => 2 * PI * (k0 + k1 * a + k2 * (a * a)) * s + PI * k2 * (s * s * s)) 0 r).
  - apply RInt_ext. intros s _. apply (is_RInt_unique (V:=R_CompleteNormedModule)).
    set (F := fun t => s * ((k0 + k1 * a + k2 * (a * a)) * t + (k1 * s + 2 * k2 * a * s) * sin t + k2 * (s * s) * ((t + sin t * cos t) / 2))).
    replace (2 * PI * (k0 + k1 * a + k2 * (a * a)) * s + PI * k2 * (s * s * s)) with (F (2 * PI) - F 0) by (unfold F; rewrite sin_2PI, sin_0; field).
    apply (is_RInt_derive F).
    + intros t _. unfold F. auto_derive; [trivial|]. pose proof (sin2_cos2 t) as SC. unfold Rsqr in SC. replace (sin t * (1 * - sin t)) with (cos t * cos t - 1) by lra. field.
    + intros t _. apply (ex_derive_continuous (fun t => (k0 + k1 * (a + s * cos t) + k2 * ((a + s * cos t) * (a + s * cos t))) * s)). auto_derive. trivial.
  - apply (is_RInt_unique (V:=R_CompleteNormedModule)). set (F := fun s => PI * (k0 + k1 * a + k2 * (a * a)) * (s * s) + PI * k2 * (s * s * s * s / 4)).
    replace (PI * (r * r) * (k0 + k1 * a + k2 * (a * a + r * r / 4))) with (F r - F 0) by (unfold F; field). apply (is_RInt_derive F).
    + intros s _. unfold F. auto_derive; [trivial|]. field.
    + intros s _. apply (ex_derive_continuous (fun s => 2 * PI * (k0 + k1 * a + k2 * (a * a)) * s + PI * k2 * (s * s * s))). auto_derive. trivial.
Qed.
(** The ring between the circle of radius 4 around (0, 0) and the one of radius 1 around (1, 0) *)
Definition ring_outlines : list (bool * outline) := [(true, Round (0, 0) 4 1%nat); (false, Round (1, 0) 1 0%nat)].
Lemma ring_moment f k0 k1 k2 : (forall x y, f x y = k0 + k1 * x + k2 * (x * x)) -> region_integral f ring_outlines = PI * (15 * k0 - k1 + (64 - 5 / 4) * k2).
Proof.
  intros E. rewrite (region_ext _ _ _ E). unfold region_integral, ring_outlines, sum_list. cbn [map fst snd outline_integral fold_right]. rewrite !disc_moment. cbn [fst]. field.
Qed.
Lemma ring_bounds : Forall (fun l => bounded_by rings 1 (fst l) (snd l)) ring_outlines.
Proof.
  constructor; [|constructor; [|constructor]]; cbn [fst snd bounded_by].
  - exists (ring 0 4 1 (-1)). split; [reflexivity|]. split; [apply ring_round; lra|]. split; reflexivity.
  - exists (ring 1 1 2 1). split; [reflexivity|]. split; [apply ring_round; lra|]. split; [discriminate|discriminate].
Qed.
Lemma ring_runs p n tol c : (2 <= p)%Z -> (4 <= n)%Z -> mk_cell rings 1 [1; 0]%nat (33, 33)%Z tol tol = Ok c -> 0 < tol -> exists qd H' c', get_quad_dict (PInt n) p = Ok qd /\ param_cell within qd false rings c = Ok (H', c').
Proof.
  intros Hp Hn Mk Ht. pose proof (ring_cell_outer (33, 33)%Z tol Ht) as Mk'. rewrite Mk in Mk'. apply Ok_inj in Mk'. destruct (C19_dict n p Hn Hp) as (a & b & Eq & _). assert (T1 : TOL <= 1) by (unfold TOL; lra).
  destruct (ready_cell within (a, b) (PInt n) p rings c Eq (built_wf _ _ _ _ _ _ _ Mk)) as (H' & c' & Pc).
  - rewrite <- Mk'. discriminate.
  - rewrite <- Mk'. constructor; [|constructor; [|constructor]].
    + apply (round_ready rings (unset 1 1 1) 1%nat (ring 0 4 1 (-1)) (0, 0) 4 1 p n (a, b)); try reflexivity; try assumption; [apply ring_round; lra|lra].
    + apply (round_ready rings (unset 1 0 (-1)) 0%nat (ring 1 1 2 1) (1, 0) 1 (-1) p n (a, b)); try reflexivity; try assumption. apply ring_round; lra.
  - exists (a, b), H', c'. split; assumption.
Qed.

(** The centroid of the ring is (-1 / 15, 0); with any number of points the code computes (1 / 2, 0). *)
Theorem C59_centroid_refuted : exists H z ids mesh tol c ls, mk_cell H z ids mesh tol tol = Ok c /\ Permutation ids (concat (map (fun l : bool * outline => outline_ids (snd l)) ls)) /\ Forall (fun l => bounded_by H z (fst l) (snd l)) ls /\
  region_integral (fun x _ => x) ls / region_integral (fun _ _ => 1) ls = - 1 / 15 /\
  forall p n, (2 <= p)%Z -> (4 <= n)%Z -> exists qd H' c', get_quad_dict (PInt n) p = Ok qd /\ param_cell within qd false H c = Ok (H', c') /\ centroid H' c' = Ok (1 / 2, 0).
Proof.
  pose proof PI_RGT_0 as HP. pose proof (ring_cell_outer (33, 33)%Z 1 Rlt_0_1) as Mk. exists rings, 1%Z, [1; 0]%nat, (33, 33)%Z, 1. eexists. exists ring_outlines. split; [exact Mk|]. split; [reflexivity|]. split; [exact ring_bounds|]. split.
  - rewrite (ring_moment (fun x _ => x) 0 1 0), (ring_moment (fun _ _ => 1) 1 0 0) by (intros; ring). field. lra.
  - intros p n Hp Hn. destruct (ring_runs p n 1 _ Hp Hn Mk Rlt_0_1) as (qd & H' & c' & Eq & Pc). exists qd, H', c'. split; [exact Eq|]. split; [exact Pc|].
    rewrite (C59_round_centroid within rings 1 [1; 0]%nat _ _ _ _ p n qd false H' c' (fun i => if Nat.eqb i 0 then (1, 0) else (0, 0)) (fun i => if Nat.eqb i 0 then 1 else 4) Hp Hn Mk ltac:(discriminate)).
    + unfold sum_list. cbn. f_equal. f_equal; field.
    + intros i [<-|[<-|[]]]; cbn [Nat.eqb].
      * exists (ring 0 4 1 (-1)). split; [reflexivity|]. split; [apply ring_round; lra|reflexivity].
      * exists (ring 1 1 2 1). split; [reflexivity|]. split; [apply ring_round; lra|reflexivity].
    + exact Eq.
    + exact Pc.
Qed.
Print Assumptions C59_centroid_refuted.

(** ** Area and products on the ring: the function x has the products 251 pi / 4 and 15 pi with itself. *)
Definition x_poly : poly RS := [@Mono RS (MI 1 0) 1].
Lemma x_value x y : peval RS x_poly x y = x.
Proof. unfold x_poly. rewrite peval_value. cbn. ring. Qed.
Example C79_example_products p : (2 <= p)%Z -> exists c, mk_cell rings 1 [1; 0]%nat (33, 33)%Z 1 1 = Ok c /\ forall eps, 0 < eps -> exists K, forall n, (K <= n)%Z ->
  exists qd H' c' area A s t, get_quad_dict (PInt n) p = Ok qd /\ param_cell within qd false rings c = Ok (H', c') /\ find_area H' c' = Ok area /\ Rabs (area - 15 * PI) <= eps /\
  mk_lpoly x_poly H' c' = Ok A /\ l2_gen (GPoly A) (GPoly A) H' c' = Ok s /\ Rabs (s - 251 / 4 * PI) <= eps /\ h1_gen (GPoly A) (GPoly A) H' c' = Ok t /\ Rabs (t - 15 * PI) <= eps.
Proof.
  intros Hp. pose proof (ring_cell_outer (33, 33)%Z 1 Rlt_0_1) as Mk. eexists. split; [exact Mk|]. intros eps He.
  destruct (C79_area within rings 1 [1; 0]%nat _ _ _ _ p ring_outlines Hp Mk ltac:(reflexivity) ring_bounds eps He) as (K1 & HK1).
  assert (Cx : canonical x_poly). { apply can_cons; [|constructor|constructor]. cbn [mcoef]. unfold tol. rewrite Rabs_R1. lra. }
  assert (Gx : on_grid 1 x_poly). { intros m [<-|[]]. exists 1%Z. cbn. ring. }
  assert (Dx : is_dx (peval RS x_poly) (fun _ _ => 1)). { intros x y e Hee. exists (mkposreal 1 Rlt_0_1). intros h Hh _. rewrite !x_value. replace ((x + h - x) / h - 1) with 0 by (field; exact Hh). rewrite Rabs_R0. exact Hee. }
  assert (Dy : is_dy (peval RS x_poly) (fun _ _ => 0)). { intros x y e Hee. exists (mkposreal 1 Rlt_0_1). intros h Hh _. rewrite !x_value. replace ((x - x) / h - 0) with 0 by (field; exact Hh). rewrite Rabs_R0. exact Hee. }
  destruct (C79_products 1 1 x_poly x_poly within rings 1 [1; 0]%nat _ _ _ _ p ring_outlines _ _ _ _ Hp Mk ltac:(reflexivity) ring_bounds Cx Cx Gx Gx ltac:(unfold tol; lra) Dx Dy Dx Dy eps He) as (K2 & HK2).
  exists (Z.max 4 (Z.max K1 K2)). intros n Hn. destruct (ring_runs p n 1 _ Hp ltac:(lia) Mk Rlt_0_1) as (qd & H' & c' & Eq & Pc).
  destruct (HK1 n ltac:(lia) qd false H' c' Eq Pc) as (area & Ea & Ha). destruct (HK2 n ltac:(lia) qd false H' c' Eq Pc) as (A & B & s & t & EA & EB & Es & Et & Hs & Ht). assert (A = B) by congruence. subst B.
  exists qd, H', c', area, A, s, t. split; [exact Eq|]. split; [exact Pc|]. split; [exact Ea|]. split; [|split; [exact EA|]; split; [exact Es|]; split; [|split; [exact Et|]]].
  - unfold ring_outlines, sum_list in Ha. cbn [map fst snd outline_area fold_right] in Ha. replace (15 * PI) with (1 * (PI * (4 * 4)) + (-1 * (PI * (1 * 1)) + 0)) by ring. exact Ha.
  - rewrite (ring_moment _ 0 0 1) in Hs by (intros x y; rewrite !x_value; ring). replace (251 / 4 * PI) with (PI * (15 * 0 - 0 + (64 - 5 / 4) * 1)) by field. exact Hs.
  - rewrite (ring_moment _ 1 0 0) in Ht by (intros x y; ring). replace (15 * PI) with (PI * (15 * 1 - 0 + (64 - 5 / 4) * 0)) by ring. exact Ht.
Qed.
