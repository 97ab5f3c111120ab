(** Samples that do not coincide, and the circle. *)
From Coq Require Import List ZArith Reals Lia Lra Bool String.
From Coquelicot Require Import Coquelicot.
From Verif Require Import PyBase PolyModel PolySpec BaryModel QuadModel VertModel EdgeModel EdgeSpec EdgeProps4 ContourModel CellModel CellSpec CellProofs CellProps ContourProofs ContourProofs2 ContourProofs3 InteriorProofs ContourProofs4 ContourProps CellProps3 TraceModel TraceSpec TraceProofs LocalProofs3 LocalModel LocalSpec LocalProofs LocalProofs2 LocalProofs5 FftModel FftSpec FftProofs FftProofs2 FftProofs3 FftProps AntilapModel AntilapSpec AntilapProofs AntilapProofs2 AntilapProofs3 AntilapProofs4 AntilapProps2 NystromModel NystromSpec NystromProofs NystromProofs2 NystromProofs3 NystromProofs4 NystromProofs5 NystromProofs6.
Import List ListNotations.
Open Scope R_scope.

(** ** The grid *)
Lemma points_smp r : map p_smp (edge_points r) = open_smp (snd r).
Proof. unfold edge_points. rewrite map_map. cbn [p_smp]. generalize 0%nat. induction (open_smp (snd r)) as [|s l IH]; intros i; [reflexivity|]. cbn [List.length seq combine map snd]. rewrite IH. reflexivity. Qed.
Lemma contour_grid_smp ids es : List.length ids = List.length es -> map p_smp (contour_grid ids es) = contour_smp es.
Proof. unfold contour_grid, contour_smp. revert es. induction ids as [|i ids IH]; intros [|e es] L; try discriminate; [reflexivity|]. cbn [combine map concat]. rewrite map_app, points_smp, IH by (cbn in L; lia). reflexivity. Qed.
Lemma grid_smp H c ess : cell_fresh H c ess -> map p_smp (cell_grid c ess) = contour_smp (concat ess).
Proof.
  intros (F2 & _). unfold cell_grid. induction F2 as [|k es ks ess Fk F2 IH]; [reflexivity|]. cbn [combine map concat fst snd]. rewrite map_app, IH, contour_grid_smp by (exact (refs_length _ _ _ (proj1 Fk))). unfold contour_smp. rewrite map_app, concat_app. reflexivity.
Qed.

(** ** Samples that do not coincide *)
Lemma third_sine x : 0 <= x -> x <= PI / 2 -> x / 3 <= sin x.
Proof.
  intros P Q. pose proof PI_4 as P4. pose proof PI_RGT_0 as P0. destruct (sin_bound x 0 P ltac:(lra)) as [Lo _]. unfold sin_approx, sin_term in Lo. cbn [sum_f_R0 Nat.mul Nat.add pow fact INR] in Lo.
  assert (Lo' : x - x * x * x / 6 <= sin x) by (refine (Rle_trans _ _ _ _ Lo); apply Req_le; simpl; field). assert (X2 : x <= 2) by lra. assert (Q2 : x * x <= 2 * 2) by (apply Rmult_le_compat; lra). pose proof (Rmult_le_pos x (4 - x * x) P ltac:(lra)). lra.
Qed.
Lemma fine_sine m k : (1 <= k < 2 * m)%nat -> (Z.of_nat m <= 10000000)%Z -> 1 / 100000000000000 <= log_sine m k.
Proof.
  intros Lk Lm. pose proof PI_RGT_0 as P0. assert (P3 : 3 <= PI) by (pose proof PI2_3_2; lra).
  assert (M1 : 1 <= INR m) by (change 1 with (INR 1); apply le_INR; lia). assert (M2 : INR m <= 10000000) by (rewrite INR_IZR_INZ; apply IZR_le; lia). unfold log_sine. rewrite mult_INR. change (INR 2) with 2.
  assert (G : forall x, PI / (2 * INR m) <= x -> x <= PI / 2 -> 1 / 100000000000000 <= 4 * (sin x)²).
  { intros x X1 X2. assert (U : 3 / (2 * INR m) <= PI / (2 * INR m)) by (apply Rmult_le_compat_r; [left; apply Rinv_0_lt_compat; lra|lra]). assert (V : 3 / 20000000 <= 3 / (2 * INR m)) by (apply Rmult_le_compat_l; [lra|]; apply Rinv_le_contravar; lra). pose proof (third_sine x ltac:(lra) X2) as T. unfold Rsqr. assert (W : 1 / 20000000 <= sin x) by lra. assert (1 / 20000000 * (1 / 20000000) <= sin x * sin x) by (apply Rmult_le_compat; lra). lra. }
  destruct (Nat.le_gt_cases k m) as [A|A].
  - apply G.
    + apply Rmult_le_reg_r with (2 * INR m); [lra|]. replace (PI / (2 * INR m) * (2 * INR m)) with PI by (field; lra). replace (INR k * PI / (2 * INR m) * (2 * INR m)) with (INR k * PI) by (field; lra). assert (1 <= INR k) by (change 1 with (INR 1); apply le_INR; lia). nra.
    + apply Rmult_le_reg_r with (2 * INR m); [lra|]. replace (INR k * PI / (2 * INR m) * (2 * INR m)) with (INR k * PI) by (field; lra). replace (PI / 2 * (2 * INR m)) with (INR m * PI) by field. apply Rmult_le_compat_r; [lra|]. apply le_INR. lia.
  - rewrite <- sin_PI_x. assert (Ik : INR k <= 2 * INR m - 1). { replace (2 * INR m - 1) with (INR (2 * m - 1)); [apply le_INR; lia|]. rewrite minus_INR, mult_INR by lia. reflexivity. } assert (Jk : INR m <= INR k) by (apply le_INR; lia). apply G.
    + apply Rmult_le_reg_r with (2 * INR m); [lra|]. replace (PI / (2 * INR m) * (2 * INR m)) with PI by (field; lra). replace ((PI - INR k * PI / (2 * INR m)) * (2 * INR m)) with (PI * (2 * INR m - INR k)) by (field; lra). nra.
    + apply Rmult_le_reg_r with (2 * INR m); [lra|]. replace ((PI - INR k * PI / (2 * INR m)) * (2 * INR m)) with (PI * (2 * INR m - INR k)) by (field; lra). replace (PI / 2 * (2 * INR m)) with (INR m * PI) by field. nra.
Qed.
Lemma nodup_inj {A C} (f : A -> C) l : NoDup (map f l) -> forall a b, In a l -> In b l -> f a = f b -> a = b.
Proof.
  induction l as [|x l IH]; intros Nd a b Ia Ib E; [destruct Ia|]. cbn [map] in Nd. inversion Nd as [|? ? Nx Nl]; subst. destruct Ia as [<-|Ia], Ib as [<-|Ib]; [reflexivity| | |apply IH; assumption]; exfalso; apply Nx; [rewrite E|rewrite <- E]; apply in_map; assumption.
Qed.
Lemma distinct_apart H c ess : cell_fresh H c ess -> NoDup (map sx (contour_smp (concat ess))) -> apart (cell_grid c ess).
Proof. intros F Nd a b Ia Ib Nr _ E. rewrite <- (grid_smp H c ess F), map_map in Nd. apply Nr. rewrite (nodup_inj _ _ Nd a b Ia Ib E). reflexivity. Qed.
Lemma loc_range c ess a : In a (cell_grid c ess) -> exists r, In r (edges_in c ess) /\ p_edge a = snd r /\ (p_loc a < List.length (open_smp (p_edge a)))%nat.
Proof.
  intros I. destruct (grid_edge _ _ _ I) as (r & Ir & Ia). exists r. split; [exact Ir|]. unfold edge_points in Ia. apply in_map_iff in Ia. destruct Ia as ((i, s) & <- & Iis). cbn [p_edge p_loc fst snd]. split; [reflexivity|]. apply in_combine_l, in_seq in Iis. lia.
Qed.
Lemma grid_same H c ess a b : cell_fresh H c ess -> In a (cell_grid c ess) -> In b (cell_grid c ess) -> p_ref a = p_ref b -> p_edge a = p_edge b.
Proof.
  intros F Ia Ib E. destruct (grid_edge _ _ _ Ia) as ([p e] & Ir & Ja). destruct (grid_edge _ _ _ Ib) as ([q f] & Iq & Jb). destruct (in_points _ _ _ Ja) as [A1 A2]. destruct (in_points _ _ _ Jb) as [B1 B2]. pose proof (edges_heap _ _ _ _ F Ir) as Hp. pose proof (edges_heap _ _ _ _ F Iq) as Hq. cbn [fst snd] in Hp, Hq. congruence.
Qed.
Lemma distinct_separated H c ess m : cell_fresh H c ess -> Forall (Forall (fun e => e_npts e = (2 * Z.of_nat m + 1)%Z)) ess -> (Z.of_nat m <= 10000000)%Z -> NoDup (map sx (contour_smp (concat ess))) -> separated (cell_grid c ess).
Proof.
  intros F U Lm Nd a b Ia Ib Er _ Nl. split; [intros E; rewrite <- (grid_smp H c ess F), map_map in Nd; apply Nl; rewrite (nodup_inj _ _ Nd a b Ia Ib E); reflexivity|].
  pose proof (grid_same H c ess a b F Ia Ib Er) as Ee. destruct (loc_range _ _ _ Ia) as (ra & Ra & _ & La). destruct (loc_range _ _ _ Ib) as (r & Ir & Eb & Lb). rewrite Ee in La.
  assert (Np : e_npts (p_edge b) = (2 * Z.of_nat m + 1)%Z). { rewrite Eb. unfold edges_in in Ir. apply in_concat in Ir. destruct Ir as (l & Il & Il'). apply in_map_iff in Il. destruct Il as ((k, es) & <- & Ike). cbn [fst snd] in Il'. rewrite Forall_forall in U. specialize (U es (in_combine_r _ _ _ _ Ike)). rewrite Forall_forall in U. apply U. destruct r as [q f]. exact (in_combine_r _ _ _ _ Il'). }
  pose proof (edges_sampled _ _ _ _ F Ir) as W. rewrite <- Eb in W. pose proof (open_pos _ W) as [_ O]. unfold open_num in O. replace (Z.to_nat (e_npts (p_edge b) - 1) / 2)%nat with m.
  - apply fine_sine; [lia|exact Lm].
  - rewrite Np. replace (Z.to_nat (2 * Z.of_nat m + 1 - 1)) with (m * 2)%nat by lia. rewrite Nat.div_mul by lia. reflexivity.
Qed.

(** ** The circle *)
Lemma round_entry x0 r a b : 0 < r -> round x0 r (p_edge a) -> p_edge a = p_edge b -> p_ref a = p_ref b -> In (p_smp a) (open_smp (p_edge a)) -> In (p_smp b) (open_smp (p_edge b)) -> double_entry a b = - mesh_step b / 2.
Proof.
  intros P (Q & Fo) Ee Er Ia Ib. unfold double_entry, weightless. rewrite <- Ee, Q, andb_false_r. rewrite <- Ee in Ib. rewrite Forall_forall in Fo. destruct (Fo _ Ia) as (Da & _). destruct (Fo _ Ib) as (Db & Nb & Wb & Kb). rewrite Nb, Wb, Kb, Er, Nat.eqb_refl. cbn [andb fst snd]. destruct Rlt_dec as [_|Ge]; [field; lra|].
  assert (Pd : pair_dist a b <> 0) by lra. unfold pair_dist, dist2, Rsqr in *. set (x := fst (sx (p_smp a))) in *. set (y := snd (sx (p_smp a))) in *. set (u := fst (sx (p_smp b))) in *. set (v := snd (sx (p_smp b))) in *. set (d := (x - u) * (x - u) + (y - v) * (y - v)) in *.
  assert (E : (x - u) * ((u - fst x0) / r) + (y - v) * ((v - snd x0) / r) = - d / 2 / r). { assert (Ed : - d / 2 = (x - u) * (u - fst x0) + (y - v) * (v - snd x0)) by (unfold d; nra). rewrite Ed. field. lra. } rewrite E. field. split; lra.
Qed.
