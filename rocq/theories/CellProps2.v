(** The outer boundary (C39), integration over boundaries (C40), interior points (C41) and shared
    edges (C43). *)
From Coq Require Import List ZArith Reals Lia Lra Bool Permutation String.
From Verif Require Import PyBase PolyModel BaryModel BBoxModel QuadModel VertModel EdgeModel EdgeSpec EdgeProofs EdgeProps ContourModel CellModel CellSpec CellProofs CellProps ContourProofs ContourProofs2 ContourProofs3 InteriorProofs ContourProofs4 VertProps EdgeProps4 ContourProps CellProofs2 Annulus.
Import List ListNotations.
Open Scope R_scope.

(** ** C39 *)

(** The sampled polygon through the edges [ids] *)
Definition polygon (H : heap) (ids : list nat) : list pt :=
  concat (map (fun i => match nth_error H i with Some e => map sx (removelast (e_smp e)) | None => [] end) ids).
Definition encloses (contains : R -> list pt -> pt -> bool) (H : heap) (k k' : contour) : Prop :=
  Forall (fun p => contains 0 (polygon H (k_edges k)) p = true) (polygon H (k_edges k')).
(** Component [b] encloses all others; no other component encloses any. *)
Definition outermost (contains : R -> list pt -> pt -> bool) (H : heap) (ks : list contour) (b : nat) : Prop :=
  (b < List.length ks)%nat /\
  (forall j kb kj, nth_error ks b = Some kb -> nth_error ks j = Some kj -> j <> b -> encloses contains H kb kj) /\
  (forall i j ki kj, nth_error ks i = Some ki -> nth_error ks j = Some kj -> i <> j -> i <> b -> ~ encloses contains H ki kj).

Lemma polygon_refs H ids es : refs H ids es -> polygon H ids = path_of es.
Proof. unfold refs, polygon, path_of, contour_smp, open_smp. rewrite concat_map, map_map. induction 1 as [|i e ids es E F IH]; [reflexivity|]. cbn [map concat]. rewrite E, IH. reflexivity. Qed.

Lemma outer_component contains n p qd w H c H' c' b : get_quad_dict n p = Ok qd -> wf_cell c -> param_cell contains qd w H c = Ok (H', c') -> outermost contains H' (c_comps c) b ->
  exists k, hd_error (c_comps c') = Some k /\ hd_error (skipn (if Nat.ltb (S b) (List.length (c_comps c)) then b else O) (map (fun k => (k_edges k, k_orients k)) (c_comps c))) = Some (k_edges k, k_orients k).
Proof.
  intros Q W P (Hb & O1 & O2). destruct (param_cell_ok contains (fun _ _ => True) (fun _ _ _ _ _ _ => I) qd n p w H c H' c' Q W P) as (ess & ess' & Pr). destruct (p_outer _ _ _ _ _ _ _ _ _ Pr) as (c1 & c2 & ess1 & F & Ek & Eo & Eh & E2 & E').
  pose proof (Forall2_len _ _ _ F) as L. assert (L1 : List.length (c_comps c1) = List.length (c_comps c)) by (rewrite <- (map_length k_edges), Ek, map_length; reflexivity).
  assert (NE : c_comps c1 <> []) by (destruct (c_comps c1); [cbn in L1; lia|discriminate]). destruct W as (_ & EH & _).
  destruct (find_outer_ok contains H' c1 ess1 F ltac:(lia) NE) as (k0 & ko & A0 & Ao & X). rewrite X in E2. apply Ok_inj in E2. subst c2. cbn [with_comps c_comps] in E'.
  assert (PO : pick contains ess1 = if Nat.ltb (S b) (List.length ess1) then b else O).
  { assert (G : forall i j, (i < List.length ess1)%nat -> (j < List.length ess1)%nat -> exists ki kj, nth_error (c_comps c) i = Some ki /\ nth_error (c_comps c) j = Some kj /\ (encl contains (nth i ess1 []) (nth j ess1 []) = true <-> encloses contains H' ki kj)).
    { assert (G1 : forall i, (i < List.length ess1)%nat -> exists ki, nth_error (c_comps c) i = Some ki /\ polygon H' (k_edges ki) = path_of (nth i ess1 [])).
      { intros i Hi. destruct (nth_error (c_comps c) i) as [ki|] eqn:Ei; [|apply nth_error_None in Ei; lia]. exists ki. split; [reflexivity|]. destruct (nth_error (c_comps c1) i) as [k1|] eqn:E1; [|apply nth_error_None in E1; lia]. destruct (nth_error ess1 i) as [ei|] eqn:Ee; [|apply nth_error_None in Ee; lia]. rewrite (nth_error_nth _ _ [] Ee).
        assert (Y : nth_error (map k_edges (c_comps c1)) i = nth_error (map k_edges (c_comps c)) i) by (rewrite Ek; reflexivity). rewrite !nth_error_map, Ei, E1 in Y. injection Y as Y. rewrite <- Y. apply polygon_refs. exact (proj1 (Forall2_nth _ _ _ F _ _ _ E1 Ee)). }
      intros i j Hi Hj. destruct (G1 i Hi) as (ki & Ei & Pi). destruct (G1 j Hj) as (kj & Ej & Pj). exists ki, kj. split; [exact Ei|]. split; [exact Ej|]. unfold encl, encloses. rewrite Pi, Pj, forallb_forall, Forall_forall. reflexivity. }
    apply pick_only; [lia| |].
    - intros j Hj D. destruct (G b j ltac:(lia) Hj) as (kb & kj & Eb & Ej & T). apply T. eapply O1; eassumption.
    - intros i j Hi Hj D D'. destruct (G i j Hi Hj) as (ki & kj & Ei & Ej & T). apply not_true_is_false. rewrite T. eapply O2; eassumption. }
  replace (List.length ess1) with (List.length (c_comps c)) in PO by lia.
  pose proof (swap0_nth (c_comps c1) (pick contains ess1) k0 ko A0 Ao) as SN. specialize (SN O). cbn beta in SN. exists ko. split.
  - rewrite E'. change (hd_error (swap0 (c_comps c1) (pick contains ess1) k0 ko)) with (nth_error (swap0 (c_comps c1) (pick contains ess1) k0 ko) O). rewrite SN. destruct (Nat.eqb_spec 0 (pick contains ess1)) as [Z0|]; [congruence|reflexivity].
  - rewrite <- PO. assert (Y : map (fun k => (k_edges k, k_orients k)) (c_comps c) = map (fun k => (k_edges k, k_orients k)) (c_comps c1)).
    { clear -Ek Eo. revert Ek Eo. generalize (c_comps c) as l, (c_comps c1) as l1. induction l as [|a l IH]; intros [|a1 l1] E1 E2; try discriminate; [reflexivity|]. cbn in *. injection E1 as A1 A2. injection E2 as B1 B2. rewrite A1, B1. f_equal. apply IH; assumption. }
    rewrite Y. clear -Ao. revert Ao. generalize (pick contains ess1) as m, (c_comps c1) as l. induction m as [|m IH]; intros [|a l] E; try discriminate; cbn in *; [congruence|apply IH, E].
Qed.

(** The outer boundary comes first if it is the only component or is not listed last. *)
Theorem C39_outer_first_partial contains H0 z ids mesh rtol atol c n p qd w H H' c' b kb : mk_cell H0 z ids mesh rtol atol = Ok c -> get_quad_dict n p = Ok qd -> param_cell contains qd w H c = Ok (H', c') ->
  outermost contains H' (c_comps c) b -> nth_error (c_comps c) b = Some kb -> List.length (c_comps c) = 1%nat \/ (S b < List.length (c_comps c))%nat ->
  exists k ks, c_comps c' = k :: ks /\ k_edges k = k_edges kb /\ k_orients k = k_orients kb.
Proof.
  intros B Q P OM Eb Hb. destruct (outer_component _ _ _ _ _ _ _ _ _ _ Q (built_wf _ _ _ _ _ _ _ B) P OM) as (k & Hk & E). destruct (c_comps c') as [|k' ks]; [discriminate|]. injection Hk as ->. exists k, ks. split; [reflexivity|].
  assert (X : (if Nat.ltb (S b) (List.length (c_comps c)) then b else O) = b) by (destruct (Nat.ltb_spec (S b) (List.length (c_comps c))); [reflexivity|destruct OM as [Lb _]; lia]). rewrite X in E.
  assert (Y : nth_error (map (fun k => (k_edges k, k_orients k)) (c_comps c)) b = Some (k_edges k, k_orients k)) by (clear -E; revert E; generalize (map (fun k => (k_edges k, k_orients k)) (c_comps c)); induction b as [|b IH]; intros [|x l] E; cbn in *; congruence || (apply IH; exact E)).
  rewrite nth_error_map, Eb in Y. injection Y as Y1 Y2. split; congruence.
Qed.
Print Assumptions C39_outer_first_partial.

(** If it is listed last, after at least one hole, that hole stays first. *)
Theorem C39_outer_last_refuted contains H0 z ids mesh rtol atol c n p qd w H H' c' b k0 kb : mk_cell H0 z ids mesh rtol atol = Ok c -> get_quad_dict n p = Ok qd -> param_cell contains qd w H c = Ok (H', c') ->
  outermost contains H' (c_comps c) b -> S b = List.length (c_comps c) -> (0 < b)%nat -> nth_error (c_comps c) 0 = Some k0 -> nth_error (c_comps c) b = Some kb ->
  exists k ks, c_comps c' = k :: ks /\ k_edges k = k_edges k0 /\ k_edges k <> k_edges kb.
Proof.
  intros B Q P OM Hb B0 E0 Eb. pose proof (built_wf _ _ _ _ _ _ _ B) as W. destruct (outer_component _ _ _ _ _ _ _ _ _ _ Q W P OM) as (k & Hk & E). destruct (c_comps c') as [|k' ks]; [discriminate|]. injection Hk as ->. exists k, ks. split; [reflexivity|].
  rewrite Hb in E. rewrite Nat.ltb_irrefl in E. cbn [skipn] in E. destruct W as (ND & _ & F). destruct (c_comps c) as [|k1 l] eqn:Ec; [discriminate|]. injection E0 as ->. cbn [map hd_error] in E. injection E as E _. split; [congruence|]. intros X. rewrite X in E.
  destruct b as [|b]; [lia|]. cbn [nth_error] in Eb. unfold cell_edges in ND. rewrite Ec in ND. cbn [map concat] in ND. inversion F as [|? ? [_ N0] _]; subst. destruct (k_edges k0) as [|i is]; [congruence|]. cbn [app] in ND. inversion ND as [|? ? NI _]; subst. apply NI. apply in_or_app. right. apply in_concat. exists (k_edges kb). split; [apply in_map, (nth_error_In _ _ Eb)|]. rewrite <- E. left. reflexivity.
Qed.
Print Assumptions C39_outer_last_refuted.

(** ** The two circles after parameterization *)

Lemma param_edge contains n p qd w H c H' c' k j i o : get_quad_dict n p = Ok qd -> wf_cell c -> param_cell contains qd w H c = Ok (H', c') -> In k (c_comps c) -> nth_error (k_edges k) j = Some i -> nth_error (k_orients k) j = Some o ->
  exists e e', nth_error H i = Some e /\ nth_error H' i = Some e' /\ resampled qd o e e'.
Proof.
  intros Q W P Hk Hj Ho. destruct (param_cell_ok contains (fun _ _ => True) (fun _ _ _ _ _ _ => I) qd n p w H c H' c' Q W P) as (ess & ess' & Pr).
  assert (X : In (k_edges k, k_orients k) (map (fun k => (k_edges k, k_orients k)) (c_comps c'))) by (eapply Permutation_in; [symmetry; apply Pr|apply (in_map (fun k => (k_edges k, k_orients k)) _ _ Hk)]).
  apply in_map_iff in X. destruct X as (k' & X & Ik). injection X as X1 X2. rewrite <- X1 in Hj. rewrite <- X2 in Ho. clear X1 X2 Hk k. apply In_nth_error in Ik. destruct Ik as (m & Em).
  pose proof (Forall2_len _ _ _ (p_old _ _ _ _ _ _ _ _ _ Pr)) as L. pose proof (Forall2_len _ _ _ (proj1 (p_fresh _ _ _ _ _ _ _ _ _ Pr))) as L'. assert (Lm : (m < List.length (c_comps c'))%nat) by (apply nth_error_Some; congruence).
  destruct (nth_error ess m) as [es|] eqn:Es; [|apply nth_error_None in Es; lia]. destruct (nth_error ess' m) as [es'|] eqn:Es'; [|apply nth_error_None in Es'; lia].
  pose proof (Forall2_nth _ _ _ (p_old _ _ _ _ _ _ _ _ _ Pr) _ _ _ Em Es) as Ro. pose proof (Forall2_nth _ _ _ (proj1 (p_fresh _ _ _ _ _ _ _ _ _ Pr)) _ _ _ Em Es') as (Rn & _).
  assert (Ec : nth_error (combine (c_comps c') ess) m = Some (k', es)) by (rewrite nth_error_combine, Em, Es; reflexivity). pose proof (Forall2_nth _ _ _ (p_new _ _ _ _ _ _ _ _ _ Pr) _ _ _ Ec Es') as Rs. cbn [fst snd] in Rs.
  pose proof (Forall2_len _ _ _ Ro) as A. pose proof (Forall2_len _ _ _ Rn) as A'. assert (Lj : (j < List.length (k_edges k'))%nat) by (apply nth_error_Some; congruence).
  destruct (nth_error es j) as [e|] eqn:Ee; [|apply nth_error_None in Ee; lia]. destruct (nth_error es' j) as [e'|] eqn:Ee'; [|apply nth_error_None in Ee'; lia].
  exists e, e'. split; [exact (Forall2_nth _ _ _ Ro _ _ _ Hj Ee)|]. split; [exact (Forall2_nth _ _ _ Rn _ _ _ Hj Ee')|].
  assert (Ec' : nth_error (combine (k_orients k') es) j = Some (o, e)) by (rewrite nth_error_combine, Ho, Ee; reflexivity). exact (Forall2_nth _ _ _ Rs _ _ _ Ec' Ee').
Qed.
Definition annulus (c : cell) : Prop := exists z os m tol, c = made z [unset z 0 (-1); unset z 1 1] os m tol \/ c = made z [unset z 1 1; unset z 0 (-1)] os m tol.
Lemma annulus_circles c : annulus c -> circles c.
Proof. intros (z & os & m & tol & [->| ->]); exists z, os, m, tol; auto. Qed.
Lemma annulus_after w H c H' c' : like_rings H -> annulus c -> param_cell disc dict4 w H c = Ok (H', c') ->
  exists e0 e1, nth_error H' 0 = Some e0 /\ nth_error H' 1 = Some e1 /\ like e0 1 1 2 1 /\ like e1 0 4 1 (-1) /\ e_npts e0 = 9%Z /\ e_npts e1 = 9%Z /\ map sx (e_smp e0) = oct 1 1 (-1) /\ map sx (e_smp e1) = oct 0 4 1.
Proof.
  intros (a0 & a1 & A0 & A1 & L0 & L1) An P. assert (W : wf_cell c) by apply circles_wf, annulus_circles, An.
  assert (I : exists z, In (unset z 0 (-1)) (c_comps c) /\ In (unset z 1 1) (c_comps c)) by (destruct An as (z & os & m & tol & [->| ->]); exists z; cbn; auto). destruct I as (z & I0 & I1).
  destruct (param_edge _ _ _ _ _ _ _ _ _ _ O O (-1)%Z dict4_ok W P I0 eq_refl eq_refl) as (b0 & e0 & B0 & E0 & R0). destruct (param_edge _ _ _ _ _ _ _ _ _ _ O 1%nat 1%Z dict4_ok W P I1 eq_refl eq_refl) as (b1 & e1 & B1 & E1 & R1).
  assert (b0 = a0) by congruence. subst b0. assert (b1 = a1) by congruence. subst b1. exists e0, e1. split; [exact E0|]. split; [exact E1|]. split; [exact (like_after _ _ _ _ _ _ _ L0 R0)|]. split; [exact (like_after _ _ _ _ _ _ _ L1 R1)|].
  destruct (ring_resampled _ _ _ _ _ _ _ L0 R0) as [N0 S0]. destruct (ring_resampled _ _ _ _ _ _ _ L1 R1) as [N1 S1]. auto.
Qed.
Lemma disc_after w H z os m tol H' c' : like_rings H -> param_cell disc dict4 w H (made z [unset z 0 1] os m tol) = Ok (H', c') ->
  exists e0, nth_error H' 0 = Some e0 /\ e_npts e0 = 9%Z /\ map sx (e_smp e0) = oct 1 1 1.
Proof.
  intros (a0 & a1 & A0 & A1 & L0 & L1) P. assert (W : wf_cell (made z [unset z 0 1] os m tol)) by (apply circles_wf; exists z, os, m, tol; auto).
  destruct (param_edge _ _ _ _ _ _ _ _ _ (unset z 0 1) O O 1%Z dict4_ok W P (or_introl eq_refl) eq_refl eq_refl) as (b0 & e0 & B0 & E0 & R0). assert (b0 = a0) by congruence. subst b0. exists e0. split; [exact E0|]. exact (ring_resampled _ _ _ _ _ _ _ L0 R0).
Qed.
Lemma polygon_one H i e x r s : nth_error H i = Some e -> map sx (e_smp e) = oct x r s -> polygon H [i] = firstn 8 (oct x r s).
Proof. intros E S. rewrite (polygon_refs H [i] [e]) by (constructor; [exact E|constructor]). apply ring_path, S. Qed.
Lemma in_firstn {A} n (l : list A) x : In x (firstn n l) -> In x l.
Proof. intros I. rewrite <- (firstn_skipn n l). apply in_or_app. left. exact I. Qed.
Lemma annulus_nested H' e0 e1 z z' : nth_error H' 0 = Some e0 -> nth_error H' 1 = Some e1 -> map sx (e_smp e0) = oct 1 1 (-1) -> map sx (e_smp e1) = oct 0 4 1 ->
  encloses disc H' (unset z 1 1) (unset z' 0 (-1)) /\ ~ encloses disc H' (unset z' 0 (-1)) (unset z 1 1).
Proof.
  intros E0 E1 S0 S1. unfold encloses. cbn [unset k_edges]. rewrite (polygon_one _ _ _ _ _ _ E0 S0), (polygon_one _ _ _ _ _ _ E1 S1). split.
  - apply Forall_forall. intros p Ip. rewrite <- (app_nil_r (firstn 8 (oct 0 4 1))). rewrite disc_oct by lra. apply Rltb_true. apply in_firstn in Ip. apply oct_dist in Ip; [|lra|auto].
    assert (T : pdist p (0, 0) <= pdist p (1, 0) + 1). { pose proof (pdist_triangle p (1, 0) (0, 0)) as T. rewrite (pdist_flat 1 0 1) in T by (lra || ring). exact T. } lra.
  - intros F. rewrite Forall_forall in F. specialize (F (0 - 4, 0)). rewrite <- (app_nil_r (firstn 8 (oct 1 1 (-1)))) in F. rewrite disc_oct in F by lra. specialize (F ltac:(cbn; tauto)). apply Rltb_true in F. rewrite (pdist_flat (0 - 4) 1 5) in F by (lra || ring). lra.
Qed.

(** Examples: the annulus with the outer circle listed first, and with the hole listed first *)
Example C39_example : exists c H' c' k ks, mk_cell rings 1 [1; 0]%nat (5, 5)%Z 1 1 = Ok c /\ param_cell disc dict4 false rings c = Ok (H', c') /\ outermost disc H' (c_comps c) 0 /\ c_comps c' = k :: ks /\ k_edges k = [1%nat].
Proof.
  pose proof (ring_cell_outer (5, 5)%Z 1 ltac:(lra)) as B. set (c := made _ _ _ _ _) in B. assert (An : annulus c) by (exists 1%Z, [1; -1]%Z, (5, 5)%Z, 1; right; reflexivity). destruct (circles_param rings c rings_like (annulus_circles _ An)) as (H' & c' & P). exists c, H', c'.
  destruct (annulus_after _ _ _ _ _ rings_like An P) as (e0 & e1 & E0 & E1 & _ & _ & _ & _ & S0 & S1). destruct (annulus_nested H' e0 e1 1 1 E0 E1 S0 S1) as [N1 N2].
  assert (OM : outermost disc H' (c_comps c) 0).
  { split; [cbn; lia|]. split.
    - intros [|[|j]] kb kj Hb Hj D; cbn in Hb, Hj; try congruence; destruct j; discriminate.
    - intros [|[|i]] j ki kj Hi Hj D D'; cbn in Hi; try congruence; try (destruct i; discriminate). destruct j as [|[|j]]; cbn in Hj; try congruence; destruct j; discriminate. }
  destruct (C39_outer_first_partial disc rings 1 _ _ _ _ c _ _ dict4 false rings H' c' O (unset 1 1 1) B dict4_ok P OM eq_refl (or_intror (Nat.lt_succ_diag_r 1))) as (k & ks & Ek & Ee & _). exists k, ks. repeat (split; [assumption|]). first [exact Ee | reflexivity].
Qed.
Theorem C39_refuted : exists c H' c' k ks, mk_cell rings 1 [0; 1]%nat (5, 5)%Z 1 1 = Ok c /\ param_cell disc dict4 false rings c = Ok (H', c') /\ outermost disc H' (c_comps c) 1 /\ c_comps c' = k :: ks /\ k_edges k = [0%nat] /\ map k_edges (c_comps c) = [[0%nat]; [1%nat]].
Proof.
  pose proof (ring_cell_inner (5, 5)%Z 1 ltac:(lra)) as B. set (c := made _ _ _ _ _) in B. assert (An : annulus c) by (exists 1%Z, [-1; 1]%Z, (5, 5)%Z, 1; left; reflexivity). destruct (circles_param rings c rings_like (annulus_circles _ An)) as (H' & c' & P). exists c, H', c'.
  destruct (annulus_after _ _ _ _ _ rings_like An P) as (e0 & e1 & E0 & E1 & _ & _ & _ & _ & S0 & S1). destruct (annulus_nested H' e0 e1 1 1 E0 E1 S0 S1) as [N1 N2].
  assert (OM : outermost disc H' (c_comps c) 1).
  { split; [cbn; lia|]. split.
    - intros [|[|j]] kb kj Hb Hj D; cbn in Hb, Hj; try congruence; destruct j; discriminate.
    - intros [|[|i]] j ki kj Hi Hj D D'; cbn in Hi; try congruence; try (destruct i; discriminate). destruct j as [|[|j]]; cbn in Hj; try congruence; destruct j; discriminate. }
  destruct (C39_outer_last_refuted disc rings 1 _ _ _ _ c _ _ dict4 false rings H' c' 1%nat (unset 1 0 (-1)) (unset 1 1 1) B dict4_ok P OM eq_refl Nat.lt_0_1 eq_refl eq_refl) as (k & ks & Ek & Ee & _). exists k, ks. repeat (split; [assumption|]). first [exact Ee | reflexivity].
Qed.
Print Assumptions C39_refuted.

(** Example for C37 and C38: the annulus is ready; index 9 is the second sample of the hole, its
    nearest corner is the only vertex of the hole, but the table sends it to index 0 of the cell. *)
Example C38_example : exists H' c' k0 k1 l, ready disc H' c' /\ c_comps c' = [k0; k1] /\ c_npts c' = Some 16%Z /\ stands_for H' c' 1 (0%nat, 0%nat, 1%Z) 1 /\ stands_for H' c' 9 (1%nat, 0%nat, 1%Z) 0 /\ c_closest c' = Some l /\ nth_error l 1 = Some 0%Z /\ nth_error l 9 = Some 0%Z.
Proof.
  pose proof (ring_cell_outer (5, 5)%Z 1 ltac:(lra)) as B. set (c := made _ _ _ _ _) in B. assert (An : annulus c) by (exists 1%Z, [1; -1]%Z, (5, 5)%Z, 1; right; reflexivity). destruct (circles_param rings c rings_like (annulus_circles _ An)) as (H' & c' & P).
  assert (Rd : ready disc H' c') by (exists rings, 1%Z, [1; 0]%nat, (5, 5)%Z, 1, 1, c, (PInt 4), 7%Z, dict4, false, rings; split; [exact B|]; split; [exact dict4_ok|exact P]).
  destruct (annulus_after _ _ _ _ _ rings_like An P) as (e0 & e1 & E0 & E1 & _ & _ & M0 & M1 & S0 & S1). destruct (annulus_nested H' e0 e1 1 1 E0 E1 S0 S1) as [N1 N2].
  assert (OM : outermost disc H' (c_comps c) 0).
  { split; [cbn; lia|]. split.
    - intros [|[|j]] kb kj Hb Hj D; cbn in Hb, Hj; try congruence; destruct j; discriminate.
    - intros [|[|i]] j ki kj Hi Hj D D'; cbn in Hi; try congruence; try (destruct i; discriminate). destruct j as [|[|j]]; cbn in Hj; try congruence; destruct j; discriminate. }
  destruct (C39_outer_first_partial disc rings 1 _ _ _ _ c _ _ dict4 false rings H' c' O (unset 1 1 1) B dict4_ok P OM eq_refl (or_intror (Nat.lt_succ_diag_r 1))) as (k & ks & Ek & Ee & _).
  destruct (param_cell_ok disc (fun _ _ => True) (fun _ _ _ _ _ _ => I) dict4 _ _ _ _ _ _ _ dict4_ok (circles_wf _ (annulus_circles _ An)) P) as (ess & ess' & Pr). pose proof (Permutation_map fst (p_edges _ _ _ _ _ _ _ _ _ Pr)) as PE. rewrite !map_map in PE. cbn [fst] in PE. change (map (fun x => k_edges x) (c_comps c)) with [[1%nat]; [0%nat]] in PE. rewrite Ek in PE. cbn [map] in PE. rewrite Ee in PE. cbn [unset k_edges] in PE. apply Permutation_cons_inv in PE. apply Permutation_sym, Permutation_length_1_inv in PE.
  destruct ks as [|k1 [|? ?]]; try discriminate. cbn [map] in PE. injection PE as E2. pose proof (p_fresh _ _ _ _ _ _ _ _ _ Pr) as (F & _ & EN & ES). pose proof (p_table _ _ _ _ _ _ _ _ _ Pr) as ET. rewrite Ek in F. inversion F as [|? es0 ? l0 F0 F1 X1 X2]; subst. inversion F1 as [|? es1 ? l1 F2 F3]; subst. inversion F3; subst.
  destruct F0 as (R0 & _ & _ & V0). destruct F2 as (R1 & _ & _ & V1). rewrite Ee in R0. rewrite E2 in R1. cbn [unset k_edges] in R0. inversion R0 as [|? x0 ? y0 Y0 Y0']; subst. inversion Y0'; subst. inversion R1 as [|? x1 ? y1 Y1 Y1']; subst. inversion Y1'; subst. assert (x0 = e1) by congruence. subst x0. assert (x1 = e0) by congruence. subst x1.
  assert (C0 : csize [e1] = 8%Z) by (unfold csize, open_num; cbn [map total fold_right]; rewrite M1; reflexivity). assert (C1 : csize [e0] = 8%Z) by (unfold csize, open_num; cbn [map total fold_right]; rewrite M0; reflexivity).
  exists H', c', k, k1, (concat (map closest [[e1]; [e0]])). split; [exact Rd|]. split; [exact Ek|]. split; [rewrite EN; cbn [map total fold_right]; rewrite C0, C1; reflexivity|].
  assert (ES' : c_start c' = Some [0; 8; 16]%Z) by (rewrite ES; unfold offsets; cbn [map offsets_from]; rewrite C0, C1; reflexivity). unfold open_num in V0, V1. cbn [map] in V0, V1. rewrite M1 in V0. rewrite M0 in V1. cbn in V0, V1.
  split; [exists k, e1, [0; 8; 16]%Z, 0%Z, 0%Z; rewrite Ek, Ee, V0; repeat split; try assumption; lia|]. split; [exists k1, e0, [0; 8; 16]%Z, 8%Z, 0%Z; rewrite Ek, E2, V1; repeat split; try assumption; lia|]. split; [exact ET|].
  assert (Q : forall e, e_npts e = 9%Z -> closest [e] = [0; 0; 0; 0; 0; 0; 0; 0]%Z) by (intros e M; unfold closest, closest_from, closest_block, open_num; cbn [map total fold_right]; rewrite M; reflexivity). cbn [map concat]. rewrite (Q e1 M1), (Q e0 M0). split; reflexivity.
Qed.
