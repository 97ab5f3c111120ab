(** Lemmas for the convergence of integrals (C79): edges of either side and boundaries of cells. *)
From Coq Require Import List ZArith Reals Lia Lra Psatz Bool String Permutation.
From Coquelicot Require Import Coquelicot.
From Verif Require Import PyBase PolyModel BaryModel BBoxModel QuadModel QuadSpec QuadProofs QuadProps CurveModel CurveSpec CurveProps VertModel EdgeModel ContourModel CellModel CellSpec EdgeSpec EdgeProofs EdgeProofs2 EdgeProps EdgeProps3 EdgeProps4 CellProofs CellProps ContourProofs ContourProofs3 ContourProofs4 ContourProps CellProps2 CellProps3 ConvSpec ConvProofs.
Import List ListNotations.
Open Scope R_scope.

(** ** One edge *)
Lemma rule_continuous p e D t : (2 <= p)%Z -> (forall t, 0 <= t <= 2 * PI -> continuous D t) -> 0 <= t <= 2 * PI -> continuous (fun t => rule_dphi p e t * D (rule_phi p e t)) t.
Proof.
  intros Hp C Ht. destruct (proj1 (edge_rule p e Hp) t Ht) as (R1 & C1 & C2). apply (continuous_mult (rule_dphi p e) (fun t => D (rule_phi p e t))); [exact C2|]. apply (continuous_comp (rule_phi p e) D); [exact C1|apply C, R1].
Qed.
Lemma sum_rev l : sum_list (rev l) = sum_list l.
Proof. apply sum_perm. symmetry. apply Permutation_rev. Qed.
Lemma removelast_rev {A} (l : list A) : removelast (rev l) = rev (tl l).
Proof. destruct l as [|a l]; [reflexivity|]. cbn [rev tl]. apply removelast_last. Qed.
Lemma removelast_map {A B} (f : A -> B) l : removelast (map f l) = map f (removelast l).
Proof. induction l as [|a [|b l] IH]; [reflexivity|reflexivity|]. cbn [map removelast] in *. rewrite IH. reflexivity. Qed.
Lemma removelast_seq m : removelast (seq 0 (m + 1)) = seq 0 m.
Proof. rewrite seq_app. cbn [seq Nat.add]. apply removelast_last. Qed.
Lemma trapezoid_pairs h (f : nat -> R) : forall m a, trapezoid h (map f (seq a (S m))) = h * sum_list (map (fun i => (f i + f (S i)) / 2) (seq a m)).
Proof.
  induction m as [|m IH]; intros a; [unfold trapezoid; cbn; ring|].
  assert (E : trapezoid h (map f (seq a (S (S m)))) = h * (f a + f (S a)) / 2 + trapezoid h (map f (seq (S a) (S m)))) by reflexivity.
  rewrite E, IH. cbn [seq map]. change (sum_list (?x :: ?l)) with (x + sum_list l). unfold Rdiv. ring.
Qed.
Lemma nat_steps n : (4 <= n)%Z -> INR (2 * Z.to_nat n) = IZR (2 * n + 1 - 1).
Proof. intros H. rewrite INR_IZR_INZ. f_equal. lia. Qed.

Definition smp_sum (G : pt -> pt -> R) (e : edge) : R := 2 * PI / IZR (e_npts e - 1) * sum_list (map (fun s => G (sx s) (sN s) * sw s) (removelast (e_smp e))).

Lemma edge_side G o e X DX p Y' : continuous_field G -> smooth_edge e X DX -> (2 <= p)%Z -> velocity e X Y' -> o = 1%Z \/ o = (-1)%Z -> forall eps, 0 < eps -> exists K, forall n, (K <= n)%Z -> forall qd e', get_quad_dict (PInt n) p = Ok qd ->
  resampled qd o e e' -> Rabs (smp_sum G e' - line_integral G (IZR o) (traced X e) Y' (fst (e_tb e)) (snd (e_tb e))) <= eps.
Proof.
  intros HG HS Hp HY Ho eps He. destruct (edge_limit G (IZR o) e X DX p HG HS Hp) as (D & CD & LD & F). destruct (LD Y' HY) as (<- & _).
  set (g := fun t => rule_dphi p e t * D (rule_phi p e t)). assert (Cg : forall t, 0 <= t <= 2 * PI -> continuous g t) by (intros t Ht; apply rule_continuous; assumption).
  assert (Ig : RInt g 0 (2 * PI) = RInt D 0 (2 * PI)) by (apply (proj2 (edge_rule p e Hp)); exact CD). rewrite <- Ig.
  destruct (rules_converge g Cg eps He) as (K & K0 & HK). exists (Z.max 4 (Z.of_nat K)). intros n Hn qd e' Eq (e1 & Ep & ->).
  destruct (F n ltac:(lia)) as (qd' & e1' & Eq' & Ep' & En & ES). rewrite Eq in Eq'. apply Ok_inj in Eq'. subst qd'. rewrite Ep in Ep'. apply Ok_inj in Ep'. subst e1'.
  destruct (C33_well_sampled _ _ _ _ _ Eq Ep) as ((Pt & Le & _) & _). set (m := (2 * Z.to_nat n)%nat) in *. assert (EM : INR m = IZR (2 * n + 1 - 1)) by (apply nat_steps; lia).
  cbv zeta in ES. change (map (fun s => G (sx s) (pt_scale (IZR o) (sN s)) * sw s) (e_smp e1) = map (fun i => g (INR i * (2 * PI / INR m))) (seq 0 (m + 1))) in ES.
  assert (Np : e_npts (if Z.eqb o (-1) then reverse_orientation e1 else e1) = (2 * n + 1)%Z) by (destruct (Z.eqb o (-1)); [unfold reverse_orientation; rewrite Pt; exact En|exact En]).
  unfold smp_sum. rewrite Np, <- EM. destruct Ho as [-> | ->]; cbn [Z.eqb Pos.eqb].
  - assert (E1 : map (fun s => G (sx s) (sN s) * sw s) (e_smp e1) = map (fun i => g (INR i * (2 * PI / INR m))) (seq 0 (m + 1))) by (rewrite <- ES; apply map_ext; intros s; rewrite pt_scale_1; reflexivity).
    rewrite <- removelast_map, E1, removelast_map, removelast_seq. apply HK; [lia|]. intros i Hi. exists 0. split; [lra|]. lra.
  - unfold reverse_orientation. rewrite Pt. cbn [with_smp e_smp]. rewrite removelast_rev, map_rev, sum_rev.
    assert (E1 : forall l, map (fun s => G (sx s) (sN s) * sw s) (tl (map reverse_sample l)) = tl (map (fun s => G (sx s) (pt_scale (-1) (sN s)) * sw s) l)).
    { intros [|s l]; [reflexivity|]. cbn [map tl]. rewrite map_map. apply map_ext. intros s'. unfold reverse_sample. cbn [sx sN sw]. unfold pt_scale. do 3 f_equal; ring. }
    rewrite E1, ES. assert (E2 : tl (map (fun i => g (INR i * (2 * PI / INR m))) (seq 0 (m + 1))) = map (fun i => g (INR (S i) * (2 * PI / INR m))) (seq 0 m)) by (rewrite Nat.add_1_r; cbn [seq map tl]; rewrite <- seq_shift, map_map; reflexivity).
    rewrite E2. apply (HK m (fun i => g (INR (S i) * (2 * PI / INR m)))); [lia|]. intros i Hi. exists 1. split; [lra|]. lra.
Qed.

(** ** The boundary of a cell *)
Lemma Forall2_concat {A B} (P : A -> B -> Prop) l l' : Forall2 (Forall2 P) l l' -> Forall2 P (concat l) (concat l').
Proof. induction 1; cbn [concat]; [constructor|]. apply Forall2_app; assumption. Qed.
Definition oriented (c : cell) : list (nat * Z) := concat (map (fun k => combine (k_edges k) (k_orients k)) (c_comps c)).
Lemma combine_fst {A B} (l : list A) (m : list B) : List.length l = List.length m -> map fst (combine l m) = l.
Proof. revert m. induction l as [|a l IH]; intros [|b m] L; try discriminate; [reflexivity|]. cbn. f_equal. apply IH. injection L. auto. Qed.
Lemma oriented_fst c : wf_cell c -> map fst (oriented c) = cell_edges c.
Proof.
  intros (_ & _ & F). unfold oriented, cell_edges. induction F as [|k ks ((W & _) & _) F IH] || induction F as [|k ks (W & _) F IH]; [reflexivity|]. cbn [map concat]. rewrite map_app, IH. f_equal. apply combine_fst. apply W.
Qed.
Lemma oriented_perm Pk qd H c H' c' ess ess' contains : parameterized contains Pk qd H c H' c' ess ess' -> Permutation (oriented c') (oriented c).
Proof.
  intros Pr. pose proof (p_edges _ _ _ _ _ _ _ _ _ Pr) as E. unfold oriented. assert (X : forall l : list contour, map (fun k => combine (k_edges k) (k_orients k)) l = map (fun x => combine (fst x) (snd x)) (map (fun k => (k_edges k, k_orients k)) l)) by (intros l; rewrite map_map; reflexivity).
  rewrite !X. rewrite <- !flat_map_concat_map. apply Permutation_flat_map. exact E.
Qed.
Lemma oriented_edges Pk qd H c H' c' ess ess' contains : parameterized contains Pk qd H c H' c' ess ess' -> Forall (fun k => List.length (k_edges k) = List.length (k_orients k)) (c_comps c') ->
  Forall2 (fun io e' => exists e, nth_error H (fst io) = Some e /\ resampled qd (snd io) e e') (oriented c') (concat ess').
Proof.
  intros Pr Ls. unfold oriented. apply Forall2_concat. pose proof (p_old _ _ _ _ _ _ _ _ _ Pr) as Fo. pose proof (p_new _ _ _ _ _ _ _ _ _ Pr) as Fn.
  clear Pr. revert ess' Fn Ls. induction Fo as [|k es ks ess R Fo IH]; intros ess' Fn Ls; cbn [combine] in Fn; inversion Fn as [|? es' ? ess1 Hk Fn']; subst; cbn [map]; constructor; [|apply IH; [exact Fn'|inversion Ls; assumption]].
  cbn [fst snd] in Hk. inversion Ls as [|? ? L _]; subst. clear -Hk R L. unfold refs in R. revert L es' Hk. generalize (k_orients k) as os. induction R as [|i e ids es Ei R IH]; intros [|o os] L es' Hk; try discriminate; cbn [combine] in *; inversion Hk; subst; constructor.
  - exists e. split; [exact Ei|]. assumption.
  - apply IH; [injection L; auto|assumption].
Qed.
Lemma side_orient H z ids mesh rtol atol c i o : mk_cell H z ids mesh rtol atol = Ok c -> In (i, o) (oriented c) -> exists e, nth_error H i = Some e /\ (o = 1%Z \/ o = (-1)%Z) /\ IZR o = side z e.
Proof.
  intros M I. destruct (C36_contours _ _ _ _ _ _ _ M) as (_ & _ & _ & _ & F). unfold oriented in I. apply in_concat in I. destruct I as (l & Il & I). apply in_map_iff in Il. destruct Il as (k & <- & Ik). rewrite Forall_forall in F. destruct (F k Ik) as (_ & F2). clear -F2 I.
  revert I. induction F2 as [|j o' is os (e & Ee & _ & Eo) F2 IH]; intros I; [destruct I|]. destruct I as [I|I]; [|apply IH, I]. injection I as -> ->. exists e. split; [exact Ee|]. unfold side. rewrite Eo. destruct (Z.eqb z (e_pos e)); split; auto.
Qed.
Lemma max_bound {A} (P : A -> Z -> Prop) l : (forall a, In a l -> exists K, forall n, (K <= n)%Z -> P a n) -> exists K, forall n, (K <= n)%Z -> Forall (fun a => P a n) l.
Proof.
  induction l as [|a l IH]; intros H; [exists 0%Z; constructor|]. destruct (H a (or_introl eq_refl)) as (K1 & H1). destruct (IH (fun b Hb => H b (or_intror Hb))) as (K2 & H2). exists (Z.max K1 K2). intros n Hn. constructor; [apply H1; lia|apply H2; lia].
Qed.
Lemma sum_close {A B} (f : A -> R) (g : B -> R) d l l' : Forall2 (fun a b => Rabs (g b - f a) <= d) l l' -> Rabs (sum_list (map g l') - sum_list (map f l)) <= INR (List.length l) * d.
Proof.
  induction 1 as [|a b l l' E F IH]; [cbn; rewrite Rminus_0_r, Rabs_R0; lra|]. cbn [map List.length]. rewrite S_INR. change (sum_list (?x :: ?l)) with (x + sum_list l).
  replace (g b + sum_list (map g l') - (f a + sum_list (map f l))) with ((g b - f a) + (sum_list (map g l') - sum_list (map f l))) by ring. eapply Rle_trans; [apply Rabs_triang|]. lra.
Qed.
Definition edge_lim (G : pt -> pt -> R) (H : list edge) (X Y' : nat -> R -> pt) (io : nat * Z) : R :=
  match nth_error H (fst io) with Some e => line_integral G (IZR (snd io)) (traced (X (fst io)) e) (Y' (fst io)) (fst (e_tb e)) (snd (e_tb e)) | None => 0 end.
Lemma boundary_sum G H z ids mesh rtol atol c X Y' : mk_cell H z ids mesh rtol atol = Ok c -> sum_list (map (edge_lim G H X Y') (oriented c)) = boundary_integral G H z ids X Y'.
Proof.
  intros M. destruct (C36_contours _ _ _ _ _ _ _ M) as (_ & Pm & _). pose proof (built_wf _ _ _ _ _ _ _ M) as W. unfold boundary_integral. set (f := fun i => match nth_error H i with Some e => _ | None => 0 end).
  transitivity (sum_list (map f (cell_edges c))); [|apply sum_perm, Permutation_map, Pm]. rewrite <- (oriented_fst c W), map_map. f_equal. apply map_ext_in. intros [i o] I. destruct (side_orient _ _ _ _ _ _ _ _ _ M I) as (e & Ee & _ & Es). unfold edge_lim, f. cbn [fst snd]. rewrite Ee, Es. reflexivity.
Qed.
Lemma smp_cut (G : pt -> pt -> R) ess : Forall (Forall well_sampled) ess -> Forall2 cut ess (map (map (fun e => map (fun s => G (sx s) (sN s)) (open_smp e))) ess).
Proof. induction 1 as [|es ess We W IH]; constructor; [|exact IH]. unfold cut. clear -We. induction We as [|e es We W IH]; constructor; [rewrite map_length; apply (open_pos e We)|exact IH]. Qed.
Lemma smp_values (G : pt -> pt -> R) ess : map (fun s => G (sx s) (sN s)) (cell_smp ess) = concat (map (@concat R) (map (map (fun e => map (fun s => G (sx s) (sN s)) (open_smp e))) ess)).
Proof. unfold cell_smp. rewrite concat_map, !map_map. f_equal. apply map_ext. intros es. unfold contour_smp. rewrite concat_map, map_map. reflexivity. Qed.
Lemma smp_sums (G : pt -> pt -> R) es : map (fun ev => edge_sum (fst ev) (snd ev)) (combine es (map (fun e => map (fun s => G (sx s) (sN s)) (open_smp e)) es)) = map (smp_sum G) es.
Proof.
  induction es as [|e es IH]; [reflexivity|]. cbn [map combine fst snd]. rewrite IH. f_equal. unfold edge_sum, smp_sum, open_smp. f_equal. f_equal. generalize (removelast (e_smp e)). induction l as [|s l IHl]; [reflexivity|]. unfold zip_with in *. cbn [map combine fst snd] in *. rewrite IHl. reflexivity.
Qed.
Lemma cell_smp_sum contains H c ess G : ready contains H c -> boundary_edges H c ess -> cell_integrate (map (fun s => G (sx s) (sN s)) (cell_smp ess)) H c = Ok (sum_list (map (smp_sum G) (concat ess))).
Proof.
  intros Rd B. destruct (ready_uniform _ _ _ _ Rd B) as (F & _). pose proof (fresh_all _ _ _ (proj1 F)) as W. destruct (C40_sum_of_edges contains H c ess Rd B) as (_ & C2 & _). rewrite (C2 _ _ (smp_values G ess) (smp_cut G ess W)). f_equal. f_equal.
  rewrite <- (smp_sums G (concat ess)). rewrite <- (concat_map (fun e => map (fun s => G (sx s) (sN s)) (open_smp e)) ess). reflexivity.
Qed.
Lemma boundary_conv contains G H z ids mesh rtol atol c p X DX Y' : continuous_field G -> (2 <= p)%Z -> mk_cell H z ids mesh rtol atol = Ok c ->
  (forall i e, In i ids -> nth_error H i = Some e -> smooth_edge e (X i) (DX i) /\ velocity e (X i) (Y' i)) -> forall eps, 0 < eps -> exists K, forall n, (K <= n)%Z -> forall qd w H' c' ess, get_quad_dict (PInt n) p = Ok qd ->
  param_cell contains qd w H c = Ok (H', c') -> boundary_edges H' c' ess -> exists I, cell_integrate (map (fun s => G (sx s) (sN s)) (cell_smp ess)) H' c' = Ok I /\ Rabs (I - boundary_integral G H z ids X Y') <= eps.
Proof.
  intros HG Hp M Sm eps He. pose proof (built_wf _ _ _ _ _ _ _ M) as W. destruct (C36_contours _ _ _ _ _ _ _ M) as (_ & Pm & _). set (d := eps / (INR (List.length (oriented c)) + 1)). pose proof (pos_INR (List.length (oriented c))) as PL. assert (Hd : 0 < d) by (unfold d; apply Rdiv_lt_0_compat; lra).
  destruct (max_bound (fun io n => forall qd e e', get_quad_dict (PInt n) p = Ok qd -> nth_error H (fst io) = Some e -> resampled qd (snd io) e e' -> Rabs (smp_sum G e' - edge_lim G H X Y' io) <= d) (oriented c)) as (K & HK).
  { intros [i o] I. destruct (side_orient _ _ _ _ _ _ _ _ _ M I) as (e & Ee & Ho & _). assert (Ii : In i ids). { eapply Permutation_in; [exact Pm|]. rewrite <- (oriented_fst c W). apply (in_map fst _ _ I). }
    destruct (Sm i e Ii Ee) as (S1 & V1). destruct (edge_side G o e (X i) (DX i) p (Y' i) HG S1 Hp V1 Ho d Hd) as (K & HK). exists K. intros n Hn qd e0 e' Eq E0 R. cbn [fst snd] in *. rewrite Ee in E0. injection E0 as <-. unfold edge_lim. cbn [fst snd]. rewrite Ee. apply (HK n Hn qd e' Eq R). }
  exists K. intros n Hn qd w H' c' ess Eq Pc B. specialize (HK n Hn). assert (Rd : ready contains H' c') by (exists H, z, ids, mesh, rtol, atol, c, (PInt n), p, qd, w, H; auto).
  exists (sum_list (map (smp_sum G) (concat ess))). split; [apply (cell_smp_sum contains); assumption|]. rewrite <- (boundary_sum G H z ids mesh rtol atol c X Y' M).
  destruct (param_cell_ok contains (fun _ _ => True) (fun _ _ _ _ _ _ => I) qd (PInt n) p w H c H' c' Eq W Pc) as (ess0 & ess' & Pr). assert (ess = ess') by (eapply edges_unique; [apply Pr|exact B]). subst ess'.
  pose proof (oriented_perm _ _ _ _ _ _ _ _ _ Pr) as Po.
  assert (Ls : Forall (fun k => List.length (k_edges k) = List.length (k_orients k)) (c_comps c')).
  { pose proof (p_edges _ _ _ _ _ _ _ _ _ Pr) as PE. apply Forall_forall. intros k Ik. assert (I2 : In (k_edges k, k_orients k) (map (fun k => (k_edges k, k_orients k)) (c_comps c))) by (eapply Permutation_in; [exact PE|apply (in_map (fun k => (k_edges k, k_orients k)) _ _ Ik)]). apply in_map_iff in I2. destruct I2 as (k0 & E0 & I0). injection E0 as E1 E2. rewrite <- E1, <- E2. destruct W as (_ & _ & F). rewrite Forall_forall in F. apply (proj1 (F k0 I0)). }
  pose proof (oriented_edges _ _ _ _ _ _ _ _ _ Pr Ls) as Fe. rewrite <- (sum_perm _ _ (Permutation_map (edge_lim G H X Y') Po)).
  apply Rle_trans with (INR (List.length (oriented c')) * d).
  - apply sum_close. rewrite Forall_forall in HK. assert (Fi : forall io, In io (oriented c') -> In io (oriented c)) by (intros io; apply Permutation_in, Po). clear -Fe HK Fi Eq. revert Fi. induction Fe as [|io e' l l' (e & Ee & R) Fe IH]; intros Fi; constructor; [apply (HK io (Fi io (or_introl eq_refl)) qd e e' Eq Ee R)|]. apply IH. intros x Hx. apply Fi. right. exact Hx.
  - rewrite (Permutation_length Po). unfold d. apply Rle_trans with ((INR (List.length (oriented c)) + 1) * (eps / (INR (List.length (oriented c)) + 1))); [apply Rmult_le_compat_r; [apply Rlt_le; exact Hd|lra]|]. right. field. lra.
Qed.
