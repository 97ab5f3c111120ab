(** Lemmas on the parameterization of cells. *)
From Coq Require Import List ZArith Reals Lia Lra Bool Permutation String.
From Verif Require Import PyBase PolyModel BaryModel BBoxModel QuadModel VertModel EdgeModel EdgeSpec ContourModel CellModel CellSpec CellProofs CellProps ContourProofs ContourProofs2 ContourProofs3 EdgeProps4.
Import List ListNotations.
Open Scope R_scope.

(** ** Exchanging two entries *)

Definition swap0 {A} (l : list A) (o : nat) (a0 ao : A) : list A := hset (hset l 0 ao) o a0.
Lemma swap0_nth {A} (l : list A) o a0 ao : nth_error l 0 = Some a0 -> nth_error l o = Some ao ->
  forall i, nth_error (swap0 l o a0 ao) i = if Nat.eqb i o then Some a0 else if Nat.eqb i 0 then Some ao else nth_error l i.
Proof.
  intros H0 Ho i. assert (L0 : (0 < List.length l)%nat) by (apply nth_error_Some; congruence). assert (Lo : (o < List.length l)%nat) by (apply nth_error_Some; congruence). unfold swap0.
  destruct (Nat.eqb_spec i o) as [->|N]; [apply hset_same; rewrite hset_length; lia|]. rewrite hset_other by (rewrite ?hset_length; lia). destruct (Nat.eqb_spec i 0) as [->|N0]; [apply hset_same; lia|]. apply hset_other; lia.
Qed.
Lemma swap0_length {A} (l : list A) o a0 ao : nth_error l 0 = Some a0 -> nth_error l o = Some ao -> List.length (swap0 l o a0 ao) = List.length l.
Proof. intros H0 Ho. assert (L0 : (0 < List.length l)%nat) by (apply nth_error_Some; congruence). assert (Lo : (o < List.length l)%nat) by (apply nth_error_Some; congruence). unfold swap0. rewrite !hset_length; rewrite ?hset_length; lia. Qed.
Lemma swap0_perm {A} (l : list A) o a0 ao : nth_error l 0 = Some a0 -> nth_error l o = Some ao -> Permutation (swap0 l o a0 ao) l.
Proof.
  intros H0 Ho. destruct l as [|x l]; [discriminate|]. injection H0 as ->. destruct o as [|o]; [injection Ho as ->; reflexivity|]. cbn in Ho. unfold swap0, hset. cbn [firstn skipn app].
  rewrite <- (firstn_skipn o l) at 3. rewrite (ContourProofs.skipn_cons l o ao Ho). set (p := firstn o l). set (q := skipn (S o) l). transitivity (ao :: a0 :: p ++ q); [constructor; symmetry; apply Permutation_middle|]. rewrite perm_swap. constructor. apply Permutation_middle.
Qed.
Lemma Forall2_intro {A B} (P : A -> B -> Prop) l l' : List.length l = List.length l' -> (forall i a b, nth_error l i = Some a -> nth_error l' i = Some b -> P a b) -> Forall2 P l l'.
Proof. revert l'. induction l as [|a l IH]; intros [|b l'] L E; try discriminate; constructor; [exact (E O a b eq_refl eq_refl)|apply IH; [injection L; auto|intros i; exact (E (S i))]]. Qed.
Lemma swap0_Forall2 {A B} (P : A -> B -> Prop) l l' o a0 ao : Forall2 P l l' -> nth_error l 0 = Some a0 -> nth_error l o = Some ao ->
  exists b0 bo, nth_error l' 0 = Some b0 /\ nth_error l' o = Some bo /\ Forall2 P (swap0 l o a0 ao) (swap0 l' o b0 bo).
Proof.
  intros F H0 Ho. pose proof (Forall2_len _ _ _ F) as L. assert (L0 : (0 < List.length l)%nat) by (apply nth_error_Some; congruence). assert (Lo : (o < List.length l)%nat) by (apply nth_error_Some; congruence).
  destruct (nth_error l' 0) as [b0|] eqn:E0; [|apply nth_error_None in E0; lia]. destruct (nth_error l' o) as [bo|] eqn:Eo; [|apply nth_error_None in Eo; lia]. exists b0, bo. repeat split; auto. apply Forall2_intro; [rewrite !swap0_length by assumption; exact L|].
  intros i a b Ha Hb. rewrite swap0_nth in Ha by assumption. rewrite swap0_nth in Hb by assumption. destruct (Nat.eqb i o); [injection Ha as <-; injection Hb as <-; exact (Forall2_nth _ _ _ F _ _ _ H0 E0)|]. destruct (Nat.eqb i 0); [injection Ha as <-; injection Hb as <-; exact (Forall2_nth _ _ _ F _ _ _ Ho Eo)|]. exact (Forall2_nth _ _ _ F _ _ _ Ha Hb).
Qed.

Section Inside.
Variable contains : R -> list pt -> pt -> bool.

Lemma find_outer_swap H c c' : find_outer contains H c = Ok c' -> exists o k0 ko, nth_error (c_comps c) 0 = Some k0 /\ nth_error (c_comps c) o = Some ko /\ c' = with_comps c (swap0 (c_comps c) o k0 ko).
Proof.
  unfold find_outer. destruct (cell_guard H c); [|discriminate]. cbn [bind]. match goal with |- context [fold_res ?f ?l O] => destruct (fold_res f l O) as [o|] end; [|discriminate]. cbn [bind]. unfold geti. destruct (nth_error (c_comps c) 0) as [k0|] eqn:E0; [|discriminate]. cbn [bind]. destruct (nth_error (c_comps c) o) as [ko|] eqn:Eo; [|discriminate]. cbn [bind]. intros E. apply Ok_inj in E. subst. exists o, k0, ko. auto.
Qed.

Lemma cell_closest_ok H c ess : cell_fresh H c ess -> Forall2 (fun k es => k_closest k = Some (closest es)) (c_comps c) ess -> cell_closest H c = Ok (with_tables c (c_npts c) (c_start c) (Some (concat (map closest ess)))).
Proof.
  intros F CL. unfold cell_closest. rewrite (comps_guard _ _ _ (proj1 F)). cbn [bind]. pose proof F as (FK & _ & EN & _). rewrite EN. cbn [attr bind].
  rewrite (comp_fill 0%Z (fun k _ _ => attr (k_closest k)) H c ess (map closest ess) F).
  - reflexivity.
  - pose proof (fresh_all _ _ _ FK) as W. clear -W. induction W as [|es ess We W IH]; constructor; [|exact IH]. unfold closest. symmetry. apply (nums_all _ _ (closest_lengths (total (map open_num es)) es 0 We)).
  - intros i k es v Ek Ee _ Ev. rewrite nth_error_map, Ee in Ev. injection Ev as <-. pose proof (Forall2_nth _ _ _ CL _ _ _ Ek Ee) as X. cbn in X. rewrite X. reflexivity.
Qed.

Lemma interior_points_keeps H c c' : interior_points contains H c = Ok c' -> exists p, c' = with_int c p.
Proof.
  unfold interior_points. destruct (c_mesh c) as [rows cols]. destruct (cell_box H c) as [[[[? ?] ?] ?]|]; [|discriminate]. cbn [bind]. destruct (np_linspace _ _ rows); [|discriminate]. cbn [bind]. destruct (np_linspace _ _ cols); [|discriminate]. cbn [bind]. destruct (cell_inside _ _ _ _); [|discriminate]. cbn [bind].
  match goal with |- context [fold_res ?f ?l ?b] => destruct (fold_res f l b) end; [|discriminate]. cbn [bind]. intros E. apply Ok_inj in E. subst. eexists. reflexivity.
Qed.

(** Well-formed cells: what construction yields *)
Definition wf_cell (c : cell) : Prop := NoDup (cell_edges c) /\ c_holes c = (Z.of_nat (List.length (c_comps c)) - 1)%Z /\ Forall (fun k => wf_contour k /\ k_edges k <> []) (c_comps c).
Lemma built_wf H z ids mesh rtol atol c : mk_cell H z ids mesh rtol atol = Ok c -> wf_cell c.
Proof.
  intros E. destruct (C36_contours _ _ _ _ _ _ _ E) as (ND & P & _ & EH & F). split; [eapply Permutation_NoDup; [symmetry; exact P|exact ND]|]. split; [exact EH|]. eapply Forall_impl; [|exact F]. intros k ((NE & _) & F2). split; [exact (Forall2_len _ _ _ F2)|exact NE].
Qed.

(** The result of parameterizing a well-formed cell *)
Record parameterized (Pk : contour -> list edge -> Prop) (qd : quad * quad) (H : heap) (c : cell) (H' : heap) (c' : cell) (ess ess' : list (list edge)) : Prop := {
  p_fresh : cell_fresh H' c' ess';
  p_closest : Forall2 (fun k es => k_closest k = Some (closest es) /\ Pk k es) (c_comps c') ess';
  p_table : c_closest c' = Some (concat (map closest ess'));
  p_nonempty : Forall (fun es => es <> []) ess';
  p_old : Forall2 (fun k es => refs H (k_edges k) es) (c_comps c') ess;
  p_new : Forall2 (fun ke es' => Forall2 (fun oe e' => resampled qd (fst oe) (snd oe) e') (combine (k_orients (fst ke)) (snd ke)) es') (combine (c_comps c') ess) ess';
  p_edges : Permutation (map (fun k => (k_edges k, k_orients k)) (c_comps c')) (map (fun k => (k_edges k, k_orients k)) (c_comps c));
  p_length : List.length H' = List.length H;
  p_frame : forall j, ~ In j (cell_edges c) -> nth_error H' j = nth_error H j;
  p_outer : exists c1 c2 ess1, Forall2 (fresh H') (c_comps c1) ess1 /\ map k_edges (c_comps c1) = map k_edges (c_comps c) /\ map k_orients (c_comps c1) = map k_orients (c_comps c) /\ c_holes c1 = c_holes c /\ find_outer contains H' c1 = Ok c2 /\ c_comps c' = c_comps c2;
  p_interior : c_mesh c' = c_mesh c /\ c_rtol c' = c_rtol c /\ c_atol c' = c_atol c
}.

Lemma Forall2_map_l {A B C} (P : B -> C -> Prop) (f : A -> B) l l' : Forall2 P (map f l) l' <-> Forall2 (fun a c => P (f a) c) l l'.
Proof. split; [revert l'; induction l as [|a l IH]; intros l' F; inversion F; subst; constructor; auto|induction 1; constructor; assumption]. Qed.

Theorem param_cell_ok (Pk : contour -> list edge -> Prop) (HPk : forall H k es k', fresh H k es -> find_interior_point contains H k = Ok k' -> Pk k' es) qd n p w H c H' c' : get_quad_dict n p = Ok qd -> wf_cell c -> param_cell contains qd w H c = Ok (H', c') -> exists ess ess', parameterized Pk qd H c H' c' ess ess'.
Proof.
  intros Q (ND & EH & WF) E. unfold param_cell in E. unfold param_comps in E.
  destruct (fold_res _ (c_comps c) (H, [])) as [[H1 ks]|] eqn:E1; [|discriminate]. cbn [bind] in E.
  destruct (param_comps_gen contains Pk HPk qd n p Q (c_comps c) H [] [] H1 ks) as (new & ess & ess' & A1 & A2 & A3 & A4 & A5 & A6 & A7 & A8 & A9); [exact ND|eapply Forall_impl; [|exact WF]; cbn; tauto|constructor|constructor|exact E1|]. cbn [app] in *. subst ks.
  assert (LK : List.length new = List.length (c_comps c)) by (rewrite <- (map_length k_edges new), A4, map_length; reflexivity).
  rewrite (cell_num_ok H1 (with_comps c new) ess' A2) in E. cbn [bind] in E. destruct (find_outer contains H1 _) as [c2|] eqn:E2; [|discriminate]. cbn [bind] in E. pose proof E2 as E2'. apply find_outer_swap in E2. destruct E2 as (o & k0 & ko & K0 & Ko & ->). cbn [c_comps with_tables with_comps] in K0, Ko, E.
  destruct (swap0_Forall2 (fresh H1) new ess' o k0 ko A2 K0 Ko) as (e0 & eo & B0 & Bo & F2). destruct (swap0_Forall2 (fun k es => k_closest k = Some (closest es) /\ Pk k es) new ess' o k0 ko A3 K0 Ko) as (e0' & eo' & B0' & Bo' & C2). assert (e0' = e0) by congruence. assert (eo' = eo) by congruence. subst e0' eo'.
  set (nks := swap0 new o k0 ko) in *. set (ness := swap0 ess' o e0 eo) in *. assert (LN : List.length nks = List.length new) by (apply swap0_length; assumption).
  set (c3 := with_comps (with_tables (with_comps c new) (Some (total (map csize ess'))) (c_start (with_comps c new)) (c_closest (with_comps c new))) nks) in *.
  rewrite (cell_start_ok H1 c3 ness F2) in E. cbn [bind] in E.
  set (c4 := with_tables c3 (c_npts c3) (Some (offsets (map csize ness))) (c_closest c3)) in *.
  assert (F4 : cell_fresh H1 c4 ness).
  { split; [exact F2|]. split; [cbn; change (c_holes c = (Z.of_nat (List.length nks) - 1)%Z); rewrite EH, LN, LK; reflexivity|]. split; [|reflexivity]. change (Some (total (map csize ess')) = Some (total (map csize ness))). f_equal.
    assert (PT : forall l l', Permutation l l' -> total l = total l') by (unfold total; induction 1; cbn [fold_right]; lia). apply PT, Permutation_map. symmetry. apply swap0_perm; assumption. }
  rewrite (cell_closest_ok H1 c4 ness F4 (Forall2_impl _ _ _ _ (fun k es X => proj1 X) C2)) in E. cbn [bind] in E. set (c5 := with_tables c4 _ _ _) in E.
  assert (E5 : exists q, H' = H1 /\ c' = with_int c5 q).
  { destruct w.
    - destruct (interior_points contains H1 c5) as [c6|] eqn:E6; [|discriminate]. cbn [bind] in E. apply Ok_inj in E. injection E as -> ->. apply interior_points_keeps in E6. destruct E6 as (q & ->). exists q. auto.
    - cbn [bind] in E. apply Ok_inj in E. injection E as -> ->. exists (c_int c5). split; reflexivity. }
  destruct E5 as (q & -> & ->).
  assert (A6' : Forall2 (fun k es => refs H (k_edges k) es) new ess).
  { apply (Forall2_map_l (fun ids es => refs H ids es) k_edges). rewrite A4. apply Forall2_map_l. exact A6. }
  destruct (swap0_Forall2 _ new ess o k0 ko A6' K0 Ko) as (d0 & do_ & D0 & Do & G2). exists (swap0 ess o d0 do_), ness. assert (LE := Forall2_len _ _ _ A6'). assert (LE' := Forall2_len _ _ _ A2).
  constructor.
  - exact F4.
  - exact C2.
  - reflexivity.
  - assert (NE : Forall (fun es => es <> []) ess').
    { assert (WN : Forall (fun k => k_edges k <> []) new). { apply Forall_forall. intros k Ik. apply (in_map k_edges) in Ik. rewrite A4 in Ik. apply in_map_iff in Ik. destruct Ik as (k1 & <- & I1). rewrite Forall_forall in WF. apply WF, I1. }
      clear -A2 WN. induction A2 as [|k es ks ess (R & _) F IH]; constructor; [|apply IH; inversion WN; assumption]. inversion WN; subst. intros ->. inversion R. congruence. }
    rewrite Forall_forall in *. intros es Hes. apply NE. eapply Permutation_in; [apply swap0_perm; eassumption|exact Hes].
  - exact G2.
  - apply Forall2_intro; [rewrite combine_length; cbn [c_comps with_int with_tables with_comps c5 c4 c3]; change (List.length (swap0 new o k0 ko)) with (List.length nks); unfold ness; rewrite !swap0_length by assumption; fold nks; rewrite LN; lia|].
    intros i [k es] es' Hke Hes'. rewrite nth_error_combine in Hke. change (nth_error (c_comps (with_int c5 q)) i) with (nth_error (swap0 new o k0 ko) i) in Hke. unfold ness in Hes'. rewrite swap0_nth in Hes' by assumption. rewrite (swap0_nth new) in Hke by assumption. rewrite (swap0_nth ess) in Hke by assumption.
    assert (X : forall j k es es', nth_error new j = Some k -> nth_error ess j = Some es -> nth_error ess' j = Some es' -> Forall2 (fun oe e' => resampled qd (fst oe) (snd oe) e') (combine (k_orients k) es) es').
    { intros j k1 es1 es1' J1 J2 J3. refine (Forall2_nth _ _ _ A7 j _ _ _ J3). rewrite nth_error_map, nth_error_combine, J2. destruct (nth_error (c_comps c) j) as [kc|] eqn:Ec; [|apply nth_error_None in Ec; assert (j < List.length new)%nat by (apply nth_error_Some; congruence); lia]. cbn [option_map fst snd]. do 2 f_equal. assert (Y : nth_error (map k_orients new) j = nth_error (map k_orients (c_comps c)) j) by (rewrite A5; reflexivity). rewrite !nth_error_map, J1, Ec in Y. injection Y as ->. reflexivity. }
    cbn [fst snd]. destruct (Nat.eqb i o); [injection Hke as <- <-; injection Hes' as <-; exact (X O _ _ _ K0 D0 B0)|]. destruct (Nat.eqb i 0); [injection Hke as <- <-; injection Hes' as <-; exact (X o _ _ _ Ko Do Bo)|]. destruct (nth_error new i) eqn:E3; [|discriminate]. destruct (nth_error ess i) eqn:E4; [|discriminate]. injection Hke as <- <-. exact (X i _ _ _ E3 E4 Hes').
  - change (Permutation (map (fun k => (k_edges k, k_orients k)) nks) (map (fun k => (k_edges k, k_orients k)) (c_comps c))). transitivity (map (fun k => (k_edges k, k_orients k)) new); [apply Permutation_map, swap0_perm; assumption|].
    assert (Y : forall l l', map k_edges l = map k_edges l' -> map k_orients l = map k_orients l' -> map (fun k => (k_edges k, k_orients k)) l = map (fun k => (k_edges k, k_orients k)) l').
    { induction l as [|a l IH]; intros [|b l'] X Y; try discriminate; [reflexivity|]. cbn in *. injection X as X1 X2. injection Y as Y1 Y2. rewrite X1, Y1, (IH l' X2 Y2). reflexivity. }
    rewrite (Y _ _ A4 A5). reflexivity.
  - exact A8.
  - exact A9.
  - exists (with_tables (with_comps c new) (Some (total (map csize ess'))) (c_start (with_comps c new)) (c_closest (with_comps c new))), c3, ess'. split; [exact A2|]. split; [exact A4|]. split; [exact A5|]. split; [reflexivity|]. split; [exact E2'|reflexivity].
  - repeat split.
Qed.
End Inside.
