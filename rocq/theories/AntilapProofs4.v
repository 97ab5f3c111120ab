(** The anti-Laplacian returns on all fitting arrays. *)
From Coq Require Import List ZArith Reals Lia Lra Bool.
From Coquelicot Require Import Coquelicot.
From Verif Require Import PyBase PolyModel PolySpec BaryModel VertModel EdgeModel EdgeSpec EdgeProps4 ContourModel CellModel CellSpec CellProofs CellProps ContourProofs ContourProofs3 ContourProps CellProps3 TraceModel TraceSpec TraceProofs LocalProofs3 LocalModel LocalSpec LocalProofs LocalProofs2 LocalProofs5 FftModel FftSpec FftProofs FftProofs2 FftProofs3 FftProps AntilapModel AntilapSpec AntilapProofs AntilapProofs2 AntilapProofs3.
Import List ListNotations.
Open Scope R_scope.

Lemma fold_res_inv {A B} (P : B -> Prop) (f : B -> A -> res B) l : (forall b a, In a l -> P b -> exists b', f b a = Ok b' /\ P b') -> forall b, P b -> exists b', fold_res f l b = Ok b' /\ P b'.
Proof.
  induction l as [|a l IH]; intros Hs b Pb; [exists b; split; [reflexivity|exact Pb]|]. cbn [fold_res]. destruct (Hs b a (or_introl eq_refl) Pb) as (b' & E & Pb'). rewrite E. cbn [bind]. apply IH; [|exact Pb']. intros; apply Hs; [right|]; assumption.
Qed.
Lemma map_res_total {A B} (f : A -> res B) l : (forall a, In a l -> exists b, f a = Ok b) -> exists l', map_res f l = Ok l' /\ List.length l' = List.length l.
Proof.
  induction l as [|a l IH]; intros Hs; [exists []; split; reflexivity|]. destruct (Hs a (or_introl eq_refl)) as (b & E). destruct IH as (l' & E' & L'); [intros; apply Hs; right; assumption|]. exists (b :: l'). cbn [map_res]. rewrite E. cbn [bind]. rewrite E'. split; [reflexivity|]. cbn [List.length]. rewrite L'. reflexivity.
Qed.

Lemma enum_in {A} (ks : list A) : forall a j k, In (j, k) (combine (seq a (List.length ks)) ks) -> exists i, j = (a + i)%nat /\ nth_error ks i = Some k.
Proof.
  induction ks as [|x ks IH]; intros a j k I; [destruct I|]. cbn [List.length seq combine] in I. destruct I as [E|I]; [injection E as <- <-; exists 0%nat; split; [lia|reflexivity]|]. destruct (IH _ _ _ I) as (i & -> & E). exists (S i). split; [lia|exact E].
Qed.
Lemma map_fst_combine {A B} (a : list A) (b : list B) : List.length a = List.length b -> map fst (combine a b) = a.
Proof. revert b. induction a as [|x a IH]; intros [|y b] L; try discriminate; [reflexivity|]. cbn. rewrite IH by (cbn in L; lia). reflexivity. Qed.
(** The body of the loop of [recover] *)
Definition recover_step (H : heap) (c : cell) (eta : list trace) (wnd : list R) (v : list R) (jk : nat * contour) : res (list R) :=
  let (j, k) := jk in
  do n <- attr (k_npts k);
  do arc <- contour_integrate (repeat 1 (Z.to_nat n)) H k;
  do s <- attr (c_start c); do a <- geti s j;
  do i <- contour_integrate (slice v a (a + n)) H k;
  do v <- set_slice v a (a + n) (map (fun x => x - i / arc) (slice v a (a + n)));
  match j with
  | O => Ok v
  | S m =>
      do t <- geti eta m; do e <- attr (tr_vals t); do f <- np_mul e wnd;
      do d <- cell_integrate_preweighted f H c;
      set_slice v a (a + n) (map (fun x => x + d / arc) (slice v a (a + n)))
  end.

(** What the solver has to provide: arrays of the right size for arrays of the right size, and for the
    strategy "fft" one trace with values per hole *)
Definition solver_fits (N : asolver) (es : list edge) (holes : nat) : Prop :=
  match as_strategy N with
  | Direct => forall w, fitting es w -> exists v, as_neumann N w = Ok v /\ fitting es v
  | ByFft => exists eta, as_eta N = Some eta /\ forall m, (m < holes)%nat -> exists t e, nth_error eta m = Some t /\ tr_vals t = Some e /\ fitting es e
  end.

Section Cell.
Context {contains : R -> list pt -> pt -> bool} {H : heap} {c : cell} {ess : list (list edge)}.
Hypothesis Rd : ready contains H c.
Hypothesis B : boundary_edges H c ess.
Local Notation es := (concat ess).
Lemma F : cell_fresh H c ess.
Proof using Rd B. apply (ready_uniform _ _ _ _ Rd B). Qed.
Lemma NE : Forall (fun es => es <> []) ess.
Proof using Rd B. apply (ready_uniform _ _ _ _ Rd B). Qed.

Lemma f_mul a b : fitting es a -> fitting es b -> exists x, np_mul a b = Ok x /\ fitting es x.
Proof. intros A C. eexists. rewrite LocalProofs.np_mul_zip by (eapply fit_len; eassumption). split; [reflexivity|]. apply fit_zip; assumption. Qed.
Lemma f_add a b : fitting es a -> fitting es b -> exists x, np_add a b = Ok x /\ fitting es x.
Proof. intros A C. eexists. rewrite np_add_zip by (eapply fit_len; eassumption). split; [reflexivity|]. apply fit_zip; assumption. Qed.
Lemma f_sub a b : fitting es a -> fitting es b -> exists x, np_sub a b = Ok x /\ fitting es x.
Proof. intros A C. eexists. rewrite np_sub_zip by (eapply fit_len; eassumption). split; [reflexivity|]. apply fit_zip; assumption. Qed.
Lemma f_iadd a b : fitting es a -> fitting es b -> exists x, np_iadd a b = Ok x /\ fitting es x.
Proof. intros A C. eexists. rewrite np_iadd_zip by (eapply fit_len; eassumption). split; [reflexivity|]. apply fit_zip; assumption. Qed.
Lemma f_dot V a b : fitting es a -> fitting es b -> exists x, cell_dot (dot_with V) a b H c = Ok x /\ fitting es x.
Proof using Rd B.
  intros A C. pose proof F as Fr. rewrite (cell_dot_ok V H c ess _ _ Fr) by (rewrite total_cell; assumption). eexists. split; [reflexivity|]. rewrite smp_cell. unfold zdot. pose proof (smp_len Fr) as L. unfold fitting in *. rewrite !zip_length by (rewrite ?zip_length; rewrite ?map_length; lia). exact A.
Qed.
Lemma f_dx a : fitting es a -> exists x, cell_dx_norm a H c = Ok x /\ fitting es x.
Proof using Rd B.
  intros A. pose proof F as Fr. rewrite (cell_dx_ok H c ess _ Fr) by (rewrite total_cell; assumption). eexists. split; [reflexivity|]. rewrite smp_cell. pose proof (smp_len Fr) as L. unfold fitting in *. rewrite zip_length by (rewrite map_length; lia). exact A.
Qed.
Lemma f_tang a b : fitting es a -> fitting es b -> exists x, tang H c a b = Ok x /\ fitting es x.
Proof using Rd B. intros A C. unfold tang, dot_with_tangent. destruct (f_dot sT a b A C) as (x & E & Fx). rewrite E. cbn [bind]. apply f_dx, Fx. Qed.
Lemma f_norm a b : fitting es a -> fitting es b -> exists x, norm H c a b = Ok x /\ fitting es x.
Proof using Rd B. intros A C. unfold norm, dot_with_normal. destruct (f_dot sN a b A C) as (x & E & Fx). rewrite E. cbn [bind]. apply f_dx, Fx. Qed.
Ltac go lem Fx := match goal with |- context [bind ?X _] => let x := fresh "x" in let E := fresh "E" in destruct lem as (x & E & Fx); [..|rewrite E; cbn [bind]] end.

Lemma components_fit r s u v : fitting es r -> fitting es s -> fitting es u -> fitting es v -> exists P w, from_components H c r s u v = Ok (P, w) /\ fitting es P /\ fitting es w.
Proof using Rd B.
  intros Fr Fs Fu Fv. unfold from_components. rewrite (s_points F). cbn [bind]. set (x1 := samples_of es _). set (x2 := samples_of es _). assert (F1 : fitting es x1) by apply (samples_fit F). assert (F2 : fitting es x2) by apply (samples_fit F). clearbody x1 x2.
  destruct (f_mul x1 r) as (a1 & -> & A1); auto. cbn [bind]. destruct (f_mul x2 s) as (a2 & -> & A2); auto. cbn [bind]. destruct (f_add a1 a2) as (a3 & -> & A3); auto. cbn [bind]. cbv zeta.
  destruct (f_mul x1 u) as (a4 & -> & A4); auto. cbn [bind]. destruct (f_add r a4) as (a5 & -> & A5); auto. cbn [bind]. destruct (f_mul x2 v) as (a6 & -> & A6); auto. cbn [bind]. destruct (f_add a5 a6) as (a7 & -> & A7); auto. cbn [bind].
  destruct (f_mul x2 u) as (a8 & -> & A8); auto. cbn [bind]. destruct (f_add s a8) as (a9 & -> & A9); auto. cbn [bind]. destruct (f_mul x1 v) as (b1 & -> & B1); auto. cbn [bind]. destruct (f_sub a9 b1) as (b2 & -> & B2); auto. cbn [bind].
  unfold dot_with_normal. destruct (f_dot sN (map (Rmult (25 / 100)) a7) (map (Rmult (25 / 100)) b2)) as (b3 & -> & B3); auto using fit_map. cbn [bind]. destruct (f_dx b3 B3) as (b4 & -> & B4). cbn [bind]. eexists _, _. split; [reflexivity|]. split; [apply fit_map, A3|exact B4].
Qed.
Lemma anti_fit v : fitting es v -> exists w, antiderivative_components c v = Ok w /\ fitting es w.
Proof using Rd B.
  intros Fv. destruct (ccut_exists ess v) as (vs & -> & Cu); [exact (fresh_all _ _ _ (proj1 F))|rewrite total_cell; exact Fv|]. destruct (C57_components contains H c ess vs Rd B Cu) as [_ (ds & E & D)]. exists (concat ds). split; [exact E|]. unfold fitting. rewrite <- total_cell. rewrite <- (ccut_total ess ds); [reflexivity|]. clear -Cu D. unfold ccut in *. revert ds D. revert Cu. revert vs. induction ess as [|l ls IH]; intros vs Cu ds D; inversion Cu as [|? ? ? ? L1 Cu']; subst; cbn [combine] in D; inversion D as [|? ? ? ? X D']; subst; constructor; [|eapply IH; eassumption]. destruct X as [_ X]. rewrite X. exact L1.
Qed.
Lemma deriv_fit v : fitting es v -> exists w, wtd_from_trace c v = Ok w /\ fitting es w.
Proof using Rd B.
  intros Fv. destruct (ccut_exists ess v) as (vs & -> & Cu); [exact (fresh_all _ _ _ (proj1 F))|rewrite total_cell; exact Fv|]. destruct (C57_components contains H c ess vs Rd B Cu) as [(ds & E & D) _]. exists (concat ds). split; [exact E|]. unfold fitting. rewrite <- total_cell. rewrite <- (ccut_total ess ds); [reflexivity|]. clear -Cu D. unfold ccut in *. revert ds D. revert Cu. revert vs. induction ess as [|l ls IH]; intros vs Cu ds D; inversion Cu as [|? ? ? ? L1 Cu']; subst; cbn [combine] in D; inversion D as [|? ? ? ? X D']; subst; constructor; [|eapply IH; eassumption]. destruct X as [_ X]. rewrite X. exact L1.
Qed.
Lemma int_any i k l v : nth_error (c_comps c) i = Some k -> nth_error ess i = Some l -> Z.of_nat (List.length v) = csize l -> exists x, contour_integrate v H k = Ok x.
Proof using Rd B.
  intros Ek El L. pose proof (Forall2_nth _ _ _ (proj1 F) _ _ _ Ek El) as Fk. destruct (cut_exists l v) as (vs & -> & Cu); [apply Fk|exact L|]. rewrite (integrate_contour_ok H k l vs Fk Cu). eauto.
Qed.
Lemma pre_any v : fitting es v -> exists x, cell_integrate_preweighted v H c = Ok x.
Proof using Rd B. intros L. destruct (ready_uniform _ _ _ _ Rd B) as (Fr & Ne & N & U). rewrite (pre_ok Fr Ne U v L). eauto. Qed.
(** The bounds of a block *)
Lemma block i l : nth_error ess i = Some l -> (0 <= total (firstn i (map csize ess)))%Z /\ (0 <= csize l)%Z /\ (total (firstn i (map csize ess)) + csize l <= csize es)%Z /\ total (firstn (S i) (map csize ess)) = (total (firstn i (map csize ess)) + csize l)%Z.
Proof using Rd B.
  intros El. pose proof (fresh_all _ _ _ (proj1 F)) as W. set (f := fun _ : sample => 0). pose proof (samples_cut ess f W) as Cu. assert (Ev : nth_error (map (fun l => samples_of l f) ess) i = Some (samples_of l f)) by (rewrite nth_error_map, El; reflexivity).
  rewrite !(nums_off _ _ Cu). rewrite (firstn_snoc _ i _ Ev), concat_app, app_length. cbn [concat]. rewrite app_nil_r. pose proof (concat_split _ i _ Ev) as Cs. apply (f_equal (@List.length R)) in Cs. rewrite !app_length in Cs. pose proof (ccut_total ess _ Cu) as Ct. rewrite total_cell in Ct.
  assert (Ls : Z.of_nat (List.length (samples_of l f)) = csize l) by (unfold samples_of; rewrite map_length; apply contour_smp_length; rewrite Forall_forall in W; apply W, (nth_error_In _ _ El)). lia.
Qed.
Lemma slice_len (v : list R) a n : (0 <= a)%Z -> (0 <= n)%Z -> (a + n <= Z.of_nat (List.length v))%Z -> Z.of_nat (List.length (slice v a (a + n))) = n.
Proof. intros. unfold slice. rewrite firstn_length, skipn_length. lia. Qed.
Lemma set_len (v w : list R) a n : (0 <= a)%Z -> (0 <= n)%Z -> (a + n <= Z.of_nat (List.length v))%Z -> Z.of_nat (List.length w) = n -> exists v', set_slice v a (a + n) w = Ok v' /\ List.length v' = List.length v.
Proof.
  intros A1 A2 A3 L. unfold set_slice. cbv zeta. rewrite (proj2 (Nat.eqb_eq _ _)) by lia. eexists. split; [reflexivity|]. rewrite !app_length, firstn_length, skipn_length. lia.
Qed.
Lemma recover_fit Nn t v0 n d : solver_fits Nn es (Z.to_nat (c_holes c)) -> as_strategy Nn = ByFft -> carries (ess := ess) t v0 (Some n) (Some d) -> exists t' v, recover Nn H c t = Ok t' /\ tr_vals t' = Some v /\ fitting es v.
Proof using Rd B.
  intros So St Ca. unfold solver_fits in So. rewrite St in So. destruct So as (eta & Ee & He). pose proof (carries_len _ _ _ _ Ca) as (_ & Fn & Fd). cbn [sized] in Fn, Fd. destruct Ca as (Bt & _ & En & Ed). unfold recover. rewrite Ee, En, Ed. destruct (anti_fit d Fd) as (w & -> & Fw). cbn [bind]. unfold set_trace_values. rewrite (tfill_arr es) by (exact (all_sampleable F) || exact Bt || exact Fw). cbn [bind with_vals tr_vals attr].
  pose proof (Forall2_len _ _ _ (proj1 F)) as LF. pose proof F as (FF & EH & _ & ES).
  destruct (fold_res_inv (fitting es) (recover_step H c eta n) (combine (seq 0 (List.length (c_comps c))) (c_comps c))) with (b := w) as (v' & Ev & Fv); [|exact Fw|unfold recover_step in Ev; rewrite Ev; cbn [bind]; eexists _, v'; split; [reflexivity|]; split; [reflexivity|exact Fv]].
  intros v [j k] Ij Fv. apply enum_in in Ij. destruct Ij as (i & -> & Ek). cbn [Nat.add]. assert (Lj : (i < List.length ess)%nat) by (rewrite <- LF; apply nth_error_Some; congruence). destruct (nth_error ess i) as [l|] eqn:El; [|apply nth_error_None in El; lia].
  destruct (block i l El) as (A1 & A2 & A3 & _). pose proof (Forall2_nth _ _ _ FF _ _ _ Ek El) as (_ & _ & Kn & _). unfold recover_step. rewrite Kn. cbn [attr bind]. change (total (map open_num l)) with (csize l). destruct (int_any i k l (repeat 1 (Z.to_nat (csize l))) Ek El) as (arc & ->); [rewrite repeat_length; lia|]. cbn [bind].
  destruct (start_ok F i) as (st & Es & Eg); [lia|]. rewrite Es. cbn [attr bind]. rewrite Eg. cbn [bind]. set (o := total (firstn i (map csize ess))) in *. destruct (int_any i k l (slice v o (o + csize l)) Ek El) as (q & ->); [apply slice_len; unfold fitting in Fv; lia|]. cbn [bind].
  destruct (set_len v (map (fun x => x - q / arc) (slice v o (o + csize l))) o (csize l)) as (v1 & -> & L1); [lia|lia|unfold fitting in Fv; lia|rewrite map_length; apply slice_len; unfold fitting in Fv; lia|]. cbn [bind]. assert (F1 : fitting es v1) by (unfold fitting in *; rewrite L1; exact Fv). destruct i as [|m]; [eexists; split; [reflexivity|exact F1]|].
  destruct (He m) as (tm & e & Et & Em & Fe); [rewrite EH; lia|]. rewrite (geti_nth _ _ _ Et). cbn [bind]. rewrite Em. cbn [attr bind]. destruct (f_mul e n Fe Fn) as (f & -> & Ff). cbn [bind]. destruct (pre_any f Ff) as (x & ->). cbn [bind].
  destruct (set_len v1 (map (fun y => y + x / arc) (slice v1 o (o + csize l))) o (csize l)) as (v2 & E2 & L2); [lia|lia|unfold fitting in F1; lia|rewrite map_length; apply slice_len; unfold fitting in F1; lia|]. exists v2. split; [exact E2|]. unfold fitting in *. rewrite L2. exact F1.
Qed.
Lemma residues_fit a b : fitting es a -> fitting es b -> exists bc, residues H c a b = Ok bc /\ List.length bc = Z.to_nat (c_holes c).
Proof using Rd B.
  intros Fa Fb. unfold residues. destruct (map_res_total (fun j => do s <- attr (c_start c); do a0 <- geti s (S j); do b0 <- geti s (S (S j)); do k <- geti (c_comps c) (S j); do bj <- contour_integrate (slice b a0 b0) H k; do cj <- contour_integrate (slice a a0 b0) H k; Ok (bj / (-2 * PI), cj / (2 * PI))) (holes c)) as (l' & E & L').
  - intros j Ij. unfold holes in Ij. apply in_seq in Ij. pose proof F as (FF & EH & _). pose proof (Forall2_len _ _ _ FF) as LF. assert (Lj : (S j < List.length ess)%nat) by lia. destruct (nth_error ess (S j)) as [l|] eqn:El; [|apply nth_error_None in El; lia]. destruct (nth_error (c_comps c) (S j)) as [k|] eqn:Ek; [|apply nth_error_None in Ek; lia].
    destruct (block (S j) l El) as (A1 & A2 & A3 & A4). destruct (start_ok F (S j)) as (st & Es & Eg); [lia|]. destruct (start_ok F (S (S j))) as (st' & Es' & Eg'); [lia|]. rewrite Es in Es'. injection Es' as <-. rewrite Es. cbn [attr bind]. rewrite Eg. cbn [bind]. rewrite Eg'. cbn [bind]. rewrite (geti_nth _ _ _ Ek). cbn [bind]. rewrite A4.
    destruct (int_any (S j) k l (slice b (total (firstn (S j) (map csize ess))) (total (firstn (S j) (map csize ess)) + csize l)) Ek El) as (x & ->); [apply slice_len; unfold fitting in *; lia|]. cbn [bind]. destruct (int_any (S j) k l (slice a (total (firstn (S j) (map csize ess))) (total (firstn (S j) (map csize ess)) + csize l)) Ek El) as (y & ->); [apply slice_len; unfold fitting in *; lia|]. cbn [bind]. eauto.
  - exists l'. split; [exact E|]. rewrite L'. unfold holes. apply seq_length.
Qed.
Lemma add_holes_fit xs hs lc P w : fitting es (map fst xs) -> List.length hs = Z.to_nat (c_holes c) -> List.length lc = Z.to_nat (c_holes c) -> fitting es P -> fitting es w -> exists P' w', add_holes H c xs hs lc P w = Ok (P', w') /\ fitting es P' /\ fitting es w'.
Proof using Rd B.
  intros Fx Lh Ll FP Fw. assert (Fm : forall g : pt -> R, fitting es (map g xs)) by (intros g; unfold fitting in *; rewrite map_length in *; exact Fx). unfold add_holes.
  match goal with |- context [fold_res ?st ?l ?v] => destruct (fold_res_inv (fun Pw : list R * list R => fitting es (fst Pw) /\ fitting es (snd Pw)) st l) with (b := v) as ((P' & w') & E & Q & Q') end; [|split; [exact FP|exact Fw]|exists P', w'; auto].
  intros [P1 w1] j Ij [F1 F2]. cbn [fst snd] in F1, F2. unfold holes in Ij. apply in_seq in Ij. destruct (nth_error hs j) as [[xi [bj cj]]|] eqn:Eh; [|apply nth_error_None in Eh; lia]. destruct (nth_error lc j) as [a|] eqn:Ea; [|apply nth_error_None in Ea; lia]. rewrite (geti_nth _ _ _ Eh). cbn [bind].
  destruct (f_iadd P1 (map (fun x => m_val xi x bj cj) xs) F1 (Fm _)) as (P2 & -> & FP2). cbn [bind]. destruct (f_norm (map (fun x => m_x1 xi x bj cj) xs) (map (fun x => m_x2 xi x bj cj) xs) (Fm _) (Fm _)) as (w2 & -> & Fw2). cbn [bind]. destruct (f_iadd w1 w2 F2 Fw2) as (w3 & -> & Fw3). cbn [bind]. unfold dot_with_normal. destruct (f_dot sN (map (lam_x1 xi) xs) (map (lam_x2 xi) xs) (Fm _) (Fm _)) as (nd & -> & Fnd). cbn [bind]. rewrite (geti_nth _ _ _ Ea). cbn [bind].
  destruct (f_iadd P2 (map (fun x => a * lam_val xi x) xs) FP2 (Fm _)) as (P3 & -> & FP3). cbn [bind]. destruct (f_dx nd Fnd) as (w4 & -> & Fw4). cbn [bind]. destruct (f_iadd w3 (map (Rmult a) w4) Fw3 (fit_map _ _ Fw4)) as (w5 & -> & Fw5). cbn [bind]. eexists. split; [reflexivity|]. split; assumption.
Qed.
Theorem anti_total Nn xs u v lc : centers c xs -> ((0 < c_holes c)%Z -> solver_fits Nn es (Z.to_nat (c_holes c))) -> fitting es u -> fitting es v -> List.length lc = Z.to_nat (c_holes c) ->
  exists P w, anti_laplacian Nn H c u v lc = Ok (P, w) /\ fitting es P /\ fitting es w.
Proof using Rd B.
  intros Cx So Fu Fv Ll. pose proof F as (FF & EH & _). pose proof (Forall2_len _ _ _ FF) as LF. pose proof (ready_nonempty _ _ _ _ Rd B) as Nz. assert (Lp : (0 < List.length ess)%nat) by (clear -Nz; destruct ess; [exfalso; apply Nz; reflexivity|cbn; lia]). unfold anti_laplacian. destruct (Z.eqb_spec (c_holes c) 0) as [Hz|Hz].
  - unfold simply_connected. destruct (f_tang u (map Ropp v) Fu (fit_map _ _ Fv)) as (w1 & -> & F1). cbn [bind].
    assert (X : exists l, ess = [l]). { rewrite Hz in EH. clear -LF EH. destruct ess as [|l [|l' ls]]; cbn [List.length] in LF; try lia. exists l. reflexivity. }
    destruct X as (l & El). assert (Es : es = l) by (rewrite El; cbn; apply app_nil_r). assert (Ns : contour_smp l <> []) by (apply (smp_nonempty F NE); rewrite El; left; reflexivity).
    assert (W : forall w, fitting es w -> exists z, fft_antiderivative w (2 * PI * INR (c_nedges c)) = Ok z /\ fitting es z).
    { intros w Fw. assert (Nw : w <> []). { intros ->. unfold fitting in Fw. cbn [List.length] in Fw. rewrite Es in Fw. apply Ns. pose proof (wells F) as W. rewrite El in W. inversion W as [|? ? Wl _]; subst. pose proof (contour_smp_length l Wl) as L. destruct (contour_smp l); [reflexivity|cbn [List.length] in L; lia]. }
      eexists. rewrite antiderivative_mult; [split; [reflexivity|]|exact Nw|].
      - unfold fitting in *. rewrite map_length, seq_length. exact Fw.
      - rewrite (ready_nedges _ _ _ _ Rd B). assert (INR (List.length es) <> 0) by (apply not_0_INR; destruct es; [congruence|discriminate]). pose proof PI_RGT_0. apply Rmult_integral_contrapositive_currified; [lra|assumption]. }
    destruct (W w1 F1) as (z1 & -> & Z1). cbn [bind]. destruct (f_tang v u Fv Fu) as (w2 & -> & F2). cbn [bind]. destruct (W w2 F2) as (z2 & -> & Z2). cbn [bind]. apply components_fit; assumption.
  - specialize (So ltac:(lia)). unfold multiply_connected, dot_with_tangent. destruct (f_dot sT u (map Ropp v) Fu (fit_map _ _ Fv)) as (ft & -> & Ft). cbn [bind]. destruct (f_dot sT v u Fv Fu) as (fht & -> & Fht). cbn [bind]. destruct (residues_fit ft fht Ft Fht) as (bc & -> & Lb). cbn [bind]. rewrite (s_points F). cbn [bind]. rewrite (centres_ok c xs EH Cx). cbn [bind]. cbv zeta. rewrite !on_sx.
    set (hs := combine xs bc). destruct (f_sub u (samples_of es (fun s => rat hs (sx s))) Fu (samples_fit F _)) as (u0 & -> & F0). cbn [bind]. rewrite ?on_sx. destruct (f_sub v (samples_of es (fun s => rat_hat hs (sx s))) Fv (samples_fit F _)) as (v0 & -> & G0). cbn [bind].
    destruct (trace_scal F 0) as (z & Ez & Lz & _). rewrite Ez. cbn [bind]. pose proof (made_carries z None None Lz I I) as Ca. unfold wnd_from_gradient. destruct (f_norm u0 (map Ropp v0) F0 (fit_map _ _ G0)) as (n1 & -> & N1). cbn [bind]. destruct (set_wnd_ok F _ _ _ _ n1 Ca N1) as (t1 & E1 & C1). rewrite E1. cbn [bind]. destruct (f_norm v0 u0 G0 F0) as (n2 & -> & N2). cbn [bind]. destruct (set_wnd_ok F _ _ _ _ n2 Ca N2) as (t2 & E2 & C2). rewrite E2. cbn [bind].
    match goal with |- exists P w, bind ?X _ = _ /\ _ => assert (Y : exists t3 t4 a b, X = Ok (t3, t4) /\ tr_vals t3 = Some a /\ tr_vals t4 = Some b /\ fitting es a /\ fitting es b) end.
    { destruct (as_strategy Nn) eqn:St.
      - unfold direct_solve. destruct C1 as (B1 & V1 & M1 & W1). destruct C2 as (B2 & V2 & M2 & W2). rewrite M1, M2. unfold solver_fits in So. rewrite St in So. destruct (So n1 N1) as (a & -> & Fa). cbn [bind]. unfold set_trace_values. rewrite (tfill_arr es) by (exact (all_sampleable F) || exact B1 || exact Fa). cbn [bind]. destruct (So n2 N2) as (b & -> & Fb). cbn [bind]. rewrite (tfill_arr es) by (exact (all_sampleable F) || exact B2 || exact Fb). cbn [bind]. eexists _, _, a, b. split; [reflexivity|]. repeat split; assumption.
      - unfold wtd_from_gradient. destruct (f_tang u0 (map Ropp v0) F0 (fit_map _ _ G0)) as (d1 & -> & D1). cbn [bind]. destruct (set_wtd_ok F _ _ _ _ d1 C1 D1) as (t3 & E3 & C3). rewrite E3. cbn [bind]. destruct (f_tang v0 u0 G0 F0) as (d2 & -> & D2). cbn [bind]. destruct (set_wtd_ok F _ _ _ _ d2 C2 D2) as (t4 & E4 & C4). rewrite E4. cbn [bind]. unfold fft_solve. destruct (recover_fit Nn t3 _ _ _ So St C3) as (t5 & a & E5 & V5 & Fa). destruct (recover_fit Nn t4 _ _ _ So St C4) as (t6 & b & E6 & V6 & Fb). destruct C3 as (B3 & V3 & M3 & W3). destruct C4 as (B4 & V4 & M4 & W4). rewrite M3, W3, M4, W4, E5. cbn [bind]. rewrite E6. cbn [bind]. eexists _, _, a, b. split; [reflexivity|]. repeat split; assumption. }
    destruct Y as (t3 & t4 & a & b & -> & V3 & V4 & Fa & Fb). cbn [bind]. rewrite V3, V4. cbn [attr bind]. destruct (components_fit a b u0 v0 Fa Fb F0 G0) as (P & w & -> & FP & Fw). cbn [bind]. apply add_holes_fit; try assumption.
    + rewrite map_fst_combine; [apply (samples_fit F)|]. unfold samples_of. rewrite !map_length. reflexivity.
    + unfold hs. rewrite combine_length, Lb, (centers_length c xs Cx), EH. lia.
Qed.
End Cell.
