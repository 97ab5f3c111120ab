(** The Nyström solver as a whole. *)
From Coq Require Import List ZArith Reals Lia Lra Bool.
From Coquelicot Require Import Coquelicot.
From Verif Require Import PyBase PolyModel PolySpec BaryModel QuadModel VertModel EdgeModel EdgeSpec EdgeProps4 ContourModel CellModel CellSpec CellProofs CellProps ContourProofs ContourProofs2 ContourProofs3 InteriorProofs ContourProofs4 ContourProps CellProps3 TraceModel TraceSpec TraceProofs LocalProofs3 LocalModel LocalSpec LocalProofs LocalProofs2 LocalProofs5 FftModel FftSpec FftProofs FftProofs2 FftProofs3 FftProps AntilapModel AntilapSpec AntilapProofs AntilapProofs2 AntilapProofs3 AntilapProofs4 NystromModel NystromSpec NystromProofs NystromProofs2 NystromProofs4.
Import List ListNotations.
Open Scope R_scope.

(** ** Constant values on consecutive edges *)
Lemma csize_app a b : csize (a ++ b) = (csize a + csize b)%Z.
Proof. unfold csize. rewrite map_app. apply total_app. Qed.
Lemma csize_cons e l : csize (e :: l) = (open_num e + csize l)%Z.
Proof. reflexivity. Qed.
Lemma set_run (v : R) n w es : forall M A Z t p z r, es = A ++ M ++ Z -> Forall well_sampled es -> built es t -> tr_vals t = Some (p ++ z ++ r) -> tr_wnd t = n -> tr_wtd t = w -> Z.of_nat (List.length p) = csize A -> Z.of_nat (List.length z) = csize M ->
  exists t', fold_res (fun t i => set_trace_values_on_edge t (Z.of_nat i) (VScal v)) (seq (List.length A) (List.length M)) t = Ok t' /\ built es t' /\ tr_vals t' = Some (p ++ repeat v (Z.to_nat (csize M)) ++ r) /\ tr_wnd t' = n /\ tr_wtd t' = w.
Proof.
  induction M as [|e M IH]; intros A Z t p z r Es W Bt Ev En Ew Lp Lz.
  - exists t. split; [reflexivity|]. split; [exact Bt|]. assert (z = []) by (destruct z; [reflexivity|cbn in Lz; lia]). subst z. auto.
  - assert (We : well_sampled e) by (rewrite Forall_forall in W; apply W; rewrite Es; apply in_or_app; right; left; reflexivity). pose proof (open_pos e We) as [O1 _]. rewrite csize_cons in Lz. assert (WM : Forall well_sampled M). { rewrite Es in W. apply Forall_app in W. destruct W as [_ W]. cbn [app] in W. inversion W; subst. apply Forall_app in H2. apply H2. } pose proof (csize_nonneg M WM) as O2.
    rewrite <- (firstn_skipn (Z.to_nat (open_num e)) z) in Ev. set (z1 := firstn _ z) in *. set (z2 := skipn (Z.to_nat (open_num e)) z) in *. assert (L1 : Z.of_nat (List.length z1) = open_num e) by (unfold z1; rewrite firstn_length; lia). assert (L2 : Z.of_nat (List.length z2) = csize M) by (unfold z2; rewrite skipn_length; lia).
    assert (Ee : nth_error es (List.length A) = Some e) by (rewrite Es, nth_error_app2, Nat.sub_diag by lia; reflexivity). assert (Sa : Forall sampleable es) by (apply well_ready, W). assert (Se : sampleable e) by (rewrite Forall_forall in Sa; apply Sa; eapply nth_error_In, Ee).
    cbn [List.length seq fold_res]. unfold set_trace_values_on_edge at 1. pose proof Bt as (Be & Bn & Bi & Bv & Bd). rewrite Be, Nat2Z.id. assert (LA : (List.length A < List.length es)%nat) by (apply nth_error_Some; congruence). rewrite (proj2 (Z.ltb_ge _ _)), (proj2 (Z.leb_gt _ _)) by lia. cbn [orb]. rewrite (geti_nth _ _ _ Ee). cbn [bind validate_on_edge]. rewrite Bi. cbn [attr bind]. rewrite Ev. cbn [attr bind]. rewrite <- app_assoc.
    rewrite (set_on_edge_ok es t (List.length A) e (VScal v) (repeat v (Z.to_nat (open_num e))) p z1 (z2 ++ r) Bt Ee Se eq_refl L1); [|rewrite Es; unfold sizes; rewrite map_app, firstn_app, map_length, Nat.sub_diag, firstn_O, app_nil_r, firstn_all2 by (rewrite map_length; lia); fold (csize A); lia|exact Sa].
    cbn [bind]. destruct (IH (A ++ [e]) Z (with_vals t (p ++ repeat v (Z.to_nat (open_num e)) ++ z2 ++ r)) (p ++ repeat v (Z.to_nat (open_num e))) z2 r) as (t' & E' & B' & V' & N' & W'); try assumption.
    + rewrite Es, <- app_assoc. reflexivity.
    + split; [exact Be|]. split; [exact Bn|]. split; [exact Bi|]. split; [|exact Bd]. cbn [with_vals tr_vals sized]. rewrite !app_length, repeat_length. rewrite Ev in Bv. cbn [sized] in Bv. rewrite !app_length in Bv. lia.
    + cbn [with_vals tr_vals]. rewrite <- app_assoc. reflexivity.
    + rewrite app_length, repeat_length, csize_app, csize_cons. change (csize []) with 0%Z. lia.
    + exists t'. rewrite app_length in E'. cbn [List.length] in E'. rewrite Nat.add_1_r in E'. split; [exact E'|]. split; [exact B'|]. split; [|split; assumption]. rewrite V', csize_cons, Z2Nat.inj_add by lia. rewrite repeat_app, <- !app_assoc. reflexivity.
Qed.
Lemma fold_shift {X} (f : X -> nat -> res X) a m : forall j b, fold_res (fun b i => f b (a + i)%nat) (seq j m) b = fold_res f (seq (a + j) m) b.
Proof. induction m as [|m IH]; intros j b; [reflexivity|]. cbn [seq fold_res]. destruct (f b (a + j)%nat) as [b'|]; [|reflexivity]. cbn [bind]. rewrite IH, Nat.add_succ_r. reflexivity. Qed.
Lemma sum_app a b : sum_list (a ++ b) = sum_list a + sum_list b.
Proof. unfold sum_list. induction a as [|x a IH]; cbn [app fold_right]; [ring|]. rewrite IH. ring. Qed.
Lemma sum_scaled v l : sum_list (zip_with Rmult (repeat v (List.length l)) l) = v * sum_list l.
Proof. unfold sum_list, zip_with. induction l as [|x l IH]; cbn [List.length repeat combine map fst snd fold_right]; [ring|]. rewrite IH. ring. Qed.
Lemma zip_app f a b a' b' : List.length a = List.length a' -> zip_with f (a ++ b) (a' ++ b') = zip_with f a a' ++ zip_with f b b'.
Proof. revert a'. induction a as [|x a IH]; intros [|y a'] L; try discriminate; [reflexivity|]. unfold zip_with in *. cbn [app combine map]. rewrite IH by (cbn in L; lia). reflexivity. Qed.
Lemma samples_app f a b : samples_of (a ++ b) f = samples_of a f ++ samples_of b f.
Proof. unfold samples_of, contour_smp. rewrite map_app, concat_app, map_app. reflexivity. Qed.
Lemma samples_size f l : Forall well_sampled l -> List.length (samples_of l f) = Z.to_nat (csize l).
Proof. intros W. unfold samples_of. rewrite map_length. pose proof (contour_smp_length l W). lia. Qed.

Section Cell.
Context {contains : R -> list pt -> pt -> bool} {H : heap} {c : cell} {ess : list (list edge)}.
Hypothesis Rd : ready contains H c.
Hypothesis B : boundary_edges H c ess.
Local Notation es := (concat ess).
Local Notation N := (Z.to_nat (csize es)).
Local Notation h := (Z.to_nat (c_holes c)).
Let F := NpF Rd B.
Lemma cell_wf : Forall (Forall well_sampled) ess.
Proof using Rd B. exact (fresh_all _ _ _ (proj1 F)). Qed.

(** ** The indicator functions *)
Lemma arc_length i k l : nth_error (c_comps c) i = Some k -> nth_error ess i = Some l -> exists n, k_npts k = Some n /\ contour_integrate (repeat 1 (Z.to_nat n)) H k = Ok (contour_sum l sw).
Proof using Rd B.
  intros Ek El. destruct (ready_uniform _ _ _ _ Rd B) as (_ & NE & n0 & U). pose proof (Forall2_nth _ _ _ (proj1 F) _ _ _ Ek El) as Fk. pose proof Fk as (_ & W & En & _). exists (csize l). split; [exact En|]. pose proof (csize_nonneg l W) as P.
  destruct (cut_exists l (repeat 1 (Z.to_nat (csize l)))) as (vs & Ev & Cu); [exact W|rewrite repeat_length; fold (csize l); lia|]. rewrite Ev, (integrate_contour_ok H k l vs Fk Cu). rewrite <- (uniform_sum n0 l vs); [|rewrite Forall_forall in U; specialize (U l (nth_error_In _ _ El)); inversion W as [Hl|e l' We Wl Hl]; subst; [rewrite Forall_forall in NE; exfalso; exact (NE [] (nth_error_In _ _ El) eq_refl)|]; inversion U; subst; destruct We as (_ & _ & Q & _); lia|rewrite Forall_forall in U; apply U; eapply nth_error_In, El|rewrite Forall_forall in NE; apply NE; eapply nth_error_In, El|exact Cu|exact W].
  rewrite <- Ev. unfold contour_sum. f_equal. f_equal. change (map sw (contour_smp l)) with (samples_of l sw). rewrite <- (samples_size sw l W), sum_scaled. ring.
Qed.
Lemma indicator_ok e0 pre ej post k : ess = e0 :: pre ++ ej :: post -> nth_error (c_comps c) (S (List.length pre)) = Some k ->
  exists t, indicator H c (List.length (e0 ++ concat pre)) k = Ok t /\
    tr_vals t = Some (repeat (- contour_sum ej sw / contour_sum e0 sw) (Z.to_nat (csize e0)) ++ repeat 0 (Z.to_nat (csize (concat pre))) ++ repeat 1 (Z.to_nat (csize ej)) ++ repeat 0 (Z.to_nat (csize (concat post)))).
Proof using Rd B.
  intros Ee Ek. pose proof cell_wf as W. pose proof (comps_len H c ess F) as Lc. assert (Wc : Forall well_sampled es) by (apply Forall_concat, W).
  destruct (nth_error (c_comps c) 0) as [c0|] eqn:E0; [|apply nth_error_None in E0; rewrite Ee in Lc; cbn in Lc; lia]. assert (Ee0 : nth_error ess 0 = Some e0) by (rewrite Ee; reflexivity). assert (Eej : nth_error ess (S (List.length pre)) = Some ej) by (rewrite Ee; cbn [nth_error]; rewrite nth_error_app2, Nat.sub_diag by lia; reflexivity).
  destruct (arc_length _ _ _ E0 Ee0) as (n0 & N0 & I0). destruct (arc_length _ _ _ Ek Eej) as (nj & Nj & Ij). unfold indicator. rewrite (geti_nth _ _ _ E0). cbn [bind]. rewrite N0. cbn [attr bind]. rewrite I0. cbn [bind]. destruct (trace_scal F 0) as (v & Et & Fv & Av). rewrite Et. cbn [bind]. rewrite Nj. cbn [attr bind]. rewrite Ij. cbn [bind].
  assert (K0 : k_num c0 = List.length e0). { pose proof (Forall2_nth _ _ _ (proj1 F) _ _ _ E0 Ee0) as (Rf & _). unfold k_num. exact (refs_length _ _ _ Rf). } assert (Kj : k_num k = List.length ej). { pose proof (Forall2_nth _ _ _ (proj1 F) _ _ _ Ek Eej) as (Rf & _). unfold k_num. exact (refs_length _ _ _ Rf). } rewrite K0, Kj.
  assert (Ec : es = e0 ++ concat pre ++ ej ++ concat post) by (rewrite Ee; cbn [concat]; rewrite concat_app; reflexivity). assert (P0 : (0 <= csize e0)%Z) by (apply csize_nonneg; rewrite Forall_forall in W; apply W; eapply nth_error_In, Ee0). assert (Pj : (0 <= csize ej)%Z) by (apply csize_nonneg; rewrite Forall_forall in W; apply W; eapply nth_error_In, Eej). assert (P1 : (0 <= csize (concat pre))%Z) by (apply csize_nonneg, Forall_concat; rewrite Ee in W; inversion W as [|? ? _ Wt]; subst; apply Forall_app in Wt; apply Wt). assert (P2 : (0 <= csize (concat post))%Z) by (apply csize_nonneg, Forall_concat; rewrite Ee in W; inversion W as [|? ? _ Wt]; subst; apply Forall_app in Wt; destruct Wt as [_ Wt]; inversion Wt; assumption).
  assert (Vz : v = repeat 0 (Z.to_nat (csize e0)) ++ repeat 0 (Z.to_nat (csize (concat pre))) ++ repeat 0 (Z.to_nat (csize ej)) ++ repeat 0 (Z.to_nat (csize (concat post)))).
  { rewrite <- !repeat_app. assert (Lv : List.length v = (Z.to_nat (csize e0) + (Z.to_nat (csize (concat pre)) + (Z.to_nat (csize ej) + Z.to_nat (csize (concat post)))))%nat) by (unfold fitting in Fv; rewrite Ec, !csize_app in Fv; lia). rewrite <- Lv. clear -Av. induction Av as [|x v <- Av IH]; [reflexivity|]. cbn [List.length repeat]. f_equal. exact IH. }
  destruct (set_run (- contour_sum ej sw / contour_sum e0 sw) None None es e0 [] (concat pre ++ ej ++ concat post) (made es v None None) [] (repeat 0 (Z.to_nat (csize e0))) (repeat 0 (Z.to_nat (csize (concat pre))) ++ repeat 0 (Z.to_nat (csize ej)) ++ repeat 0 (Z.to_nat (csize (concat post))))) as (t1 & E1 & B1 & V1 & N1 & W1); try exact Wc; try reflexivity.
  { rewrite Ec. reflexivity. } { apply made_built; [exact Fv|exact Logic.I|exact Logic.I]. } { cbn [made tr_vals]. rewrite Vz. reflexivity. } { rewrite repeat_length. lia. }
  change (List.length (A := edge) []) with 0%nat in E1. rewrite E1. cbn [bind].
  destruct (set_run 1 None None es ej (e0 ++ concat pre) (concat post) t1 (repeat (- contour_sum ej sw / contour_sum e0 sw) (Z.to_nat (csize e0)) ++ repeat 0 (Z.to_nat (csize (concat pre)))) (repeat 0 (Z.to_nat (csize ej))) (repeat 0 (Z.to_nat (csize (concat post))))) as (t2 & E2 & B2 & V2 & _); try assumption.
  { rewrite Ec, <- !app_assoc. reflexivity. } { rewrite V1. cbn [app]. rewrite <- app_assoc. reflexivity. } { rewrite app_length, !repeat_length, csize_app. lia. } { rewrite repeat_length. lia. }
  exists t2. split; [|rewrite V2, <- app_assoc; reflexivity]. rewrite <- E2, (fold_shift (fun t i => set_trace_values_on_edge t (Z.of_nat i) (VScal 1))), Nat.add_0_r. reflexivity.
Qed.
Lemma indicator_mean e0 pre ej post : ess = e0 :: pre ++ ej :: post -> contour_sum e0 sw <> 0 ->
  boundary_sum es (zip_with Rmult (repeat (- contour_sum ej sw / contour_sum e0 sw) (Z.to_nat (csize e0)) ++ repeat 0 (Z.to_nat (csize (concat pre))) ++ repeat 1 (Z.to_nat (csize ej)) ++ repeat 0 (Z.to_nat (csize (concat post)))) (samples_of es sw)) = 0.
Proof using Rd B.
  intros Ee N0. pose proof cell_wf as W. destruct (ready_uniform _ _ _ _ Rd B) as (_ & NE & n & U). assert (Ec : es = e0 ++ concat pre ++ ej ++ concat post) by (rewrite Ee; cbn [concat]; rewrite concat_app; reflexivity).
  assert (W0 : Forall well_sampled e0) by (rewrite Ee in W; inversion W; assumption). assert (Wt : Forall (Forall well_sampled) pre /\ Forall (Forall well_sampled) (ej :: post)) by (rewrite Ee in W; inversion W as [|? ? _ Wt]; subst; apply Forall_app in Wt; exact Wt). destruct Wt as [W1 W23]. assert (Wj : Forall well_sampled ej) by (inversion W23; assumption). assert (W3 : Forall (Forall well_sampled) post) by (inversion W23; assumption).
  unfold boundary_sum. rewrite Ec at 3. rewrite !samples_app.
  rewrite <- (samples_size sw e0 W0), <- (samples_size sw (concat pre)) by (apply Forall_concat, W1). rewrite <- (samples_size sw ej Wj), <- (samples_size sw (concat post)) by (apply Forall_concat, W3). rewrite !zip_app by (rewrite repeat_length; reflexivity). rewrite !sum_app, !sum_scaled.
  assert (St : forall l, In l ess -> 2 * PI * INR (List.length l) / IZR (csize l) = 2 * PI / IZR (n - 1) /\ IZR (csize l) = INR (List.length l) * IZR (n - 1)).
  { intros l Il. rewrite Forall_forall in U, NE, W. specialize (U l Il). specialize (NE l Il). specialize (W l Il). assert (Cs : IZR (csize l) = INR (List.length l) * IZR (n - 1)). { clear -U. unfold csize, total. induction U as [|e l Ue U IH]; [cbn; ring|]. cbn [map fold_right List.length]. rewrite plus_IZR, IH, S_INR. unfold open_num. rewrite Ue. ring. }
    split; [|exact Cs]. rewrite Cs. destruct l as [|e l]; [congruence|]. inversion W as [|? ? We _]; subst. inversion U as [|? ? Ue _]; subst. destruct We as (_ & _ & Q & _). assert (IZR (e_npts e - 1) <> 0) by (apply not_0_IZR; lia). field. split; [assumption|]. apply not_0_INR. cbn. lia. }
  destruct (St e0) as [S0 _]; [rewrite Ee; left; reflexivity|]. destruct (St ej) as [Sj _]; [rewrite Ee; right; apply in_or_app; right; left; reflexivity|]. unfold contour_sum in *. rewrite S0 in *. rewrite Sj in *. assert (sum_list (samples_of e0 sw) <> 0) by (intros Z; apply N0; rewrite Z; ring). assert (2 * PI / IZR (n - 1) <> 0) by (intros Z; apply N0; rewrite Z; ring).
  generalize dependent (2 * PI / IZR (n - 1)). intros st _ _ _ _ Ns. match goal with |- ?a * ?b = 0 => replace b with 0; [ring|] end. field. split; assumption.
Qed.
End Cell.
