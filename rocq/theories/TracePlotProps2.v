(** C67: traces, formats and legends of a trace plot. *)
From Coq Require Import List ZArith Reals Lia Lra String.
From Verif Require Import PyBase PolyModel BaryModel QuadModel QuadProofs QuadProps EdgeModel EdgeSpec EdgeProps EdgeProps2 EdgeProofs2 ContourModel CellModel CellSpec CellProofs CellProps CellProps2 ContourProofs2 ContourProofs3 ContourProofs4 ContourProps CellProps3 TraceModel TraceProofs LocalModel LocalSpec LocalProofs LocalProofs2 LocalProofs3 LocalProofs5 LocalProps Annulus DiscCell TracePlotModel TracePlotSpec LocPlotProps2 TracePlotProofs TracePlotProps.
Import List ListNotations.
Open Scope R_scope.

(** ** Traces *)
Definition fits (n : Z) (f : tlike) : Prop := exists v, given_values f = Some v /\ Z.of_nat (List.length v) = n.
Definition copies (f : tlike) : list (list R) := match given_values f with Some v => repeat v (times_drawn f) | None => [] end.
Lemma add_traces_ok n fs : Forall (fits n) fs -> forall l, add_traces n l fs = (l ++ concat (map copies fs), Ok tt).
Proof.
  induction 1 as [|f fs (v & E & L) F IH]; intros l; [cbn; rewrite app_nil_r; reflexivity|]. cbn [add_traces map concat]. unfold copies at 1. rewrite E. destruct f as [w|t|]; cbn [given_values] in E; [| |discriminate]; cbn [add_trace times_drawn].
  - injection E as ->. rewrite (proj2 (Z.eqb_eq _ _) L), IH. cbn [repeat]. rewrite <- app_assoc. reflexivity.
  - rewrite E. cbv zeta. rewrite (proj2 (Z.eqb_eq _ _) L), IH. cbn [repeat]. rewrite <- !app_assoc. reflexivity.
Qed.
Lemma add_traces_inv n fs : forall l ts, add_traces n l fs = (ts, Ok tt) -> Forall (fits n) fs.
Proof.
  induction fs as [|f fs IH]; intros l ts E; [constructor|]. cbn [add_traces] in E. destruct f as [v|t|]; cbn [add_trace] in E; [| |discriminate].
  - destruct (Z.eqb_spec (Z.of_nat (List.length v)) n) as [L|L]; [|discriminate]. constructor; [exists v; auto|exact (IH _ _ E)].
  - destruct (tr_vals t) as [v|] eqn:Et; [|discriminate]. cbv zeta in E. destruct (Z.eqb_spec (Z.of_nat (List.length v)) n) as [L|L]; [|discriminate]. constructor; [exists v; auto|exact (IH _ _ E)].
Qed.
(** Traces are accepted exactly when each is an array, or a trace with values, of the right length. They
    are kept in order, arrays once and the values of a DirichletTrace twice. *)
Theorem C67_traces n fs : (forall ts, set_traces n fs = (ts, Ok tt) <-> Forall (fits n) (listed fs) /\ ts = concat (map copies (listed fs))) /\
  (Forall is_array (listed fs) -> forall ts, set_traces n fs = (ts, Ok tt) -> map Some ts = map given_values (listed fs)).
Proof.
  assert (X : forall ts, set_traces n fs = (ts, Ok tt) <-> Forall (fits n) (listed fs) /\ ts = concat (map copies (listed fs))).
  { intros ts. unfold set_traces. change (match fs with TLOne f => [f] | TLList l => l end) with (listed fs). split.
    - intros E. pose proof (add_traces_inv _ _ _ _ E) as F. split; [exact F|]. rewrite (add_traces_ok n _ F []) in E. injection E as <-. reflexivity.
    - intros (F & ->). exact (add_traces_ok n _ F []). }
  split; [exact X|]. intros A ts E. apply X in E. destruct E as (_ & ->). clear X. induction A as [|f fs' (v & ->) A IH]; [reflexivity|]. cbn [map concat given_values]. unfold copies at 1. cbn [given_values times_drawn repeat]. cbn [app map]. f_equal. exact IH.
Qed.
Print Assumptions C67_traces.
(** Everything else is refused. *)
Theorem C67_traces_refused n fs : ~ Forall (fits n) (listed fs) -> exists ts e, set_traces n fs = (ts, Err e) /\ In e [TypeError; ValueError; AttributeError].
Proof.
  intros N. unfold set_traces. change (match fs with TLOne f => [f] | TLList l => l end) with (listed fs). generalize (@nil (list R)) as l. induction (listed fs) as [|f fs' IH]; intros l; [exfalso; apply N; constructor|]. cbn [add_traces]. destruct f as [v|t|]; cbn [add_trace].
  - destruct (Z.eqb_spec (Z.of_nat (List.length v)) n) as [L|L]; [|eexists _, _; split; [reflexivity|cbn; auto]]. apply IH. intros F. apply N. constructor; [exists v; auto|exact F].
  - destruct (tr_vals t) as [v|] eqn:Et; [|eexists _, _; split; [reflexivity|cbn; auto]]. cbv zeta. destruct (Z.eqb_spec (Z.of_nat (List.length v)) n) as [L|L]; [|eexists _, _; split; [reflexivity|cbn; auto]]. apply IH. intros F. apply N. constructor; [exists v; auto|exact F].
  - eexists _, _; split; [reflexivity|cbn; auto].
Qed.
Print Assumptions C67_traces_refused.
(** A DirichletTrace is plotted twice, so a list of formats or a legend with one entry for each trace is
    refused as soon as there is one among them. *)
Theorem C67_twice_refuted n fs ts t : set_traces n fs = (ts, Ok tt) -> In (TLTrace t) (listed fs) ->
  (forall l, List.length l = List.length (listed fs) -> set_format ts (FList l) = Err ValueError /\ set_legend ts (LTuple l) = Err ValueError) /\
  (forall v, listed fs = [TLTrace t] -> tr_vals t = Some v -> ts = [v; v]).
Proof.
  intros E I. apply (proj1 (C67_traces n fs)) in E. destruct E as (F & ->). split.
  - intros l L. assert (X : (List.length (listed fs) < List.length (concat (map copies (listed fs))))%nat).
    { assert (Y : forall gs, Forall (fits n) gs -> (List.length gs <= List.length (concat (map copies gs)))%nat). { induction 1 as [|g gs (v & Eg & _) G IH]; [apply le_n|]. cbn [map concat List.length]. rewrite app_length. unfold copies at 1. rewrite Eg, repeat_length. destruct g; cbn [times_drawn]; lia. }
      clear L l. induction F as [|g gs (v & Eg & Lg) G IH]; [destruct I|]. cbn [map concat List.length]. rewrite app_length. unfold copies at 1. rewrite Eg, repeat_length. destruct I as [-> |I]; [cbn [times_drawn]; specialize (Y gs G); lia|]. specialize (IH I). destruct g; cbn [times_drawn]; lia. }
    rewrite <- L in X. unfold set_format, set_legend. rewrite (proj2 (Nat.eqb_neq _ _)) by lia. split; [reflexivity|]. destruct l; [cbn in L; destruct (listed fs); [destruct I|discriminate]|reflexivity].
  - intros v -> Ev. cbn [map concat]. unfold copies. cbn [given_values times_drawn]. rewrite Ev. reflexivity.
Qed.
Print Assumptions C67_twice_refuted.
(** Formats: one string, or a list with one for each array kept. Legends: nothing, or one for each. *)
Theorem C67_formats ts : (forall f g, set_format ts f = Ok g <-> g = f /\ ((exists s, f = FStr s) \/ exists l, f = FList l /\ List.length l = List.length ts)) /\
  (forall f g, set_legend ts f = Ok g <-> g = f /\ exists l, f = LTuple l /\ (l = [] \/ List.length l = List.length ts)).
Proof.
  split; intros f g.
  - destruct f as [s|l|]; cbn [set_format].
    + split; [intros E; apply Ok_inj in E; split; [congruence|left; eauto]|intros (-> & _); reflexivity].
    + destruct (Nat.eqb_spec (List.length l) (List.length ts)) as [L|L].
      * split; [intros E; apply Ok_inj in E; split; [congruence|right; eauto]|intros (-> & _); reflexivity].
      * split; [discriminate|]. intros (_ & [(s & X)|(l' & X & L')]); [discriminate|]. injection X as <-. contradiction.
    + split; [discriminate|]. intros (_ & [(s & X)|(l' & X & L')]); discriminate.
  - destruct f as [l|]; cbn [set_legend].
    + destruct l as [|x l]; [split; [intros E; apply Ok_inj in E; split; [congruence|eauto]|intros (-> & _); reflexivity]|]. destruct (Nat.eqb_spec (List.length (x :: l)) (List.length ts)) as [L|L].
      * split; [intros E; apply Ok_inj in E; split; [congruence|eauto]|intros (-> & _); reflexivity].
      * split; [discriminate|]. intros (_ & l' & X & [Y|Y]); injection X as <-; [discriminate|contradiction].
    + split; [discriminate|]. intros (_ & l' & X & _). discriminate.
Qed.
Print Assumptions C67_formats.

(** ** Drawing *)
(** A plot made of a cell sampled with the same quadratures can be drawn if it has tick marks: one curve
    for each array kept, through the points (parameter, value), with its format. *)
Theorem C67_drawn contains H0 z ids mesh rtol atol c n p qd w H H' c' ess fs fmt leg log mx P : mk_cell H0 z ids mesh rtol atol = Ok c -> get_quad_dict n p = Ok qd -> param_cell contains qd w H c = Ok (H', c') -> boundary_edges H' c' ess ->
  mk_tplot fs H' c' qd fmt leg log mx = Ok P -> (mx <> 0)%Z ->
  exists t curves marks, find_t H' c' qd = Ok t /\ draw_traces P = Ok (curves, marks) /\ find_ticks (Z.of_nat (List.length (concat ess))) mx = Ok (map fst marks, map snd marks) /\
  map fst curves = map (fun v => combine t v) (concat (map copies (listed fs))) /\ (forall s, fmt = FStr s -> Forall (fun x => snd x = s) curves) /\ (forall l, fmt = FList l -> map snd curves = l) /\
  Forall (fun v => List.length v = List.length t) (concat (map copies (listed fs))).
Proof.
  intros B Q Pc BE E M. destruct (C67_parameter contains H0 z ids mesh rtol atol c n p qd w H H' c' ess B Q Pc BE) as (t & Et & Lt & _). assert (Rd : ContourProps.ready contains H' c') by (exists H0, z, ids, mesh, rtol, atol, c, n, p, qd, w, H; auto). destruct (ready_uniform _ _ _ _ Rd BE) as (F & _). pose proof (smp_len F) as SL.
  unfold mk_tplot in E. rewrite (npts_cell F) in E. cbn [attr bind] in E. rewrite Et in E. cbn [bind] in E. rewrite (ready_nedges _ _ _ _ Rd BE) in E. destruct (find_ticks _ mx) as [[ticks labels]|] eqn:Ek; [|discriminate]. cbn [bind] in E. destruct (set_traces _ fs) as [ts r] eqn:Es. destruct r as [[]|]; [|discriminate]. cbn [bind] in E. destruct (set_format ts fmt) as [fm|] eqn:Ef; [|discriminate]. cbn [bind] in E. destruct (set_legend ts leg) as [lg|] eqn:El; [|discriminate]. cbn [bind] in E. apply Ok_inj in E. subst P.
  apply (proj1 (C67_traces _ _)) in Es. destruct Es as (Fi & Ets).
  assert (LT : List.length ticks = List.length labels). { assert (1 <= Z.of_nat (List.length (concat ess)))%Z by (pose proof (ready_nonempty _ _ _ _ Rd BE) as X; destruct (concat ess); [congruence|cbn; lia]). destruct (Z.eq_dec mx 1) as [->|]; [destruct (C67_few_ticks _ 1 H1) as (X & _); rewrite X in Ek by reflexivity; discriminate|]. destruct (Z.lt_ge_cases mx 0) as [L|L]; [destruct (C67_few_ticks _ mx H1) as (_ & X & _); rewrite X in Ek by exact L; discriminate|]. assert (2 <= mx)%Z by lia.
    destruct (Znumtheory.Zdivide_dec (Z.min (Z.of_nat (List.length (concat ess)) + 1) mx - 1) (Z.of_nat (List.length (concat ess)))) as [D|D]; [destruct (C67_ticks _ mx H1 H2 D) as (tk & lb & X & L1 & L2 & _)|destruct (C67_ticks_refuted _ mx H1 H2 D) as (tk & lb & X & L1 & L2 & _)]; rewrite Ek in X; apply Ok_inj in X; injection X as <- <-; congruence. }
  assert (LV : Forall (fun v => List.length v = List.length t) ts). { rewrite Ets. clear -Fi Lt SL. induction Fi as [|f gs (v & E & L) _ IH]; [constructor|]. cbn [map concat]. apply Forall_app. split; [|exact IH]. unfold copies. rewrite E. apply Forall_forall. intros x I. apply repeat_spec in I. subst x. lia. }
  assert (D : forall l : list (list R * string), Forall (fun v => List.length (fst v) = List.length t) l -> map_res (fun x => draw_trace t (fst x) (snd x)) l = Ok (map (fun x => (combine t (fst x), snd x)) l)). { induction 1 as [|x l Lx _ IH]; [reflexivity|]. cbn [map_res]. unfold draw_trace at 1. rewrite Lx, Nat.eqb_refl. cbn [bind]. rewrite IH. reflexivity. }
  unfold draw_traces. cbn [tp_t tp_fmt tp_traces tp_ticks tp_labels]. rewrite LT, Nat.eqb_refl, <- Ets. assert (MC : map fst (combine ticks labels) = ticks /\ map snd (combine ticks labels) = labels) by (clear -LT; revert labels LT; induction ticks as [|a l IH]; intros [|b m] L; try discriminate; [auto|]; injection L as L; destruct (IH m L); cbn; split; f_equal; assumption). destruct MC as (MC1 & MC2).
  exists t. destruct fmt as [s|l|]; cbn [set_format] in Ef; [| |discriminate].
  - apply Ok_inj in Ef. subst fm. rewrite D by (apply Forall_map; exact LV). cbn [bind]. eexists _, _. split; [exact Et|]. split; [reflexivity|]. rewrite MC1, MC2. split; [reflexivity|]. rewrite !map_map. cbn [fst snd]. split; [reflexivity|]. split; [|split; [intros ? X; discriminate|exact LV]]. intros s' X. injection X as ->. apply Forall_map, Forall_forall. reflexivity.
  - destruct (Nat.eqb_spec (List.length l) (List.length ts)) as [L|]; [|discriminate]. apply Ok_inj in Ef. subst fm. assert (MB : map fst (combine ts l) = ts /\ map snd (combine ts l) = l) by (clear -L; revert l L; induction ts as [|a ts IH]; intros [|b m] L; try discriminate; [auto|]; injection L as L; destruct (IH m L); cbn; split; f_equal; assumption). destruct MB as (MB1 & MB2).
    rewrite D by (apply Forall_map with (f := fst) (P := fun v : list R => List.length v = List.length t); rewrite MB1; exact LV). cbn [bind]. eexists _, _. split; [exact Et|]. split; [reflexivity|]. rewrite MC1, MC2. split; [reflexivity|]. rewrite !map_map. cbn [fst snd]. split; [rewrite <- MB1 at 2; rewrite map_map; reflexivity|]. split; [intros ? X; discriminate|]. split; [|exact LV]. intros l' X. injection X as <-. exact MB2.
Qed.
Print Assumptions C67_drawn.
(** Setters: with arrays only, whatever is called and whatever is refused, the plot can still be drawn. *)
Inductive later_arrays (p : tplot) : tplot -> Prop :=
| la_now : later_arrays p p
| la_call q k : later_arrays p q -> (forall fs, k = SetTraces fs -> Forall (fun f => forall t, f <> TLTrace t) (listed fs)) -> later_arrays p (fst (run_call q k)).
Theorem C67_setters P Q curves marks : draw_traces P = Ok (curves, marks) -> Forall (fun v => List.length v = List.length (tp_t P)) (tp_traces P) -> tp_npts P = Z.of_nat (List.length (tp_t P)) -> later_arrays P Q ->
  exists curves', draw_traces Q = Ok (curves', marks).
Proof.
  intros D L N A. assert (X : (tp_t Q = tp_t P /\ tp_npts Q = tp_npts P /\ tp_ticks Q = tp_ticks P /\ tp_labels Q = tp_labels P) /\ Forall (fun v => List.length v = List.length (tp_t P)) (tp_traces Q)).
  { induction A as [|Q k A IH K]; [auto|]. destruct IH as ((I1 & I2 & I3 & I4) & I5). destruct k as [fs|f|g|b]; cbn [run_call].
    - destruct (set_traces (tp_npts Q) fs) as [ts r] eqn:E. cbn [fst tp_t tp_npts tp_ticks tp_labels tp_traces]. split; [auto|]. specialize (K fs eq_refl). unfold set_traces in E. change (match fs with TLOne f => [f] | TLList l => l end) with (listed fs) in E. rewrite I2, N in E. assert (Y : forall l0, Forall (fun v => List.length v = List.length (tp_t P)) l0 -> forall ts r, add_traces (Z.of_nat (List.length (tp_t P))) l0 (listed fs) = (ts, r) -> Forall (fun v => List.length v = List.length (tp_t P)) ts).
      { clear E. induction K as [|f gs Nf K IH]; intros l0 F0 ts' r' E; [cbn in E; injection E as <- _; exact F0|]. cbn [add_traces] in E. destruct f as [v|t|]; cbn [add_trace] in E; [|exfalso; exact (Nf t eq_refl)|injection E as <- _; exact F0]. destruct (Z.eqb_spec (Z.of_nat (List.length v)) (Z.of_nat (List.length (tp_t P)))) as [Lv|]; [|injection E as <- _; exact F0]. apply (IH _) in E; [exact E|]. apply Forall_app. split; [exact F0|]. constructor; [lia|constructor]. }
      exact (Y [] (Forall_nil _) _ _ E).
    - destruct (set_format (tp_traces Q) f); cbn [fst tp_t tp_npts tp_ticks tp_labels tp_traces]; auto.
    - destruct (set_legend (tp_traces Q) g); cbn [fst tp_t tp_npts tp_ticks tp_labels tp_traces]; auto.
    - cbn [fst tp_t tp_npts tp_ticks tp_labels tp_traces]. auto. }
  destruct X as ((I1 & _ & I3 & I4) & I5). unfold draw_traces in *. rewrite I1, I3, I4.
  assert (Y : forall l : list (list R * string), Forall (fun v => List.length (fst v) = List.length (tp_t P)) l -> exists r, map_res (fun x => draw_trace (tp_t P) (fst x) (snd x)) l = Ok r). { induction 1 as [|x l Lx _ IH]; [exists []; reflexivity|]. destruct IH as (r & E). cbn [map_res]. unfold draw_trace at 1. rewrite Lx, Nat.eqb_refl. cbn [bind]. rewrite E. cbn. eauto. }
  destruct (map_res _ _) as [cs|] eqn:E0 in D; [|discriminate]. cbn [bind] in D. destruct (Nat.eqb (List.length (tp_ticks P)) (List.length (tp_labels P))); [|discriminate]. apply Ok_inj in D. injection D as _ <-.
  destruct (Y (match tp_fmt Q with FStr s => map (fun v => (v, s)) (tp_traces Q) | FList l => combine (tp_traces Q) l | FBad => [] end)) as (r & ->); [|cbn [bind]; eauto].
  destruct (tp_fmt Q) as [s|l|]; [apply Forall_map; exact I5| |constructor]. apply Forall_forall. intros [v s] I. apply in_combine_l in I. rewrite Forall_forall in I5. exact (I5 v I).
Qed.
Print Assumptions C67_setters.
(** A DirichletTrace of the wrong length is refused, but kept: afterwards the plot cannot be drawn. *)
Theorem C67_refused_kept_refuted P t v s : tr_vals t = Some v -> tp_npts P = Z.of_nat (List.length (tp_t P)) -> List.length v <> List.length (tp_t P) -> tp_fmt P = FStr s ->
  let r := run_call P (SetTraces (TLOne (TLTrace t))) in snd r = Err ValueError /\ draw_traces (fst r) = Err ValueError.
Proof.
  intros E N L F. cbv zeta. cbn [run_call]. unfold set_traces. cbn [add_traces add_trace]. rewrite E, N. cbv zeta. rewrite (proj2 (Z.eqb_neq _ _)) by lia. cbn [fst snd]. split; [reflexivity|]. unfold draw_traces. cbn [tp_fmt tp_traces tp_t app map map_res]. rewrite F. cbn [map map_res fst snd]. unfold draw_trace. rewrite (proj2 (Nat.eqb_neq _ _)) by lia. reflexivity.
Qed.
Print Assumptions C67_refused_kept_refuted.
(** New traces do not check the formats again: with a list of formats only as many curves are drawn. *)
Theorem C67_formats_kept_refuted P l vs : tp_fmt P = FList l -> tp_npts P = Z.of_nat (List.length (tp_t P)) -> List.length (tp_ticks P) = List.length (tp_labels P) -> Forall (fun v => List.length v = List.length (tp_t P)) vs -> (List.length l < List.length vs)%nat ->
  let r := run_call P (SetTraces (TLList (map TLArr vs))) in snd r = Ok tt /\ tp_traces (fst r) = vs /\ exists curves marks, draw_traces (fst r) = Ok (curves, marks) /\ List.length curves = List.length l.
Proof.
  intros F N T V L. cbv zeta. cbn [run_call]. assert (E : set_traces (tp_npts P) (TLList (map TLArr vs)) = (vs, Ok tt)). { apply (proj1 (C67_traces _ _)). cbn [listed]. split; [apply Forall_map; eapply Forall_impl; [|exact V]; intros v Lv; exists v; split; [reflexivity|]; cbn in Lv; lia|]. clear. induction vs as [|v vs IH]; [reflexivity|]. cbn [map concat]. unfold copies at 1. cbn. f_equal. exact IH. }
  rewrite E. cbn [fst snd tp_traces]. split; [reflexivity|]. split; [reflexivity|]. unfold draw_traces. cbn [tp_t tp_fmt tp_traces tp_ticks tp_labels]. rewrite F, T, Nat.eqb_refl.
  assert (Y : forall m : list (list R * string), Forall (fun v => List.length (fst v) = List.length (tp_t P)) m -> exists r, map_res (fun x => draw_trace (tp_t P) (fst x) (snd x)) m = Ok r /\ List.length r = List.length m). { induction 1 as [|x m Lx _ IH]; [exists []; auto|]. destruct IH as (r & Er & Lr). cbn [map_res]. unfold draw_trace at 1. rewrite Lx, Nat.eqb_refl. cbn [bind]. rewrite Er. cbn. eexists. split; [reflexivity|]. cbn. lia. }
  destruct (Y (combine vs l)) as (r & -> & Lr). { apply Forall_forall. intros [v s] I. apply in_combine_l in I. rewrite Forall_forall in V. exact (V v I). } cbn [bind]. eexists _, _. split; [reflexivity|]. rewrite Lr, combine_length. lia.
Qed.
Print Assumptions C67_formats_kept_refuted.

(** ** Example *)
(** The disc with eight samples and one edge: two arrays and two formats, with the default of nine marks.
    Nine edges with nine marks have the second mark at 16 pi / 7, labelled 2 pi. *)
Example C67_example : exists H c e P v curves marks, unit_disc H c e /\ List.length v = 8%nat /\ mk_tplot (TLList [TLArr v; TLArr v]) H c dict4 (FList ["k-"; "r--"]%string) (LTuple ["a"; "b"]%string) false 9 = Ok P /\
  draw_traces P = Ok (curves, marks) /\ map snd curves = ["k-"; "r--"]%string /\ map snd marks = [0; 2]%Z /\ nth_error (map fst marks) 1 = Some (2 * PI).
Proof.
  pose proof (disc_cell (5, 5)%Z 1 ltac:(lra)) as B. set (c := made 2 _ _ _ _) in B. assert (C2 : circles c) by (exists 2%Z, [1]%Z, (5, 5)%Z, 1; right; right; reflexivity). destruct (circles_param rings c rings_like C2) as (H' & c' & P). destruct (disc_first c H' c' B C2 P) as (e & D & _). pose proof D as (Rd & BE & N & S & _).
  destruct (C67_parameter disc _ _ _ _ _ _ c _ _ dict4 false rings H' c' [[e]] B dict4_ok P BE) as (t & Et & Lt & _). rewrite (disc_samples e S) in Lt. rewrite map_length, seq_length in Lt. destruct (ready_uniform _ _ _ _ Rd BE) as (F & _). pose proof (smp_len F) as SL. rewrite (disc_samples e S), map_length, seq_length in SL.
  destruct (C67_ticks 1 9 ltac:(lia) ltac:(lia)) as (tk & lb & Ek & L1 & L2 & X). { exists 1%Z. reflexivity. } destruct (X 0%nat ltac:(cbn; lia)) as (l0 & E0 & T0 & V0). destruct (X 1%nat ltac:(cbn; lia)) as (l1 & E1 & T1 & V1). clear X. change (Z.to_nat (Z.min (1 + 1) 9 - 1 + 1)) with 2%nat in *. change (Z.of_nat 0 * (1 / (Z.min (1 + 1) 9 - 1)))%Z with 0%Z in V0. change (Z.of_nat 1 * (1 / (Z.min (1 + 1) 9 - 1)))%Z with 1%Z in V1. pose proof PI_RGT_0 as Pp.
  assert (l0 = 0)%Z by (apply eq_IZR; unfold label_value in V0; nra). assert (l1 = 2)%Z by (apply eq_IZR; unfold label_value in V1; nra). subst l0 l1. destruct lb as [|a [|b [|? ?]]]; try discriminate. cbn in E0, E1. injection E0 as ->. injection E1 as ->.
  set (v := repeat 0 8). assert (EP : exists P, mk_tplot (TLList [TLArr v; TLArr v]) H' c' dict4 (FList ["k-"; "r--"]%string) (LTuple ["a"; "b"]%string) false 9 = Ok P).
  { unfold mk_tplot. rewrite (npts_cell F). cbn [attr bind]. rewrite Et. cbn [bind]. rewrite (ready_nedges _ _ _ _ Rd BE). change (Z.of_nat (List.length (concat [[e]]))) with 1%Z. rewrite Ek. cbn [bind]. rewrite <- SL. cbn. eauto. }
  destruct EP as (PP & EP). destruct (C67_drawn disc _ _ _ _ _ _ c _ _ dict4 false rings H' c' [[e]] _ _ _ _ _ PP B dict4_ok P BE EP ltac:(lia)) as (t' & curves & marks & _ & Ed & Et' & _ & _ & Fl & _). change (Z.of_nat (List.length (concat [[e]]))) with 1%Z in Et'. rewrite Ek in Et'. apply Ok_inj in Et'. injection Et' as M1 M2.
  exists H', c', e, PP, v, curves, marks. split; [exact D|]. split; [reflexivity|]. split; [exact EP|]. split; [exact Ed|]. split; [exact (Fl _ eq_refl)|]. split; [congruence|]. rewrite M1, T1. reflexivity.
Qed.
Example C67_nine : exists ticks labels, find_ticks 9 9 = Ok (ticks, labels) /\ nth_error ticks 1 = Some (16 * PI / 7) /\ nth_error labels 1 = Some 2%Z.
Proof.
  destruct (C67_ticks_refuted 9 9 ltac:(lia) ltac:(lia)) as (tk & lb & E & _ & _ & _ & _ & _ & _ & _ & X). { intros (q & D). cbn in D. lia. } exists tk, lb. split; [exact E|]. destruct (X 1%nat ltac:(cbn; lia)) as (l & x & E1 & -> & E2 & -> & _). rewrite E1, E2. split; [|reflexivity]. f_equal. unfold label_value. cbn. field.
Qed.
