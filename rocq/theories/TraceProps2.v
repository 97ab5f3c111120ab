(** * Dirichlet traces: cases, deviations and arithmetic (C51, C52) *)
From Coq Require Import List ZArith Reals Lia Lra Bool String.
From Verif Require Import PyBase PolyModel VertModel CurveModel EdgeModel EdgeSpec ContourModel CellSpec CellProofs ContourProofs TraceModel TraceSpec TraceProofs TraceProps.
Import List ListNotations.
Open Scope R_scope.

(** Two edges with 3 and 4 samples; the end point of the first is the start of the second. *)
Definition spot (x y : R) : sample := Smp (x, y) (1, 0) (0, -1) 1 0.
Definition polyline (l : list sample) : edge := Edge (mkvert 0 0) (mkvert 1 0) 0 (-1) Line [] "trap" None false false true (Z.of_nat (List.length l)) l (0, 2 * PI) [].
Definition two_edges : list edge := [polyline [spot 0 0; spot 1 0; spot 2 0]; polyline [spot 2 0; spot 2 1; spot 2 2; spot 2 3]].
Lemma polyline_ok l : (3 <= List.length l)%nat -> Forall (fun s => sw s = 1) l -> well_sampled (polyline l).
Proof. intros L F. unfold polyline. split; [reflexivity|]. split; [reflexivity|]. split; [cbn; lia|]. cbn. eapply Forall_impl; [|exact F]. cbn. intros s ->. lra. Qed.
Lemma two_ok : Forall well_sampled two_edges.
Proof. repeat apply Forall_cons; try apply Forall_nil; apply polyline_ok; cbn; try lia; repeat apply Forall_cons; try apply Forall_nil; reflexivity. Qed.
Definition blank : trace := Trace two_edges (Some 5%Z) (Some [(0, 2); (2, 5)]%Z) None None None None.
Lemma blank_reach : reach two_edges blank.
Proof. exact (by_init two_edges true None None blank eq_refl). Qed.

Example C51_values_ex : fits two_edges (Many [VArr [1; 2]; VArr [3; 4; 5]]) /\
  set_trace_values blank (Many [VArr [1; 2]; VArr [3; 4; 5]]) = Ok (with_vals blank [1; 2; 3; 4; 5]).
Proof.
  split; [|reflexivity]. split; [intros x [<-|[<-|[]]]; eauto|]. intros [|[|k]] e E; [| |destruct k; discriminate]; injection E as <-; eexists; split; reflexivity.
Qed.
Example C51_scalar_ex : set_trace_values blank (One (VScal 7)) = Ok (with_vals blank [7; 7; 7; 7; 7]).
Proof. reflexivity. Qed.
(** 2 x y on the second edge *)
Definition two_xy : poly RS := [@Mono RS (MI 1 1) 2].
Example C51_funcs_ex : funcs_fit two_edges (FMany [FFun (fun x y => x + 10); FPoly two_xy]) /\
  exists t, set_funcs blank (FMany [FFun (fun x y => x + 10); FPoly two_xy]) true = Ok t /\ tr_vals t = Some [10; 11; 0; 4; 8].
Proof.
  split; [split; [repeat constructor; discriminate|reflexivity]|]. eexists. split; [reflexivity|]. cbn [tr_vals with_vals]. f_equal.
  repeat apply (f_equal2 (@cons R)); try reflexivity; cbn; try lra.
Qed.

(** ** Deviations from the documentation *)

(** A list of scalars, one per edge, is documented but refused. *)
Theorem C51_scalar_list_refuted : exists es t vs, Forall well_sampled es /\ reach es t /\ List.length vs = List.length es /\ (forall x, In x vs -> exists c, x = VScal c) /\ es <> [] /\
  set_trace_values t (Many vs) = Err ValueError.
Proof. exists two_edges, blank, [VScal 1; VScal 2]. split; [exact two_ok|]. split; [exact blank_reach|]. split; [reflexivity|]. split; [intros x [<-|[<-|[]]]; eauto|]. split; [discriminate|reflexivity]. Qed.
Print Assumptions C51_scalar_list_refuted.

(** The number of arrays is not compared with the number of edges: extra ones are ignored, a missing one is an IndexError. *)
Theorem C51_list_length_refuted : exists es t, Forall well_sampled es /\ reach es t /\ List.length es = 2%nat /\
  set_trace_values t (Many [VArr [1; 2]; VArr [3; 4; 5]; VArr [6]]) = Ok (with_vals t [1; 2; 3; 4; 5]) /\ set_trace_values t (Many [VArr [1; 2]]) = Err IndexError.
Proof. exists two_edges, blank. split; [exact two_ok|]. split; [exact blank_reach|]. repeat split; reflexivity. Qed.
Print Assumptions C51_list_length_refuted.

(** set_funcs_from_polys fails for every polynomial and every nonempty list of polynomials. *)
Theorem C51_polys_refuted t p l : set_funcs_from_polys t (FOne (FPoly p)) = Err AttributeError /\ set_funcs_from_polys t (FMany (FPoly p :: map FPoly l)) = Err AttributeError.
Proof. split; [reflexivity|]. unfold set_funcs_from_polys. rewrite (proj2 (forallb_forall _ _)); [reflexivity|]. intros f [<-|I]; [reflexivity|]. apply in_map_iff in I. destruct I as (q & <- & _). reflexivity. Qed.
Print Assumptions C51_polys_refuted.

(** set_func_on_edge replaces the function but keeps the old values. *)
Theorem C51_stale_refuted : exists es t t', Forall well_sampled es /\ reach es t /\ set_func_on_edge t (PInt 0) (fun _ _ => 1) false false = Ok t' /\
  tr_vals t' = Some [0; 0; 0; 0; 0] /\ exists fs, tr_funcs t' = Some fs /\ nth_error fs 0 = Some (fun _ _ => 1).
Proof.
  exists two_edges, (with_vals (with_funcs blank [fun _ _ => 0; fun _ _ => 0]) [0; 0; 0; 0; 0]). eexists. split; [exact two_ok|]. split; [|split; [reflexivity|]].
  - apply (by_funcs two_edges blank (FOne (FFun (fun _ _ => 0))) true _ blank_reach). reflexivity.
  - split; [reflexivity|]. eexists. split; reflexivity.
Qed.
Print Assumptions C51_stale_refuted.

(** The default trace has the function 0 on every edge but no values. *)
Theorem C51_default_refuted es : Forall sampleable es -> exists t, mk_trace (Some es) false None None = Ok t /\ tr_vals t = None.
Proof. intros F. eexists. split; [unfold mk_trace; cbv zeta; rewrite (init_built es F); reflexivity|reflexivity]. Qed.
Print Assumptions C51_default_refuted.

(** Values on edges that are not parameterized: AttributeError *)
Theorem C51_unparameterized es c fs v : edges_param es = false -> mk_trace (Some es) false fs (Some (One (VScal c))) = Err AttributeError /\ mk_trace (Some es) false fs (Some (One (VArr v))) = Err AttributeError.
Proof. intros P. unfold mk_trace. cbv zeta. rewrite P. split; reflexivity. Qed.
Print Assumptions C51_unparameterized.
Example C51_unparameterized_ex : edges_param [with_diary (Edge (mkvert 0 0) (mkvert 1 0) 0 (-1) Line [] "trap" None false false false (-1) [] (0, 2 * PI) []) []] = false.
Proof. reflexivity. Qed.

(** ** C52 *)
Lemma zip_entry f a b : List.length a = List.length b -> entrywise2 f a b (zip f a b).
Proof.
  intros L. split; [congruence|]. split; [apply zip_len, L|]. revert b L. induction a as [|x a IH]; intros [|y b] L i u v A B; try discriminate; [destruct i; discriminate|]. destruct i as [|i]; [injection A as <-; injection B as <-; reflexivity|]. cbn in L. apply (IH b); [lia|exact A|exact B].
Qed.
Lemma map_entry f a : entrywise f a (map f a).
Proof. split; [apply map_length|]. intros i x E. rewrite nth_error_map, E. reflexivity. Qed.
Lemma sized_same es es' a b : sized es (Some a) -> sized es' (Some b) -> total (map open_num es) = total (map open_num es') -> List.length a = List.length b.
Proof. unfold sized, sizes. intros. lia. Qed.
Lemma ozip_kept es es' a b : sized es a -> sized es' b -> total (map open_num es) = total (map open_num es') -> kept2 Rplus a b (ozip a b).
Proof. intros A B T. destruct a as [a|], b as [b|]; cbn; try reflexivity. apply zip_entry. exact (sized_same es es' a b A B T). Qed.
Lemma omap_kept f a : kept f a (option_map (map f) a).
Proof. destruct a; cbn; [apply map_entry|exact Logic.I]. Qed.

(** The sum of two traces is the sum at every sample; derivatives are added if both have them. *)
Theorem C52_add es es' s o a b : Forall sampleable es -> Forall sampleable es' -> reach es s -> reach es' o ->
  List.length es = List.length es' -> total (map open_num es) = total (map open_num es') -> tr_vals s = Some a -> tr_vals o = Some b ->
  exists t c, tr_add s o = Ok t /\ tr_edges t = es /\ tr_vals t = Some c /\ entrywise2 Rplus a b c /\ kept2 Rplus (tr_wnd s) (tr_wnd o) (tr_wnd t) /\ kept2 Rplus (tr_wtd s) (tr_wtd o) (tr_wtd t).
Proof.
  intros F F' R R' L T Ea Eb. pose proof (reach_built es s F R) as B. pose proof (reach_built es' o F' R') as B'. eexists. eexists. split; [exact (tr_add_closed es es' s o a b F B B' L T Ea Eb)|]. do 2 (split; [reflexivity|]). pose proof B as (_ & _ & _ & S1 & S2 & S3). pose proof B' as (_ & _ & _ & T1 & T2 & T3). rewrite Ea in S1. rewrite Eb in T1.
  split; [apply zip_entry; exact (sized_same es es' a b S1 T1 T)|]. cbn. split; eapply ozip_kept; eassumption.
Qed.
Print Assumptions C52_add.
Theorem C52_mul es s a c : Forall sampleable es -> reach es s -> tr_vals s = Some a ->
  exists t v, tr_mul s (SNum c) = Ok t /\ tr_edges t = es /\ tr_vals t = Some v /\ entrywise (fun x => x * c) a v /\ kept (fun x => x * c) (tr_wnd s) (tr_wnd t) /\ kept (fun x => x * c) (tr_wtd s) (tr_wtd t).
Proof. intros F R Ea. eexists. eexists. split; [exact (tr_map_closed es _ s a F (reach_built es s F R) Ea)|]. do 2 (split; [reflexivity|]). split; [apply map_entry|]. split; apply omap_kept. Qed.
Print Assumptions C52_mul.
Theorem C52_div es s a c : Forall sampleable es -> reach es s -> tr_vals s = Some a -> c <> 0 ->
  exists t v, tr_div s (SNum c) = Ok t /\ tr_edges t = es /\ tr_vals t = Some v /\ entrywise (fun x => x / c) a v /\ kept (fun x => x / c) (tr_wnd s) (tr_wnd t) /\ kept (fun x => x / c) (tr_wtd s) (tr_wtd t).
Proof. intros F R Ea C. unfold tr_div. destruct (Req_EM_T c 0); [contradiction|]. eexists. eexists. split; [exact (tr_map_closed es _ s a F (reach_built es s F R) Ea)|]. do 2 (split; [reflexivity|]). split; [apply map_entry|]. split; apply omap_kept. Qed.
Print Assumptions C52_div.
Lemma zip_opp a : forall b, zip Rplus a (map (fun x => x * -1) b) = zip Rminus a b.
Proof. unfold zip. induction a as [|x a IH]; intros [|y b]; try reflexivity. cbn [combine map fst snd]. rewrite IH. f_equal. ring. Qed.
Theorem C52_sub es es' s o a b : Forall sampleable es -> Forall sampleable es' -> reach es s -> reach es' o ->
  List.length es = List.length es' -> total (map open_num es) = total (map open_num es') -> tr_vals s = Some a -> tr_vals o = Some b ->
  exists t c, tr_sub s o = Ok t /\ tr_edges t = es /\ tr_vals t = Some c /\ entrywise2 Rminus a b c /\ kept2 Rminus (tr_wnd s) (tr_wnd o) (tr_wnd t) /\ kept2 Rminus (tr_wtd s) (tr_wtd o) (tr_wtd t).
Proof.
  intros F F' R R' L T Ea Eb. pose proof (reach_built es s F R) as B. pose proof (reach_built es' o F' R') as B'. pose proof B as (_ & _ & _ & S1 & S2 & S3). pose proof B' as (_ & _ & _ & T1 & T2 & T3). rewrite Ea in S1. rewrite Eb in T1.
  unfold tr_sub, tr_mul. rewrite (tr_map_closed es' _ o b F' B' Eb). cbn [bind]. eexists. eexists. split; [apply (tr_add_closed es es' s _ a (map (fun x => x * -1) b) F B); auto; apply made_built; [rewrite map_length; exact T1|apply sized_map, T2|apply sized_map, T3]|].
  do 2 (split; [reflexivity|]). rewrite zip_opp. split; [apply zip_entry; exact (sized_same es es' a b S1 T1 T)|]. cbn.
  assert (K : forall p q, sized es p -> sized es' q -> kept2 Rminus p q (ozip p (option_map (map (fun x => x * -1)) q))). { intros [p|] [q|] P Q; cbn; try reflexivity. rewrite zip_opp. apply zip_entry. exact (sized_same es es' p q P Q T). }
  split; apply K; assumption.
Qed.
Print Assumptions C52_sub.

(** Multiplication by a scalar distributes over addition, also for the derivatives. *)
Theorem C52_distributive es es' s o a b c : Forall sampleable es -> Forall sampleable es' -> reach es s -> reach es' o ->
  List.length es = List.length es' -> total (map open_num es) = total (map open_num es') -> tr_vals s = Some a -> tr_vals o = Some b ->
  (do t <- tr_add s o; tr_mul t (SNum c)) = (do p <- tr_mul s (SNum c); do q <- tr_mul o (SNum c); tr_add p q) /\ exists t, (do t <- tr_add s o; tr_mul t (SNum c)) = Ok t.
Proof.
  intros F F' R R' L T Ea Eb. pose proof (reach_built es s F R) as B. pose proof (reach_built es' o F' R') as B'. pose proof B as (_ & _ & _ & S1 & S2 & S3). pose proof B' as (_ & _ & _ & T1 & T2 & T3). rewrite Ea in S1. rewrite Eb in T1.
  assert (T2' : sized es (tr_wnd o)) by (unfold sized, sizes in *; rewrite T; exact T2). assert (T3' : sized es (tr_wtd o)) by (unfold sized, sizes in *; rewrite T; exact T3). pose proof (sized_same es es' a b S1 T1 T) as Lab.
  rewrite (tr_add_closed es es' s o a b F B B' L T Ea Eb). unfold tr_mul. rewrite (tr_map_closed es _ s a F B Ea), (tr_map_closed es' _ o b F' B' Eb). cbn [bind].
  rewrite (tr_map_closed es _ (made es _ _ _) (zip Rplus a b) F); [|apply made_built; [rewrite zip_len by exact Lab; exact S1|apply sized_zip; assumption|apply sized_zip; assumption]|reflexivity]. split; [|eauto].
  rewrite (tr_add_closed es es' (made es _ _ _) (made es' _ _ _) (map (fun x => x * c) a) (map (fun x => x * c) b) F); auto; [|apply made_built; [rewrite map_length; exact S1|apply sized_map, S2|apply sized_map, S3]|apply made_built; [rewrite map_length; exact T1|apply sized_map, T2|apply sized_map, T3]].
  assert (Z : forall u v, map (fun x => x * c) (zip Rplus u v) = zip Rplus (map (fun x => x * c) u) (map (fun x => x * c) v)). { unfold zip. induction u as [|x u IH]; intros [|y v]; try reflexivity. cbn [combine map fst snd]. rewrite IH. f_equal. ring. }
  assert (Zo : forall u v, option_map (map (fun x => x * c)) (ozip u v) = ozip (option_map (map (fun x => x * c)) u) (option_map (map (fun x => x * c)) v)). { intros [u|] [v|]; try reflexivity. cbn. f_equal. apply Z. }
  cbn [tr_wnd tr_wtd made]. rewrite Z, !Zo. reflexivity.
Qed.
Print Assumptions C52_distributive.

(** What is refused: different numbers of edges or samples, missing values, a zero or non-numeric scalar *)
Theorem C52_rejected es es' s o : Forall well_sampled es -> Forall well_sampled es' -> reach es s -> reach es' o ->
  (List.length es <> List.length es' -> tr_add s o = Err ValueError) /\
  (List.length es = List.length es' -> tr_vals s = None \/ tr_vals o = None -> tr_add s o = Err AttributeError) /\
  (forall a b, List.length es = List.length es' -> tr_vals s = Some a -> tr_vals o = Some b -> total (map open_num es) <> total (map open_num es') -> tr_add s o = Err BroadcastError) /\
  tr_mul s SBad = Err ValueError /\ tr_div s SBad = Err ValueError /\ tr_div s (SNum 0) = Err ValueError /\
  (tr_vals s = None -> forall c, tr_mul s (SNum c) = Err AttributeError).
Proof.
  intros W W' R R'. pose proof (well_ready _ W) as F. pose proof (well_ready _ W') as F'. pose proof (reach_built es s F R) as B. pose proof (reach_built es' o F' R') as B'. pose proof B as (B1 & _ & _ & S1 & _). pose proof B' as (O1 & _ & _ & T1 & _).
  split; [|split; [|split; [|split; [|split; [|split]]]]]; try reflexivity.
  - intros N. unfold tr_add. rewrite B1, O1, (proj2 (Nat.eqb_neq _ _) N). reflexivity.
  - intros L H. unfold tr_add. rewrite B1, O1, L, Nat.eqb_refl, (custom_ok es F). cbn [bind]. destruct H as [-> | ->]; [reflexivity|]. destruct (tr_vals s); reflexivity.
  - intros a b L Ea Eb N. unfold tr_add. rewrite B1, O1, L, Nat.eqb_refl, (custom_ok es F), Ea, Eb. cbn [bind attr]. rewrite Ea in S1. rewrite Eb in T1. cbn [sized] in S1, T1. unfold sizes in S1, T1. unfold np_add. rewrite (proj2 (Nat.eqb_neq _ _)) by lia.
    assert (Q : forall es, Forall well_sampled es -> es <> [] -> (2 <= total (map open_num es))%Z). { clear. intros es W NE. destruct W as [|e es We W]; [congruence|]. cbn [map]. change (total (open_num e :: map open_num es)) with (open_num e + total (map open_num es))%Z. pose proof (total_nonneg _ (ready_pos es (well_ready es W))) as P. unfold sizes in P. pose proof (proj1 (open_pos e We)). lia. }
    destruct es as [|e es]; [destruct es'; [contradiction N; reflexivity|discriminate]|]. destruct es' as [|e' es']; [discriminate|]. specialize (Q (e :: es) W) as Q1. specialize (Q (e' :: es') W') as Q2. assert (Qa := Q1 ltac:(discriminate)). assert (Qb := Q2 ltac:(discriminate)). rewrite <- S1 in Qa. rewrite <- T1 in Qb.
    destruct a as [|x [|x' a]]; cbn [List.length] in Qa; try lia. destruct b as [|y [|y' b]]; cbn [List.length] in Qb; try lia. reflexivity.
  - unfold tr_div. destruct (Req_EM_T 0 0); [reflexivity|contradiction].
  - intros E c. unfold tr_mul, tr_map. rewrite B1, (custom_ok es F). cbn [bind]. rewrite E. reflexivity.
Qed.
Print Assumptions C52_rejected.

(** Values on both, a normal derivative on the first only: the sum has none. *)
Example C52_example : exists s o t, reach two_edges s /\ reach two_edges o /\ tr_vals s = Some [1; 2; 3; 4; 5] /\ tr_wnd s <> None /\ tr_vals o = Some [10; 10; 10; 10; 10] /\ tr_wnd o = None /\
  tr_add s o = Ok t /\ tr_wnd t = None /\ tr_vals t = Some [1 + 10; 2 + 10; 3 + 10; 4 + 10; 5 + 10].
Proof.
  exists (with_wnd (with_vals blank [1; 2; 3; 4; 5]) [0; 1; 2; 3; 4]), (with_vals blank [10; 10; 10; 10; 10]). eexists.
  split; [apply (by_wnd two_edges (with_vals blank [1; 2; 3; 4; 5]) (One (VArr [0; 1; 2; 3; 4]))); [apply (by_values two_edges blank (One (VArr [1; 2; 3; 4; 5])) _ blank_reach); reflexivity|reflexivity]|].
  split; [apply (by_values two_edges blank (One (VScal 10)) _ blank_reach); reflexivity|]. split; [reflexivity|]. split; [discriminate|]. split; [reflexivity|]. split; [reflexivity|]. split; [reflexivity|]. split; reflexivity.
Qed.
(** Traces over different edges with equal sample counts are added by position. *)
Example C52_by_position : exists s o t, reach two_edges s /\ reach (rev two_edges) o /\ tr_add s o = Ok t.
Proof.
  eexists (with_vals blank [1; 2; 3; 4; 5]). do 2 eexists. split; [apply (by_values two_edges blank (One (VArr [1; 2; 3; 4; 5])) _ blank_reach); reflexivity|]. split; [apply (by_init (rev two_edges) false None (Some (One (VScal 1)))); reflexivity|]. reflexivity.
Qed.
