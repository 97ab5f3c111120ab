(** * Dirichlet traces (C51, C52) *)
From Coq Require Import List ZArith Reals Lia Lra Bool String.
From Verif Require Import PyBase PolyModel VertModel CurveModel EdgeModel EdgeSpec ContourModel CellSpec CellProofs ContourProofs TraceModel TraceSpec TraceProofs.
Import List ListNotations.
Open Scope R_scope.

(** ** C51: in every reachable state over any edges *)

(** A scalar, an array or a list of arrays is stored sample by sample; nothing else changes. *)
Theorem C51_values es t v : Forall sampleable es -> reach es t ->
  (fits es v -> exists a, set_trace_values t v = Ok (with_vals t a) /\ holds es a (prescribed es v)) /\
  (~ fits es v -> set_trace_values t v = Err ValueError \/ set_trace_values t v = Err IndexError).
Proof.
  intros F R. pose proof (reach_built es t F R) as B. unfold set_trace_values. split; intros H.
  - destruct (tfill_spec es t v F B H) as (a & E & Ha). exists a. rewrite E. split; [reflexivity|exact Ha].
  - destruct (tfill t v) as [a|y] eqn:E; [contradict H; exact (tfill_fits es t v a F B E)|]. cbn [bind]. destruct (tfill_err es t v y F B E) as [->| ->]; auto.
Qed.
Print Assumptions C51_values.

(** The same for the weighted normal and tangential derivatives *)
Theorem C51_derivatives es t v : Forall sampleable es -> reach es t -> fits es v ->
  exists a, set_wnd t v = Ok (with_wnd t a) /\ set_wtd t v = Ok (with_wtd t a) /\ holds es a (prescribed es v).
Proof. intros F R H. destruct (tfill_spec es t v F (reach_built es t F R) H) as (a & E & Ha). exists a. unfold set_wnd, set_wtd. rewrite E. repeat split; apply Ha. Qed.
Print Assumptions C51_derivatives.

(** Setting one edge changes the samples of that edge only. *)
Theorem C51_edge es t a k e v : Forall sampleable es -> reach es t -> tr_vals t = Some a -> nth_error es k = Some e ->
  (match v with VScal _ => True | VArr l => Z.of_nat (List.length l) = open_num e | VOther => False end) ->
  exists a', set_trace_values_on_edge t (Z.of_nat k) v = Ok (with_vals t a') /\
    holds es a' (fun i j x => if Nat.eqb i k then match v with VScal c => x = c | VArr l => nth_error l j = Some x | VOther => False end else nth_error a (place es i j) = Some x).
Proof.
  intros F R V E H. pose proof (reach_built es t F R) as B. pose proof B as (B1 & _ & B3 & B4 & _). rewrite V in B4. cbn in B4. destruct (nums_cut (sizes es) a (ready_pos es F) B4) as (bs & Ea & C'). assert (C : cut es bs) by (apply cut_nums; exact C').
  assert (Re : sampleable e) by (rewrite Forall_forall in F; apply F; eapply nth_error_In; eauto). assert (Lk : (k < List.length es)%nat) by (apply nth_error_Some; congruence). destruct (cut_nth es bs k e C E) as (z & Z1 & Lz).
  assert (X : exists b, expand e v b /\ forall j x, nth_error b j = Some x -> match v with VScal c => x = c | VArr l => nth_error l j = Some x | VOther => False end).
  { destruct v as [c|l|]; [|exists l; cbn; auto|contradiction]. exists (repeat c (Z.to_nat (open_num e))). split; [reflexivity|]. intros j x Q. exact (nth_repeat' _ _ _ _ Q). }
  destruct X as (b & X & Xb). set (bs' := firstn k bs ++ b :: skipn (S k) bs). exists (concat bs').
  assert (Lb : (k < List.length bs)%nat) by (rewrite <- (Forall2_len _ _ _ C); exact Lk).
  assert (N : forall i, nth_error bs' i = if Nat.eqb i k then Some b else nth_error bs i). { intros i. unfold bs'. destruct (Nat.eqb_spec i k) as [->|D]; [apply (hset_same bs k b Lb)|apply (hset_other bs k i b Lb); congruence]. }
  assert (C2 : cut es bs'). { apply cut_nums. assert (C2 := expand_len e v b Re X). clear -C' C2 E N Lb. assert (L2 : List.length bs' = List.length bs) by (unfold bs'; rewrite app_length, firstn_length; cbn [List.length]; rewrite skipn_length; lia).
    pose proof (Forall2_len _ _ _ C') as L1. apply Forall2_nth_intro; [fold (sizes es); congruence|]. intros i n w Hn Hw. rewrite N in Hw. destruct (Nat.eqb_spec i k) as [->|D].
    - injection Hw as <-. rewrite nth_error_map, E in Hn. injection Hn as <-. exact C2.
    - exact (Forall2_nth _ _ _ C' _ _ _ Hn Hw). }
  split.
  - unfold set_trace_values_on_edge. rewrite B1, Nat2Z.id, (proj2 (Z.ltb_ge _ _)), (proj2 (Z.leb_gt _ _)) by lia. cbn [orb]. unfold geti. rewrite E. cbn [bind]. rewrite (proj1 (validate_iff e v)) by eauto. cbn [bind]. rewrite B3, V. cbn [attr bind].
    rewrite Ea, (concat_split bs k z Z1). rewrite (set_on_edge_ok es t k e v b) by (auto; rewrite (off_len es bs C k); reflexivity). cbn [bind]. unfold bs'. rewrite concat_app. reflexivity.
  - apply holds_blocks; [exact C2|]. intros i w j x Hw Hx. rewrite N in Hw. destruct (Nat.eqb_spec i k) as [->|D]; [injection Hw as <-; exact (Xb j x Hx)|]. rewrite Ea, (place_nth es bs i w j C Hw); [exact Hx|]. apply nth_error_Some. congruence.
Qed.
Print Assumptions C51_edge.

(** Functions and polynomials in any mix are evaluated at every sample; anything else is refused. *)
Theorem C51_funcs es t fs : Forall well_sampled es -> reach es t ->
  (funcs_fit es fs -> exists t' a, set_funcs t fs true = Ok t' /\ tr_vals t' = Some a /\ tr_wnd t' = tr_wnd t /\ tr_wtd t' = tr_wtd t /\
    holds es a (fun k j x => exists f e s, func_at es fs k f /\ nth_error es k = Some e /\ nth_error (e_smp e) j = Some s /\ valued f (fst (sx s)) (snd (sx s)) x)) /\
  (~ funcs_fit es fs -> set_funcs t fs true = Err ValueError).
Proof.
  intros W R. pose proof (well_ready es W) as F. pose proof (reach_built es t F R) as B. pose proof B as (B1 & _).
  assert (G : forall l, Forall usable l -> List.length l = List.length es -> exists a, store_funcs t l true = Ok (with_vals (with_funcs t (map fcall l)) a) /\ holds es a (sample_value es (map fcall l))).
  { intros l U L. destruct (find_values_spec es (with_funcs t (map fcall l)) (map fcall l) W (with_funcs_built es t _ B) eq_refl) as (a & E & H); [rewrite map_length; exact L|]. exists a. split; [|exact H]. unfold store_funcs.
    rewrite (proj2 (forallb_forall _ _)). 2:{ intros f I. rewrite Forall_forall in U. specialize (U f I). destruct f; [reflexivity|reflexivity|contradiction U; reflexivity]. } rewrite B1, L, Nat.eqb_refl. cbv zeta. cbn [with_funcs tr_edges]. rewrite B1, (ready_param es F). exact E. }
  assert (V : forall l k j x, Forall usable l -> sample_value es (map fcall l) k j x -> exists f e s, nth_error l k = Some f /\ nth_error es k = Some e /\ nth_error (e_smp e) j = Some s /\ valued f (fst (sx s)) (snd (sx s)) x).
  { intros l k j x U (e & s & f & E & S & Ef & ->). rewrite nth_error_map in Ef. destruct (nth_error l k) as [g|] eqn:Eg; [|discriminate]. injection Ef as <-. exists g, e, s. repeat split; try assumption. rewrite Forall_forall in U. specialize (U g (nth_error_In _ _ Eg)). destruct g; [reflexivity|reflexivity|contradiction U; reflexivity]. }
  split; intros H.
  - destruct fs as [g|l]; cbn [funcs_fit] in H.
    + assert (U : Forall usable (map (fun _ : edge => g) es)) by (apply Forall_forall; intros f I; apply in_map_iff in I; destruct I as (_ & <- & _); exact H).
      destruct (G _ U (map_length _ _)) as (a & E & Ha). exists (with_vals (with_funcs t (map fcall (map (fun _ => g) es))) a), a. split; [unfold set_funcs; rewrite B1; destruct g; try exact E; contradiction H; reflexivity|]. repeat split; try (apply Ha).
      intros k e j Ee Lj. destruct Ha as [_ Ha]. destruct (Ha k e j Ee Lj) as (x & X & P). exists x. split; [exact X|]. destruct (V _ k j x U P) as (f & e' & s & Ef & Q). exists f, e', s. split; [|exact Q]. cbn. rewrite nth_error_map in Ef. rewrite Ee in Ef. injection Ef as <-. split; [apply nth_error_Some; congruence|reflexivity].
    + destruct H as [U L]. destruct (G l U L) as (a & E & Ha). exists (with_vals (with_funcs t (map fcall l)) a), a. split; [exact E|]. do 3 (split; [reflexivity|]). eapply holds_imp; [|exact Ha]. intros k j x P. destruct (V l k j x U P) as (f & e' & s & Q). exists f, e', s. exact Q.
  - destruct fs as [g|l]; cbn [funcs_fit] in H; unfold set_funcs.
    + destruct g; [contradict H; discriminate|contradict H; discriminate|reflexivity].
    + unfold store_funcs. destruct (forallb _ l) eqn:A; [|reflexivity]. rewrite B1. destruct (Nat.eqb_spec (List.length l) (List.length es)) as [L|L]; [|reflexivity]. contradict H. split; [|exact L]. apply Forall_forall. intros f I. rewrite forallb_forall in A. specialize (A f I). destruct f; discriminate.
Qed.
Print Assumptions C51_funcs.

(** The constructor stores its [values] or else its [funcs]. *)
Theorem C51_constructor es v fs : Forall well_sampled es ->
  (fits es v -> exists t a, mk_trace (Some es) false fs (Some v) = Ok t /\ tr_vals t = Some a /\ holds es a (prescribed es v)) /\
  (forall f, funcs_fit es f -> exists t a, mk_trace (Some es) false (Some f) None = Ok t /\ tr_vals t = Some a /\
    holds es a (fun k j x => exists f' e s, func_at es f k f' /\ nth_error es k = Some e /\ nth_error (e_smp e) j = Some s /\ valued f' (fst (sx s)) (snd (sx s)) x)).
Proof.
  intros W. pose proof (well_ready es W) as F. assert (R : reach es (Trace es (Some (total (sizes es))) (Some (sampled_indices 0 es)) None None None None)) by (apply (by_init es true None None), custom_ok, F). split.
  - intros H. destruct (proj1 (C51_values es _ v F R) H) as (a & E & Ha). eexists. exists a. split; [unfold mk_trace; cbv zeta; rewrite (init_built es F); exact E|]. split; [reflexivity|exact Ha].
  - intros f H. destruct (proj1 (C51_funcs es _ f W R) H) as (t' & a & E & V & _ & _ & Ha). exists t', a. split; [unfold mk_trace; cbv zeta; rewrite (init_built es F); exact E|]. split; [exact V|exact Ha].
Qed.
Print Assumptions C51_constructor.

(** A polynomial set on one edge is evaluated there; the other edges keep their functions. *)
Theorem C51_poly_on_edge es t fs k p : Forall well_sampled es -> reach es t -> tr_funcs t = Some fs -> (k < List.length es)%nat ->
  exists t' a, set_func_on_edge t (PInt (Z.of_nat k)) (peval RS p) true true = Ok t' /\ tr_vals t' = Some a /\
  holds es a (fun i j x => exists e s, nth_error es i = Some e /\ nth_error (e_smp e) j = Some s /\
    if Nat.eqb i k then x = peval RS p (fst (sx s)) (snd (sx s)) else exists f, nth_error fs i = Some f /\ x = f (fst (sx s)) (snd (sx s))).
Proof.
  intros W R Ef Lk. pose proof (well_ready es W) as F. pose proof (reach_built es t F R) as B. pose proof B as (B1 & _). pose proof (reach_len es t F R) as L. unfold with_len in L. rewrite Ef in L.
  set (fs' := firstn k fs ++ peval RS p :: skipn (S k) fs). assert (L' : List.length fs' = List.length es) by (unfold fs'; rewrite app_length, firstn_length; cbn [List.length]; rewrite skipn_length; lia).
  destruct (find_values_spec es (with_funcs t fs') fs' W (with_funcs_built es t _ B) eq_refl L') as (a & E & Ha). exists (with_vals (with_funcs t fs') a), a. split; [|split; [reflexivity|]].
  - unfold set_func_on_edge. rewrite B1, (proj2 (Z.ltb_ge _ _)), (proj2 (Z.leb_gt _ _)) by lia. cbn [orb]. rewrite Ef. cbn [attr bind]. rewrite Nat2Z.id, (proj2 (Nat.ltb_lt _ _)) by lia. fold fs'. cbv zeta. cbn [with_funcs tr_edges]. rewrite B1, (ready_param es F). exact E.
  - eapply holds_imp; [|exact Ha]. intros i j x (e & s & f & Ee & Es & Eg & ->). exists e, s. split; [exact Ee|]. split; [exact Es|]. unfold fs' in Eg. destruct (Nat.eqb_spec i k) as [->|D]; [change (nth_error (hset fs k (peval RS p)) k = Some f) in Eg; rewrite hset_same in Eg by lia; injection Eg as <-; reflexivity|].
    change (nth_error (hset fs k (peval RS p)) i = Some f) in Eg. rewrite hset_other in Eg by (try lia; congruence). exists f. split; [exact Eg|reflexivity].
Qed.
Print Assumptions C51_poly_on_edge.
