(** Splitting edges: C31, C32. *)
From Coq Require Import List ZArith Reals Lia Lra Psatz Bool String Sorting.Permutation Sorting.Sorted.
From Verif Require Import PyBase PolyModel BaryModel BarySpec QuadModel QuadSpec QuadProofs CurveModel CurveSpec CurveProps VertModel EdgeModel EdgeSpec EdgeProofs EdgeProofs2 EdgeProps EdgeProps3 SplitModel SplitProofs.
Import List ListNotations.
Open Scope R_scope.

Lemma floats_map l : floats (map EFloat l) = Some l.
Proof. unfold floats. induction l as [|t l IH]; [reflexivity|]. cbn. rewrite IH. reflexivity. Qed.
Lemma floats_some l l' : floats l = Some l' -> l = map EFloat l'.
Proof.
  revert l'. unfold floats. induction l as [|[t|] l IH]; intros l' H; cbn in H; try discriminate.
  - injection H as <-. reflexivity.
  - destruct (fold_right _ _ l) as [m|]; [|discriminate]. injection H as <-. cbn. f_equal. apply IH. reflexivity.
Qed.

(** ** C31 *)

(** Every successful split at a list or array of parameters: one piece more than split points, the
    parameter intervals are consecutive and in increasing order from the start to the end of the
    interval of the edge, and the pieces inherit cells, curve and options. *)
Theorem C31_pieces e l ps sp : sp = TList (map EFloat l) \/ sp = TArr (map EFloat l) -> fst (split_edge e sp NNone) = Ok ps ->
  List.length ps = S (List.length l) /\ Forall (piece_of e) ps /\
  exists s, Permutation l s /\ StronglySorted Rlt (fst (e_tb e) :: s ++ [snd (e_tb e)]) /\ map e_tb ps = pairs (fst (e_tb e) :: s ++ [snd (e_tb e)]).
Proof.
  intros HS H. assert (E : split_multiple e (sort_r l) = Ok ps) by (destruct HS; subst sp; cbn [split_edge fst] in H; rewrite floats_map in H; exact H).
  destruct (split_multiple_struct _ _ _ E) as (SS & MT & PF & LN). rewrite sort_length in LN. split; [exact LN|]. split; [exact PF|]. exists (sort_r l). split; [apply sort_perm|]. split; assumption.
Qed.
Print Assumptions C31_pieces.

(** A single number gives two pieces that share the split vertex. *)
Theorem C31_single e t ps : fst (split_edge e (TNum t) NNone) = Ok ps ->
  exists e1 e2, ps = [e1; e2] /\ fst (e_tb e) < t < snd (e_tb e) /\ e_tb e1 = (fst (e_tb e), t) /\ e_tb e2 = (t, snd (e_tb e)) /\
    e_endpnt e1 = e_anchor e2 /\ piece_of e e1 /\ piece_of e e2.
Proof.
  cbn [split_edge fst]. destruct (split_single e t) as [[e1 e2]|] eqn:E; [|discriminate]. cbn [bind]. intros H. apply Ok_inj in H. subst ps. exists e1, e2. split; [reflexivity|].
  destruct (split_single_struct _ _ _ _ E) as (A & B & C & D & F & G). tauto.
Qed.
Print Assumptions C31_single.

Lemma linspace_increasing a b n : (0 < n)%nat -> a < b -> forall k m, StronglySorted Rlt (map (fun i => a + INR i * ((b - a) / INR n)) (seq k m)).
Proof.
  intros Hn Hab k m. revert k. assert (0 < (b - a) / INR n) by (apply Rdiv_lt_0_compat; [lra|apply lt_0_INR; exact Hn]).
  induction m as [|m IH]; intros k; [constructor|]. cbn [seq map]. constructor; [apply IH|]. apply Forall_map, Forall_forall. intros i Ii. apply in_seq in Ii.
  assert (INR k < INR i) by (apply lt_INR; lia). nra.
Qed.
Lemma linspace_ends a b n : (0 < n)%nat -> linspace a b n = a :: removelast (tl (linspace a b n)) ++ [b].
Proof.
  intros Hn. unfold linspace. destruct n as [|n]; [lia|]. change (seq 0 (S (S n))) with (0%nat :: seq 1 (S n)). cbn [map tl]. rewrite seq_S, map_app. cbn [map]. rewrite removelast_last. f_equal; [cbn [INR]; lra|].
  f_equal. f_equal. assert (0 < INR (S n)) by (apply lt_0_INR; lia). replace (1 + n)%nat with (S n) by lia. field. lra.
Qed.
Lemma sorted_lt_le l : StronglySorted Rlt l -> StronglySorted Rle l.
Proof. induction 1 as [|t l S1 IH S2]; constructor; [exact IH|]. eapply Forall_impl; [|exact S2]. cbn. intros. lra. Qed.
Lemma sorted_mid {A} (R : A -> A -> Prop) x l y : StronglySorted R (x :: l ++ [y]) -> StronglySorted R l.
Proof.
  intros H. inversion H as [|? ? H1 _ E]. subst. clear H. induction l as [|z l IH]; [constructor|]. cbn [List.app] in H1. inversion H1 as [|? ? H2 H3]. subst. constructor; [apply IH, H2|].
  apply Forall_app in H3. apply H3.
Qed.

(** [num_edges = n] gives n pieces over intervals of equal length, and overrides t_split. *)
Theorem C31_equal e sp z ps : fst (e_tb e) < snd (e_tb e) -> fst (split_edge e sp (NInt z)) = Ok ps ->
  (2 <= z)%Z /\ Z.of_nat (List.length ps) = z /\ Forall (piece_of e) ps /\
  forall i p, nth_error ps i = Some p -> e_tb p =
    (fst (e_tb e) + INR i * ((snd (e_tb e) - fst (e_tb e)) / IZR z), fst (e_tb e) + INR (S i) * ((snd (e_tb e) - fst (e_tb e)) / IZR z)).
Proof.
  intros HT H. cbn [split_edge fst] in H. destruct (Z.ltb_spec z 2) as [L|L]; [discriminate|]. cbn [fst] in H. set (a := fst (e_tb e)) in *. set (b := snd (e_tb e)) in *. set (n := Z.to_nat z) in *.
  assert (Hn : (0 < n)%nat) by (unfold n; lia). assert (Ez : IZR z = INR n) by (unfold n; rewrite INR_IZR_INZ, Z2Nat.id by lia; reflexivity).
  pose proof (linspace_ends a b n Hn) as EL. pose proof (linspace_increasing a b n Hn HT 0 (S n)) as SI. fold (linspace a b n) in SI.
  set (m := removelast (tl (linspace a b n))) in *. rewrite EL in SI. rewrite (sort_id m) in H by (apply sorted_lt_le; apply (sorted_mid _ _ _ _ SI)).
  destruct (split_multiple_struct _ _ _ H) as (_ & MT & PF & LN). fold a b in MT. rewrite <- EL in MT.
  assert (Lm : List.length m = (n - 1)%nat) by (pose proof (f_equal (@List.length R) EL) as Q; cbn [List.length] in Q; rewrite app_length in Q; unfold linspace in Q; rewrite map_length, seq_length in Q; cbn [List.length] in Q; lia).
  split; [lia|]. split; [lia|]. split; [exact PF|]. intros i p Hp.
  assert (HM : nth_error (map e_tb ps) i = Some (e_tb p)) by (rewrite nth_error_map, Hp; reflexivity). rewrite MT in HM. rewrite Ez. unfold linspace in HM. clear - HM.
  assert (G : forall k m, nth_error (pairs (map (fun i => a + INR i * ((b - a) / INR n)) (seq k m))) i = Some (e_tb p) -> e_tb p = (a + INR (k + i) * ((b - a) / INR n), a + INR (S (k + i)) * ((b - a) / INR n))).
  { clear. intros k m. revert k i. induction m as [|m IH]; intros k i; [destruct i; discriminate|]. destruct m as [|m]; [destruct i; discriminate|].
    change (pairs (map ?f (seq k (S (S m))))) with ((f k, f (S k)) :: pairs (map f (seq (S k) (S m)))). destruct i as [|i]; cbn [nth_error].
    - intros [= <-]. rewrite Nat.add_0_r. reflexivity.
    - intros H. rewrite (IH _ _ H). replace (k + S i)%nat with (S k + i)%nat by lia. reflexivity. }
  apply G in HM. exact HM.
Qed.
Print Assumptions C31_equal.

Lemma pairs_last {A} (a : A) l b : exists u, nth_error (pairs (a :: l ++ [b])) (List.length l) = Some (u, b).
Proof. revert a. induction l as [|x l IH]; intros a; [exists a; reflexivity|]. destruct (IH x) as (u & H). exists u. exact H. Qed.

(** The pieces start, end and run on the original curve, for edges whose transformations preserve
    orientation (the full statement drops [s_flip ... = false]; it is refuted below), when the
    split points lie in the interval and the tolerance keeps them apart. For a closed edge the two
    ends of the interval may map to the same point. *)
Theorem C31_retrace_partial e X l : cX (e_curve e) (e_opts e) = Ok X -> let a := fst (e_tb e) in let b := snd (e_tb e) in
  let S := diary_sim (X a) (X b) (e_diary e) in
  diary_fine (X a) (X b) (e_diary e) -> s_flip S = false -> TOL <= norm (s_c S) ->
  l <> [] -> NoDup l -> Forall (fun t => a < t < b) l ->
  (forall s t, In s (a :: l) -> In t (l ++ [b]) -> s < t -> ~ (s = a /\ t = b) -> far X (norm (s_c S)) s t) ->
  exists ps, fst (split_edge e (TList (map EFloat l)) NNone) = Ok ps /\
    Forall (fun p => e_anchor p = ptv (traced X e (fst (e_tb p))) /\ e_endpnt p = ptv (traced X e (snd (e_tb p))) /\ e_loop p = false /\
                     diary_fine (X (fst (e_tb p))) (X (snd (e_tb p))) (e_diary p) /\ forall t, traced X p t = traced X e t) ps /\
    Forall (fun pq => e_endpnt (fst pq) = e_anchor (snd pq)) (pairs ps) /\
    option_map e_anchor (hd_error ps) = Some (ptv (traced X e a)) /\ option_map e_endpnt (nth_error ps (List.length l)) = Some (ptv (traced X e b)).
Proof.
  intros HX a b S HD HF HK HN ND FR FA. cbn [split_edge fst]. rewrite floats_map. pose proof (sort_perm l) as PM. pose proof (sort_sorted l) as SO.
  assert (SS : StronglySorted Rlt (a :: sort_r l ++ [b])).
  { assert (ND' : NoDup (sort_r l)) by (eapply Permutation_NoDup; eassumption). assert (FR' : Forall (fun t => a < t < b) (sort_r l)) by (eapply Permutation_Forall; eassumption).
    assert (S1 : StronglySorted Rlt (sort_r l ++ [b])).
    { clear - SO ND' FR'. induction SO as [|t m S1 IH S2]; [repeat constructor|]. inversion ND'. subst. inversion FR'. subst. cbn. constructor; [apply IH; assumption|]. apply Forall_app. split; [|repeat constructor; lra].
      rewrite Forall_forall in *. intros x Ix. specialize (S2 x Ix). destruct (Req_dec t x); [subst; contradiction|lra]. }
    constructor; [exact S1|]. apply Forall_app. split; [eapply Forall_impl; [|exact FR']; cbn; intros; lra|]. repeat constructor.
    destruct l as [|t0 l0]; [congruence|]. inversion FR. lra. }
  assert (NE : exists t m, sort_r l = t :: m) by (pose proof (sort_length l); destruct (sort_r l) as [|t m]; [destruct l; [congruence|discriminate]|eauto]). destruct NE as (t & m & NE).
  assert (IN : forall x, In x (t :: m) -> In x l) by (intros x Ix; rewrite <- NE in Ix; apply (Permutation_in _ (Permutation_sym PM)), Ix). rewrite NE in *.
  assert (AB : forall x, In x l -> a < x < b) by (apply Forall_forall; exact FR).
  assert (FP : Forall (fun st => far X (norm (s_c S)) (fst st) (snd st)) (pairs (a :: t :: m))).
  { assert (G : forall x y, In (x, y) (pairs (a :: t :: m)) -> In x (a :: t :: m) /\ In y (t :: m) /\ x < y).
    { clear - SS. revert SS. generalize a. cbn [List.app]. generalize t. clear. induction m as [|u m IH]; intros t a SS x y Ixy.
      - destruct Ixy as [E|[]]. injection E as <- <-. inversion SS as [|? ? _ Q]. inversion Q. subst. split; [left; reflexivity|]. split; [left; reflexivity|assumption].
      - destruct Ixy as [E|Ixy]; [injection E as <- <-; inversion SS as [|? ? _ Q]; inversion Q; subst; split; [left; reflexivity|]; split; [left; reflexivity|assumption]|].
        inversion SS as [|? ? Q _]. subst. destruct (IH u t Q x y Ixy) as (A & B & C). split; [right; exact A|]. split; [right; exact B|exact C]. }
    apply Forall_forall. intros [x y] Ixy. destruct (G x y Ixy) as (A & B & C). cbn [fst snd]. apply FA; [destruct A as [->|A]; [left; reflexivity|right; apply IN, A]|apply in_or_app; left; apply IN, B|exact C|].
    intros [_ Hy]. specialize (AB y (IN y B)). lra. }
  assert (FB : Forall (fun s => far X (norm (s_c S)) s b) (t :: m)).
  { apply Forall_forall. intros x Ix. apply IN in Ix. specialize (AB x Ix). apply FA; [right; exact Ix|apply in_or_app; right; left; reflexivity|lra|lra]. }
  destruct (split_loop_curve X S HF HK m e t None HX HD eq_refl SS FP FB) as (es & e2 & EL & OC). unfold split_multiple. rewrite EL. cbn [bind]. exists (es ++ [e2]). split; [reflexivity|].
  assert (EM : split_multiple e (t :: m) = Ok (es ++ [e2])) by (unfold split_multiple; rewrite EL; reflexivity).
  destruct (split_multiple_struct _ _ _ EM) as (_ & MT & _ & LN). fold a b in MT.
  assert (ALL : Forall (fun p => e_anchor p = ptv (traced X e (fst (e_tb p))) /\ e_endpnt p = ptv (traced X e (snd (e_tb p))) /\ e_loop p = false /\
                     diary_fine (X (fst (e_tb p))) (X (snd (e_tb p))) (e_diary p) /\ forall t, traced X p t = traced X e t) (es ++ [e2])).
  { eapply Forall_impl; [|exact OC]. intros p (_ & A & B & C & D & E). split; [exact A|]. split; [exact B|]. split; [exact C|]. split; [exact D|]. intros u. unfold traced. rewrite E. reflexivity. }
  split; [exact ALL|]. set (ps := es ++ [e2]) in *. clearbody ps. split; [|split].
  - clear - MT ALL. cbn [List.app] in MT. revert MT ALL. generalize (t :: m ++ [b]). generalize a. induction ps as [|p ps IH]; intros a' r MT ALL; [constructor|]. destruct ps as [|p' ps]; [constructor|].
    destruct r as [|r0 [|r1 r]]; try discriminate. inversion ALL as [|? ? Q1 Q2]. subst. inversion Q2 as [|? ? Q3 _]. subst.
    change (map e_tb (p :: p' :: ps)) with (e_tb p :: e_tb p' :: map e_tb ps) in MT. change (pairs (a' :: r0 :: r1 :: r)) with ((a', r0) :: pairs (r0 :: r1 :: r)) in MT.
    pose proof (f_equal (hd (0, 0)) MT) as E1. pose proof (f_equal (@tl _) MT) as E2. cbn [hd tl] in E1, E2. pose proof (f_equal (hd (0, 0)) E2) as E3. cbn [hd pairs] in E3.
    change (pairs (p :: p' :: ps)) with ((p, p') :: pairs (p' :: ps)). constructor; [|apply (IH _ _ E2 Q2)]. cbn [fst snd]. destruct Q1 as (_ & Q1 & _). destruct Q3 as (Q3 & _). rewrite Q1, Q3, E1, E3. reflexivity.
  - destruct ps as [|p ps]; [discriminate|]. inversion ALL as [|? ? Q1 _]. subst. cbn [hd_error option_map]. destruct Q1 as (-> & _). f_equal. f_equal. cbn [List.app map pairs] in MT. pose proof (f_equal (hd (0, 0)) MT) as E1. cbn [hd] in E1. rewrite E1. reflexivity.
  - assert (LL : List.length l = List.length (t :: m)) by (rewrite <- NE; symmetry; apply sort_length). rewrite LL. destruct (pairs_last a (t :: m) b) as (u & PL). rewrite <- MT, nth_error_map in PL.
    destruct (nth_error ps (List.length (t :: m))) as [p|] eqn:Ep; [|discriminate]. cbn [option_map] in *. injection PL as PL. rewrite Forall_forall in ALL. destruct (ALL p (nth_error_In _ _ Ep)) as (_ & -> & _). rewrite PL. reflexivity.
Qed.
Print Assumptions C31_retrace_partial.

(** When a piece is parameterized, its sampled points lie on the original curve. *)
Theorem C31_samples n k qd e X DX p : get_quad_dict n k = Ok qd -> spline_ok (e_curve e) ->
  cX (e_curve e) (e_opts e) = Ok X -> cDX (e_curve e) (e_opts e) = Ok DX -> (forall t, 0 < norm2 (DX t)) ->
  piece_of e p -> fst (e_tb p) < snd (e_tb p) -> diary_fine (X (fst (e_tb p))) (X (snd (e_tb p))) (e_diary p) -> (forall t, traced X p t = traced X e t) ->
  exists p', parameterize qd p = Ok p' /\
    map sx (e_smp p') = map (fun t => traced X e (fst (e_tb p) + t * ((snd (e_tb p) - fst (e_tb p)) / (2 * PI)))) (q_t (snd qd)).
Proof.
  intros HQ HSp HX HDX HR (_ & _ & C & O & QT & _) HT HF TR. rewrite <- C in HSp. rewrite <- C, <- O in HX, HDX.
  destruct (C25_geometry_partial n k qd p (snd qd) X DX HQ (or_intror (conj QT eq_refl)) HT HSp HX HDX (fun t _ => HR t) HF) as (p' & c & c' & c'' & E & _ & _ & Ec & _ & ES & _).
  exists p'. split; [exact E|]. rewrite ES, map_map. cbn [sample_of sx jx].
  assert (LQ : List.length (q_t (snd qd)) = List.length (q_wgt (snd qd))).
  { destruct qd as [qa qb]. pose proof (dict_ok _ _ _ _ HQ) as K. destruct (pick_ok n k (qa, qb) p qb HQ) as ((A & B & _) & _); [unfold pick; rewrite QT; reflexivity|]. cbn [snd]. congruence. }
  transitivity (map (fun t => traced X e (fst (e_tb p) + t * ((snd (e_tb p) - fst (e_tb p)) / (2 * PI)))) (map fst (combine (q_t (snd qd)) (q_wgt (snd qd))))).
  - rewrite map_map. apply map_ext. intros [t w]. cbn [fst]. rewrite Ec, <- TR. reflexivity.
  - f_equal. clear - LQ. revert LQ. generalize (q_wgt (snd qd)). induction (q_t (snd qd)) as [|t l IH]; intros [|w m] L; try discriminate; [reflexivity|]. cbn. f_equal. apply IH. cbn in L. lia.
Qed.
Print Assumptions C31_samples.

(** A circle at (2,0) split at pi into its two halves *)
Definition unit_circle : edge := built (mkvert 2 0) (mkvert 2 0) (-1) (-1) Circle "trap" (0, 2 * PI) [].
Lemma veqb_self a : veqb a (VVert a) = true.
Proof.
  unfold veqb, vnorm, mkvert. cbn [vx vy]. apply Rltb_true. replace ((vx a - vx a) ^ 2 + (vy a - vy a) ^ 2) with 0 by ring. rewrite sqrt_0. lra.
Qed.
Example C31_example : exists ps, fst (split_edge unit_circle (TList (map EFloat [PI])) NNone) = Ok ps /\ List.length ps = 2%nat /\
  map e_anchor ps = [mkvert 3 0; mkvert 1 0] /\ map e_tb ps = [(0, PI); (PI, 2 * PI)].
Proof.
  pose proof PI_RGT_0 as HP. assert (D : e_diary unit_circle = [STranslate (mkvert 2 0)]) by (unfold unit_circle, built, set_cells, set_verts; cbn [e_diary]; rewrite veqb_self; reflexivity).
  set (X := fun t : R => (1 * cos t, 1 * sin t)). assert (HX : cX (e_curve unit_circle) (e_opts unit_circle) = Ok X) by reflexivity.
  assert (TB : e_tb unit_circle = (0, 2 * PI)) by reflexivity.
  assert (TR : forall t, traced X unit_circle t = (cos t + 2, sin t)).
  { intros t. unfold traced. rewrite TB, D. cbn [diary_sim]. rewrite comp_app, id_app. unfold X, sapp, lin, pt_mul, pt_add, coord, mkvert. cbn [step_sim coord s_c s_d s_flip fst snd vx vy]. f_equal; ring. }
  assert (N1 : norm (s_c (diary_sim (X 0) (X (2 * PI)) [STranslate (mkvert 2 0)])) = 1).
  { cbn [diary_sim]. rewrite sim_comp_id_l. cbn [step_sim s_c]. apply norm_real. lra. }
  destruct (C31_retrace_partial unit_circle X [PI] HX) as (ps & E & AL & _ & _); rewrite ?TB, ?D; cbn [fst snd].
  - split; exact I.
  - reflexivity.
  - rewrite N1. unfold TOL. lra.
  - discriminate.
  - constructor; [intros []|constructor].
  - repeat constructor; lra.
  - intros s t Hs Ht Hst Hne. rewrite N1. assert (P2 : pdist (X 0) (X PI) = 2 /\ pdist (X PI) (X (2 * PI)) = 2).
    { unfold pdist, X. cbn [fst snd]. rewrite cos_0, sin_0, cos_PI, sin_PI, cos_2PI, sin_2PI. split; (replace (_ + _) with (2 * 2) by ring); apply sqrt_square; lra. }
    destruct P2 as [P2 P3]. destruct Hs as [<-|[<-|[]]], Ht as [<-|[<-|[]]]; try lra; unfold far; rewrite ?P2, ?P3; unfold TOL; lra.
  - exists ps. destruct (C31_pieces unit_circle [PI] ps _ (or_introl eq_refl) E) as (LN & _ & s & PM & _ & MT). rewrite TB in MT. cbn [fst snd] in MT.
    apply Permutation_length_1_inv in PM. subst s. cbn [List.app pairs] in MT. split; [exact E|]. split; [exact LN|]. split; [|exact MT].
    destruct ps as [|p [|p' [|]]]; try discriminate. cbn [map] in *. injection MT as T1 T2. inversion AL as [|? ? (A1 & _) AL2]. subst. inversion AL2 as [|? ? (A2 & _) _]. subst.
    rewrite A1, A2, T1, T2. cbn [fst]. rewrite !TR, cos_0, sin_0, cos_PI, sin_PI. unfold ptv. cbn [fst snd]. do 3 f_equal; ring.
Qed.

(** The reflected sine wave from (0,0) to (1,0): the first half, cut at (1/2,-1), bends to the
    other side. *)
Theorem C31_reflected_refuted : exists e e0 e1 e2 X, mk_edge (mkvert 0 0) (mkvert 1 0) (-1) (-1) SineWave "kress" None (0, 2 * PI) [("amp"%string, 1); ("freq"%string, 1)] = Ok e /\
  apply_step true SReflX e = Ok e0 /\ fst (split_edge e0 (TNum PI) NNone) = Ok [e1; e2] /\ cX (e_curve e0) (e_opts e0) = Ok X /\
  traced X e0 (PI / 3) = (1 / 6, - (1 / 2)) /\ traced X e1 (PI / 3) = (3 / 10, - (13 / 30)).
Proof.
  pose proof PI_RGT_0 as HP. pose proof TOL_pos as HT. set (a := mkvert 0 0). set (b := mkvert 1 0). set (o := [("amp"%string, 1); ("freq"%string, 1)]).
  assert (D1 : pdist (coord a) (coord b) = 1) by exact dist01.
  assert (V : veqb a (VVert b) = false) by (unfold veqb, vnorm, mkvert; cbn [vx vy]; rewrite pdist_pow, D1; apply Rltb_false; unfold TOL; lra).
  set (e := built a b (-1) (-1) SineWave "kress" (0, 2 * PI) o). set (X := fun t : R => (t / (2 * PI), 1 * sin (1 * t / 2))).
  assert (De : e_diary e = [SJoin a b]) by (unfold e, built, set_cells, set_verts; cbn [e_diary]; rewrite V; reflexivity).
  set (e0 := with_diary e [SJoin a b; SReflX]).
  assert (X0 : X 0 = (0, 0)) by (unfold X; replace (1 * 0 / 2) with 0 by field; rewrite sin_0; f_equal; [field; lra|ring]).
  assert (X1 : X (2 * PI) = (1, 0)) by (unfold X; replace (1 * (2 * PI) / 2) with PI by field; rewrite sin_PI; f_equal; [field; lra|ring]).
  assert (XP : X PI = (1 / 2, 1)) by (unfold X; replace (1 * PI / 2) with (PI / 2) by field; rewrite sin_PI2; f_equal; [field; lra|ring]).
  assert (X3 : X (PI / 3) = (1 / 6, 1 / 2)) by (unfold X; replace (1 * (PI / 3) / 2) with (PI / 6) by field; rewrite sin_PI6; f_equal; [field; lra|ring]).
  assert (SJ : step_fine (0, 0) (1, 0) (SJoin a b)) by (cbn [step_fine]; rewrite D1, dist01; unfold TOL; repeat split; lra).
  assert (JS : step_sim (0, 0) (1, 0) (SJoin a b) = sim_id).
  { cbn [step_sim]. rewrite <- (join_sim_self sim_id (0, 0) (1, 0)); [rewrite !id_app; reflexivity|reflexivity|rewrite dist01; lra]. }
  assert (DF : diary_fine (0, 0) (1, 0) [SJoin a b; SReflX]) by (split; [exact SJ|split; exact I]).
  assert (DS : diary_sim (0, 0) (1, 0) [SJoin a b; SReflX] = Sim (1, 0) (0, 0) true).
  { cbn [diary_sim]. rewrite JS, sim_comp_id_r, sim_comp_id_l. reflexivity. }
  assert (AP : forall x y, sapp (Sim (1, 0) (0, 0) true) (x, y) = (x, - y)) by (intros; unfold sapp, lin, pt_mul, pt_add, pt_conj; cbn [s_c s_d s_flip fst snd]; f_equal; ring).
  exists e, e0. pose proof (tr_diary_sim [SJoin a b; SReflX] (X 0) [X PI] (X (2 * PI))) as TD. rewrite X0, X1, XP in TD. specialize (TD DF). rewrite DS in TD. cbn [List.app map] in TD. rewrite !AP in TD.
  eexists. eexists. exists X. split; [unfold e; rewrite mk_edge_built; cbn [fst snd]; destruct (Rle_dec (2 * PI) 0); [exfalso; lra|reflexivity]|].
  split; [cbn [apply_step]; unfold reflect_x, log; rewrite De; reflexivity|]. split.
  { cbn [split_edge fst]. unfold split_single. change (e_tb e0) with (0, 2 * PI). change (cX (e_curve e0) (e_opts e0)) with (Ok X). cbn [bind]. rewrite X0, X1, XP. change (e_diary e0) with [SJoin a b; SReflX]. rewrite TD. cbn [bind].
    rewrite !mk_edge_built. cbn [fst snd]. destruct (Rle_dec PI 0); [exfalso; lra|]. cbn [bind]. destruct (Rle_dec (2 * PI) PI); [exfalso; lra|]. cbn [bind]. reflexivity. }
  split; [reflexivity|]. unfold traced. change (e_tb e0) with (0, 2 * PI). cbn [fst snd]. change (e_diary e0) with [SJoin a b; SReflX]. rewrite X0, X1, X3, DS, AP. split; [reflexivity|].
  change (e_tb (built _ _ _ _ _ _ _ _)) with (0, PI). cbn [fst snd]. rewrite X0, XP.
  assert (V1 : veqb (mkvert 0 (- 0)) (VVert (mkvert (1 / 2) (- 1))) = false).
  { unfold veqb, vnorm. cbn [vx vy mkvert]. apply Rltb_false. apply Rle_trans with (sqrt 1); [rewrite sqrt_1; unfold TOL; lra|]. apply sqrt_le_1_alt. lra. }
  assert (ED : forall p n c q tb o, e_diary (built (mkvert 0 (- 0)) (mkvert (1 / 2) (- 1)) p n c q tb o) = [SJoin (mkvert 0 (- 0)) (mkvert (1 / 2) (- 1))]) by (intros; unfold built, set_cells, set_verts; cbn [e_diary]; rewrite V1; reflexivity).
  rewrite ED. cbn [diary_sim]. rewrite sim_comp_id_l. cbn [step_sim]. unfold join_sim, pt_div, sapp, lin, norm2, coord, mkvert, pt_add, pt_sub, pt_scale, pt_mul, pt_conj. cbn [s_c s_d s_flip fst snd vx vy]. f_equal; field.
Qed.
Print Assumptions C31_reflected_refuted.

(** ** C32 *)

Theorem C32_rejected e :
  (forall n, (forall z, n <> NInt z) -> split_edge e TNone n = (Err ValueError, TNone)) /\
  (forall sp z, (z < 2)%Z -> split_edge e sp (NInt z) = (Err ValueError, sp)) /\
  (forall n, (forall z, n <> NInt z) -> split_edge e TOther n = (Err ValueError, TOther)) /\
  (forall n l, (forall z, n <> NInt z) -> In EOther l -> split_edge e (TList l) n = (Err ValueError, TList l) /\ split_edge e (TArr l) n = (Err ValueError, TArr l)).
Proof.
  split; [intros [|z|] H; try reflexivity; congruence|]. split; [intros sp z H; cbn [split_edge]; destruct (Z.ltb_spec z 2); [reflexivity|lia]|].
  split; [intros [|z|] H; try reflexivity; congruence|]. intros n l Hn Hl.
  assert (F : floats l = None).
  { destruct (floats l) as [m|] eqn:F; [|reflexivity]. apply floats_some in F. subst l. apply in_map_iff in Hl. destruct Hl as (t & Et & _). discriminate. }
  destruct n as [|z|]; [|congruence|]; cbn [split_edge]; rewrite F; split; reflexivity.
Qed.
Print Assumptions C32_rejected.

(** Out-of-range parameters: never a result, and a ValueError for a number, for a value at or
    before the start, when the transformations themselves succeed. *)
Theorem C32_out_of_range e X : fst (e_tb e) < snd (e_tb e) -> cX (e_curve e) (e_opts e) = Ok X ->
  diary_fine (X (fst (e_tb e))) (X (snd (e_tb e))) (e_diary e) ->
  (forall t, ~ (fst (e_tb e) < t < snd (e_tb e)) -> fst (split_edge e (TNum t) NNone) = Err ValueError) /\
  (forall l sp, sp = TList (map EFloat l) \/ sp = TArr (map EFloat l) -> Exists (fun t => t <= fst (e_tb e)) l -> fst (split_edge e sp NNone) = Err ValueError) /\
  (forall l sp, sp = TList (map EFloat l) \/ sp = TArr (map EFloat l) -> Exists (fun t => ~ (fst (e_tb e) < t < snd (e_tb e))) l \/ ~ NoDup l -> exists x, fst (split_edge e sp NNone) = Err x).
Proof.
  intros HT HX HF.
  assert (G : forall t, ~ (fst (e_tb e) < t < snd (e_tb e)) -> split_single e t = Err ValueError).
  { intros t Ht. unfold split_single. destruct (e_tb e) as [a b]. cbn [fst snd] in *. rewrite HX. cbn [bind]. pose proof (tr_diary_sim _ (X a) [X t] (X b) HF) as TD. cbn [List.app] in TD. rewrite TD. cbn [map bind]. rewrite !mk_edge_built. cbn [fst snd].
    destruct (Rle_dec t a); [reflexivity|]. cbn [bind]. destruct (Rle_dec b t); [reflexivity|lra]. }
  split; [intros t Ht; cbn [split_edge fst]; rewrite (G t Ht); reflexivity|]. split.
  - intros l sp Hs Hl. assert (E : fst (split_edge e sp NNone) = split_multiple e (sort_r l)) by (destruct Hs; subst sp; cbn [split_edge fst]; rewrite floats_map; reflexivity). rewrite E.
    apply Exists_exists in Hl. destruct Hl as (t & It & Lt). apply (Permutation_in _ (sort_perm l)) in It. pose proof (sort_sorted l) as SO. destruct (sort_r l) as [|u m]; [contradiction|].
    unfold split_multiple. rewrite split_loop_cons, G; [reflexivity|]. inversion SO as [|? ? _ F]. subst. destruct It as [->|It]; [lra|]. rewrite Forall_forall in F. specialize (F t It). lra.
  - intros l sp Hs Hl. destruct (fst (split_edge e sp NNone)) as [ps|x] eqn:E; [exfalso|eauto]. destruct (C31_pieces e l ps sp Hs E) as (_ & _ & s & PM & SS & _).
    assert (IN : forall t, In t l -> fst (e_tb e) < t < snd (e_tb e)).
    { intros t It. apply (Permutation_in _ PM) in It. inversion SS as [|? ? S1 S2]. subst. rewrite Forall_forall in S2. split; [apply S2, in_or_app; left; exact It|].
      clear - S1 It. induction s as [|u s IH]; [contradiction|]. cbn in S1. inversion S1 as [|? ? S3 S4]. subst. destruct It as [->|It]; [rewrite Forall_forall in S4; apply S4, in_or_app; right; left; reflexivity|apply IH; assumption]. }
    destruct Hl as [Hl|Hl]; [apply Exists_exists in Hl; destruct Hl as (t & It & Nt); apply Nt, IN, It|]. apply Hl. eapply Permutation_NoDup; [symmetry; exact PM|].
    apply sorted_mid in SS. clear - SS. induction SS as [|t m S1 IH S2]; constructor; [|exact IH]. intros It. rewrite Forall_forall in S2. specialize (S2 t It). lra.
Qed.
Print Assumptions C32_out_of_range.

(** An empty list or array is not rejected with a ValueError: the loop variable is unbound. *)
Theorem C32_empty_refuted e : fst (split_edge e (TList []) NNone) = Err UnboundLocalError /\ fst (split_edge e (TArr []) NNone) = Err UnboundLocalError.
Proof. split; reflexivity. Qed.

(** The caller's object is unchanged unless it is a list of floats that is used; such a list comes
    back sorted. *)
Theorem C32_caller e sp n : snd (split_edge e sp n) = sp \/
  exists l s, sp = TList (map EFloat l) /\ snd (split_edge e sp n) = TList (map EFloat s) /\ Permutation l s /\ StronglySorted Rle s.
Proof.
  destruct n as [|z|]; [|left; cbn [split_edge]; destruct (Z.ltb z 2); reflexivity|].
  all: destruct sp as [|t|l|l|]; try (left; reflexivity); cbn [split_edge snd]; destruct (floats l) as [m|] eqn:F; [|left; reflexivity]; right; apply floats_some in F; subst l;
    exists m, (sort_r m); (split; [reflexivity|]); (split; [reflexivity|]); (split; [apply sort_perm|apply sort_sorted]).
Qed.
Theorem C32_caller_refuted e : snd (split_edge e (TList [EFloat 2; EFloat 1]) NNone) = TList [EFloat 1; EFloat 2].
Proof. cbn. destruct (Rle_dec 2 1); [lra|reflexivity]. Qed.
Print Assumptions C32_caller.

(** Concrete requests: one piece is refused, an unsorted array is split into three pieces and left alone *)
Example C32_example e : fst (split_edge e TNone (NInt 1)) = Err ValueError /\ fst (split_edge e (TList [EFloat 1; EOther]) NNone) = Err ValueError /\
  snd (split_edge e (TArr [EFloat 2; EFloat 1]) NNone) = TArr [EFloat 2; EFloat 1].
Proof. repeat split; reflexivity. Qed.
