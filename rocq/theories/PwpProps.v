(** Piecewise polynomials and polynomial traces on edges: C62. *)
From Coq Require Import List ZArith Reals Lia Lra Bool String.
From Verif Require Import PyBase PolyModel PolySpec PolyProofs BaryModel QuadModel CurveModel VertModel EdgeModel EdgeSpec EdgeProofs2 EdgeProps EdgeProps4 ContourModel CellModel CellSpec TraceModel LocalModel LocalProofs PwpModel.
Import List ListNotations.
Open Scope R_scope.

(** The values of a polynomial at the samples of an edge, endpoint included *)
Definition edge_vals (p : poly RS) (e : edge) : list R := map (at_smp (peval RS p)) (e_smp e).
(** One array per edge *)
Definition pieces (ps : list (poly RS)) (es : list edge) : list (list R) := map (fun pe => edge_vals (fst pe) (snd pe)) (combine ps es).

Lemma on_edge p e : on_points p (map (fun s => fst (sx s)) (e_smp e)) (map (fun s => snd (sx s)) (e_smp e)) = edge_vals p e.
Proof. unfold on_points, edge_vals. rewrite combine_map, map_map. reflexivity. Qed.

(** ** Construction *)

Theorem C62_init num polys idx :
  (forall w, mk_pwp num polys idx = Ok w <-> exists m i, num = PInt m /\ idx = PInt i /\ (1 <= m)%Z /\ (0 <= i)%Z /\
     w_num w = m /\ w_idx w = i /\ w_polys w = match polys with Some l => l | None => repeat [] (Z.to_nat m) end) /\
  (idx = PNotInt -> mk_pwp num polys idx = Err TypeError) /\
  (forall i, idx = PInt i -> (i < 0)%Z -> mk_pwp num polys idx = Err ValueError) /\
  (forall i, idx = PInt i -> (0 <= i)%Z -> num = PNotInt -> mk_pwp num polys idx = Err TypeError) /\
  (forall i m, idx = PInt i -> (0 <= i)%Z -> num = PInt m -> (m < 1)%Z -> mk_pwp num polys idx = Err ValueError).
Proof.
  unfold mk_pwp, at_least. split; [|split; [|split; [|split]]].
  - intros w. split.
    + destruct idx as [i|]; [|discriminate]. destruct (Z.ltb_spec i 0); [discriminate|]. cbn [bind]. destruct num as [m|]; [|discriminate]. destruct (Z.ltb_spec m 1); [discriminate|]. cbn [bind]. intros E. apply Ok_inj in E. subst w. exists m, i. cbn. repeat split; lia.
    + intros (m & i & -> & -> & M & I & W1 & W2 & W3). destruct (Z.ltb_spec i 0); [lia|]. destruct (Z.ltb_spec m 1); [lia|]. cbn [bind]. destruct w as [a b c]. cbn in *. subst. reflexivity.
  - intros ->. reflexivity.
  - intros i -> I. destruct (Z.ltb_spec i 0); [reflexivity|lia].
  - intros i -> I ->. destruct (Z.ltb_spec i 0); [lia|reflexivity].
  - intros i m -> I -> M. destruct (Z.ltb_spec i 0); [lia|]. cbn [bind]. destruct (Z.ltb_spec m 1); [reflexivity|lia].
Qed.
Print Assumptions C62_init.

(** ** Evaluation on edges *)

Lemma nth_skip {A} k : forall (v : list A) j, (k <= j)%nat -> nth_error (skipn k v) (j - k) = nth_error v j.
Proof.
  induction k as [|k IH]; intros v j J; [rewrite Nat.sub_0_r; reflexivity|]. destruct j as [|j]; [lia|]. destruct v as [|a v]; [cbn; destruct (j - k)%nat; reflexivity|]. cbn [skipn nth_error Nat.sub]. apply IH. lia.
Qed.

Lemma geti_mid {A} (u : list A) x v i : i = List.length u -> geti (u ++ x :: v) i = Ok x.
Proof. intros ->. unfold geti. rewrite nth_error_app2, Nat.sub_diag by lia. reflexivity. Qed.

(** The two loops of the method, for well sampled edges *)
Lemma first_loop ps es (done : list (poly RS)) (done' : list edge) acc n :
  Forall well_sampled es -> List.length ps = List.length es -> List.length done = List.length done' ->
  forall rest, fold_res (fun vn i => do e <- geti (done' ++ es) i; do p <- geti ((done ++ ps) ++ rest) i; do (x, y) <- edge_x e;
    Ok (fst vn ++ [on_points p x y], (snd vn + e_npts e)%Z)) (seq (List.length done') (List.length es)) (acc, n)
  = Ok (acc ++ pieces ps es, (n + Z.of_nat (List.length (concat (pieces ps es))))%Z).
Proof.
  revert ps done done' acc n. induction es as [|e es IH]; intros [|p ps] done done' acc n W L D rest; try discriminate.
  - cbn. rewrite app_nil_r, Z.add_0_r. reflexivity.
  - inversion W as [|? ? W1 W2]; subst. cbn [List.length seq fold_res].
    rewrite geti_mid by reflexivity. cbn [bind]. assert (EG : geti ((done ++ p :: ps) ++ rest) (List.length done') = Ok p) by (rewrite <- app_assoc; apply (geti_mid done p (ps ++ rest)); lia). rewrite EG. cbn [bind].
    destruct W1 as (P & LS & N & _). unfold edge_x at 1. rewrite P. cbn [bind]. rewrite on_edge.
    specialize (IH ps (done ++ [p]) (done' ++ [e]) (acc ++ [edge_vals p e]) (n + e_npts e)%Z W2 ltac:(cbn in L; lia) ltac:(rewrite !app_length; cbn; lia) rest).
    rewrite app_length in IH. cbn [List.length] in IH. rewrite Nat.add_1_r in IH. rewrite <- !app_assoc in IH. cbn [app] in IH.
    etransitivity; [|etransitivity; [exact IH|]].
    + cbn [fst snd]. rewrite <- app_assoc. reflexivity.
    + assert (E1 : pieces (p :: ps) (e :: es) = edge_vals p e :: pieces ps es) by reflexivity. rewrite E1. cbn [app concat].
      assert (E2 : (n + e_npts e + Z.of_nat (List.length (concat (pieces ps es))) = n + Z.of_nat (List.length (edge_vals p e ++ concat (pieces ps es))))%Z).
      { rewrite app_length. unfold edge_vals at 1. rewrite map_length. lia. }
      rewrite E2. reflexivity.
Qed.

Definition overlay (l : list (list R)) (v : list R) : list R := fold_left (fun v a => a ++ skipn (List.length a) v) l v.

Lemma overlay_length l : forall v, Forall (fun a => (List.length a <= List.length v)%nat) l -> List.length (overlay l v) = List.length v.
Proof.
  induction l as [|a l IH]; intros v F; [reflexivity|]. inversion F; subst. cbn [overlay fold_left]. fold (overlay l (a ++ skipn (List.length a) v)).
  rewrite IH; [|eapply Forall_impl; [|eassumption]; intros b B; cbn beta in *]; rewrite app_length, skipn_length; lia.
Qed.

Lemma second_loop ps es done done' v : Forall well_sampled es -> List.length ps = List.length es -> List.length done = List.length done' ->
  Forall (fun a => (List.length a <= List.length v)%nat) (pieces ps es) ->
  fold_res (fun v i => do e <- geti (done' ++ es) i; do a <- geti (done ++ pieces ps es) i; set_slice v 0 (0 + e_npts e) a) (seq (List.length done') (List.length es)) v
  = Ok (overlay (pieces ps es) v).
Proof.
  revert ps done done' v. induction es as [|e es IH]; intros [|p ps] done done' v W L D F; try discriminate; [reflexivity|].
  inversion W as [|? ? W1 W2]; subst. inversion F as [|? ? F1 F2]; subst. cbn [List.length seq fold_res].
  rewrite geti_mid by reflexivity. cbn [bind pieces combine map fst snd] in *. rewrite geti_mid by lia. cbn [bind].
  destruct W1 as (P & LS & N & _). assert (EL : List.length (edge_vals p e) = Z.to_nat (e_npts e)) by (unfold edge_vals; rewrite map_length; lia).
  unfold set_slice. rewrite Z.add_0_l. replace (Nat.min (Z.to_nat 0) (List.length v)) with 0%nat by (cbn; lia).
  rewrite Nat.sub_0_r, Nat.min_l, EL, Nat.eqb_refl by lia. cbn [firstn app bind Nat.add]. rewrite <- EL.
  specialize (IH ps (done ++ [edge_vals p e]) (done' ++ [e]) (edge_vals p e ++ skipn (List.length (edge_vals p e)) v) W2 ltac:(cbn in L; lia) ltac:(rewrite !app_length; cbn; lia)).
  rewrite (app_length done' [e]) in IH. cbn [List.length] in IH. rewrite Nat.add_1_r, <- !app_assoc in IH. cbn [app] in IH. apply IH.
  eapply Forall_impl; [|exact F2]. intros b B. cbn beta in *. rewrite app_length, skipn_length. lia.
Qed.

Lemma piece_le (l : list (list R)) a : In a l -> (List.length a <= List.length (concat l))%nat.
Proof. induction l as [|b l IH]; [intros []|]. intros [->|I]; cbn; rewrite app_length; [lia|]. specialize (IH I). lia. Qed.

Lemma eval_overlay w es ps rest : Forall well_sampled es -> Z.of_nat (List.length es) = w_num w -> w_polys w = ps ++ rest -> List.length ps = List.length es ->
  eval_on_edges w es = Ok (overlay (pieces ps es) (repeat 0 (List.length (concat (pieces ps es))))).
Proof.
  intros W N P L. unfold eval_on_edges. rewrite N, Z.eqb_refl, P.
  pose proof (first_loop ps es [] [] [] 0%Z W L eq_refl rest) as F. cbn [List.length app] in F. rewrite F. cbn [bind fst snd]. rewrite Z.add_0_l, Nat2Z.id.
  pose proof (second_loop ps es [] [] (repeat 0 (List.length (concat (pieces ps es)))) W L eq_refl) as G. cbn [List.length app] in G. apply G.
  apply Forall_forall. intros a I. rewrite repeat_length. apply piece_le, I.
Qed.

(** What the method computes: every edge writes to the start of the array. Entry [j] comes from
    the last edge with more than [j] samples; entries past the longest edge are zero. *)
Theorem C62_effect w es ps rest : Forall well_sampled es -> Z.of_nat (List.length es) = w_num w -> w_polys w = ps ++ rest -> List.length ps = List.length es ->
  exists r, eval_on_edges w es = Ok r /\ List.length r = List.length (concat (pieces ps es)) /\
  (forall l a l' j, pieces ps es = l ++ a :: l' -> (j < List.length a)%nat -> (forall b, In b l' -> (List.length b <= j)%nat) -> nth_error r j = nth_error a j) /\
  (forall j, (j < List.length r)%nat -> (forall a, In a (pieces ps es) -> (List.length a <= j)%nat) -> nth_error r j = Some 0).
Proof.
  intros W N P L. eexists. split; [exact (eval_overlay w es ps rest W N P L)|]. set (pc := pieces ps es). set (n := List.length (concat pc)).
  assert (LE : Forall (fun a => (List.length a <= List.length (repeat 0%R n))%nat) pc) by (apply Forall_forall; intros a I; rewrite repeat_length; apply piece_le, I).
  assert (LN : List.length (overlay pc (repeat 0%R n)) = n) by (rewrite (overlay_length pc _ LE); apply repeat_length).
  assert (PAST : forall l v j, (forall a, In a l -> (List.length a <= j)%nat) -> nth_error (overlay l v) j = nth_error v j).
  { induction l as [|a l IH]; intros v j A; [reflexivity|]. cbn [overlay fold_left]. fold (overlay l (a ++ skipn (List.length a) v)). rewrite IH by (intros b B; apply A; right; exact B).
    pose proof (A a (or_introl eq_refl)) as La. rewrite nth_error_app2 by exact La. apply nth_skip, La. }
  split; [exact LN|]. split.
  - intros l a l' j E J B. rewrite E. unfold overlay. rewrite fold_left_app. cbn [fold_left]. fold (overlay l (repeat 0%R n)). match goal with |- nth_error (fold_left _ l' ?v) _ = _ => fold (overlay l' v) end.
    rewrite PAST by exact B. apply nth_error_app1, J.
  - intros j J A. rewrite LN in J. rewrite PAST by exact A. apply nth_error_repeat, J.
Qed.
Print Assumptions C62_effect.

(** On one edge the values are right. *)
Theorem C62_single w e p rest : well_sampled e -> w_num w = 1%Z -> w_polys w = p :: rest ->
  exists r, eval_on_edges w [e] = Ok r /\ r = edge_vals p e.
Proof.
  intros W N P. eexists. split; [apply (eval_overlay w [e] [p] rest); [constructor; [exact W|constructor]|rewrite N; reflexivity|exact P|reflexivity]|].
  cbn [pieces combine map concat overlay fold_left fst snd app]. rewrite app_nil_r, skipn_all2, app_nil_r by (rewrite repeat_length; lia). reflexivity.
Qed.
Print Assumptions C62_single.

(** On two or more edges the result is not the array of all values, edge after edge: whenever the
    last polynomial does not vanish at the last sample, that entry is zero instead. *)
Theorem C62_concat_refuted w es ps rest p e s : Forall well_sampled es -> Z.of_nat (List.length es) = w_num w -> w_polys w = ps ++ rest -> List.length ps = List.length es ->
  (2 <= List.length es)%nat -> nth_error ps (List.length es - 1) = Some p -> nth_error es (List.length es - 1) = Some e ->
  nth_error (e_smp e) (List.length (e_smp e) - 1) = Some s -> at_smp (peval RS p) s <> 0 ->
  exists r, eval_on_edges w es = Ok r /\ r <> concat (pieces ps es).
Proof.
  intros W N P L M Ep Ee Es V. destruct (C62_effect w es ps rest W N P L) as (r & E & LR & _ & Z). exists r. split; [exact E|]. intros EQ.
  set (k := List.length es) in *. assert (EL : exists es0, es = es0 ++ [e] /\ List.length es0 = (k - 1)%nat).
  { destruct (nth_error_split _ _ Ee) as (l1 & l2 & Q & Q'). assert (l2 = []) as ->. { destruct l2; [reflexivity|]. assert (k = List.length (l1 ++ e :: e0 :: l2)) by (unfold k; rewrite Q; reflexivity). rewrite app_length in H. cbn in H. lia. } exists l1. split; [exact Q|exact Q']. }
  assert (PL : exists ps0, ps = ps0 ++ [p] /\ List.length ps0 = (k - 1)%nat).
  { destruct (nth_error_split _ _ Ep) as (l1 & l2 & Q & Q'). assert (l2 = []) as ->. { destruct l2; [reflexivity|]. assert (k = List.length (l1 ++ p :: p0 :: l2)) by (rewrite <- Q; exact (eq_sym L)). rewrite app_length in H. cbn in H. lia. } exists l1. split; [exact Q|exact Q']. }
  clearbody k. destruct EL as (es0 & -> & L0). destruct PL as (ps0 & -> & L1).
  assert (PC : pieces (ps0 ++ [p]) (es0 ++ [e]) = pieces ps0 es0 ++ [edge_vals p e]).
  { unfold pieces. assert (CA : forall (a : list (poly RS)) (b : list edge), List.length a = List.length b -> combine (a ++ [p]) (b ++ [e]) = combine a b ++ [(p, e)]).
    { induction a as [|x a IH]; intros [|y b] Hb; try discriminate; [reflexivity|]. cbn. f_equal. apply IH. cbn in Hb. lia. }
    rewrite CA by (rewrite L0; exact L1). rewrite map_app. reflexivity. }
  apply Forall_app in W. destruct W as [W0 W1]. pose proof (Forall_inv W1) as We. destruct We as (_ & LSe & Ne & _).
  assert (NE : (0 < List.length (concat (pieces ps0 es0)))%nat).
  { destruct es0 as [|e0 es0]; [cbn [List.length] in L0; lia|]. destruct ps0 as [|p0 ps0]; [cbn [List.length] in L1; lia|]. cbn [pieces combine map concat fst snd]. rewrite app_length. unfold edge_vals at 1. rewrite map_length. pose proof (Forall_inv W0) as We0. destruct We0 as (_ & LS0 & N0 & _). lia. }
  set (n := List.length (concat (pieces ps0 es0))) in *. set (m := List.length (e_smp e)) in *. assert (Mm : (3 <= m)%nat) by lia.
  assert (LV : List.length (edge_vals p e) = m) by (unfold edge_vals; rewrite map_length; reflexivity).
  assert (LC : List.length r = (n + m)%nat) by (rewrite EQ, PC, concat_app, app_length; cbn [concat]; rewrite app_nil_r, LV; reflexivity).
  specialize (Z (n + (m - 1))%nat ltac:(lia)). rewrite EQ, PC, concat_app in Z. cbn [concat] in Z. rewrite app_nil_r in Z. fold n in Z.
  rewrite nth_error_app2 in Z by (fold n; lia). fold n in Z. replace (n + (m - 1) - n)%nat with (m - 1)%nat in Z by lia. assert (EV : nth_error (edge_vals p e) (m - 1) = Some (at_smp (peval RS p) s)) by (unfold edge_vals; apply map_nth_error, Es). rewrite EV in Z.
  assert (Q : Some (at_smp (peval RS p) s) = Some 0); [|congruence]. apply Z. intros a I. apply in_app_or in I. destruct I as [I|[<-|[]]]; [|rewrite LV; lia]. pose proof (piece_le _ _ I). fold n in H. lia.
Qed.
Print Assumptions C62_concat_refuted.

(** Wrong counts and edges without samples are refused. *)
Theorem C62_refused w es : (Z.of_nat (List.length es) <> w_num w -> eval_on_edges w es = Err PolynomialError) /\
  (forall e es' p ps, es = e :: es' -> w_polys w = p :: ps -> Z.of_nat (List.length es) = w_num w -> e_param e = false -> eval_on_edges w es = Err AttributeError) /\
  (es <> [] -> w_polys w = [] -> Z.of_nat (List.length es) = w_num w -> eval_on_edges w es = Err IndexError).
Proof.
  unfold eval_on_edges. split; [|split].
  - intros N. destruct (Z.eqb_spec (Z.of_nat (List.length es)) (w_num w)); [contradiction|reflexivity].
  - intros e es' p ps -> -> -> P. rewrite Z.eqb_refl. cbn [List.length seq fold_res geti nth_error bind]. unfold edge_x. rewrite P. reflexivity.
  - intros NE -> ->. rewrite Z.eqb_refl. destruct es as [|e es]; [contradiction|]. reflexivity.
Qed.
Print Assumptions C62_refused.

(** ** Values of several polynomials *)

(** One row per polynomial, one column per point; on an edge these are the values at its samples. *)
Theorem C62_vals x y ps : (List.length x = List.length y -> exists M, get_poly_vals x y ps = Ok M /\ List.length M = List.length ps /\
    forall i p r, nth_error ps i = Some p -> nth_error M i = Some r -> List.length r = List.length x /\
      forall j a b, nth_error x j = Some a -> nth_error y j = Some b -> nth_error r j = Some (peval RS p a b)) /\
  (List.length x <> List.length y -> get_poly_vals x y ps = Err SizeMismatchError).
Proof.
  unfold get_poly_vals. split; intros L.
  - rewrite <- L, Nat.eqb_refl. eexists. split; [reflexivity|]. rewrite map_length. split; [reflexivity|]. intros i p r Ep Er. rewrite (map_nth_error _ _ _ Ep) in Er. assert (r = on_points p x y) by congruence. subst r. unfold on_points. split.
    + rewrite map_length, combine_length. lia.
    + intros j a b Ea Eb. rewrite (map_nth_error _ j (combine x y) (d := (a, b))); [reflexivity|]. clear -L Ea Eb. revert y j L Ea Eb. induction x as [|u x IH]; intros [|v y] [|j] L Ea Eb; try discriminate; cbn in *; [congruence|]. apply IH; [lia|assumption|assumption].
  - destruct (Nat.eqb_spec (List.length y) (List.length x)); [congruence|reflexivity].
Qed.
Print Assumptions C62_vals.
Theorem C62_edge e ps : (e_param e = true -> get_poly_traces_edge e ps = Ok (map (fun p => edge_vals p e) ps)) /\
  (e_param e = false -> get_poly_traces_edge e ps = Err AttributeError).
Proof.
  unfold get_poly_traces_edge, edge_x. split; intros ->; [|reflexivity]. cbn [bind]. unfold get_poly_vals. rewrite !map_length, Nat.eqb_refl. f_equal. apply map_ext. intros p. apply on_edge.
Qed.
Print Assumptions C62_edge.

(** Two sides of a triangle, each with the constant polynomial 1: the second half of the array is
    zero. *)
Example C62_example : exists w e1 e2 r, mk_pwp (PInt 2) (Some [[Mono (S:=RS) (MI 0 0) 1]; [Mono (S:=RS) (MI 0 0) 1]]) (PInt 0) = Ok w /\ well_sampled e1 /\ well_sampled e2 /\
  eval_on_edges w [e1; e2] = Ok r /\ r = repeat 1 9 ++ repeat 0 9.
Proof.
  assert (K : forall e, parameterize dict4 (line_edge (mkvert 0 0) (mkvert 3 4)) = Ok e -> List.length (e_smp e) = 9%nat -> edge_vals [Mono (S:=RS) (MI 0 0) 1] e = repeat 1 9).
  { intros e _ L. unfold edge_vals. rewrite <- L. clear. induction (e_smp e) as [|s l IH]; [reflexivity|]. cbn [map List.length repeat]. f_equal; [|exact IH].
    unfold at_smp. rewrite peval_value. unfold value. cbn. unfold m_eval. cbn. ring. }
  destruct C25_example as (_ & _ & e & E & L & _). destruct (C33_well_sampled (PInt 4) 7 dict4 _ e dict4_ok E) as (W & _).
  eexists. exists e, e, (repeat 1 9 ++ repeat 0 9). split; [reflexivity|]. split; [exact W|]. split; [exact W|]. split; [|reflexivity].
  rewrite (eval_overlay _ [e; e] [[Mono (S:=RS) (MI 0 0) 1]; [Mono (S:=RS) (MI 0 0) 1]] []); [|exact (Forall_cons _ W (Forall_cons _ W (Forall_nil _)))|reflexivity|reflexivity|reflexivity].
  cbn [pieces combine map fst snd]. rewrite !(K e E L). reflexivity.
Qed.
