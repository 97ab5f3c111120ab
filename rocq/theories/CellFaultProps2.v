(** C83, continued: which point a contour keeps when no point inside is found, and what an edge keeps when its curve raises. *)
From Coq Require Import String List ZArith Reals Lia Lra Bool.
From Verif Require Import PyBase PolyModel BaryModel BBoxModel QuadModel QuadSpec CurveModel VertModel EdgeModel EdgeSpec EdgeProofs EdgeProofs2 EdgeProps3 ContourModel CellModel CellSpec CellProofs CellProofs2 ContourProofs ContourProofs2 ContourProofs3 ContourProofs4 CellProps CellProps4 CellProps5 DeparamProps FaultModel FaultProofs EdgeProps InteriorProofs Annulus DiscCell CellFaultModel CellFaultSpec CellFaultProofs CellFaultProps.
Import List ListNotations.
Open Scope R_scope.

Section Inside.
Variable contains : R -> list pt -> pt -> bool.
Variables (H : heap) (k : contour) (es : list edge).
Hypothesis F : fresh H k es.
Hypothesis NE : es <> [].
Lemma st_loop_step fuel box tol m d cur : (1 <= m)%nat -> exists v p, In p (grid box m) /\ score contains es p v /\ (forall q w, In q (grid box m) -> score contains es q w -> w <= v) /\
  st_loop contains (S fuel) H k box tol (Z.of_nat (S m)) d cur =
    if Rlt_dec d tol then
      let M := (4 * (Z.of_nat (S m) / 2) + 1)%Z in
      if Z.ltb 1000000 (M * M) then (cur, Some InteriorPointError) else st_loop contains fuel H k box tol M v (Some (mkvert (fst p) (snd p)))
    else (cur, None).
Proof.
  intros Hm. destruct box as [[[x0 x1] y0] y1]. cbn [st_loop grid].
  assert (LS : forall a b, np_linspace a b (Z.of_nat (S m)) = Ok (linspace a b m)).
  { intros a b. unfold np_linspace. destruct (Z.ltb_spec (Z.of_nat (S m)) 0); [lia|]. rewrite Nat2Z.id. destruct m; [lia|reflexivity]. }
  set (g := meshgrid (linspace x0 x1 m) (linspace y0 y1 m)). destruct (scores_ok contains H k es F NE g) as (dist & Ed & Sd).
  assert (Rg : Forall (fun r => List.length r = S m) g). { apply Forall_map, Forall_forall. intros y _. rewrite map_length. apply linspace_length. }
  assert (Rd : Forall (fun r => List.length r = S m) dist). { clear -Sd Rg. induction Sd as [|r d g dist X Y IH]; constructor; inversion Rg; subst; [rewrite <- (Forall2_len _ _ _ X); assumption|auto]. }
  assert (Sc : Forall2 (score contains es) (concat g) (concat dist)). { clear -Sd. induction Sd as [|r d g dist X Y IH]; [constructor|]. cbn. apply Forall2_app; assumption. }
  assert (Ned : concat dist <> []).
  { intros X. rewrite X in Sc. inversion Sc. }
  destruct (argmax_ok _ Ned) as (kk & v & Ek & Ev & Mx). destruct (matrix_pos (S m) dist Rd _ _ Ev) as (row & D1 & D2).
  assert (Lk : (kk < List.length (concat g))%nat) by (rewrite (Forall2_len _ _ _ Sc); apply nth_error_Some; congruence). destruct (nth_error (concat g) kk) as [p|] eqn:Ep; [|apply nth_error_None in Ep; lia]. destruct (matrix_pos (S m) g Rg _ _ Ep) as (rowp & G1 & G2).
  exists v, p. split; [eapply nth_error_In, Ep|]. split; [exact (Forall2_nth _ _ _ Sc _ _ _ Ep Ev)|]. split.
  - intros q w Iq Sq. apply In_nth_error in Iq. destruct Iq as (i & Ei). assert (Li : (i < List.length (concat dist))%nat) by (rewrite <- (Forall2_len _ _ _ Sc); apply nth_error_Some; congruence). destruct (nth_error (concat dist) i) as [w'|] eqn:Ew; [|apply nth_error_None in Ew; lia]. pose proof (Forall2_nth _ _ _ Sc _ _ _ Ei Ew) as Sw. rewrite (score_unique _ _ _ _ _ Sq Sw). rewrite Forall_forall in Mx. apply Mx. eapply nth_error_In, Ew.
  - destruct (Rlt_dec d tol); [|reflexivity]. rewrite !LS. cbn [bind]. rewrite (inside2_ok contains H k es F). cbn [bind]. fold g. rewrite Ed. cbn [bind]. rewrite Ek. cbn [bind]. rewrite Nat2Z.id. unfold geti. rewrite D1. cbn [bind]. rewrite D2. cbn [bind]. rewrite G1. cbn [bind]. rewrite G2. cbn [bind]. reflexivity.
Qed.
Ltac one := match goal with E : st_loop _ (S ?f) _ _ ?box ?tol ?M ?d ?cur = _ |- _ =>
  let v := fresh "v" in let p := fresh "p" in let I := fresh "I" in let S := fresh "S" in let X := fresh "X" in let Y := fresh "Y" in
  destruct (st_loop_step f box tol (Z.to_nat M - 1) d cur ltac:(cbn; lia)) as (v & p & I & S & X & Y); match type of Y with st_loop _ _ _ _ _ _ ?M' _ _ = _ => change M' with M in Y end; rewrite Y in E; clear Y; destruct (Rlt_dec d tol); [|discriminate]; cbv zeta in E; match type of E with (if ?b then _ else _) = _ => let b' := eval vm_compute in b in change b with b' in E end; cbv iota in E; try match type of E with st_loop _ _ _ _ _ _ ?a _ _ = _ => let a' := eval vm_compute in a in change a with a' in E end end.
Lemma st_loop_end box tol cur q x : st_loop contains 8 H k box tol 9 0 cur = (q, Some x) ->
  x = InteriorPointError /\ exists p v, q = Some (mkvert (fst p) (snd p)) /\ In p (grid box 256) /\ score contains es p v /\ v < tol /\ forall q w, In q (grid box 256) -> score contains es q w -> w <= v.
Proof.
  intros E. do 7 one. injection E as <- <-. split; [reflexivity|]. exists p4, v4. split; [reflexivity|]. split; [exact I4|]. split; [exact S4|]. split; [assumption|exact X4].
Qed.
End Inside.

(** If the search for a point inside raises, it raises InteriorPointError, and the contour keeps, as its interior point, a point
    of the 257 by 257 grid: the farthest from the samples of those inside, if there are any, and too near. The finer grid that was
    searched last leaves nothing. *)
Theorem C83_point contains H k es k' x : fresh H k es -> es <> [] -> st_interior contains H k = (k', Some x) ->
  x = InteriorPointError /\ exists box p v, bounding_box TOL (xs_of (contour_smp es)) (ys_of (contour_smp es)) = Ok box /\
    k' = Contour (k_cell k) (k_edges k) (k_orients k) (k_npts k) (k_vidx k) (k_closest k) (Some (mkvert (fst p) (snd p))) /\
    In p (grid box 256) /\ score contains es p v /\ v < clearance box /\ forall q w, In q (grid box 256) -> score contains es q w -> w <= v.
Proof.
  intros F NE E. destruct (find_interior_form contains H k es F NE) as (box & Bx & _). unfold st_interior in E. unfold guard in E. rewrite (fresh_guard _ _ _ F) in E. cbn [bind] in E. rewrite (contour_points_ok _ _ _ F) in E. cbn [bind] in E. fold (xs_of (contour_smp es)) (ys_of (contour_smp es)) in E. change (1 / 1000000000000) with TOL in E. rewrite Bx in E. destruct box as [[[x0 x1] y0] y1].
  match type of E with (let '(_, _) := ?l in _) = _ => destruct l as [q [y|]] eqn:L end; [|discriminate]. injection E as <- <-.
  destruct (st_loop_end contains H k es F NE (x0, x1, y0, y1) _ _ _ _ L) as (-> & p & v & -> & I & S & V & X). split; [reflexivity|]. exists (x0, x1, y0, y1), p, v. split; [exact Bx|]. split; [reflexivity|]. split; [exact I|]. split; [exact S|]. split; [exact V|exact X].
Qed.
Print Assumptions C83_point.

(** An edge whose curve refuses its options has the number of samples of the new parameters and none of the samples. *)
Theorem C83_edge qd e q x : e_qtype e = "trap"%string /\ q = fst qd \/ e_qtype e = "kress"%string /\ q = snd qd -> cX (e_curve e) (e_opts e) = Err x ->
  exists e', st_param qd e = (e', Some x) /\ e_npts e' = (2 * Z.of_nat (q_n q) + 1)%Z /\ e_smp e' = e_smp e /\ e_param e' = e_param e /\ e_diary e' = e_diary e /\ e_qtype e' = e_qtype e.
Proof.
  intros [(T & ->)|(T & ->)] E; unfold st_param; rewrite T; cbn [String.eqb Ascii.eqb Bool.eqb]; destruct (e_tb e) as [a b]; rewrite E; cbv zeta; (eexists; split; [reflexivity|]); repeat split; exact T.
Qed.
Print Assumptions C83_edge.

(** The disc under [nowhere] keeps a point of the grid, whose value is 0. *)
Example C83_point_example : exists H k es k' p, fresh H k es /\ es <> [] /\ st_interior nowhere H k = (k', Some InteriorPointError) /\ k_int k = None /\ k_int k' = Some (mkvert (fst p) (snd p)) /\ score nowhere es p 0.
Proof.
  destruct (ring_param 1 1 2 1) as (e1 & E & Pe & N & S). assert (RS : resampled dict4 1 (ring 1 1 2 1) e1) by (exists e1; split; [exact E|reflexivity]). destruct (ring_resampled _ _ _ _ _ _ _ (like_self 1 1 2 1) RS) as [N1 S1]. pose proof (reversed_sampled _ _ _ _ _ _ dict4_ok RS) as W. cbn [Z.eqb] in S1.
  set (H := hset rings 0 e1). set (k := with_ktables (unset 2 0 1) (Some (total (map open_num [e1]))) (offsets (map open_num [e1])) (Some (closest [e1]))).
  assert (F : fresh H k [e1]) by (split; [constructor; [reflexivity|constructor]|split; [constructor; [exact W|constructor]|split; reflexivity]]).
  destruct (find_interior_total nowhere H k [e1] F ltac:(discriminate)) as (box & Bx & A & _). destruct (ring_accept e1 1 1 1 ltac:(lra) (or_introl eq_refl) S1) as (B' & Cl & _). rewrite Bx in B'. apply Ok_inj in B'. subst box. rewrite Cl in A. destruct (A ltac:(lra)) as [_ No].
  assert (X : find_interior_point nowhere H k = Err InteriorPointError) by (apply No; intros (a & q & _ & _ & (Z & _)); discriminate Z). rewrite <- st_interior_out in X. destruct (st_interior nowhere H k) as [k' [x|]] eqn:St; [|discriminate]. cbn [out snd] in X. assert (x = InteriorPointError) by congruence. subst x.
  destruct (C83_point nowhere H k [e1] k' _ F ltac:(discriminate) St) as (_ & box & p & v & _ & -> & _ & Sc & _). exists H, k, [e1]. eexists. exists p. split; [exact F|]. split; [discriminate|]. split; [exact St|]. split; [reflexivity|]. split; [reflexivity|reflexivity].
Qed.

(** An arc without its angle: 9 samples are announced and there are none. *)
Example C83_edge_example : let e := Edge (mkvert 0 0) (mkvert 1 0) 0 (-1) CircularArcDeg [] "kress" None true false false (-1) [] (0, 2 * PI) [SJoin (mkvert 0 0) (mkvert 1 0)] in
  exists e', st_param dict4 e = (e', Some ValueError) /\ e_npts e' = 9%Z /\ e_smp e' = [] /\ e_param e' = false.
Proof. intros e. destruct (C83_edge dict4 e (snd dict4) ValueError) as (e' & A & B & C & D & _); [right; split; reflexivity|reflexivity|]. exists e'. auto. Qed.
