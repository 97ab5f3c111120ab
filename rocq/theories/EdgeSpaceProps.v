(** Properties C17, C18 and C61: edge_space.py and integrate_poly.py. *)
From Coq Require Import List ZArith Reals Lia Lra Arith Permutation Sorted.
From Verif Require Import PyBase PolyModel PolySpec PolyProofs PolyProofs2 PolyProofs4 LegendreModel LegendreProofs
  LegendreProofs2 BBoxModel BaryModel BarySpec BaryProofs BaryProps EdgeSpaceModel EdgeSpaceSpec EdgeSpaceProofs
  IntPolyModel IntPolyProofs.
Import ListNotations.
Open Scope R_scope.

(** ** C17 *)

(** The functions that are corrected and kept: all but positions 0, 1 and deg+1. *)
Definition retained (deg : nat) (pre : list (poly RS)) : list (poly RS) :=
  firstn (deg - 1) (skipn 2 pre) ++ skipn (deg + 2) pre.

(** The construction succeeds for every nonempty sampling, every degree >= 1, every
    low-rank step, whenever the edge is a loop or has endpoints at least 1e-12 apart. *)
Theorem C17_total lr e deg z0 rest : ev_pts e = z0 :: rest -> (1 <= deg)%Z ->
  (ev_loop e = true \/ tol <= pdist (last (ev_pts e) z0) z0) ->
  exists es, mk_edge_space lr e deg = Ok es.
Proof.
  intros Hp Hd Hl. unfold mk_edge_space. destruct (Z.ltb_spec deg 1); [lia|].
  destruct (pre_ok e (Z.to_nat deg)) as (pre & Epre & Lpre & _); [rewrite Hp; discriminate|lia|].
  assert (B : exists vf, build_spanning_set e (Z.to_nat deg) = Ok vf).
  { destruct (ev_loop e) eqn:El.
    - unfold build_spanning_set. rewrite Epre. cbn [bind]. rewrite El. eexists. reflexivity.
    - destruct Hl as [Hl|Hl]; [discriminate|].
      destruct (bary_edge_ok z0 (last (ev_pts e) z0) Hl) as [_ Eb].
      destruct (spanning_ok e (Z.to_nat deg) z0 rest _ _ _ pre El Hp ltac:(lia) Epre Lpre Eb) as (fs & E & _).
      eexists. exact E. }
  destruct B as [[vs fs] E]. rewrite E. cbn [bind].
  destruct (reduce_ok lr e fs) as (idx & sub & Er & _). rewrite Er. cbn [bind]. eexists. reflexivity.
Qed.
Print Assumptions C17_total.

(** Inversion: what the result consists of. *)
Lemma es_inv lr e deg es z0 rest : ev_loop e = false -> ev_pts e = z0 :: rest -> tol <= pdist (last (ev_pts e) z0) z0 ->
  mk_edge_space lr e deg = Ok es ->
  exists pre l0 l1 l2, pre_traces e (Z.to_nat deg) = Ok pre /\ Forall canonical pre /\
    barycentric_coordinates_edge z0 (last (ev_pts e) z0) = Ok (l0, l1, l2) /\ es_vert es = [l0; l1] /\
    (1 <= deg)%Z /\
    forall f, In f (es_edge es) -> f = l2 \/ exists p, In p (retained (Z.to_nat deg) pre) /\
      f = correct e z0 (last (ev_pts e) z0) l0 l1 p.
Proof.
  intros El Hp Hl H. unfold mk_edge_space in H. destruct (Z.ltb_spec deg 1) as [?|Hd]; [discriminate|].
  destruct (pre_ok e (Z.to_nat deg)) as (pre & Epre & Lpre & Cpre); [rewrite Hp; discriminate|lia|].
  assert (EB : exists l0 l1 l2, barycentric_coordinates_edge z0 (last (ev_pts e) z0) = Ok (l0, l1, l2))
    by (do 3 eexists; apply bary_edge_ok, Hl).
  destruct EB as (l0 & l1 & l2 & Eb).
  destruct (spanning_ok e (Z.to_nat deg) z0 rest l0 l1 l2 pre El Hp ltac:(lia) Epre Lpre Eb) as (fs & E & Efs).
  rewrite E in H. cbn [bind] in H.
  destruct (reduce_ok lr e (fs ++ [l2])) as (idx & sub & Er & S). rewrite Er in H. cbn [bind] in H.
  inversion H; subst es. cbn [es_vert es_edge].
  exists pre, l0, l1, l2. split; [exact Epre|]. split; [exact Cpre|]. split; [exact Eb|]. split; [reflexivity|]. split; [exact Hd|].
  intros f Hf. destruct S as (_ & F & M).
  assert (I : In (Some f) (map (nth_error (fs ++ [l2])) idx)) by (rewrite M; apply in_map, Hf).
  apply in_map_iff in I. destruct I as (k & Ek & _). apply nth_error_In in Ek. apply in_app_iff in Ek.
  destruct Ek as [I|[I|[]]]; [|left; symmetry; exact I].
  right. rewrite Efs in I. apply in_map_iff in I. destruct I as (p & <- & Hp'). exists p. split; [exact Hp'|reflexivity].
Qed.

(** Vertex traces are nodal and every edge trace vanishes at both endpoints, when no
    coefficient is dropped on the way. *)
Theorem C17_conforming lr e deg es z0 rest : ev_loop e = false -> ev_pts e = z0 :: rest ->
  let z1 := last (ev_pts e) z0 in let z2 := edge_apex z0 z1 in let h := cross3 z0 z1 z2 in
  tol <= pdist z1 z0 ->
  bary_sig h z2 z0 z1 -> bary_sig h z0 z1 z2 -> bary_sig h z1 z2 z0 ->
  (forall pre l0 l1 l2, pre_traces e (Z.to_nat deg) = Ok pre -> barycentric_coordinates_edge z0 z1 = Ok (l0, l1, l2) ->
     forall p, In p (retained (Z.to_nat deg) pre) -> correction_kept p l0 l1 (at_ p z0) (at_ p z1)) ->
  mk_edge_space lr e deg = Ok es ->
  (exists v0 v1, es_vert es = [v0; v1] /\ at_ v0 z0 = 1 /\ at_ v0 z1 = 0 /\ at_ v1 z0 = 0 /\ at_ v1 z1 = 1) /\
  forall f, In f (es_edge es) -> at_ f z0 = 0 /\ at_ f z1 = 0.
Proof.
  intros El Hp z1 z2 h Hl S0 S1 S2 K H.
  destruct (es_inv lr e deg es z0 rest El Hp Hl H) as (pre & l0 & l1 & l2 & Epre & Cpre & Eb & Ev & Hd & Hf).
  destruct (C16_edge z0 z1 Hl S0 S1 S2) as (m0 & m1 & m2 & Em & N).
  fold z1 in Eb. rewrite Em in Eb. inversion Eb; subst m0 m1 m2. clear Eb.
  destruct N as (N00 & N01 & N10 & N11 & N20 & N21).
  split; [exists l0, l1; tauto|]. intros f Hin. destruct (Hf f Hin) as [->|(p & Ip & ->)]; [tauto|].
  specialize (K pre l0 l1 l2 Epre Em p Ip).
  assert (Cp : canonical p).
  { rewrite Forall_forall in Cpre. apply Cpre. unfold retained in Ip. apply in_app_iff in Ip.
    destruct Ip as [I|I].
    - rewrite <- (firstn_skipn 2 pre). apply in_app_iff. right. rewrite <- (firstn_skipn (Z.to_nat deg - 1) (skipn 2 pre)).
      apply in_app_iff. left. exact I.
    - rewrite <- (firstn_skipn (Z.to_nat deg + 2) pre). apply in_app_iff. right. exact I. }
  destruct (bary_edge_ok z0 z1 Hl) as [_ Eb]. rewrite Em in Eb. injection Eb as Q0 Q1 Q2.
  assert (G : forall z : pt, peval RS (correct e z0 (last (ev_pts e) z0) l0 l1 p) (fst z) (snd z) =
     (if Rltb (ev_int e (map (fun z : pt => peval RS (psub RS p (padd RS (pscale RS l0 (at_ p z0)) (pscale RS l1 (at_ p z1)))) (fst z) (snd z)) (ev_pts e))) 0 then -1 else 1)
     * (at_ p z - (at_ p z0 * at_ l0 z + at_ p z1 * at_ l1 z))).
  { intros z. unfold correct, at_. rewrite peval_value. fold z1.
    rewrite value_flip by apply consolidate_canonical. f_equal.
    rewrite !peval_value.
    rewrite (correct_exact p l0 l1 (bc0 h z2 z0 z1) (bcx h z2 z0 z1) (bcy h z2 z0 z1) (bc0 h z0 z1 z2) (bcx h z0 z1 z2) (bcy h z0 z1 z2)).
    - reflexivity.
    - exact Cp.
    - rewrite Q0. apply bary_one_lin.
    - rewrite Q1. apply bary_one_lin.
    - unfold at_ in K. rewrite !peval_value in K. exact K. }
  split; (etransitivity; [apply G|]); rewrite ?N00, ?N01, ?N10, ?N11; ring.
Qed.
Print Assumptions C17_conforming.

(** Without conditions on the coefficients: explicit error bounds at both endpoints. *)
Theorem C17_conforming_error lr e deg es z0 rest : ev_loop e = false -> ev_pts e = z0 :: rest ->
  let z1 := last (ev_pts e) z0 in let z2 := edge_apex z0 z1 in let h := cross3 z0 z1 z2 in
  let err (a b z : pt) := bary_err h (fst a - fst b) (snd a - snd b) (fst z) (snd z) in
  let sz p (z : pt) := tol * (msize p (fst z) (snd z) + 4 * (1 + Rabs (fst z) + Rabs (snd z))) in
  tol <= pdist z1 z0 -> mk_edge_space lr e deg = Ok es ->
  (exists v0 v1, es_vert es = [v0; v1] /\
     Rabs (at_ v0 z0 - 1) <= err z2 z1 z0 /\ Rabs (at_ v0 z1) <= err z2 z1 z1 /\
     Rabs (at_ v1 z0) <= err z0 z2 z0 /\ Rabs (at_ v1 z1 - 1) <= err z0 z2 z1) /\
  exists pre, pre_traces e (Z.to_nat deg) = Ok pre /\
  forall f, In f (es_edge es) ->
    (Rabs (at_ f z0) <= err z1 z0 z0 /\ Rabs (at_ f z1) <= err z1 z0 z1) \/
    (exists p, In p (retained (Z.to_nat deg) pre) /\
       Rabs (at_ f z0) <= Rabs (at_ p z0) * err z2 z1 z0 + Rabs (at_ p z1) * err z0 z2 z0 + sz p z0 /\
       Rabs (at_ f z1) <= Rabs (at_ p z0) * err z2 z1 z1 + Rabs (at_ p z1) * err z0 z2 z1 + sz p z1).
Proof.
  intros El Hp z1 z2 h err sz Hl H.
  destruct (es_inv lr e deg es z0 rest El Hp Hl H) as (pre & l0 & l1 & l2 & Epre & Cpre & Eb & Ev & Hd & Hf).
  destruct (C16_edge_error z0 z1 Hl) as (m0 & m1 & m2 & Em & N).
  fold z1 in Eb. rewrite Em in Eb. inversion Eb; subst m0 m1 m2. clear Eb.
  fold z2 h in N. fold err in N. destruct N as (N00 & N01 & N10 & N11 & N20 & N21).
  split; [exists l0, l1; tauto|]. exists pre. split; [exact Epre|].
  intros f Hin. destruct (Hf f Hin) as [->|(p & Ip & ->)]; [left; tauto|right].
  exists p. split; [exact Ip|].
  assert (Cp : canonical p).
  { rewrite Forall_forall in Cpre. apply Cpre. unfold retained in Ip. apply in_app_iff in Ip.
    destruct Ip as [I|I].
    - rewrite <- (firstn_skipn 2 pre). apply in_app_iff. right. rewrite <- (firstn_skipn (Z.to_nat deg - 1) (skipn 2 pre)).
      apply in_app_iff. left. exact I.
    - rewrite <- (firstn_skipn (Z.to_nat deg + 2) pre). apply in_app_iff. right. exact I. }
  destruct (bary_edge_ok z0 z1 Hl) as [_ Eb]. rewrite Em in Eb. injection Eb as Q0 Q1 Q2.
  assert (G : forall z : pt, exists r, Rabs r <= sz p z /\
     (at_ (correct e z0 (last (ev_pts e) z0) l0 l1 p) z = at_ p z - (at_ p z0 * at_ l0 z + at_ p z1 * at_ l1 z) + r \/
      at_ (correct e z0 (last (ev_pts e) z0) l0 l1 p) z = - (at_ p z - (at_ p z0 * at_ l0 z + at_ p z1 * at_ l1 z) + r))).
  { intros z.
    pose proof (correct_err p l0 l1 (bc0 h z2 z0 z1) (bcx h z2 z0 z1) (bcy h z2 z0 z1) (bc0 h z0 z1 z2) (bcx h z0 z1 z2) (bcy h z0 z1 z2)
       (at_ p z0) (at_ p z1) (fst z) (snd z) Cp) as E.
    specialize (E ltac:(rewrite Q0; apply bary_one_lin) ltac:(rewrite Q1; apply bary_one_lin)).
    set (g := psub RS p _) in E. eexists. split; [exact E|].
    assert (Eg : at_ (correct e z0 (last (ev_pts e) z0) l0 l1 p) z =
      (if Rltb (ev_int e (map (fun z : pt => peval RS g (fst z) (snd z)) (ev_pts e))) 0 then -1 else 1) * value g (fst z) (snd z)).
    { unfold at_. rewrite peval_value. unfold correct. fold z1. apply value_flip. apply consolidate_canonical. }
    rewrite Eg. unfold at_. rewrite !peval_value. destruct (Rltb _ _); [right|left]; ring. }
  assert (T : forall u v, Rabs (u + v) <= Rabs u + Rabs v) by apply Rabs_triang.
  assert (W : forall a b c a' b' : R, 0 <= b' -> Rabs b <= b' -> Rabs (a * b) <= Rabs a * b').
  { intros a b _ _ b' _ Hb. rewrite Rabs_mult. apply Rmult_le_compat_l; [apply Rabs_pos|exact Hb]. }
  split.
  - destruct (G z0) as (r & Br & Er).
    assert (E : Rabs (at_ (correct e z0 (last (ev_pts e) z0) l0 l1 p) z0)
                = Rabs (- (at_ p z0 * (at_ l0 z0 - 1)) + - (at_ p z1 * at_ l1 z0) + r)).
    { destruct Er as [-> | ->]; rewrite ?Rabs_Ropp; f_equal; ring. }
    rewrite E. eapply Rle_trans; [apply T|]. apply Rplus_le_compat; [|exact Br].
    eapply Rle_trans; [apply T|]. rewrite !Rabs_Ropp, !Rabs_mult.
    apply Rplus_le_compat; apply Rmult_le_compat_l; try apply Rabs_pos; assumption.
  - destruct (G z1) as (r & Br & Er).
    assert (E : Rabs (at_ (correct e z0 (last (ev_pts e) z0) l0 l1 p) z1)
                = Rabs (- (at_ p z0 * at_ l0 z1) + - (at_ p z1 * (at_ l1 z1 - 1)) + r)).
    { destruct Er as [-> | ->]; rewrite ?Rabs_Ropp; f_equal; ring. }
    rewrite E. eapply Rle_trans; [apply T|]. apply Rplus_le_compat; [|exact Br].
    eapply Rle_trans; [apply T|]. rewrite !Rabs_Ropp, !Rabs_mult.
    apply Rplus_le_compat; apply Rmult_le_compat_l; try apply Rabs_pos; assumption.
Qed.
Print Assumptions C17_conforming_error.

(** The retained functions are a sublist of the spanning set: positions strictly increase. *)
Theorem C17_sublist lr e deg es : mk_edge_space lr e deg = Ok es ->
  exists vs fs idx, build_spanning_set e (Z.to_nat deg) = Ok (vs, fs) /\ es_vert es = vs /\
    sublist_at idx fs (es_edge es).
Proof.
  unfold mk_edge_space. destruct (Z.ltb deg 1); [discriminate|].
  destruct (build_spanning_set e (Z.to_nat deg)) as [[vs fs]|]; [|discriminate]. cbn [bind].
  destruct (reduce_ok lr e fs) as (idx & sub & Er & S). rewrite Er. cbn [bind]. intros H. inversion H; subst.
  exists vs, fs, idx. repeat split; try reflexivity; apply S.
Qed.
Print Assumptions C17_sublist.

(** Loops have no vertex functions; the keys number the edge functions 0, 1, 2, ... *)
Theorem C17_counts lr e deg es : mk_edge_space lr e deg = Ok es ->
  length (es_vert es) = (if ev_loop e then 0 else 2)%nat /\
  length (es_vert_keys es) = length (es_vert es) /\
  es_num es = (length (es_vert es) + length (es_edge es))%nat /\
  length (es_edge_keys es) = length (es_edge es) /\
  forall k, (k < length (es_edge es))%nat -> nth_error (es_edge_keys es) k = Some (KEdge (ev_idx e) k).
Proof.
  unfold mk_edge_space. destruct (Z.ltb deg 1); [discriminate|].
  unfold build_spanning_set. destruct (pre_traces e (Z.to_nat deg)) as [pre|]; [|discriminate]. cbn [bind].
  assert (F : forall (vs fs : list (poly RS)), length vs = (if ev_loop e then 0 else 2)%nat ->
     (do sub <- reduce_to_basis lr e fs;
      Ok (ES vs sub (if ev_loop e then [] else [KVert (ev_anchor_idx e); KVert (ev_endpnt_idx e)])
          (map (KEdge (ev_idx e)) (seq 0 (length sub))) (length vs + length sub))) = Ok es ->
     length (es_vert es) = (if ev_loop e then 0 else 2)%nat /\
     length (es_vert_keys es) = length (es_vert es) /\
     es_num es = (length (es_vert es) + length (es_edge es))%nat /\
     length (es_edge_keys es) = length (es_edge es) /\
     forall k, (k < length (es_edge es))%nat -> nth_error (es_edge_keys es) k = Some (KEdge (ev_idx e) k)).
  { intros vs fs L H. destruct (reduce_to_basis lr e fs) as [sub|]; [|discriminate]. cbn [bind] in H. inversion H; subst es.
    cbn [es_vert es_edge es_vert_keys es_edge_keys es_num]. rewrite map_length, seq_length.
    split; [exact L|]. split; [rewrite L; destruct (ev_loop e); reflexivity|]. split; [reflexivity|]. split; [reflexivity|].
    intros k Hk. rewrite nth_error_map. rewrite (nth_error_nth' _ 0%nat) by (rewrite seq_length; exact Hk).
    rewrite seq_nth by exact Hk. reflexivity. }
  intros H. revert H. destruct (ev_loop e) eqn:El; cbn [bind].
  - apply F. reflexivity.
  - destruct (ev_pts e) as [|z0 rest]; [discriminate|].
    destruct (barycentric_coordinates_edge z0 _) as [[[l0 l1] l2]|]; [|discriminate]. cbn [bind]. apply F. reflexivity.
Qed.
Print Assumptions C17_counts.

Lemma ex_edge_bound : bary_err (cross3 (0, 0) (4, 3) (edge_apex (0, 0) (4, 3))) (fst (edge_apex (0, 0) (4, 3)) - fst (4, 3))
    (snd (edge_apex (0, 0) (4, 3)) - snd (4, 3)) (fst (0, 0)) (snd (0, 0)) <= 2 / 1000000000.
Proof.
  assert (S3 : 0 < sqrt 3) by (apply sqrt_lt_R0; lra).
  assert (S4 : sqrt 3 * sqrt 3 = 3) by (apply sqrt_sqrt; lra).
  rewrite apex_cross, pdist_sq. cbn. unfold bary_err. rewrite Rabs_R0.
  assert (H3 : 1 <= sqrt 3) by nra. assert (H4 : sqrt 3 <= 2) by nra.
  replace (1 / 2 * (4 + 0) - sqrt 3 / 2 * (3 - 0) - 4) with (-2 - 3 / 2 * sqrt 3) by field.
  replace (1 / 2 * (3 + 0) - sqrt 3 / 2 * - (4 - 0) - 3) with (2 * sqrt 3 - 3 / 2) by field.
  rewrite (Rabs_left (-2 - 3 / 2 * sqrt 3)) by lra. rewrite (Rabs_right (2 * sqrt 3 - 3 / 2)) by lra.
  rewrite (Rabs_right (sqrt 3 / 2 * _)) by nra.
  assert (I : / (sqrt 3 / 2 * ((4 - 0) * (4 - 0) + (3 - 0) * (3 - 0))) <= / 12) by (apply Rinv_le_contravar; lra).
  assert (I2 : 0 < / (sqrt 3 / 2 * ((4 - 0) * (4 - 0) + (3 - 0) * (3 - 0)))) by (apply Rinv_0_lt_compat; lra).
  unfold Rdiv at 2. unfold tol. nra.
Qed.

Lemma abs_ge c t : 0 < t -> t <= c \/ c <= - t -> t <= Rabs c.
Proof. intros Ht [H|H]; [rewrite Rabs_right by lra|rewrite Rabs_left by lra]; lra. Qed.

Ltac one_sig := first
  [ left; cbn; field; lra
  | right; apply abs_ge; [apply tol_pos|left; unfold tol; cbn; lra]
  | right; apply abs_ge; [apply tol_pos|right; unfold tol; cbn; lra]
  | right; apply abs_ge; [apply tol_pos|left; unfold tol; cbn; unfold Rdiv; rewrite Rinv_mult; nra]
  | right; apply abs_ge; [apply tol_pos|right; unfold tol; cbn; unfold Rdiv; rewrite Rinv_mult; nra]
  | idtac ].
Ltac unit_sig := unfold bary_sig; cbn [fst snd]; repeat split; one_sig.

(** Degree 2 on an edge with three samples. *)
Definition ex_edge : eview := EView [(0, 0); (1, 1); (4, 3)] (fun l => fold_right Rplus 0 l) false 7 0 1.

Example C17_example : exists es, mk_edge_space (fun _ M => M) ex_edge 2 = Ok es /\
  length (es_vert es) = 2%nat /\
  exists v0 v1, es_vert es = [v0; v1] /\ Rabs (at_ v0 (0, 0) - 1) <= 2 / 1000000000.
Proof.
  assert (Hd : tol <= pdist (last (ev_pts ex_edge) (0, 0)) (0, 0)) by (apply tol_dist; cbn; lra).
  destruct (C17_total (fun _ M => M) ex_edge 2 (0, 0) [(1, 1); (4, 3)] eq_refl ltac:(lia) (or_intror Hd)) as [es E].
  exists es. split; [exact E|]. split; [apply (C17_counts _ _ _ _ E)|].
  destruct (C17_conforming_error (fun _ M => M) ex_edge 2 es (0, 0) [(1, 1); (4, 3)] eq_refl eq_refl Hd E) as [(v0 & v1 & Ev & B & _) _].
  exists v0, v1. split; [exact Ev|]. eapply Rle_trans; [exact B|]. apply ex_edge_bound.
Qed.

(** Degree 1 on the unit edge: all hypotheses of [C17_conforming] hold. *)
Definition ex_edge1 : eview := EView [(0, 0); (1, 0)] (fun l => fold_right Rplus 0 l) false 7 0 1.

Example C17_conforming_example : exists es, mk_edge_space (fun _ M => M) ex_edge1 1 = Ok es /\
  forall f, In f (es_edge es) -> at_ f (0, 0) = 0 /\ at_ f (1, 0) = 0.
Proof.
  assert (Hd : tol <= pdist (last (ev_pts ex_edge1) (0, 0)) (0, 0)) by (apply tol_dist; cbn; lra).
  destruct (C17_total (fun _ M => M) ex_edge1 1 (0, 0) [(1, 0)] eq_refl ltac:(lia) (or_intror Hd)) as [es E].
  exists es. split; [exact E|].
  assert (S3 : sqrt 3 * sqrt 3 = 3) by (apply sqrt_sqrt; lra).
  assert (S1 : 1 < sqrt 3) by (rewrite <- sqrt_1; apply sqrt_lt_1_alt; lra).
  assert (S2 : sqrt 3 < 2) by nra.
  assert (Hh : cross3 (0, 0) (1, 0) (edge_apex (0, 0) (1, 0)) = sqrt 3 / 2).
  { rewrite apex_cross, pdist_sq. cbn. field. }
  assert (Ha : edge_apex (0, 0) (1, 0) = (1 / 2, sqrt 3 / 2)) by (unfold edge_apex; cbn; f_equal; field).
  assert (Hi : / 2 < / sqrt 3 < 1).
  { split; [apply Rinv_lt_contravar; lra|]. rewrite <- Rinv_1. apply Rinv_lt_contravar; lra. }
  refine (proj2 (C17_conforming (fun _ M => M) ex_edge1 1 es (0, 0) [(1, 0)] eq_refl eq_refl Hd _ _ _ _ E)).
  - cbn [last ev_pts ex_edge1]. rewrite Hh, Ha. unit_sig.
  - cbn [last ev_pts ex_edge1]. rewrite Hh, Ha. unit_sig.
  - cbn [last ev_pts ex_edge1]. rewrite Hh, Ha. unit_sig.
  - intros pre l0 l1 l2 Ep _ p Ip. exfalso.
    destruct (pre_ok ex_edge1 1) as (pre' & Ep' & Lp & _); [discriminate|lia|].
    change (Z.to_nat 1) with 1%nat in Ep, Ip. rewrite Ep in Ep'. inversion Ep'; subst pre'.
    unfold retained in Ip. cbn [Nat.sub firstn app] in Ip. rewrite skipn_all2 in Ip; [destruct Ip|].
    rewrite Lp. cbn. lia.
Qed.

(** x^2 corrected on the unit edge keeps all coefficients. *)
Example C17_kept_example : forall l0 l1 l2,
  barycentric_coordinates_edge (0, 0) (1, 0) = Ok (l0, l1, l2) -> correction_kept [rmon 1 2 0] l0 l1 0 1.
Proof.
  intros l0 l1 l2 E.
  destruct (bary_edge_ok (0, 0) (1, 0)) as [_ E']; [apply tol_dist; cbn; lra|]. rewrite E in E'. injection E' as Q0 Q1 Q2.
  assert (S3 : sqrt 3 * sqrt 3 = 3) by (apply sqrt_sqrt; lra).
  assert (S1 : 1 < sqrt 3) by (rewrite <- sqrt_1; apply sqrt_lt_1_alt; lra).
  assert (S2 : sqrt 3 < 2) by nra.
  assert (Hh : cross3 (0, 0) (1, 0) (edge_apex (0, 0) (1, 0)) = sqrt 3 / 2).
  { rewrite apex_cross, pdist_sq. cbn. field. }
  assert (Ha : edge_apex (0, 0) (1, 0) = (1 / 2, sqrt 3 / 2)) by (unfold edge_apex; cbn; f_equal; field).
  assert (Hi : / 2 < / sqrt 3 < 1).
  { split; [apply Rinv_lt_contravar; lra|]. rewrite <- Rinv_1. apply Rinv_lt_contravar; lra. }
  destruct (bary_one_lin (sqrt 3 / 2) (0, 0) (1, 0) (1 / 2, sqrt 3 / 2)) as [C1 L1].
  rewrite Hh, Ha in Q1. rewrite <- Q1 in C1, L1.
  assert (K : forall a b, sig (coef l1 a b)) by (intros a b; apply (canonical_coef_big l1 a b C1)).
  assert (Z2 : forall a b, (2 <= a)%nat -> coef l1 a b = 0) by (intros [|[|a]] b Hb; try lia; apply L1).
  intros a b. rewrite !Rmult_0_r, !Rmult_1_r, Rplus_0_l. split; [left; reflexivity|]. split; [apply K|]. split; [apply K|].
  cbn [coef rmon malpha mcoef mx my].
  destruct (Nat.eqb_spec 2 a) as [<-|Hne]; cbn [andb].
  - rewrite Z2 by lia. destruct (Nat.eqb 0 b).
    + right. replace (1 + 0 - 0) with 1 by ring. rewrite Rabs_R1. unfold tol. lra.
    + left. ring.
  - replace (0 + 0 - coef l1 a b) with (- coef l1 a b) by ring. apply sig_opp, K.
Qed.

(** ** C61: the selection keeps an independent, nearly spanning set *)

Lemma basis_picks m M tl idx : basis_index_set m M tl = Ok idx ->
  (m = 0%nat /\ idx = []) \/ exists n l, m = S n /\ picks tl n M l /\ Permutation l idx.
Proof.
  destruct m as [|n]; intros H; [left; inversion H; tauto|right]. unfold basis_index_set in H.
  destruct (pivot_loop _ _ _ _ _) as [l|] eqn:E; [|discriminate]. cbn [bind] in H. inversion H; subst.
  apply pivot_picks in E. destruct E as (l' & -> & P). exists n, l'. split; [reflexivity|]. split; [exact P|apply sorted_perm].
Qed.

(** It always terminates, with distinct positions, for any matrix at all. *)
Theorem C61_terminates m M tl : 0 <= tl -> exists idx, basis_index_set m M tl = Ok idx /\
  StronglySorted lt idx /\ Forall (fun k => (k < m)%nat) idx.
Proof. exact (basis_total m M tl). Qed.
Print Assumptions C61_terminates.

(** Symmetric matrix: the selected principal submatrix is nonsingular. *)
Theorem C61_independent n M tl idx : 0 <= tl -> symmetric M -> basis_index_set (S n) M tl = Ok idx ->
  forall c : nat -> R, (forall i, (i <= n)%nat -> ~ In i idx -> c i = 0) ->
  (forall i, In i idx -> mv n M c i = 0) -> forall i, In i idx -> c i = 0.
Proof.
  intros Ht Hs H c Hc Hz i Hi. destruct (basis_picks _ _ _ _ H) as [[Q _]|(n' & l & Q & P & Pm)]; [discriminate|].
  inversion Q; subst n'. apply (picks_independent tl n M l Ht P Hs c).
  - intros j Hj Hn. apply Hc; [exact Hj|]. intros I. apply Hn. apply (Permutation_in _ (Permutation_sym Pm)), I.
  - intros j Hj. apply Hz. apply (Permutation_in _ Pm), Hj.
  - apply (Permutation_in _ (Permutation_sym Pm)), Hi.
Qed.
Print Assumptions C61_independent.

(** Symmetric matrix: every unit vector is within tl of the span of the selected ones, in the
    quadratic form of the matrix. *)
Theorem C61_spanning n M tl idx : 0 <= tl -> symmetric M -> basis_index_set (S n) M tl = Ok idx ->
  forall i, (i <= n)%nat -> exists c : nat -> R, (forall j, ~ In j idx -> c j = 0) /\
    qf n M (fun j => unit_vec i j - c j) <= tl.
Proof.
  intros Ht Hs H i Hi. destruct (basis_picks _ _ _ _ H) as [[Q _]|(n' & l & Q & P & Pm)]; [discriminate|].
  inversion Q; subst n'. destruct (picks_spanning tl n M l Ht P Hs i Hi) as (c & Hc & Hq).
  exists c. split; [|exact Hq]. intros j Hj. apply Hc. intros I. apply Hj. apply (Permutation_in _ Pm), I.
Qed.
Print Assumptions C61_spanning.

(** The Gram matrix is symmetric whatever the integration rule does. *)
Theorem C61_gram_symmetric e fs : symmetric (gram e fs).
Proof. intros i j. unfold gram. rewrite (Nat.min_comm i j), (Nat.max_comm i j). reflexivity. Qed.
Print Assumptions C61_gram_symmetric.

(** Three functions, the third the sum of the first two: one is dropped. *)
Definition ex_M : matrix := fun i j =>
  match i, j with
  | 0%nat, 0%nat => 4 | 1%nat, 1%nat => 1 | 2%nat, 2%nat => 5
  | 0%nat, 2%nat | 2%nat, 0%nat => 4 | 1%nat, 2%nat | 2%nat, 1%nat => 1 | _, _ => 0
  end.
Lemma Rltb_t a b : a < b -> Rltb a b = true.
Proof. intros H. unfold Rltb. destruct (Rlt_dec a b); [reflexivity|contradiction]. Qed.
Lemma Rltb_f a b : b <= a -> Rltb a b = false.
Proof. intros H. unfold Rltb. destruct (Rlt_dec a b); [lra|reflexivity]. Qed.

Example C61_example : basis_index_set 3 ex_M (1 / 1000000) = Ok [0%nat; 2%nat].
Proof.
  unfold basis_index_set. cbn [Nat.add pivot_loop].
  assert (A0 : argmax (fun i => ex_M i i) 2 = 2%nat).
  { cbn [argmax]. rewrite (Rltb_f (ex_M 0%nat 0%nat)) by (cbn; lra). rewrite Rltb_t by (cbn; lra). reflexivity. }
  rewrite A0. rewrite (Rltb_t _ (ex_M 2%nat 2%nat)) by (cbn; lra).
  set (M1 := eliminate ex_M 2).
  assert (D0 : M1 0%nat 0%nat = 4 / 5) by (unfold M1, eliminate; cbn; field).
  assert (D1 : M1 1%nat 1%nat = 4 / 5) by (unfold M1, eliminate; cbn; field).
  assert (D2 : M1 2%nat 2%nat = 0) by (unfold M1, eliminate; cbn; field).
  assert (D3 : M1 1%nat 0%nat = - 4 / 5) by (unfold M1, eliminate; cbn; field).
  assert (D4 : M1 2%nat 0%nat = 0) by (unfold M1, eliminate; cbn; field).
  assert (A1 : argmax (fun i => M1 i i) 2 = 0%nat).
  { cbn [argmax]. rewrite (Rltb_f (M1 0%nat 0%nat)) by lra. rewrite Rltb_f by lra. reflexivity. }
  rewrite A1. rewrite Rltb_t by lra.
  set (M2 := eliminate M1 0).
  assert (E0 : M2 0%nat 0%nat = 0) by (unfold M2, eliminate; rewrite D0; field).
  assert (E1 : M2 1%nat 1%nat = 0) by (unfold M2, eliminate; rewrite D0, D1, D3; field).
  assert (E2 : M2 2%nat 2%nat = 0) by (unfold M2, eliminate; rewrite D0, D2, D4; field).
  assert (A2 : argmax (fun i => M2 i i) 2 = 0%nat).
  { cbn [argmax]. rewrite (Rltb_f (M2 0%nat 0%nat)) by lra. rewrite Rltb_f by lra. reflexivity. }
  rewrite A2. rewrite Rltb_f by lra. reflexivity.
Qed.

(** ** C18 *)

Theorem C18_linear p q r c d K : (forall a b, coef r a b = c * coef p a b + d * coef q a b) ->
  integrate_poly_over_mesh_cell r K = c * integrate_poly_over_mesh_cell p K + d * integrate_poly_over_mesh_cell q K.
Proof. exact (integrate_poly_linear p q r c d K). Qed.
Print Assumptions C18_linear.

(** The boundary integrand is F.n for a field F with div F = p everywhere. *)
Theorem C18_divergence p K : exists Fx Fy Fxx Fyy : R -> R -> R,
  is_dx Fx Fxx /\ is_dy Fy Fyy /\ (forall x y, Fxx x y + Fyy x y = peval RS p x y) /\
  integrate_poly_over_mesh_cell p K =
    integrate_over_boundary K (fun k => Fx (bs_x k) (bs_y k) * bs_nx k + Fy (bs_x k) (bs_y k) * bs_ny k).
Proof.
  destruct (divergence_field p K) as (Fx & Fy & Fxx & Fyy & A & B & C & D).
  exists Fx, Fy, Fxx, Fyy. split; [exact A|]. split; [exact B|]. split; [|exact D]. intros x y. rewrite peval_value. apply C.
Qed.
Print Assumptions C18_divergence.

(** The integral of 6xy over the unit square: the two nonzero sides x=1 and y=1, one midpoint
    sample each, give the exact value 3/2. *)
Example C18_example : integrate_poly_over_mesh_cell [rmon 6 1 1]
  [BSample (1/2) 0 0 (-1) 1; BSample 1 (1/2) 1 0 1; BSample (1/2) 1 0 1 1; BSample 0 (1/2) (-1) 0 1] = 3 / 2.
Proof. rewrite integrate_poly_value. unfold xn. cbn. field. Qed.
