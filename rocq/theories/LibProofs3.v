(** Lemmas about the meshes of the library: the vertices keep a distance, and the edges are the
    curves of the tables. *)
From Coq Require Import List ZArith Reals Lia Lra Bool String.
From Verif Require Import PyBase PolyModel BaryModel QuadModel CurveModel CurveSpec VertModel EdgeModel EdgeSpec EdgeProofs EdgeProofs2 ContourModel CellModel MeshModel LibModel LibSpec LibProofs LibProofs2.
Import List ListNotations.
Open Scope R_scope.

Lemma pdist_x p q d : d <= fst p - fst q \/ d <= fst q - fst p -> d <= pdist p q.
Proof.
  intros H. destruct (Rle_dec d 0); [apply Rle_trans with 0; [lra|apply sqrt_pos]|]. unfold pdist. rewrite <- (sqrt_square d) by lra. apply sqrt_le_1_alt. assert (0 <= (snd p - snd q) * (snd p - snd q)) by apply Rle_0_sqr. nra.
Qed.
Lemma pdist_y p q d : d <= snd p - snd q \/ d <= snd q - snd p -> d <= pdist p q.
Proof.
  intros H. destruct (Rle_dec d 0); [apply Rle_trans with 0; [lra|apply sqrt_pos]|]. unfold pdist. rewrite <- (sqrt_square d) by lra. apply sqrt_le_1_alt. assert (0 <= (fst p - fst q) * (fst p - fst q)) by apply Rle_0_sqr. nra.
Qed.
Lemma root3 : 17 / 10 < sqrt 3 < 18 / 10.
Proof.
  pose proof (sqrt_sqrt 3 ltac:(lra)) as E. pose proof (sqrt_pos 3) as P. nra.
Qed.
Definition far_coord (d : R) (v w : vert) : Prop := d <= vx v - vx w \/ d <= vx w - vx v \/ d <= vy v - vy w \/ d <= vy w - vy v.
Lemma far_coord_dist d v w : far_coord d v w -> d <= pdist (coord v) (coord w).
Proof. intros [H|[H|[H|H]]]; [apply pdist_x|apply pdist_x|apply pdist_y|apply pdist_y]; cbn; auto. Qed.
Lemma apart_pairs d vs : ForallOrdPairs (far_coord d) vs -> apart_by d (List.length vs) (numbered vs).
Proof.
  intros F a b La Lb N. apply far_coord_dist.
  assert (G : forall i, (i < List.length vs)%nat -> exists v, nth_error vs i = Some v /\ numbered vs i = Vert (vx v) (vy v) (Z.of_nat i)).
  { intros i Li. destruct (nth_error vs i) as [v|] eqn:E; [|apply nth_error_None in E; lia]. exists v. split; [reflexivity|]. unfold numbered. apply nth_error_nth, PegProofs.number_verts_nth, E. }
  assert (W : forall i j, (i < j)%nat -> forall v w, nth_error vs i = Some v -> nth_error vs j = Some w -> far_coord d v w).
  { clear -F. induction F as [|x l Fx F IH]; intros i j L v w Ei Ej; [destruct i; discriminate|]. destruct j as [|j]; [lia|]. destruct i as [|i].
    - cbn in Ei, Ej. injection Ei as <-. rewrite Forall_forall in Fx. apply Fx, (nth_error_In _ _ Ej).
    - cbn in Ei, Ej. apply (IH i j); [lia|assumption|assumption]. }
  destruct (G a La) as (v & Ev & Na). destruct (G b Lb) as (w & Ew & Nb). rewrite Na, Nb. destruct (Nat.lt_total a b) as [L|[L|L]]; [|contradiction|].
  - pose proof (W a b L v w Ev Ew) as X. exact X.
  - pose proof (W b a L w v Ew Ev) as X. unfold far_coord in *. cbn [vx vy]. tauto.
Qed.
Ltac pairs_tac := repeat (apply FOP_cons; [repeat (apply Forall_cons; [unfold far_coord; cbn [vx vy mkvert]; first [left; lra | right; left; lra | right; right; left; lra | right; right; right; lra]|]); apply Forall_nil|]); apply FOP_nil.
Lemma square_apart : apart_by (1 / 25) 5 (numbered square_verts).
Proof. apply (apart_pairs (1 / 25) square_verts). unfold square_verts. pairs_tac. Qed.
Lemma subdiv_apart : apart_by (1 / 25) 23 (numbered subdiv_verts).
Proof.
  apply (apart_pairs (1 / 25) subdiv_verts). unfold subdiv_verts, pacman_verts, pac_vert, ghost_vert, ROOT3OVER2, PACMAN_SCALE, PACMAN_XSHIFT, PACMAN_YSHIFT, GHOST_SCALE, GHOST_X_SHIFT, GHOST_Y_SHIFT. pose proof root3 as S3. set (s := sqrt 3) in *. clearbody s. cbn [app]. pairs_tac.
Qed.
Lemma pacman_apart : apart_by (1 / 25) 21 (numbered pacman_verts).
Proof.
  apply (apart_pairs (1 / 25) pacman_verts). unfold pacman_verts, pac_vert, ghost_vert, ROOT3OVER2, PACMAN_SCALE, PACMAN_XSHIFT, PACMAN_YSHIFT, GHOST_SCALE, GHOST_X_SHIFT, GHOST_Y_SHIFT. pose proof root3 as S3. set (s := sqrt 3) in *. clearbody s. pairs_tac.
Qed.

(** ** The curves *)
Lemma numbered_coord vs i : coord (numbered vs i) = coord (nth i vs (mkvert 0 0)).
Proof.
  unfold numbered. destruct (nth_error vs i) as [v|] eqn:E.
  - rewrite (nth_error_nth _ _ _ (PegProofs.number_verts_nth _ _ _ E)), (nth_error_nth _ _ _ E). reflexivity.
  - apply nth_error_None in E. rewrite !nth_overflow; [reflexivity|exact E|]. unfold number_verts. rewrite map_length, combine_length, seq_length. lia.
Qed.
Lemma follows_eq e s s' : follows_shape e s -> s = s' -> follows_shape e s'.
Proof. intros F <-. exact F. Qed.
Definition table_fits (pnt : nat -> vert) : list call -> list shape -> Prop := Forall2 (fun k s => forall i, follows_shape (edge_num pnt k i) s).
Ltac lits := repeat match goal with |- context [Z.to_nat ?z] => let n := eval compute in (Z.to_nat z) in change (Z.to_nat z) with n end.
Ltac ceq := repeat (reflexivity || (f_equal; try field)).
Ltac coords := lits; rewrite ?numbered_coord; unfold subdiv_verts, pacman_verts, square_verts, pac_vert, ghost_vert, ROOT3OVER2, PACMAN_SCALE, PACMAN_XSHIFT, PACMAN_YSHIFT, GHOST_SCALE, GHOST_X_SHIFT, GHOST_Y_SHIFT, lips; cbn [app nth]; unfold coord, mkvert; cbn [vx vy fst snd].
Ltac fit_line A := intros i; eapply follows_eq; [apply line_shape; [discriminate|apply Rle_trans with (1 / 25); [unfold TOL; lra|apply A; (apply Nat.ltb_lt; reflexivity) || discriminate]]|coords; ceq].
Ltac fit_circle := intros i; eapply follows_eq; [apply circle_shape; unfold PACMAN_SCALE; lra|coords; ceq].
Ltac fit_eye := intros i; eapply follows_eq; [apply eye_shape|coords; ceq].
Lemma square_fits : table_fits (numbered square_verts) square_calls square_shapes.
Proof. do 4 (apply Forall2_cons; [fit_line square_apart|]). apply Forall2_cons; [fit_circle|]. apply Forall2_nil. Qed.

Lemma arc300 : cos (300 * PI / 180) = 1 / 2 /\ sin (300 * PI / 180) = - (sqrt 3 / 2).
Proof.
  replace (300 * PI / 180) with (- (PI / 3) + 2 * INR 1 * PI) by (cbn [INR]; field). rewrite cos_period, sin_period, cos_neg, sin_neg, cos_PI3, sin_PI3. split; lra.
Qed.
Lemma arc180 : cos (180 * PI / 180) = -1 /\ sin (180 * PI / 180) = 0.
Proof. replace (180 * PI / 180) with PI by field. rewrite cos_PI, sin_PI. split; reflexivity. Qed.

(** The figures are the same in both meshes *)
Lemma figures_fit pnt n : (20 < n)%nat -> apart_by (1 / 25) n pnt -> (forall i, (i < 21)%nat -> coord (pnt i) = coord (nth i pacman_verts (mkvert 0 0))) -> table_fits pnt figures figure_shapes.
Proof.
  intros Ln A C. pose proof PI_RGT_0 as HP. pose proof root3 as S3. pose proof (sqrt_sqrt 3 ltac:(lra)) as SQ.
  assert (LB : forall a b, (a < 21)%nat -> (b < 21)%nat -> a <> b -> TOL <= pdist (coord (pnt a)) (coord (pnt b))) by (intros a b La Lb N; apply Rle_trans with (1 / 25); [unfold TOL; lra|apply A; lia || assumption]).
  assert (CC : forall z, (0 <= z < 21)%Z -> coord (pnt (Z.to_nat z)) = coord (nth (Z.to_nat z) pacman_verts (mkvert 0 0))) by (intros; apply C; lia).
  Ltac coords' CC := repeat rewrite CC by lia; lits; unfold pacman_verts, pac_vert, ghost_vert, ROOT3OVER2, PACMAN_SCALE, PACMAN_XSHIFT, PACMAN_YSHIFT, GHOST_SCALE, GHOST_X_SHIFT, GHOST_Y_SHIFT, lips; cbn [app nth]; unfold coord, mkvert; cbn [vx vy fst snd].
  unfold figures, figure_shapes.
  apply Forall2_cons. { intros i. eapply follows_eq; [apply line_shape; [discriminate|apply LB; [apply Nat.ltb_lt; reflexivity|apply Nat.ltb_lt; reflexivity|discriminate]]|]. coords' CC. ceq. }
  apply Forall2_cons.
  { intros i. replace (5 * PI / 3) with (300 * PI / 180) by field. destruct arc300 as [E1 E2]. apply arc_shape; [discriminate|lra|unfold TOL; lra|apply LB; [apply Nat.ltb_lt; reflexivity|apply Nat.ltb_lt; reflexivity|discriminate]| | |].
    - rewrite E1, E2. apply pdist_x. cbn [fst snd]. unfold TOL. lra.
    - coords' CC. cbn [point]. rewrite Rmult_0_r, Rplus_0_r, cos_PI6, sin_PI6. cbn [fst snd]. f_equal; field.
    - coords' CC. cbn [point]. rewrite Rmult_1_r. replace (PI / 6 + 300 * PI / 180) with (- (PI / 6) + 2 * INR 1 * PI) by (cbn [INR]; field). rewrite cos_period, sin_period, cos_neg, sin_neg, cos_PI6, sin_PI6. cbn [fst snd]. f_equal; field. }
  apply Forall2_cons. { intros i. eapply follows_eq; [apply line_shape; [discriminate|apply LB; [apply Nat.ltb_lt; reflexivity|apply Nat.ltb_lt; reflexivity|discriminate]]|]. coords' CC. ceq. }
  do 4 (apply Forall2_cons; [intros i; eapply follows_eq; [apply circle_shape; unfold PACMAN_SCALE; lra|coords' CC; ceq]|]).
  apply Forall2_cons.
  { intros i. eapply follows_eq; [apply (wave_shape pnt 15 16 8 7 i (6 / 10)); [discriminate|unfold TOL; lra|]|].
    - assert (C15 := CC 15%Z ltac:(lia)). pose proof (f_equal fst C15) as X1. pose proof (f_equal snd C15) as X2. unfold coord in X1, X2. cbn [fst snd] in X1, X2. rewrite X1, X2. coords' CC. f_equal; field.
    - coords' CC. ceq. }
  apply Forall2_cons. { intros i. eapply follows_eq; [apply line_shape; [discriminate|apply LB; [apply Nat.ltb_lt; reflexivity|apply Nat.ltb_lt; reflexivity|discriminate]]|]. coords' CC. ceq. }
  apply Forall2_cons.
  { intros i. replace PI with (180 * PI / 180) at 1 by field. destruct arc180 as [E1 E2]. apply arc_shape; [discriminate|lra|unfold TOL; lra|apply LB; [apply Nat.ltb_lt; reflexivity|apply Nat.ltb_lt; reflexivity|discriminate]| | |].
    - rewrite E1, E2. apply pdist_x. cbn [fst snd]. unfold TOL. lra.
    - coords' CC. cbn [point]. rewrite Rmult_0_r, Rplus_0_r, cos_0, sin_0. cbn [fst snd]. f_equal; field.
    - coords' CC. cbn [point]. rewrite Rmult_1_r, Rplus_0_l, E1, E2. cbn [fst snd]. f_equal; field. }
  apply Forall2_cons. { intros i. eapply follows_eq; [apply line_shape; [discriminate|apply LB; [apply Nat.ltb_lt; reflexivity|apply Nat.ltb_lt; reflexivity|discriminate]]|]. coords' CC. ceq. }
  do 2 (apply Forall2_cons; [intros i; eapply follows_eq; [apply eye_shape|coords' CC; ceq]|]).
  apply Forall2_nil.
Qed.
Lemma frame_fits (pnt : nat -> vert) vs ks ss : (forall a b, (a < List.length vs)%nat -> (b < List.length vs)%nat -> a <> b -> TOL <= pdist (coord (pnt a)) (coord (pnt b))) -> (forall i, coord (pnt i) = coord (nth i vs (mkvert 0 0))) ->
  Forall2 (fun ab s => (Z.to_nat (fst ab) < List.length vs)%nat /\ (Z.to_nat (snd ab) < List.length vs)%nat /\ Z.to_nat (fst ab) <> Z.to_nat (snd ab) /\ s = Segment (coord (nth (Z.to_nat (fst ab)) vs (mkvert 0 0))) (coord (nth (Z.to_nat (snd ab)) vs (mkvert 0 0)))) (map (fun k => (l_from k, l_to k)) ks) ss ->
  Forall (fun k => k = line_call (l_from k) (l_to k) (l_pos k) (l_neg k)) ks -> table_fits pnt ks ss.
Proof.
  intros A C F. revert ks ss F. induction ks as [|k ks IH]; intros ss F L; cbn in F; inversion F as [|? s ? ss' (F1 & F2 & F3 & F4) F']; subst; [constructor|]. inversion L as [|? ? L1 L2]; subst. constructor; [|apply IH; assumption].
  intros i. cbn [fst snd] in *. rewrite L1. eapply follows_eq; [apply line_shape; [congruence|apply A; assumption]|]. rewrite !C. reflexivity.
Qed.
Ltac seg_tac := repeat (apply Forall2_cons; [cbn [fst snd]; split; [apply Nat.ltb_lt; reflexivity|]; split; [apply Nat.ltb_lt; reflexivity|]; split; [discriminate|]; unfold subdiv_verts, pacman_verts; lits; cbn [app nth]; unfold coord, mkvert; cbn [vx vy]; ceq|]); apply Forall2_nil.
Lemma tables_app pnt a b c d : table_fits pnt a b -> table_fits pnt c d -> table_fits pnt (a ++ c) (b ++ d).
Proof. apply Forall2_app. Qed.
Lemma pacman_fits : table_fits (numbered pacman_verts) pacman_calls pacman_shapes.
Proof.
  unfold pacman_calls, pacman_shapes. rewrite !app_assoc. apply tables_app.
  - apply (frame_fits _ pacman_verts); [intros a b La Lb N; apply Rle_trans with (1 / 25); [unfold TOL; lra|apply pacman_apart; assumption]|intros; apply numbered_coord| |repeat constructor].
    unfold frame_shapes, lib_frame. cbn [app map line_call l_from l_to]. seg_tac.
  - apply (figures_fit _ 21); [lia|apply pacman_apart|intros; apply numbered_coord].
Qed.
Lemma subdiv_fits : table_fits (numbered subdiv_verts) subdiv_calls subdiv_shapes.
Proof.
  unfold subdiv_calls, subdiv_shapes. rewrite !app_assoc. apply tables_app.
  - apply (frame_fits _ subdiv_verts); [intros a b La Lb N; apply Rle_trans with (1 / 25); [unfold TOL; lra|apply subdiv_apart; assumption]|intros; apply numbered_coord| |repeat constructor].
    unfold frame_shapes, lib_frame. cbn [app map line_call l_from l_to]. seg_tac.
  - apply (figures_fit _ 23); [lia|apply subdiv_apart|]. intros i Li. rewrite numbered_coord. unfold subdiv_verts. rewrite app_nth1 by exact Li. reflexivity.
Qed.
