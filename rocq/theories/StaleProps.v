(** Contours and cells that share sampled edges with others: which exceptions are raised (C37, C43). *)
From Coq Require Import List ZArith Reals Lia Lra Bool Permutation String.
From Verif Require Import PyBase PolyModel BaryModel BBoxModel QuadModel CurveModel VertModel EdgeModel EdgeSpec ContourModel CellModel CellSpec CellProofs CellProps ContourProofs ContourProofs2 ContourProofs3 ContourProofs4 EdgeProps EdgeProofs2 EdgeProps3 EdgeProps4 ContourProps QuadProofs QuadProps InteriorProofs CellProofs2 Annulus CellProps2 CellProps3 CellProps5 DiscCell TraceModel TraceSpec TraceProofs LocalModel LocalSpec LocalProofs LocalProofs5 StaleProofs.
Import List ListNotations.
Open Scope R_scope.

(** ** Contours that were not sampled *)
Definition unsampled (H : heap) (ids : list nat) : Prop := exists i, In i ids /\ forall e, nth_error H i = Some e -> e_param e = false.
Lemma unsampled_guard H k : unsampled H (k_edges k) -> all_param H k = false.
Proof. intros (i & I & E). unfold all_param. destruct (forallb _ _) eqn:F; [|reflexivity]. rewrite forallb_forall in F. specialize (F i I). cbn in F. destruct (nth_error H i); [rewrite (E e eq_refl) in F|]; discriminate. Qed.
(** While one edge of a contour has no samples, every evaluation and integral refuses. *)
Theorem C37_unsampled_refused H k : unsampled H (k_edges k) -> (forall g, eval_on_contour g H k = Err NotParameterizedError) /\ contour_points H k = Err NotParameterizedError /\
  (forall d u v, contour_dot d u v H k = Err NotParameterizedError) /\ (forall v, contour_dx_norm v H k = Err NotParameterizedError) /\ (forall v, contour_integrate v H k = Err NotParameterizedError) /\ (forall p, contour_distance H k p = Err NotParameterizedError).
Proof. intros U. unfold eval_on_contour, contour_points, contour_dot, contour_dx_norm, contour_integrate, contour_distance, guard. rewrite (unsampled_guard _ _ U). repeat split; reflexivity. Qed.
Print Assumptions C37_unsampled_refused.
Lemma new_contour_npts z is os k : mk_contour z is os = Ok k -> k_npts k = None.
Proof.
  unfold mk_contour, add_edges. destruct (set_mesh_id z) as [y|]; [|discriminate]. cbn [bind]. destruct (Nat.eqb _ _); [|discriminate]. generalize (combine is os) as l. intros l.
  assert (G : forall c c', k_npts c = None -> fold_res (fun c io => add_edge c (fst io) (snd io)) l c = Ok c' -> k_npts c' = None); [|apply G; reflexivity].
  induction l as [|io l IH]; intros c c' E F; [cbn in F; apply Ok_inj in F; subst; exact E|]. cbn [fold_res] in F. destruct (add_edge c (fst io) (snd io)) as [c1|] eqn:A; [|discriminate]. cbn [bind] in F. apply (IH c1); [|exact F]. unfold add_edge in A. destruct (orb _ _); [|discriminate]. destruct (existsb _ _); apply Ok_inj in A; subst; exact E.
Qed.
(** A new contour over edges that another contour has already sampled passes the check for samples, but
    its own tables do not exist: AttributeError instead of NotParameterizedError. *)
Theorem C37_sampled_elsewhere z is os k H : mk_contour z is os = Ok k -> (forall i, In i (k_edges k) -> exists e, nth_error H i = Some e /\ e_param e = true) ->
  (forall g, eval_on_contour g H k = Err AttributeError) /\ contour_points H k = Err AttributeError /\ (forall d u v, contour_dot d u v H k = Err AttributeError) /\ (forall v, contour_dx_norm v H k = Err AttributeError) /\ (forall v, contour_integrate v H k = Err AttributeError).
Proof.
  intros M F. pose proof (new_contour_npts _ _ _ _ M) as N. assert (G : all_param H k = true). { unfold all_param. apply forallb_forall. intros i I. destruct (F i I) as (e & E & P). rewrite E. exact P. }
  unfold contour_integrate, contour_points, eval_on_contour, contour_dot, contour_dx_norm, guard, fill. rewrite G, N. repeat split; reflexivity.
Qed.
Print Assumptions C37_sampled_elsewhere.
Example C37_sampled_elsewhere_example : exists H c e k, unit_disc H c e /\ mk_contour 3 (cell_edges c) [1%Z] = Ok k /\ eval_on_contour Rplus H k = Err AttributeError /\ eval_on_contour Rplus (map deparameterize H) k = Err NotParameterizedError.
Proof.
  destruct unit_disc_exists as (H & c & e & D). pose proof D as (Rd & B & _). unfold boundary_edges in B. inversion B as [|k0 es0 ks ess R0 B' E1]; subst. inversion B' as [E2|]; subst. pose proof R0 as R1. unfold refs in R1. inversion R1 as [|i e' ids es Ei R2 E3]; subst. inversion R2; subst.
  assert (CE : cell_edges c = [i]) by (unfold cell_edges; rewrite <- E1; cbn [map concat]; rewrite <- E3; reflexivity). exists H, c, e, (Contour 3 [i] [1%Z] None [] None None). split; [exact D|]. assert (M : mk_contour 3 (cell_edges c) [1%Z] = Ok (Contour 3 [i] [1%Z] None [] None None)) by (rewrite CE; reflexivity). split; [exact M|].
  assert (W : e_param e = true). { destruct (ready_uniform _ _ _ _ Rd B) as ((F & _) & _). inversion F as [|? ? ? ? (_ & W & _)]; subst. inversion W as [|? ? W0]; subst. apply W0. }
  split; [apply (C37_sampled_elsewhere _ _ _ _ _ M); intros j [<-|[]]; eauto|]. apply C37_unsampled_refused. exists i. split; [left; reflexivity|]. intros f Ef. rewrite nth_error_map, Ei in Ef. injection Ef as <-. reflexivity.
Qed.

(** The arrays of tangents, normals and speeds along the boundary of a sampled cell hold those of its samples. *)
Theorem C37_vectors contains H c ess : ready contains H c -> boundary_edges H c ess ->
  cell_vectors dot_with_tangent H c = Ok (map (fun s => fst (sT s)) (cell_smp ess), map (fun s => snd (sT s)) (cell_smp ess)) /\
  cell_vectors dot_with_normal H c = Ok (map (fun s => fst (sN s)) (cell_smp ess), map (fun s => snd (sN s)) (cell_smp ess)) /\ cell_weights H c = Ok (map sw (cell_smp ess)).
Proof.
  intros Rd B. destruct (ready_uniform _ _ _ _ Rd B) as (F & _). assert (G : forall V, cell_vectors (dot_with V) H c = Ok (map (fun s => fst (V s)) (cell_smp ess), map (fun s => snd (V s)) (cell_smp ess))).
  { intros V. unfold cell_vectors. rewrite (npts_cell F). cbn [attr bind]. cbv zeta. rewrite (ones_of F), (zeros_of F), !(dot_ok F). cbn [bind]. unfold samples_of. rewrite smp_cell. f_equal. apply f_equal2; apply map_ext; intros s; ring. }
  split; [apply G|]. split; [apply G|]. unfold cell_weights. rewrite (npts_cell F). cbn [attr bind]. rewrite (ones_of F), (dx_ok F). unfold samples_of. rewrite smp_cell. f_equal. apply map_ext. intros s. ring.
Qed.
Print Assumptions C37_vectors.
Example C37_vectors_example : exists H c e, unit_disc H c e /\ cell_weights H c = Ok (map sw (cell_smp [[e]])) /\ List.length (cell_smp [[e]]) = 8%nat.
Proof.
  destruct unit_disc_exists as (H & c & e & D). pose proof D as (Rd & B & N & S & _). exists H, c, e. split; [exact D|]. split; [apply (C37_vectors _ _ _ _ Rd B)|]. unfold cell_smp. cbn [map concat]. unfold contour_smp. cbn [map concat]. rewrite !app_nil_r. unfold open_smp. rewrite removelast_firstn_len, firstn_length, S, map_length, seq_length. reflexivity.
Qed.
(** Without edges there is no trace. *)
Theorem C51_edges_refused custom fs v : mk_trace None custom fs v = Err ValueError.
Proof. reflexivity. Qed.
Print Assumptions C51_edges_refused.

(** ** Cells whose edges a neighbour has sampled again *)
Definition refuses (H : heap) (c : cell) : Prop :=
  (forall g, eval_on_boundary g H c = Err BroadcastError) /\ boundary_points H c = Err BroadcastError /\ (forall u v, cell_dot dot_with_tangent u v H c = Err SizeMismatchError) /\ (forall u v, cell_dot dot_with_normal u v H c = Err SizeMismatchError) /\
  (forall v, cell_dx_norm v H c = Err SizeMismatchError) /\ (forall v, cell_integrate v H c = Err SizeMismatchError).

Lemma refs_exist H ids : Forall (fun i => exists e, nth_error H i = Some e /\ well_sampled e) ids -> exists es, refs H ids es /\ Forall well_sampled es.
Proof. induction 1 as [|i ids (e & E & W) F (es & R & Ws)]; [exists []; split; constructor|]. exists (e :: es). split; constructor; assumption. Qed.
(** When one edge of a sampled cell has been sampled again with another number of points, the cell can no
    longer be evaluated or integrated on: its tables are those of the old samples. *)
Theorem C43_resampled contains H c H' : ready contains H c -> (forall i, In i (cell_edges c) -> exists e, nth_error H' i = Some e /\ well_sampled e) ->
  forall i e e', In i (cell_edges c) -> nth_error H i = Some e -> nth_error H' i = Some e' -> e_npts e <> e_npts e' -> refuses H' c.
Proof.
  intros Rd Sm i e e' Ii Ei Ei' D. destruct (ready_fresh _ _ _ Rd) as (ess & (F & EH & EN & ES) & _).
  assert (X : exists ess', Forall2 (fun k es' => refs H' (k_edges k) es' /\ Forall well_sampled es') (c_comps c) ess').
  { assert (Y : Forall (fun k => exists es', refs H' (k_edges k) es' /\ Forall well_sampled es') (c_comps c)). { apply Forall_forall. intros k Ik. apply refs_exist, Forall_forall. intros j Ij. apply Sm. unfold cell_edges. apply in_concat. exists (k_edges k). split; [apply in_map, Ik|exact Ij]. }
    clear -Y. induction Y as [|k ks (es & A) Y (ess & B)]; [exists []; constructor|exists (es :: ess); constructor; assumption]. }
  destruct X as (ess' & F').
  assert (St : cell_stale H' c ess ess').
  { split; [|split; [rewrite <- (Forall2_len _ _ _ F); apply (Forall2_len _ _ _ F')|auto]]. clear -F F'. revert ess' F'. induction F as [|k es ks ess Fk F IH]; intros ess' F'; inversion F'; subst; [constructor|]. cbn [combine]. constructor; [|apply IH; assumption]. cbn [fst snd]. destruct Fk as (R & W & N & V). match goal with X : refs H' _ _ /\ _ |- _ => destruct X as (R' & W') end. split; [exact R'|]. split; [exact W'|]. split; [exact W|]. split; [rewrite <- (Forall2_len _ _ _ R); apply (Forall2_len _ _ _ R')|auto]. }
  assert (Rz : cell_resized ess ess').
  { unfold cell_edges in Ii. apply in_concat in Ii. destruct Ii as (ids & I1 & I2). apply in_map_iff in I1. destruct I1 as (k & <- & Ik). apply In_nth_error in Ik, I2. destruct Ik as (a & Ea), I2 as (b & Eb). pose proof (Forall2_len _ _ _ F) as L. pose proof (Forall2_len _ _ _ F') as L'. assert (La : (a < List.length (c_comps c))%nat) by (apply nth_error_Some; congruence).
    destruct (nth_error ess a) as [es|] eqn:Es; [|apply nth_error_None in Es; lia]. destruct (nth_error ess' a) as [es'|] eqn:Es'; [|apply nth_error_None in Es'; lia]. exists a, es, es'. split; [exact Es|]. split; [exact Es'|]. pose proof (Forall2_nth _ _ _ F _ _ _ Ea Es) as (R & _). destruct (Forall2_nth _ _ _ F' _ _ _ Ea Es') as (R' & _). pose proof (Forall2_len _ _ _ R) as M. pose proof (Forall2_len _ _ _ R') as M'. assert (Lb : (b < List.length (k_edges k))%nat) by (apply nth_error_Some; congruence).
    destruct (nth_error es b) as [f|] eqn:Ef; [|apply nth_error_None in Ef; lia]. destruct (nth_error es' b) as [f'|] eqn:Ef'; [|apply nth_error_None in Ef'; lia]. exists b, f, f'. split; [exact Ef|]. split; [exact Ef'|]. pose proof (Forall2_nth _ _ _ R _ _ _ Eb Ef) as A. pose proof (Forall2_nth _ _ _ R' _ _ _ Eb Ef') as A'. cbn in A, A'. assert (f = e) by congruence. assert (f' = e') by congruence. subst. unfold open_num. lia. }
  pose proof (fun v => cell_stale_dx v H' c ess ess' St Rz) as DX. split; [intros; exact (cell_stale_eval _ _ _ _ _ St Rz)|]. split; [exact (cell_stale_points _ _ _ _ St Rz)|]. split; [intros; exact (cell_stale_dot _ _ _ _ _ _ _ St Rz)|]. split; [intros; exact (cell_stale_dot _ _ _ _ _ _ _ St Rz)|]. split; [exact DX|].
  intros v. unfold cell_integrate. rewrite (cell_stale_guard _ _ _ _ St), DX. reflexivity.
Qed.
Print Assumptions C43_resampled.

Lemma dict_exact n p qd : get_quad_dict (PInt n) p = Ok qd -> forall e o e', resampled qd o e e' -> e_npts e' = (2 * n + 1)%Z.
Proof.
  intros Q. destruct qd as [a b]. assert (AB : q_n a = Z.to_nat n /\ q_n b = Z.to_nat n /\ (4 <= n)%Z).
  { pose proof Q as Q'. unfold get_quad_dict in Q'. destruct (mk_quad "trap" (PInt n) 7) as [qa|] eqn:Ea; [|discriminate]. destruct (mk_quad "kress" (PInt n) p) as [qb|] eqn:Eb; [|discriminate]. cbn [bind] in Q'. apply Ok_inj in Q'. injection Q' as -> ->. rewrite quad_trap in Ea. rewrite quad_kress in Eb. destruct (Z.ltb_spec n 4); [discriminate|]. destruct (Z.ltb_spec p 2); [discriminate|]. cbv zeta in Ea, Eb. apply Ok_inj in Ea, Eb. subst qa qb. auto. }
  destruct AB as (A & B & Big). intros e o e' (e1 & P & ->). destruct (parameterize_frame _ _ _ _ _ Q P) as (q & Hq & E). assert (X : e_npts e1 = (2 * n + 1)%Z).
  { rewrite E. assert (Y : q_n q = Z.to_nat n) by (unfold EdgeProofs2.pick in Hq; destruct (String.eqb _ _); [apply Ok_inj in Hq; subst; exact A|]; destruct (String.eqb _ _); [|discriminate]; apply Ok_inj in Hq; subst; exact B). replace (2 * n + 1)%Z with (2 * Z.of_nat (q_n q) + 1)%Z by lia. clear. unfold after_diary. destruct (last_join _) as [[u v]|]; reflexivity. }
  destruct (Z.eqb o (-1)); [|exact X]. unfold reverse_orientation. destruct (e_param e1); exact X.
Qed.
(** Two cells that share an edge and are sampled one after the other with different numbers of points: the
    first can no longer be used. *)
Theorem C43_numbers_refuted contains contains' n p qd n' p' qd' w w' c d H0 z ids mesh rtol atol H0' z' ids' mesh' rtol' atol' H H1 H2 c' d' i :
  mk_cell H0 z ids mesh rtol atol = Ok c -> mk_cell H0' z' ids' mesh' rtol' atol' = Ok d -> get_quad_dict (PInt n) p = Ok qd -> get_quad_dict (PInt n') p' = Ok qd' -> n <> n' ->
  param_cell contains qd w H c = Ok (H1, c') -> param_cell contains' qd' w' H1 d = Ok (H2, d') -> In i (cell_edges c) -> In i (cell_edges d) -> refuses H2 c'.
Proof.
  intros B B' Q Q' D P P' Ic Id. pose proof (built_wf _ _ _ _ _ _ _ B) as W. pose proof (built_wf _ _ _ _ _ _ _ B') as W'. destruct (param_cell_ok contains (fun _ _ => True) (fun _ _ _ _ _ _ => I) _ _ _ w _ _ _ _ Q W P) as (ess & ess' & Pr). destruct (param_cell_ok contains' (fun _ _ => True) (fun _ _ _ _ _ _ => I) _ _ _ w' _ _ _ _ Q' W' P') as (fss & fss' & Pr').
  assert (EC : forall j, In j (cell_edges c') <-> In j (cell_edges c)).
  { intros j. pose proof (Permutation_map fst (p_edges _ _ _ _ _ _ _ _ _ Pr)) as PE. rewrite !map_map in PE. cbn [fst] in PE. unfold cell_edges. rewrite !in_concat. split; intros (l & A & A2); exists l; (split; [|exact A2]); [eapply Permutation_in; [exact PE|exact A]|eapply Permutation_in; [symmetry; exact PE|exact A]]. }
  assert (One : forall contains0 nn pp qq ww X Y b b', get_quad_dict (PInt nn) pp = Ok qq -> wf_cell b -> param_cell contains0 qq ww X b = Ok (Y, b') -> forall j, In j (cell_edges b) -> exists e, nth_error Y j = Some e /\ well_sampled e /\ e_npts e = (2 * nn + 1)%Z).
  { intros contains0 nn pp qq ww X Y b b' Q0 W0 P0 j Ij. unfold cell_edges in Ij. apply in_concat in Ij. destruct Ij as (l & I1 & I2). apply in_map_iff in I1. destruct I1 as (k & <- & Ik). apply In_nth_error in I2. destruct I2 as (m & Em). destruct W0 as (W1 & W2 & W3). pose proof (proj1 (Forall_forall _ _) W3 k Ik) as [Wk _]. unfold wf_contour in Wk. destruct (nth_error (k_orients k) m) as [o|] eqn:Eo; [|apply nth_error_None in Eo; assert (m < List.length (k_edges k))%nat by (apply nth_error_Some; congruence); lia].
    destruct (param_edge _ _ _ _ _ _ _ _ _ _ _ _ _ Q0 (conj W1 (conj W2 W3)) P0 Ik Em Eo) as (e & e' & _ & E & Rs). exists e'. split; [exact E|]. split; [eapply reversed_sampled; eassumption|eapply dict_exact; eassumption]. }
  destruct (One _ _ _ _ _ _ _ _ _ Q W P i Ic) as (e & Ee & _ & Ne). destruct (One _ _ _ _ _ _ _ _ _ Q' W' P' i Id) as (e' & Ee' & _ & Ne').
  apply (C43_resampled contains H1 c' H2) with (i := i) (e := e) (e' := e'); [exists H0, z, ids, mesh, rtol, atol, c, (PInt n), p, qd, w, H; auto| |apply EC, Ic|exact Ee|exact Ee'|lia].
  intros j Ij. apply EC in Ij. destruct (in_dec Nat.eq_dec j (cell_edges d)) as [Jd|Jd]; [destruct (One _ _ _ _ _ _ _ _ _ Q' W' P' j Jd) as (f & A & A1 & _); eauto|]. rewrite (p_frame _ _ _ _ _ _ _ _ _ Pr' j Jd). destruct (One _ _ _ _ _ _ _ _ _ Q W P j Ij) as (f & A & A1 & _). eauto.
Qed.
Print Assumptions C43_numbers_refuted.
(** The disc of radius 1 inside a ring, sampled with twelve points on the circle. When the ring around it is
    sampled with eight points on each circle, the disc cannot be used any more. *)
Definition dict6 : quad * quad := (Quad_ "trap" 6 (PI / INR 6) (linspace 0 (2 * PI) 12) (map (fun _ => 1) (linspace 0 (2 * PI) 12)),
  Quad_ "kress" 6 (PI / INR 6) (map (kress_node 7) (linspace 0 (2 * PI) 12)) (map (kress_wgt 7) (linspace 0 (2 * PI) 12))).
Lemma dict6_ok : get_quad_dict (PInt 6) 7 = Ok dict6.
Proof. reflexivity. Qed.
Definition dozen : list pt := map (fun t => (1 * cos t + 1, 1 * sin t + 0)) (linspace 0 (2 * PI) 12).
Lemma ring6 : exists e, parameterize dict6 (ring 1 1 2 1) = Ok e /\ map sx (e_smp e) = dozen /\ like e 1 1 2 1.
Proof.
  pose proof PI_RGT_0. eexists. split; [reflexivity|]. split; [|reflexivity]. unfold translate, on_smp, log. unfold ring. ecbn. cbn [fst dict6 q_t q_wgt].
  unfold dozen, linspace. rewrite !map_map. cbn [seq map combine fst snd sx raw_sample mkvert vx vy]. unfold circle_R. cbn [opt String.eqb Ascii.eqb Bool.eqb].
  assert (D : forall t, 1 / 2 * (2 * PI - 0) / PI * t + 0 = t) by (intros t; field; lra). rewrite !D. reflexivity.
Qed.
Lemma dozen_box : bounding_box TOL (map fst (firstn 12 dozen)) (map snd (firstn 12 dozen)) = Ok (1 - 1, 1 + 1, - (1), 1).
Proof.
  pose proof PI_RGT_0. set (a := fun i => 0 + INR i * ((2 * PI - 0) / INR 12)). assert (E : firstn 12 dozen = map (fun i => (1 * cos (a i) + 1, 1 * sin (a i) + 0)) (seq 0 12)) by (unfold dozen, linspace; rewrite map_map; reflexivity). rewrite E, !map_map. cbn [fst snd].
  assert (A0 : a 0%nat = 0) by (unfold a; cbn [INR]; ring). assert (A3 : a 3%nat = PI / 2) by (unfold a; cbn [INR]; field). assert (A6 : a 6%nat = PI) by (unfold a; cbn [INR]; field). assert (A9 : a 9%nat = 3 * (PI / 2)) by (unfold a; cbn [INR]; field). clearbody a.
  assert (In1 : In (1 - 1) (map (fun i => 1 * cos (a i) + 1) (seq 0 12))) by (apply in_map_iff; exists 6%nat; split; [rewrite A6, cos_PI; ring|apply in_seq; lia]).
  assert (In2 : In (1 + 1) (map (fun i => 1 * cos (a i) + 1) (seq 0 12))) by (apply in_map_iff; exists 0%nat; split; [rewrite A0, cos_0; ring|apply in_seq; lia]).
  assert (In3 : In (- (1)) (map (fun i => 1 * sin (a i) + 0) (seq 0 12))) by (apply in_map_iff; exists 9%nat; split; [rewrite A9, sin_3PI2; ring|apply in_seq; lia]).
  assert (In4 : In 1 (map (fun i => 1 * sin (a i) + 0) (seq 0 12))) by (apply in_map_iff; exists 3%nat; split; [rewrite A3, sin_PI2; ring|apply in_seq; lia]).
  assert (Fx : Forall (fun y => 1 - 1 <= y <= 1 + 1) (map (fun i => 1 * cos (a i) + 1) (seq 0 12))) by (apply Forall_map, Forall_forall; intros i _; pose proof (COS_bound (a i)); lra).
  assert (Fy : Forall (fun y => - (1) <= y <= 1) (map (fun i => 1 * sin (a i) + 0) (seq 0 12))) by (apply Forall_map, Forall_forall; intros i _; pose proof (SIN_bound (a i)); lra).
  remember (map (fun i => 1 * cos (a i) + 1) (seq 0 12)) as xs eqn:Ex. remember (map (fun i => 1 * sin (a i) + 0) (seq 0 12)) as ys eqn:Ey. destruct xs as [|x xs]; [discriminate|]. destruct ys as [|y ys]; [discriminate|]. cbn [bounding_box].
  rewrite (Annulus.list_min x xs (1 - 1) In1) by (eapply Forall_impl; [|exact Fx]; cbn; intros; lra). rewrite (Annulus.list_max x xs (1 + 1) In2) by (eapply Forall_impl; [|exact Fx]; cbn; intros; lra). rewrite (Annulus.list_min y ys (- (1)) In3) by (eapply Forall_impl; [|exact Fy]; cbn; intros; lra). rewrite (Annulus.list_max y ys 1 In4) by (eapply Forall_impl; [|exact Fy]; cbn; intros; lra).
  cbv zeta. unfold TOL. rewrite Rmax_left by lra. repeat match goal with |- context [Rlt_dec ?a ?b] => destruct (Rlt_dec a b); [lra|] end. reflexivity.
Qed.
Definition always (rad : R) (path : list pt) (q : pt) : bool := true.
Lemma disc6 z : exists e k', parameterize dict6 (ring 1 1 2 1) = Ok e /\ like e 1 1 2 1 /\ param_contour always dict6 rings (unset z 0 1) = Ok (hset rings 0 e, k').
Proof.
  destruct ring6 as (e & E & S & Lk). exists e. unfold param_contour, param_edges. cbn [unset k_edges k_orients combine fold_res fst snd]. change (deref rings 0) with (Ok (ring 1 1 2 1)). cbn [bind]. rewrite E. cbn [bind]. change (Z.eqb 1 (-1)) with false. cbv iota.
  assert (RS : resampled dict6 1 (ring 1 1 2 1) e) by (exists e; split; [exact E|reflexivity]). pose proof (reversed_sampled _ _ _ _ _ _ dict6_ok RS) as W. assert (Rf : refs (hset rings 0 e) [0%nat] [e]) by (constructor; [reflexivity|constructor]). assert (Wl : Forall well_sampled [e]) by (constructor; [exact W|constructor]).
  pose proof (tables_ok (hset rings 0 e) (unset z 0 1) [e] Rf Wl) as T. change (Contour z [0%nat] [1%Z] None [] None None) with (unset z 0 1). destruct (ContourModel.find_num_pts (hset rings 0 e) (unset z 0 1)) as [k1|]; [|discriminate]. cbn [bind] in *. destruct (find_local_vert_idx (hset rings 0 e) k1) as [k2|]; [|discriminate]. cbn [bind] in *. rewrite T. cbn [bind].
  set (k := with_ktables _ _ _ _). assert (F : fresh (hset rings 0 e) k [e]) by (split; [exact Rf|split; [exact Wl|split; reflexivity]]). destruct (find_interior_total always (hset rings 0 e) k [e] F ltac:(discriminate)) as (box & B & A & _).
  assert (Pt : map sx (contour_smp [e]) = firstn 12 dozen) by (unfold contour_smp; cbn [map concat]; rewrite app_nil_r; unfold open_smp; rewrite map_removelast, S; reflexivity).
  pose proof dozen_box as DB. rewrite <- Pt, !map_map in DB. unfold xs_of, ys_of in B. assert (Bx : Ok box = Ok (1 - 1, 1 + 1, - (1), 1)) by (rewrite <- B; exact DB). clear B. rename Bx into B. apply Ok_inj in B. subst box. assert (C : clearance (1 - 1, 1 + 1, - (1), 1) = 1 / 50) by (unfold clearance; rewrite Rmin_left by lra; field). rewrite C in A. destruct (A ltac:(lra)) as [OK _]. destruct OK as (k' & E').
  { exists 8%nat, (1, 0). split; [left; reflexivity|]. split; [apply grid_centre|]. split; [reflexivity|]. intros s Is. assert (I : In (sx s) dozen) by (rewrite <- S; apply in_map; cbn [map concat] in Is; rewrite app_nil_r in Is; exact Is). unfold dozen in I. apply in_map_iff in I. destruct I as (t & <- & _). unfold pdist. cbn [fst snd]. replace (_ + _) with 1; [rewrite sqrt_1; lra|]. pose proof (sin2_cos2 t) as Q. unfold Rsqr in Q. ring_simplify. nra. }
  exists k'. rewrite E'. cbn [bind]. auto.
Qed.
Example C43_numbers_example : exists c d H1 c' H2 d', mk_cell rings 2 [0]%nat (5, 5)%Z 1 1 = Ok c /\ mk_cell rings 1 [1; 0]%nat (5, 5)%Z 1 1 = Ok d /\ param_cell always dict6 false rings c = Ok (H1, c') /\ param_cell disc dict4 false H1 d = Ok (H2, d') /\ refuses H2 c'.
Proof.
  pose proof (disc_cell (5, 5)%Z 1 ltac:(lra)) as B. set (c := Annulus.made 2 _ _ _ _) in B. pose proof (ring_cell_outer (5, 5)%Z 1 ltac:(lra)) as B'. set (d := Annulus.made 1 _ _ _ _) in B'. assert (Cc : circles c) by (exists 2%Z, [1]%Z, (5, 5)%Z, 1; right; right; reflexivity). assert (Cd : circles d) by (exists 1%Z, [1; -1]%Z, (5, 5)%Z, 1; right; left; reflexivity).
  destruct (disc6 2) as (e & k' & E & Lk & PK). destruct (param_cell_total always dict6 (PInt 6) 7 rings c dict6_ok (circles_wf c Cc)) as (H1 & c' & P); [discriminate|unfold param_comps; change (c_comps c) with [unset 2 0 1]; cbn [fold_res fst snd]; rewrite PK; reflexivity|].
  assert (W : wf_cell c) by (apply circles_wf, Cc). destruct (param_edge _ _ _ _ _ _ _ _ _ _ 0%nat 0%nat 1%Z dict6_ok W P (or_introl eq_refl) eq_refl eq_refl) as (b & e1 & Eb & E1 & (f & F & Ef)). change (nth_error rings 0) with (Some (ring 1 1 2 1)) in Eb. injection Eb as <-. change (Z.eqb 1 (-1)) with false in Ef. cbv iota in Ef. subst e1. assert (f = e) by congruence. subst f.
  destruct (param_cell_ok always (fun _ _ => True) (fun _ _ _ _ _ _ => I) _ _ _ _ _ _ _ _ dict6_ok W P) as (ess & ess' & Pr). assert (O1 : nth_error H1 1 = Some (ring 0 4 1 (-1))) by (rewrite (p_frame _ _ _ _ _ _ _ _ _ Pr); [reflexivity|cbn; intros [X|[]]; discriminate]).
  assert (LR : like_rings H1) by (exists e, (ring 0 4 1 (-1)); split; [exact E1|split; [exact O1|split; [exact Lk|reflexivity]]]). destruct (circles_param H1 d LR Cd) as (H2 & d' & P').
  exists c, d, H1, c', H2, d'. repeat (split; [assumption|]). apply (C43_numbers_refuted _ _ _ _ _ _ _ _ _ _ _ _ _ _ _ _ _ _ _ _ _ _ _ _ _ _ _ _ _ 0%nat B B' dict6_ok dict4_ok ltac:(lia) P P'); [left; reflexivity|right; left; reflexivity].
Qed.
