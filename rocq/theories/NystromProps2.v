(** C58, continued: the circle, the logarithms, the preconditioner, the solver as a whole, and examples. *)
From Coq Require Import List ZArith Reals Lia Lra Bool String Permutation.
From Coquelicot Require Import Coquelicot.
From Verif Require Import PyBase PolyModel PolySpec BaryModel QuadModel VertModel EdgeModel EdgeSpec EdgeProps4 ContourModel CellModel CellSpec CellProofs CellProps ContourProofs ContourProofs2 ContourProofs3 InteriorProofs ContourProofs4 ContourProps CellProps3 TraceModel TraceSpec TraceProofs LocalProofs3 LocalModel LocalSpec LocalProofs LocalProofs2 LocalProofs5 FftModel FftSpec FftProofs FftProofs2 FftProofs3 FftProps AntilapModel AntilapSpec AntilapProofs AntilapProofs2 AntilapProofs3 AntilapProofs4 AntilapProps2 NystromModel NystromSpec NystromProofs NystromProofs2 NystromProofs3 NystromProofs4 NystromProofs5 NystromProofs6 NystromProofs7 NystromProofs8.
From Verif Require Import Annulus DiscCell RingCell NystromProps.
Import List ListNotations.
Open Scope R_scope.

(** ** The value subtracted at the closest vertex *)

(** Where the rows of the matrix sum to -1/2, as the potential of a constant does, the subtracted value
    has no effect, and the operator is half the identity plus the matrix. *)
Theorem C58_corner contains H c ess L u : ready contains H c -> boundary_edges H c ess -> build_layers H c = Ok L -> fitting (concat ess) u ->
  Forall (fun r => sum_list r = - (1 / 2)) (ly_double L) ->
  double_layer c L u = Ok (map (fun i => nth i u 0 / 2 + sum_list (zip_with Rmult (nth i (ly_double L) []) u)) (seq 0 (List.length u))).
Proof.
  intros Rd B EL Fu Rs. assert (Lu : List.length u = Z.to_nat (csize (concat ess))) by (apply (fit_N Rd B), Fu). rewrite (double_ok Rd B L u EL Lu), Lu. f_equal. apply map_sq_ext. intros i Li. unfold double_at. destruct (layers_shape Rd B L EL) as (_ & [S1 S2] & _). rewrite Forall_forall in Rs. assert (I : In (nth i (ly_double L) []) (ly_double L)) by (apply nth_In; lia). specialize (Rs _ I). change (np_sum (nth i (ly_double L) [])) with (sum_list (nth i (ly_double L) [])). rewrite Rs. change (np_dot (nth i (ly_double L) []) u) with (sum_list (zip_with Rmult (nth i (ly_double L) []) u)). field.
Qed.
Print Assumptions C58_corner.

(** ** The circle *)

(** On a circle, sampled at equal angles, all of this is exact: the perimeter, the rows of the double
    layer, and the operator, which is half the difference from the mean. *)
Definition mean (u : list R) : R := sum_list u / INR (List.length u).
Lemma one_edge_grid H c e : cell_fresh H c [[e]] -> exists q, cell_grid c [[e]] = edge_points (q, e).
Proof.
  intros (F2 & _). inversion F2 as [|k l ks ls Fk F2' E1 E2]; subst. inversion F2' as [E3|]; subst. pose proof (refs_length _ _ _ (proj1 Fk)) as Lk. unfold cell_grid. rewrite <- E1. cbn [combine map concat fst snd]. destruct (k_edges k) as [|q [|? ?]]; try discriminate Lk. exists q. unfold contour_grid. cbn [combine map concat]. rewrite !app_nil_r. reflexivity.
Qed.
Lemma one_edge_apart H c e : cell_fresh H c [[e]] -> apart (cell_grid c [[e]]).
Proof. intros F. destruct (one_edge_grid H c e F) as (q & ->). intros a b Ia Ib N. destruct N. destruct (in_points _ _ _ Ia) as [-> _]. destruct (in_points _ _ _ Ib) as [-> _]. reflexivity. Qed.
Lemma layers_double H c L D : build_layers H c = Ok L -> layer_mat H c double_block = Ok D -> ly_double L = D.
Proof. unfold build_layers. intros E ED. rewrite ED in E. destruct (layer_mat H c single_block); [|discriminate]. apply Ok_inj in E. subst L. reflexivity. Qed.
Lemma dot_repeat k n u : List.length u = n -> np_dot (repeat k n) u = k * sum_list u.
Proof. intros <-. unfold np_dot, np_sum, sum_list. induction u as [|x u IH]; [cbn; ring|]. cbn [List.length repeat combine map fst snd fold_right]. rewrite IH. ring. Qed.
Lemma map_all {A C} (f : A -> C) v l : (forall a, In a l -> f a = v) -> map f l = repeat v (List.length l).
Proof. induction l as [|a l IH]; intros Hf; [reflexivity|]. cbn [map List.length repeat]. rewrite Hf by (left; reflexivity). rewrite IH by (intros x Ix; apply Hf; right; exact Ix). reflexivity. Qed.
Lemma circle_facts contains H c e x0 r L u : ready contains H c -> boundary_edges H c [[e]] -> round x0 r e -> 0 < r -> build_layers H c = Ok L -> fitting [e] u ->
  let n := List.length u in ly_double L = repeat (repeat (- (1 / (2 * INR n))) n) n /\ perimeter [e] = 2 * PI * r /\ total_int (ess := [[e]]) u = 2 * PI * r * mean u /\ 0 < INR n.
Proof.
  intros Rd B Ro P EL Fu n. pose proof (NpF Rd B) as F. assert (Lu : n = Z.to_nat (csize (concat [[e]]))) by (apply (fit_N Rd B), Fu). cbn [concat app] in Lu. pose proof (cell_wf Rd B) as W. inversion W as [|? ? We _]; subst. inversion We as [|? ? We' _]; subst. pose proof (open_pos e We') as [O1 O2]. pose proof (csize_cons e []) as Ec. change (csize []) with 0%Z in Ec. rewrite Z.add_0_r in Ec. rewrite Ec in Lu. unfold open_num in *. assert (Sm : List.length (open_smp e) = n) by lia. assert (Pn : 0 < INR n) by (apply lt_0_INR; lia). assert (Hn : IZR (e_npts e - 1) = INR n) by (rewrite INR_IZR_INZ; f_equal; lia).
  pose proof (layers_double H c L _ EL (double_matrix H c [[e]] F (one_edge_apart H c e F))) as ED. destruct (one_edge_grid H c e F) as (q & Eg).
  assert (In_g : forall a, In a (edge_points (q, e)) -> p_ref a = q /\ p_edge a = e /\ In (p_smp a) (open_smp e)). { intros a Ia. destruct (in_points _ _ _ Ia) as [A1 A2]. split; [exact A1|]. split; [exact A2|]. change e with (snd (q, e)). rewrite <- points_smp. apply in_map, Ia. }
  assert (Lg : List.length (edge_points (q, e)) = n) by (rewrite <- (map_length p_smp), points_smp; exact Sm).
  assert (Sw : samples_of [e] sw = repeat r n). { unfold samples_of, contour_smp. cbn [map concat]. rewrite app_nil_r, <- Sm. apply map_all. intros s Is. destruct Ro as [_ Fo]. rewrite Forall_forall in Fo. apply (Fo s Is). }
  split; [|split; [|split; [|exact Pn]]].
  - rewrite ED, Eg. unfold matrix_of. rewrite <- Lg at 3. apply map_all. intros a Ia. rewrite <- Lg at 2. apply map_all. intros b Ib. destruct (In_g a Ia) as (A1 & A2 & A3). destruct (In_g b Ib) as (B1 & B2 & B3). rewrite (round_entry x0 r a b P); try congruence. unfold mesh_step. rewrite B2, Hn. field. lra.
  - unfold perimeter, boundary_sum. rewrite Ec, Hn, Sw. change sum_list with np_sum. rewrite sum_const. cbn [List.length INR]. field. lra.
  - unfold total_int, boundary_sum. cbn [concat app]. rewrite Ec, Hn, Sw. replace (sum_list (zip_with Rmult u (repeat r n))) with (r * sum_list u); [unfold mean; fold n; cbn [List.length INR]; field; lra|]. unfold n, sum_list, zip_with. clear. induction u as [|x u IH]; [cbn; ring|]. cbn [List.length repeat combine map fst snd fold_right]. rewrite <- IH. ring.
Qed.
Lemma map_by_index (f : R -> R) u : map f u = map (fun i => f (nth i u 0)) (seq 0 (List.length u)).
Proof. rewrite (as_map 0 u) at 1. apply map_map. Qed.
Theorem C58_circle contains H c e x0 r L u : ready contains H c -> boundary_edges H c [[e]] -> round x0 r e -> 0 < r -> build_layers H c = Ok L -> fitting [e] u ->
  perimeter [e] = 2 * PI * r /\ Forall (fun row => sum_list row = - (1 / 2)) (ly_double L) /\
  double_layer c L u = Ok (map (fun x => (x - mean u) / 2) u) /\ neumann_op H c L u = Ok (map (fun x => (x - mean u) / 2 + 2 * PI * r * mean u) u).
Proof.
  intros Rd B Ro P EL Fu. destruct (circle_facts contains H c e x0 r L u Rd B Ro P EL Fu) as (ED & Ep & Et & Pn). assert (Lu : List.length u = Z.to_nat (csize (concat [[e]]))) by (apply (fit_N Rd B), Fu).
  assert (At : forall i, (i < List.length u)%nat -> double_at (c := c) L u i = (nth i u 0 - mean u) / 2). { intros i Li. unfold double_at. rewrite ED, nth_repeat_lt by exact Li. rewrite dot_repeat by reflexivity. rewrite sum_const. unfold mean. field. lra. }
  split; [exact Ep|]. split; [|split].
  - rewrite ED. apply Forall_forall. intros row I. apply repeat_spec in I. subst row. change sum_list with np_sum. rewrite sum_const. field. lra.
  - rewrite (double_ok Rd B L u EL Lu), <- Lu. f_equal. rewrite (map_by_index _ u). apply map_sq_ext. exact At.
  - rewrite (neumann_ok Rd B L u EL Lu), <- Lu. f_equal. rewrite (map_by_index _ u). apply map_sq_ext. intros i Li. rewrite (At i Li), Et. reflexivity.
Qed.
Print Assumptions C58_circle.

(** ** The logarithms of a cell with holes *)

(** The constructor stores the samples of ln|x - xi| and of its weighted derivatives for each hole, the
    single layer potentials of the tangential derivatives, and the integrals of one logarithm against
    the normal derivative of another. *)
Theorem C58_logs contains H c ess L xs : ready contains H c -> boundary_edges H c ess -> build_layers H c = Ok L -> centers c xs ->
  exists T, compute_log_terms H c L = Ok T /\ Forall2 (log_samples (concat ess)) xs (lt_trace T) /\
  (forall i j xj, (i < Z.to_nat (csize (concat ess)))%nat -> nth_error xs j = Some xj ->
     nth j (nth i (lt_T1 T) []) 0 = sum_list (zip_with Rmult (nth i (ly_single L) []) (samples_of (concat ess) (weighted_in sT (log_x xj) (log_y xj))))) /\
  (forall i j xi xj, nth_error xs i = Some xi -> nth_error xs j = Some xj ->
     nth j (nth i (lt_Sn T) []) 0 = boundary_sum (concat ess) (samples_of (concat ess) (fun s => at_smp (log_to xj) s * weighted_in sN (log_x xi) (log_y xi) s))).
Proof.
  intros Rd B EL Cx. destruct (terms_ok Rd B L xs EL Cx) as (T & ET & Fl & _ & _ & E1 & E2). exists T. split; [exact ET|]. split; [exact Fl|]. split; [|exact E2]. intros i j xj Li Ej. assert (Lj : (j < List.length xs)%nat) by (apply nth_error_Some; congruence). assert (Lx : List.length xs = Z.to_nat (c_holes c)) by (rewrite <- (Forall2_len _ _ _ Cx); apply (comps_holes Rd B)).
  rewrite (E1 i j Li) by lia. destruct (F2_at _ _ _ j Fl) as (xi & t & Ex & Et & (_ & _ & E3)); [rewrite <- (Forall2_len _ _ _ Fl); exact Lj|]. unfold tang_of. rewrite Et, E3. assert (xi = xj) by congruence. subst xi. reflexivity.
Qed.
Print Assumptions C58_logs.

(** ** The functions that are 1 on one hole *)

(** For each hole the constructor builds data which are 1 on that hole, 0 on the others, and constant on
    the outer boundary so that the integral over the whole boundary is 0. *)
Theorem C58_indicator contains H c e0 pre ej post k : ready contains H c -> boundary_edges H c (e0 :: pre ++ ej :: post) -> nth_error (c_comps c) (S (List.length pre)) = Some k -> contour_sum e0 sw <> 0 ->
  exists t a b z v, indicator H c (List.length (e0 ++ concat pre)) k = Ok t /\ tr_vals t = Some (repeat v a ++ repeat 0 b ++ samples_of ej (fun _ => 1) ++ repeat 0 z) /\
    a = List.length (contour_smp e0) /\ b = List.length (contour_smp (concat pre)) /\ z = List.length (contour_smp (concat post)) /\ v * contour_sum e0 sw + contour_sum ej sw = 0 /\
    boundary_sum (concat (e0 :: pre ++ ej :: post)) (zip_with Rmult (repeat v a ++ repeat 0 b ++ samples_of ej (fun _ => 1) ++ repeat 0 z) (samples_of (concat (e0 :: pre ++ ej :: post)) sw)) = 0.
Proof.
  intros Rd B Ek N0. destruct (indicator_ok Rd B e0 pre ej post k eq_refl Ek) as (t & Et & Vt). pose proof (indicator_mean Rd B e0 pre ej post eq_refl N0) as M. pose proof (cell_wf Rd B) as W. inversion W as [|? ? W0 Wt]; subst. apply Forall_app in Wt. destruct Wt as [Wp Wq]. inversion Wq as [|? ? Wj Wl]; subst.
  assert (G : forall l, Forall well_sampled l -> Z.to_nat (csize l) = List.length (contour_smp l)) by (intros l Wl'; pose proof (contour_smp_length l Wl'); lia).
  assert (K : samples_of ej (fun _ => 1) = repeat 1 (Z.to_nat (csize ej))) by (rewrite (G ej Wj); unfold samples_of; apply map_all; reflexivity).
  rewrite (G e0 W0), (G (concat pre)), (G (concat post)) in Vt, M by (apply Forall_concat; assumption). rewrite <- K in Vt, M. do 5 eexists. split; [exact Et|]. split; [exact Vt|]. do 3 (split; [reflexivity|]). split; [field; exact N0|exact M].
Qed.
Print Assumptions C58_indicator.

(** ** The preconditioner *)

(** The Jacobi preconditioner divides by the diagonal of half the identity plus the double layer matrix,
    followed by the diagonal of the matrix of the logarithms. *)
Theorem C58_preconditioner contains H c ess A d : ready contains H c -> boundary_edges H c ess -> map_res (fun i => do r <- geti A i; geti r i) (holes c) = Ok d ->
  exists D, layer_diagonal H c A = Ok (D ++ d) /\ List.length D = List.length (cell_grid c ess) /\
  forall i a x, nth_error (cell_grid c ess) i = Some a -> nth_error D i = Some x -> weightless a = false -> x = 1 / 2 + double_entry a a.
Proof.
  intros Rd B Ed. pose proof (NpF Rd B) as F. exists (map (fun a => jacobi (p_edge a) (p_smp a)) (cell_grid c ess)).
  assert (J : jacobis (concat ess) = map (fun a => jacobi (p_edge a) (p_smp a)) (cell_grid c ess)).
  { pose proof F as (F2 & _). clear F B Ed. unfold cell_grid. induction F2 as [|k l ks ls Fk F2 IH]; [reflexivity|]. cbn [combine map concat fst snd]. rewrite map_app, jacobis_app, IH. f_equal. pose proof (refs_length _ _ _ (proj1 Fk)) as Lk. unfold contour_grid, jacobis. revert Lk. generalize (k_edges k). clear. induction l as [|e l IH]; intros [|q ids] Lk; try discriminate; [reflexivity|]. cbn [combine map concat]. rewrite map_app, <- IH by (cbn in Lk; lia). f_equal.
    change (open_smp e) with (open_smp (snd (q, e))). rewrite <- points_smp, map_map. apply map_ext_in. intros a Ia. destruct (in_points _ _ _ Ia) as [_ ->]. reflexivity. }
  split; [rewrite (diagonal_ok Rd B A d Ed), J; reflexivity|]. split; [apply map_length|]. intros i a x Ea Ex Wa. rewrite nth_error_map, Ea in Ex. cbn [option_map] in Ex. injection Ex as <-. unfold double_entry, jacobi, mesh_step. rewrite Wa, Nat.eqb_refl. unfold pair_dist, dist2. rewrite !Rminus_eq_0. cbn [andb]. destruct Rlt_dec as [_|Nl]; [|exfalso; apply Nl; unfold Rsqr; lra]. unfold Rdiv. lra.
Qed.
Print Assumptions C58_preconditioner.

(** ** The solver as a whole *)

(** On a cell where no two samples coincide the constructor returns for both names of a strategy, and
    what the local functions need of a solver (in C53 and C56) holds of it, if scipy's solver returns
    arrays of the right size. *)
Theorem C58_solver gm contains H c ess xs name : solves_sizes gm -> ready contains H c -> boundary_edges H c ess -> NoDup (map sx (contour_smp (concat ess))) ->
  (forall e, In e (concat ess) -> (e_npts e <= 20000001)%Z) -> centers c xs -> name = "direct"%string \/ name = "fft"%string ->
  exists V, mk_solver gm H c name "jacobi" = Ok V /\ tame (concat ess) (Z.to_nat (c_holes c)) (to_nyst gm H c V).
Proof.
  intros Gm Rd B Nd Hn Cx Hs. destruct (C58_matrices contains H c ess Rd B Nd Hn) as (L & EL & _). assert (S : exists s, set_strategy name = Ok s) by (destruct Hs as [-> | ->]; eexists; reflexivity). destruct S as (s & Es). exact (solver_tame Rd B gm Gm L name s xs EL Es Cx).
Qed.
Print Assumptions C58_solver.
(** Other names of a preconditioner and of a strategy are refused. *)
Theorem C58_solver_refused gm contains H c ess xs name precond : solves_sizes gm -> ready contains H c -> boundary_edges H c ess -> NoDup (map sx (contour_smp (concat ess))) ->
  (forall e, In e (concat ess) -> (e_npts e <= 20000001)%Z) -> centers c xs -> precond <> "jacobi"%string \/ (name <> "direct"%string /\ name <> "fft"%string) ->
  mk_solver gm H c name precond = Err ValueError.
Proof.
  intros Gm Rd B Nd Hn Cx Hs. destruct (C58_matrices contains H c ess Rd B Nd Hn) as (L & EL & _). unfold mk_solver. rewrite EL. cbn [bind]. pose proof (holes_Z Rd B) as HZ.
  assert (X : exists T d, (if Z.ltb 0 (c_holes c) then compute_log_terms H c L else Ok (LogTerms [] [] [])) = Ok T /\ layer_diagonal H c (lt_Sn T) = Ok d).
  { destruct (Z.ltb_spec 0 (c_holes c)) as [Hp|Hz]; [destruct (terms_ok Rd B L xs EL Cx) as (T & ET & _ & _ & S2 & _); destruct (diag_entries (lt_Sn T) S2) as (d & Ed & _); exists T; eexists; split; [exact ET|exact (diagonal_ok Rd B _ d Ed)]|]. assert (Z0 : c_holes c = 0%Z) by lia. eexists. eexists. split; [reflexivity|]. apply (diagonal_ok Rd B (lt_Sn (LogTerms [] [] [])) []). unfold holes. rewrite Z0. reflexivity. }
  destruct X as (T & d & -> & Ed). cbn [bind]. destruct (String.eqb_spec precond "jacobi") as [Ej|_]; [|reflexivity]. rewrite Ed. cbn [bind]. destruct Hs as [Hs|[N1 N2]]; [congruence|]. unfold set_strategy. rewrite (proj2 (String.eqb_neq _ _) N1), (proj2 (String.eqb_neq _ _) N2). reflexivity.
Qed.
Print Assumptions C58_solver_refused.

(** ** Examples *)
Lemma half_root : 1 / 2 < 1 / sqrt 2 < 1.
Proof. assert (Q : 1 < sqrt 2) by (rewrite <- sqrt_1 at 1; apply sqrt_lt_1; lra). assert (Q2 : sqrt 2 < 2) by (replace 2 with (sqrt 4) at 2 by (replace 4 with (2 * 2) by ring; apply sqrt_square; lra); apply sqrt_lt_1; lra). split; apply Rmult_lt_reg_r with (sqrt 2); try lra; replace (1 / sqrt 2 * sqrt 2) with 1 by (field; lra); lra. Qed.
Ltac distinct_points := repeat (constructor; [cbn [In]; intros Ip; repeat (destruct Ip as [Ip|Ip]; [injection Ip; intros; lra|]); exact Ip|]); constructor.
Lemma oct_nodup : NoDup (removelast (oct 0 4 1) ++ removelast (oct 1 1 (-1))).
Proof. pose proof half_root as Q. unfold oct. replace (4 / sqrt 2) with (4 * (1 / sqrt 2)) by (unfold Rdiv; ring). set (q := 1 / sqrt 2) in *. cbn [removelast app]. distinct_points. Qed.
Lemma disc_nodup H c e : unit_disc H c e -> NoDup (map sx (contour_smp (concat [[e]]))).
Proof.
  intros (_ & _ & _ & Es & _). cbn [concat app]. unfold contour_smp, open_smp. cbn [map concat]. rewrite app_nil_r, Es. cbn [seq map removelast disc_smp sx]. pose proof oct_angles as (S0 & C0 & S1 & C1 & S2 & C2 & S3 & C3 & S4 & C4 & S5 & C5 & S6 & C6 & S7 & C7 & S8 & C8). rewrite S0, C0, S1, C1, S2, C2, S3, C3, S4, C4, S5, C5, S6, C6, S7, C7. pose proof half_root as Q. set (q := 1 / sqrt 2) in *. distinct_points.
Qed.
(** The disc of [DiscCell] with eight samples: the matrices are built, it is round, and the double layer
    operator halves the first coordinate, up to its mean. *)
Example C58_example_disc : exists H c e L, unit_disc H c e /\ build_layers H c = Ok L /\ round (1, 0) 1 e /\ fitting [e] (samples_of [e] (fun s => fst (sx s))) /\
  double_layer c L (samples_of [e] (fun s => fst (sx s))) = Ok (samples_of [e] (fun s => (fst (sx s) - 1) / 2)).
Proof.
  destruct unit_disc_trap as (H & c & e & U & Eq). pose proof U as (Rd & B & Np & Es & Hh). destruct (C58_matrices disc H c [[e]] Rd B (disc_nodup H c e U)) as (L & EL & _); [intros e' [<-|[]]; lia|].
  assert (Ro : round (1, 0) 1 e). { split; [rewrite Eq; reflexivity|]. unfold open_smp. rewrite Es. apply Forall_forall. intros s Is. assert (Is' : In s (map (fun i => disc_smp (angle i)) (seq 0 9))) by (apply Removelast_In || (clear -Is; revert Is; generalize (map (fun i => disc_smp (angle i)) (seq 0 9)); intros l; induction l as [|x [|y l] IH]; intros I; [destruct I|destruct I|destruct I as [<-|I]; [left; reflexivity|right; exact (IH I)]])). apply in_map_iff in Is'. destruct Is' as (i & <- & _). unfold disc_smp, dist2, Rsqr. cbn [sx sN sw sk fst snd]. pose proof (sin2_cos2 (angle i)) as Sc. unfold Rsqr in Sc. repeat split; try lra. apply f_equal2; field. }
  assert (Fu : fitting [e] (samples_of [e] (fun s => fst (sx s)))) by (exact (samples_fit (NpF Rd B) _)). exists H, c, e, L. split; [exact U|]. split; [exact EL|]. split; [exact Ro|]. split; [exact Fu|].
  destruct (C58_circle disc H c e (1, 0) 1 L _ Rd B Ro ltac:(lra) EL Fu) as (_ & _ & -> & _). f_equal. unfold samples_of at 2. rewrite map_map. apply map_ext. intros s. f_equal. f_equal. f_equal. unfold mean, samples_of, contour_smp, open_smp. cbn [map concat]. rewrite app_nil_r, Es. cbn [seq map removelast disc_smp sx List.length sum_list fold_right fst]. pose proof oct_angles as (S0 & C0 & S1 & C1 & S2 & C2 & S3 & C3 & S4 & C4 & S5 & C5 & S6 & C6 & S7 & C7 & S8 & C8). rewrite C0, C1, C2, C3, C4, C5, C6, C7. generalize (1 / sqrt 2). intros q. simpl. field.
Qed.
(** Between the circles of [RingCell], with a solver that always answers zero, both strategies give a solver
    with answers of the right size. *)
Example C58_example_ring : exists gm H c ess xi, solves_sizes gm /\ ready disc H c /\ boundary_edges H c ess /\ NoDup (map sx (contour_smp (concat ess))) /\ (forall e, In e (concat ess) -> (e_npts e <= 20000001)%Z) /\ centers c [xi] /\ c_holes c = 1%Z /\
  (exists V, mk_solver gm H c "direct" "jacobi" = Ok V /\ tame (concat ess) 1 (to_nyst gm H c V)) /\ (exists V, mk_solver gm H c "fft" "jacobi" = Ok V /\ tame (concat ess) 1 (to_nyst gm H c V)).
Proof.
  destruct ring_points as (H & c & ess & xi & Rd & B & Hh & Cx & Le & Fe & Pe). set (gm := fun (f : list R -> res (list R)) (b : list R) (p : list R -> res (list R)) => Ok (map (fun _ => 0) b)). assert (Gm : solves_sizes gm) by (intros f b p _ _; eexists; split; [reflexivity|apply map_length]).
  assert (Nd : NoDup (map sx (contour_smp (concat ess)))). { replace (map sx (contour_smp (concat ess))) with (concat (map (fun l => map sx (contour_smp l)) ess)) by (clear; unfold contour_smp; induction ess as [|l ls IH]; [reflexivity|]; cbn [map concat]; rewrite map_app, concat_app, map_app, IH; reflexivity). apply (Permutation_NoDup (l := concat [removelast (oct 0 4 1); removelast (oct 1 1 (-1))])); [|cbn [concat]; rewrite app_nil_r; exact oct_nodup]. apply Permutation_sym. clear -Pe. revert Pe. generalize (map (fun l => map sx (contour_smp l)) ess) as a, [removelast (oct 0 4 1); removelast (oct 1 1 (-1))] as b. intros a b Pe. induction Pe; cbn [concat]; [constructor|apply Permutation_app_head; assumption|rewrite !app_assoc; apply Permutation_app_tail, Permutation_app_comm|eapply Permutation_trans; eassumption]. }
  assert (Hn : forall e, In e (concat ess) -> (e_npts e <= 20000001)%Z) by (intros e Ie; apply in_concat in Ie; destruct Ie as (l & Il & Ie); rewrite Forall_forall in Fe; destruct (Fe l Il) as (e' & -> & N & _); destruct Ie as [<-|[]]; lia).
  exists gm, H, c, ess, xi. split; [exact Gm|]. split; [exact Rd|]. split; [exact B|]. split; [exact Nd|]. split; [exact Hn|]. split; [exact Cx|]. split; [exact Hh|]. replace 1%nat with (Z.to_nat (c_holes c)) by (rewrite Hh; reflexivity). split; apply (C58_solver gm disc H c ess [xi]); auto.
Qed.
