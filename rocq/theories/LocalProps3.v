(** C56: interior values of local functions from boundary values. *)
From Coq Require Import List ZArith Reals Lia Lra Bool QArith Qreals.
From Verif Require Import PyBase PolyModel PolySpec PolyProofs PolyProofs2 PolyProofs3 PolyProofs4 PolyTransfer PolyProps BaryModel VertModel EdgeModel EdgeSpec EdgeProps4 ContourModel CellModel CellSpec CellProofs CellProps ContourProofs ContourProofs2 ContourProofs3 ContourProps CellProps3 TraceModel TraceSpec TraceProofs IntPolyModel IntPolyProofs LocalModel LocalSpec LocalProofs LocalProofs2 LocalProofs3 LocalProofs4 LocalProofs5 Annulus DiscCell LocalProps.
Import List ListNotations.
Open Scope R_scope.

(** The integrands are the Cauchy formula: the sums are the real part of 1/(2 pi i) sum F dz/(z - y),
    and the real part and minus the imaginary part of 1/(2 pi i) sum F dz/(z - y)^2, where
    F = psi + i psi_hat. *)
Theorem C56_cauchy l y : Forall (fun s => cs_x s <> y) l ->
  cauchy int_f l y = fst (cauchy_sum 1 l y) /\ cauchy int_g1 l y = fst (cauchy_sum 2 l y) /\ cauchy int_g2 l y = - snd (cauchy_sum 2 l y).
Proof. intros A. split; [apply cauchy_value, A|split; [apply cauchy_g1, A|apply cauchy_g2, A]]. Qed.
Print Assumptions C56_cauchy.
(** The second sum is the complex derivative of the first: with C = a + ib, da/dy1 = db/dy2 and
    da/dy2 = - db/dy1. *)
Theorem C56_derivative l y : Forall (fun s => cs_x s <> y) l ->
  derivable_pt_lim (fun t => fst (cauchy_sum 1 l (t, snd y))) (fst y) (fst (cauchy_sum 2 l y)) /\ derivable_pt_lim (fun t => snd (cauchy_sum 1 l (t, snd y))) (fst y) (snd (cauchy_sum 2 l y)) /\
  derivable_pt_lim (fun t => fst (cauchy_sum 1 l (fst y, t))) (snd y) (- snd (cauchy_sum 2 l y)) /\ derivable_pt_lim (fun t => snd (cauchy_sum 1 l (fst y, t))) (snd y) (fst (cauchy_sum 2 l y)).
Proof. intros A. destruct (cauchy_d 1 l y A (or_introl eq_refl)) as (D1 & D2 & D3 & D4). cbn [INR] in *. rewrite Rmult_1_l in D1, D2, D4. replace (- (1) * snd (cauchy_sum 2 l y)) with (- snd (cauchy_sum 2 l y)) in D3 by ring. auto. Qed.
Print Assumptions C56_derivative.

(** The stored values at the interior points of the cell: polynomial, logarithms and Cauchy sum over
    the boundary samples, each with the weight of its edge. *)
Theorem C56_values contains S H c ess f g i d u ys : ready contains H c -> boundary_edges H c ess -> mk_lpois S H c f g i d = Ok u -> c_int c = Some ys -> orb i d = true ->
  exists xs vals g1 g2, centers c xs /\ u_vals u = Some vals /\ u_g1 u = Some g1 /\ u_g2 u = Some g2 /\
  let l := cauchy_samples (concat ess) (LocalSpec.vals (lh_psi (u_harm u))) (LocalSpec.vals (lh_conj (u_harm u))) in
  List.length l = List.length (contour_smp (concat ess)) /\
  Forall2 (fun y v => away xs l y -> v = total_value (lp_form (u_poly u)) xs (lh_log (u_harm u)) l y) ys vals /\
  (d = true -> Forall2 (fun y v => away xs l y -> v = total_g1 (lp_g1 (u_poly u)) xs (lh_log (u_harm u)) l y) ys g1 /\ Forall2 (fun y v => away xs l y -> v = total_g2 (lp_g2 (u_poly u)) xs (lh_log (u_harm u)) l y) ys g2) /\
  (d = false -> g1 = map (fun _ => 0) ys /\ g2 = map (fun _ => 0) ys).
Proof.
  intros Rd B E Ey ID. destruct (ready_uniform _ _ _ _ Rd B) as (F & NE & N & U). destruct (mk_lpois_inv F _ _ _ _ _ _ E) as (P & t & v & h & E1 & E2 & Lv & Eh & EP & _ & _ & X). rewrite ID in X. destruct X as (vals & g1 & g2 & EI & V0 & V1 & V2).
  subst h P. destruct (mk_lharm_good F S _ v None None _ (made_carries v None None Lv Logic.I Logic.I) E2) as (n' & w' & p & q & b & dd & G). destruct G as (_ & Gp & Gq & _). destruct (carries_len _ _ _ _ Gp) as (Lp & _). destruct (carries_len _ _ _ _ Gq) as (Lq & _). destruct Gp as (_ & Ep & _). destruct Gq as (_ & Eq & _).
  assert (NN : concat ess <> []). { pose proof F as (Fk & Hh & _). pose proof (ready_nonempty _ _ _ _ Rd B) as Q. exact Q. }
  unfold interior_values in EI. rewrite Ey in EI. cbn [attr bind] in EI. inv_as EI logs EL. rewrite (csamples_ok F NE U _ p q Ep Eq Lp Lq (ready_nedges _ _ _ _ Rd B) NN) in EI. cbn [bind] in EI. apply Ok_inj in EI. injection EI as -> -> ->. destruct (log_terms_inv c _ _ (proj1 (proj2 F)) EL) as (xs & Cx & ->).
  eexists xs, _, _, _. split; [exact Cx|]. split; [exact V0|]. split; [exact V1|]. split; [exact V2|]. cbv zeta. unfold LocalSpec.vals. rewrite Ep, Eq. set (l := cauchy_samples (concat ess) p q).
  assert (M : forall f g : pt -> R, (forall y, away xs l y -> g y = f y) -> Forall2 (fun y v => away xs l y -> v = f y) ys (map g ys)) by (intros f0 g0 K; clear -K; induction ys as [|y ys IH]; constructor; [apply K|exact IH]).
  split; [|split; [|split]].
  - unfold l, cauchy_samples. rewrite map_length, combine_length. rewrite (weighted_uniform F U NN), map_length, combine_length. unfold fitting in Lp, Lq. pose proof (smp_len F). lia.
  - apply M. intros y. apply at_value.
  - intros ->. split; apply M; intros y; [apply at_g1|apply at_g2].
  - intros ->. split; reflexivity.
Qed.
Print Assumptions C56_values.

(** The gradient formula is the gradient of the value formula, and the Laplacian of the value formula
    is that of the polynomial part alone: the rest is harmonic. *)
Theorem C56_gradient contains S H c ess f g i d u xs lc l y : ready contains H c -> boundary_edges H c ess -> mk_lpois S H c f g i d = Ok u -> away xs l y ->
  let p := u_poly u in
  derivable_pt_lim (fun t => total_value (lp_form p) xs lc l (t, snd y)) (fst y) (total_g1 (lp_g1 p) xs lc l y) /\
  derivable_pt_lim (fun t => total_value (lp_form p) xs lc l (fst y, t)) (snd y) (total_g2 (lp_g2 p) xs lc l y) /\
  exists a b, derivable_pt_lim (fun t => total_g1 (lp_g1 p) xs lc l (t, snd y)) (fst y) a /\ derivable_pt_lim (fun t => total_g2 (lp_g2 p) xs lc l (fst y, t)) (snd y) b /\
    exists a' b', derivable_pt_lim (fun t => peval RS (lp_g1 p) t (snd y)) (fst y) a' /\ derivable_pt_lim (fun t => peval RS (lp_g2 p) (fst y) t) (snd y) b' /\ a + b = a' + b'.
Proof.
  intros Rd B E A. destruct (ready_uniform _ _ _ _ Rd B) as (F & _). destruct (mk_lpois_inv F _ _ _ _ _ _ E) as (P & t & v & h & E1 & _ & _ & _ & <- & _). destruct (mk_lpoly_ok F (panti_laplacian RS f) (panti_canonical _)) as (P' & E1' & F0 & F1 & F2 & _). rewrite E1 in E1'. apply Ok_inj in E1'. subst P'. cbv zeta. rewrite F0, F1, F2. pose proof (panti_canonical f) as C.
  destruct (total_d _ xs lc l y C A) as [D1 D2]. split; [exact D1|]. split; [exact D2|]. destruct (total_dd _ _ xs lc l y (pdx_canonical _ C) (pdy_canonical _ C) A) as (a & D3 & D4). eexists _, _. split; [exact D3|]. split; [exact D4|].
  destruct (C06_grad _ (pdx_canonical _ C)) as [G1 _]. destruct (C06_grad _ (pdy_canonical _ C)) as [_ G2]. eexists _, _. split; [exact (G1 _ _)|]. split; [exact (G2 _ _)|]. cbn [pgrad fst snd]. ring.
Qed.
Print Assumptions C56_gradient.

(** Interior values are always found: the cell has interior points and so has every hole, and the
    boundary solver returns arrays of the right sizes. *)
Theorem C56_total contains S H c ess f g i d xs ys : ready contains H c -> boundary_edges H c ess -> tame (concat ess) (Z.to_nat (c_holes c)) S -> (exists v, boundary_data (concat ess) g v) -> centers c xs -> c_int c = Some ys ->
  exists u, mk_lpois S H c f g i d = Ok u.
Proof.
  intros Rd B T D Cx Ey. destruct (ready_uniform _ _ _ _ Rd B) as (F & NE & N & U). exact (mk_lpois_interior F NE U S f g i d xs ys T D Cx Ey (ready_nedges _ _ _ _ Rd B) (ready_nonempty _ _ _ _ Rd B)).
Qed.
Print Assumptions C56_total.
(** A cell without interior points refuses. *)
Theorem C56_refused contains S H c ess f g i d : ready contains H c -> boundary_edges H c ess -> tame (concat ess) (Z.to_nat (c_holes c)) S -> (exists v, boundary_data (concat ess) g v) -> c_int c = None -> orb i d = true ->
  mk_lpois S H c f g i d = Err AttributeError.
Proof.
  intros Rd B T D Ey ID. destruct (ready_uniform _ _ _ _ Rd B) as (F & NE & N & U). destruct (mk_lpois_total F S f g T D) as (u0 & E0). destruct (mk_lpois_inv F _ _ _ _ _ _ E0) as (P & t & v & h & E1 & E2 & Lv & Eh & EP & Et & Ev & _). inv_as Ev a Ea. inv_as Ev b' Eb.
  unfold mk_lpois. rewrite E1. cbn [bind]. rewrite Et. cbn [bind]. rewrite Ea. cbn [bind]. rewrite Eb. cbn [bind]. rewrite Ev. cbn [bind]. rewrite (trace_arr F) by exact Lv. cbn [bind]. rewrite E2. cbn [bind]. rewrite ID. unfold interior_values. rewrite Ey. reflexivity.
Qed.
Print Assumptions C56_refused.

(** Example: on the unit disc, with values and gradients at a list of points containing the centre *)
Lemma disc_away H c e p q y : unit_disc H c e -> y = (1, 0) -> away [] (cauchy_samples (concat [[e]]) p q) y.
Proof.
  intros (_ & _ & _ & Sm & _) ->. split; [|constructor]. apply Forall_forall. intros s I. unfold cauchy_samples in I. apply in_map_iff in I. destruct I as ([[s' w] uv] & <- & I). cbn [cs_x fst snd]. apply in_combine_l in I. unfold weighted_samples in I. cbn [concat app map] in I. rewrite app_nil_r in I. apply in_map_iff in I. destruct I as (s'' & X & I). injection X as -> _. unfold open_smp in I. rewrite Sm in I. change (removelast _) with (map (fun i => disc_smp (angle i)) (seq 0 8)) in I. apply in_map_iff in I. destruct I as (i & <- & _). cbn [disc_smp sx].
  intros X. injection X as X Y. pose proof (sin2_cos2 (angle i)) as Q. unfold Rsqr in Q. assert (cos (angle i) = 0) by lra. rewrite H0, Y in Q. lra.
Qed.
Example C56_example : exists H c e u ys vals, unit_disc H c e /\ c_int c = Some ys /\ In (1, 0) ys /\ mk_lpois still H c [rmon 4 0 0] (TVal (VScal 3)) true true = Ok u /\ u_vals u = Some vals /\
  let l := cauchy_samples (concat [[e]]) (LocalSpec.vals (lh_psi (u_harm u))) (LocalSpec.vals (lh_conj (u_harm u))) in away [] l (1, 0) /\ In (total_value (lp_form (u_poly u)) [] (lh_log (u_harm u)) l (1, 0)) vals.
Proof.
  destruct unit_disc_int as (H & c & e & ys & D & Ey & Iy). pose proof D as (Rd & B & N & _ & Hh). assert (Cx : centers c []). { pose proof (ready_uniform _ _ _ _ Rd B) as ((_ & X & _) & _). rewrite Hh in X. unfold centers. destruct (c_comps c) as [|k [|k' ks]]; cbn [tl List.length] in *; [constructor|constructor|exfalso; lia]. }
  destruct (C56_total disc still H c [[e]] [rmon 4 0 0] (TVal (VScal 3)) true true [] ys Rd B (disc_tame _ _ _ D) (disc_const _ _ _ 3 D) Cx Ey) as (u & E).
  destruct (C56_values _ _ _ _ _ _ _ _ _ _ _ Rd B E Ey eq_refl) as (xs & vals & g1 & g2 & Cx' & V & _ & _ & _ & Fv & _). assert (xs = []) by (pose proof (Forall2_len _ _ _ Cx) as L1; pose proof (Forall2_len _ _ _ Cx') as L2; destruct xs; [reflexivity|cbn in *; lia]). subst xs.
  exists H, c, e, u, ys, vals. split; [exact D|]. split; [exact Ey|]. split; [exact Iy|]. split; [exact E|]. split; [exact V|]. cbv zeta. split; [eapply disc_away; [exact D|reflexivity]|].
  apply In_nth_error in Iy. destruct Iy as (j & Ij). clear -Fv Ij D. revert j Ij. induction Fv as [|y v ys vs Hv Fv IH]; intros [|j] Ij; try discriminate.
  - cbn in Ij. injection Ij as ->. left. apply Hv. eapply disc_away; [exact D|reflexivity].
  - right. exact (IH j Ij).
Qed.
