(** C55, continued: the anti-Laplacian returns on all arrays of the right size, and a cell with a hole. *)
From Coq Require Import List ZArith Reals Lia Lra Bool.
From Coquelicot Require Import Coquelicot.
From Verif Require Import PyBase PolyModel PolySpec BaryModel VertModel EdgeModel EdgeSpec EdgeProps4 ContourModel CellModel CellSpec CellProofs CellProps ContourProofs ContourProofs3 ContourProps CellProps3 TraceModel TraceSpec TraceProofs LocalProofs3 LocalModel LocalSpec LocalProofs LocalProofs2 LocalProofs5 FftModel FftSpec FftProofs FftProofs2 FftProofs3 FftProps AntilapModel AntilapSpec AntilapProofs AntilapProofs2 AntilapProofs3 AntilapProofs4.
From Verif Require Import Annulus DiscCell LocalProps RingCell AntilapProps.
Import List ListNotations.
Open Scope R_scope.

(** On every cell, whatever the two arrays are, as long as they and the solver's answers have the
    right sizes, an anti-Laplacian is returned and has the right size as well. *)
Theorem C55_total contains Nn H c ess xs u v lc : ready contains H c -> boundary_edges H c ess -> centers c xs ->
  ((0 < c_holes c)%Z -> solver_fits Nn (concat ess) (Z.to_nat (c_holes c))) -> fitting (concat ess) u -> fitting (concat ess) v -> List.length lc = Z.to_nat (c_holes c) ->
  exists P w, anti_laplacian Nn H c u v lc = Ok (P, w) /\ fitting (concat ess) P /\ fitting (concat ess) w.
Proof. intros Rd B Cx So Fu Fv Ll. exact (anti_total Rd B Nn xs u v lc Cx So Fu Fv Ll). Qed.
Print Assumptions C55_total.

(** Hence what the local functions need of a solver (in C53 and C56) comes from this code, from the
    spectral derivative, and from the solver of the Neumann problem. *)
Theorem C55_tame contains Nn H c ess xs conj lam : ready contains H c -> boundary_edges H c ess -> centers c xs ->
  ((0 < c_holes c)%Z -> solver_fits Nn (concat ess) (Z.to_nat (c_holes c))) ->
  (forall v, fitting (concat ess) v -> exists w lc, conj v = Ok (w, lc) /\ fitting (concat ess) w /\ List.length lc = Z.to_nat (c_holes c)) ->
  (forall j, (j < Z.to_nat (c_holes c))%nat -> exists t v w, nth_error lam j = Some t /\ tr_vals t = Some v /\ tr_wnd t = Some w /\ fitting (concat ess) v /\ fitting (concat ess) w) ->
  tame (concat ess) (Z.to_nat (c_holes c)) (Nyst conj lam (wtd_from_trace c) (anti_laplacian Nn H c)).
Proof.
  intros Rd B Cx So Hc Hl. split; [exact Hc|]. split; [|split; [|exact Hl]].
  - intros v Fv. cbn [ny_wtd]. exact (deriv_fit Rd B v Fv).
  - intros v w lc Fv Fw Ll. cbn [ny_anti]. exact (anti_total Rd B Nn xs v w lc Cx So Fv Fw Ll).
Qed.
Print Assumptions C55_tame.

(** Example: between the two circles of [RingCell], u = 1 and v = 0. The circulations vanish, x + iy is
    the antiderivative, and a direct solver that knows the two Neumann problems for x and y gives an
    anti-Laplacian of 1 + ln|x - xi|. *)
Example C55_example_hole : exists H c ess xi Nn, ready disc H c /\ boundary_edges H c ess /\ c_holes c = 1%Z /\ centers c [xi] /\ as_strategy Nn = Direct /\
  exists f g1 g2, laplacian (fun z => z <> xi) f g1 g2 (fun x y => 1 + logs [xi] [1] x y) /\
  anti_laplacian Nn H c (samples_of (concat ess) (fun _ => 1)) (samples_of (concat ess) (fun _ => 0)) [1] = Ok (samples_of (concat ess) (at_smp f), samples_of (concat ess) (weighted_in sN g1 g2)).
Proof.
  destruct ring_exists as (H & c & ess & xi & Rd & B & Hh & Cx & Le & Fe).
  set (X := samples_of (concat ess) (weighted_in sN (fun _ _ => 1) (fun _ _ => 0))). set (Nn := ASolver (fun w => if list_eq_dec Req_EM_T w X then Ok (samples_of (concat ess) (at_smp (fun x _ => x))) else Ok (samples_of (concat ess) (at_smp (fun _ y => y)))) Direct None).
  exists H, c, ess, xi, Nn. split; [exact Rd|]. split; [exact B|]. split; [exact Hh|]. split; [exact Cx|]. split; [reflexivity|].
  assert (Z : forall l, In l ess -> residue (fun _ _ => 1) (fun _ _ => 0) l = (0, 0)).
  { intros l Il. rewrite Forall_forall in Fe. destruct (Fe l Il) as (e & -> & _ & (Z1 & Z2) & _). unfold residue, contour_sum.
    assert (E1 : sum_list (samples_of [e] (weighted_in sT (fun _ _ => 0) (fun _ _ => 1))) = 0) by (refine (eq_trans _ Z2); unfold samples_of, contour_smp; cbn [map concat]; rewrite app_nil_r, map_map; f_equal; apply map_ext; intros s; unfold weighted_in, at_smp, velocity; cbn [snd]; ring).
    assert (E2 : sum_list (samples_of [e] (weighted_in sT (fun _ _ => 1) (fun _ _ => - 0))) = 0) by (refine (eq_trans _ Z1); unfold samples_of, contour_smp; cbn [map concat]; rewrite app_nil_r, map_map; f_equal; apply map_ext; intros s; unfold weighted_in, at_smp, velocity; cbn [fst]; ring).
    rewrite E1, E2. rewrite !Rmult_0_r. pose proof PI_RGT_0. apply f_equal2; field; lra. }
  assert (Hs : combine [xi] (map (residue (fun _ _ => 1) (fun _ _ => 0)) (tl ess)) = [(xi, (0, 0))]). { destruct ess as [|a [|b [|? ?]]]; try discriminate Le. cbn [tl map combine]. rewrite Z by (right; left; reflexivity). reflexivity. }
  assert (Po : forall x y, poles [(xi, (0, 0))] x y = 0) by (intros x y; unfold poles; cbn [map sum_list fold_right]; unfold Rdiv; ring). assert (Ph : forall x y, poles_hat [(xi, (0, 0))] x y = 0) by (intros x y; unfold poles_hat; cbn [map sum_list fold_right]; unfold Rdiv; ring).
  pose proof (C55_multiply disc Nn H c ess [xi] [1] (fun z => z <> xi) (fun _ _ => 1) (fun _ _ => 0) (fun x _ => x) (fun _ y => y) Rd B) as M. rewrite Hh in M. specialize (M ltac:(lia) Cx eq_refl).
  rewrite Hs in M. cbv zeta in M. apply M; clear M.
  - exists (fun _ _ => 0), (fun _ _ => 0). split; intros x y _; split; try apply d_const. eapply d_val; [apply d_const|ring].
  - intros z Nz. constructor; [exact Nz|constructor].
  - split; intros x y _; split; (eapply d_val; [first [apply d_id|apply d_const]|rewrite ?Po, ?Ph; ring]).
  - unfold solved. cbn [as_strategy Nn as_neumann]. destruct list_eq_dec as [_|Ne]; [reflexivity|]. exfalso. apply Ne. unfold X. apply s_ext. intros s. unfold weighted_in, at_smp. rewrite Po, Ph. ring.
  - unfold solved. cbn [as_strategy Nn as_neumann]. destruct list_eq_dec as [Eq|_]; [exfalso|reflexivity]. unfold X, samples_of in Eq. 
    destruct ess as [|a ls]; [discriminate Le|]. inversion Fe as [|? ? (e & -> & _ & _ & Ex) _]; subst. apply Exists_exists in Ex. destruct Ex as (s & Is & Ns). apply Ns.
    assert (Is' : In s (contour_smp (concat ([e] :: ls)))) by (unfold contour_smp; cbn [concat app map]; apply in_or_app; left; exact Is). pose proof (ext_in_map Eq s Is') as Q. unfold weighted_in, at_smp in Q. rewrite Po, Ph in Q. unfold outflow. cbn [fst snd]. lra.
Qed.
