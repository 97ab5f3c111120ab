(** C76 and C78: refusals of integrals over contours and of products of traces, in double precision *)
From Coq Require Import List ZArith Reals Lia.
From Flocq Require Import Core BinarySingleNaN.
From Verif Require Import PyBase BaryModel QuadModel VertModel EdgeModel EdgeSpec ContourModel CellModel CellSpec CellProofs CellProps ContourProofs ContourProofs2 ContourProofs3 ContourProofs4 ContourProps CellProofs2 Annulus CellProps2 CellProps3 PolyModel FloatIdxModel FloatPolyModel FloatErr FloatQuadModel FloatQuadSpec FloatQuadProofs FloatQuadProps FloatBdryModel FloatBdryProofs FloatBdryProps FloatInnerModel.
Import List ListNotations.
Open Scope R_scope.

(** A contour of a sampled cell refuses exactly the arrays of other sizes, with and without weights, as with real numbers. *)
Theorem C76_contour_refused contains order H c i k es w v x : ready contains H c -> nth_error (c_comps c) i = Some k -> refs H (k_edges k) es -> List.length w = List.length (contour_smp es) ->
  (d_contour order v H k = Err x <-> Z.of_nat (List.length v) <> CellSpec.total (map open_num es) /\ x = SizeMismatchError) /\
  (d_contour_weighted order w v H k = Err x <-> Z.of_nat (List.length v) <> CellSpec.total (map open_num es) /\ x = SizeMismatchError) /\
  (contour_integrate_preweighted (map val v) H k = Err x <-> Z.of_nat (List.length v) <> CellSpec.total (map open_num es) /\ x = SizeMismatchError).
Proof.
  intros Rd Ek Rf Lw. pose proof (ready_contour _ _ _ _ _ _ Rd Ek Rf) as F. pose proof F as (_ & W & EN & _).
  assert (A : forall u, d_contour order u H k = Err x <-> Z.of_nat (List.length u) <> CellSpec.total (map open_num es) /\ x = SizeMismatchError). { intros u. unfold d_contour, guard. rewrite (fresh_guard _ _ _ F), EN. cbn [attr bind]. rewrite (d_contour_steps_ok _ _ _ F). cbn [bind]. destruct (Z.eqb_spec (Z.of_nat (List.length u)) (CellSpec.total (map open_num es))) as [L|L]; split; [discriminate|intros [X _]; contradiction|intros X; injection X as <-; auto|intros [_ ->]; reflexivity]. }
  split; [apply A|]. split.
  - unfold d_contour_weighted, guard. rewrite (fresh_guard _ _ _ F), EN. cbn [attr bind]. destruct (Z.eqb_spec (Z.of_nat (List.length v)) (CellSpec.total (map open_num es))) as [L|L]; [|split; [intros X; injection X as <-; auto|intros [_ ->]; reflexivity]].
    rewrite A. unfold d_weighted. rewrite map_length, combine_length. assert (Ls : Z.of_nat (List.length (contour_smp es)) = CellSpec.total (map open_num es)) by exact (contour_smp_length es W). rewrite Lw. split; intros [X ->]; [|contradiction]. exfalso. apply X. lia.
  - destruct (Z.eqb_spec (Z.of_nat (List.length v)) (CellSpec.total (map open_num es))) as [L|L].
    + split; [|intros [X _]; contradiction]. intros X. destruct (cut_exists es (map val v) W) as (vs & Ev & C); [rewrite map_length; exact L|]. rewrite Ev, (integrate_contour_pre_ok H k es vs F C) in X. discriminate.
    + unfold contour_integrate_preweighted, guard. rewrite (fresh_guard _ _ _ F), EN. cbn [attr bind]. rewrite map_length, (proj2 (Z.eqb_neq _ _) L). split; [intros X; injection X as <-; auto|intros [_ ->]; reflexivity].
Qed.
Print Assumptions C76_contour_refused.

(** An edge with a single point has no step: its length is divided by zero. *)
Theorem C76_single_point order H k i e v n : In i (k_edges k) -> (forall j, In j (k_edges k) -> exists e, deref H j = Ok e) -> deref H i = Ok e -> e_npts e = 1%Z -> guard H k = Ok tt -> k_npts k = Some n -> Z.of_nat (List.length v) = n ->
  d_contour order v H k = Err ZeroDivisionError.
Proof.
  intros I A E N G K L. unfold d_contour. rewrite G, K. cbn [attr bind]. rewrite (proj2 (Z.eqb_eq _ _) L). replace (d_contour_steps H k) with (@Err (list (double * Z)) ZeroDivisionError); [reflexivity|]. symmetry. unfold d_contour_steps.
  induction (k_edges k) as [|j l IH]; [destruct I|]. cbn [map_res]. destruct (A j (or_introl eq_refl)) as (f & Ef). rewrite Ef. cbn [bind]. destruct (Z.eqb_spec (e_npts f - 1) 0) as [Z0|Z0]; [reflexivity|]. cbn [bind]. destruct I as [->|I]; [rewrite E in Ef; apply Ok_inj in Ef; subst; lia|]. rewrite IH; [reflexivity|exact I|]. intros; apply A; right; assumption.
Qed.
Print Assumptions C76_single_point.

(** The product of two traces is refused exactly when their sizes differ or are not that of the boundary. *)
Theorem C78_flux_refused contains order H c ess w v x : ready contains H c -> boundary_edges H c ess ->
  (d_flux order w v H c = Err x <-> (List.length w <> List.length v /\ x = BroadcastError) \/ (List.length w = List.length v /\ List.length v <> List.length (cell_smp ess) /\ x = SizeMismatchError)).
Proof.
  intros Rd B. destruct (ready_uniform _ _ _ _ Rd B) as (F & NE & _). pose proof (fresh_all _ _ _ (proj1 F)) as W. pose proof (cell_smp_len ess W) as Ls. pose proof (proj1 (proj2 (proj2 F))) as EN.
  unfold d_flux. destruct (Nat.eqb_spec (List.length w) (List.length v)) as [L|L]; [|split; [intros X; injection X as <-; auto|intros [[_ ->]|[X _]]; [reflexivity|contradiction]]].
  unfold d_cell. rewrite (comps_guard _ _ _ (proj1 F)), EN. cbn [attr bind]. rewrite (d_cell_steps_ok _ _ _ F NE). cbn [bind]. unfold d_weighted. rewrite map_length, combine_length, L, Nat.min_id.
  destruct (Z.eqb_spec (Z.of_nat (List.length v)) (CellSpec.total (map csize ess))) as [Q|Q]; split.
  - discriminate.
  - intros [[X _]|(_ & X & _)]; [contradiction|lia].
  - intros X. injection X as <-. right. split; [reflexivity|]. split; [lia|reflexivity].
  - intros [[X _]|(_ & _ & ->)]; [contradiction|reflexivity].
Qed.
Print Assumptions C78_flux_refused.

(** The annulus of C76_boundary_example *)
Example C76_refused_example order : exists H c ess k es, ready disc H c /\ boundary_edges H c ess /\ nth_error (c_comps c) 0 = Some k /\ refs H (k_edges k) es /\ d_contour order [] H k = Err SizeMismatchError /\
  d_flux order [of_int 1] [] H c = Err BroadcastError /\ d_flux order [] [] H c = Err SizeMismatchError.
Proof.
  destruct C76_boundary_example as (H & c & ess & w & x & Rd & BE & _ & _ & _ & Dx & _). destruct (ready_uniform _ _ _ _ Rd BE) as (F & NE & _). pose proof (fresh_all _ _ _ (proj1 F)) as W. pose proof (proj1 (proj2 (proj2 F))) as EN.
  assert (T : CellSpec.total (map csize ess) = 16%Z). { unfold d_cell_weighted in Dx. rewrite (comps_guard _ _ _ (proj1 F)), EN in Dx. cbn [attr bind] in Dx. rewrite repeat_length in Dx. destruct (Z.eqb_spec (Z.of_nat 16) (CellSpec.total (map csize ess))) as [T|T]; [symmetry; exact T|discriminate]. }
  pose proof (cell_smp_len ess W) as Ls. destruct ess as [|es ess]; [discriminate|]. pose proof F as (Fk & _). inversion Fk as [|k ? ks ? K Ks Ec]; subst. inversion NE as [|? ? Ne _]; subst. inversion W as [|? ? We _]; subst.
  assert (Rf : refs H (k_edges k) es) by apply K. exists H, c, (es :: ess), k, es. split; [exact Rd|]. split; [exact BE|]. split; [rewrite <- Ec; reflexivity|]. split; [exact Rf|]. split; [|split].
  - apply (proj1 (C76_contour_refused disc order H c 0 k es (repeat (of_int 1) (List.length (contour_smp es))) [] SizeMismatchError Rd ltac:(rewrite <- Ec; reflexivity) Rf (repeat_length _ _))). split; [|reflexivity]. destruct es as [|e es]; [contradiction|]. inversion We as [|? ? W0 Ws]; subst. pose proof (proj1 (open_pos e W0)). pose proof (csize_nonneg es Ws) as Cn. unfold csize in Cn. cbn [List.length map]. unfold CellSpec.total in *. cbn [fold_right]. lia.
  - apply (C78_flux_refused disc order H c (es :: ess) [of_int 1] [] BroadcastError Rd BE). left. split; [discriminate|reflexivity].
  - apply (C78_flux_refused disc order H c (es :: ess) [] [] SizeMismatchError Rd BE). right. split; [reflexivity|]. split; [cbn [List.length]; lia|reflexivity].
Qed.
(** A contour with one edge and one point *)
Example C76_single_example order : exists H k e, deref H 0 = Ok e /\ e_npts e = 1%Z /\ guard H k = Ok tt /\ k_npts k = Some 0%Z /\ d_contour order [] H k = Err ZeroDivisionError.
Proof.
  destruct (nth_error rings 0) as [e0|] eqn:E0; [|discriminate]. exists [with_param e0 true 1 []], (Contour 0 [0%nat] [1%Z] (Some 0%Z) [] None None), (with_param e0 true 1 []). split; [reflexivity|]. split; [reflexivity|]. split; [reflexivity|]. split; [reflexivity|].
  apply (C76_single_point order _ _ 0%nat (with_param e0 true 1 []) [] 0%Z); try reflexivity; [left; reflexivity|]. intros j [<-|[]]. eexists. reflexivity.
Qed.
