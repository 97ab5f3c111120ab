(** Properties of local function spaces (C59), continued: edge spaces that a mesh hands to its cells. *)
From Coq Require Import List ZArith Reals Lia Lra Bool String Permutation.
From Verif Require Import PyBase PolyModel PolySpec PolyProofs BaryModel BarySpec BaryProofs BaryProps EdgeSpaceSpec QuadModel VertModel EdgeModel EdgeSpec EdgeProofs EdgeProofs2 EdgeProps EdgeProps3 EdgeProps4 ContourModel CellModel CellSpec CellProofs ContourProofs ContourProofs2 ContourProps MeshModel TraceModel TraceSpec LocalModel LocalSpec LocalProofs LocalProofs2 NystromModel EdgeSpaceModel EdgeSpaceProps GlobModel PegProofs LocSpaceModel LocSpaceSpec LocSpaceProofs LocSpaceProofs2 LocSpaceProofs3 LocSpaceProofs4 LocSpaceProps LocSpaceProps3.
Import List ListNotations.
Open Scope R_scope.

(** ** How far the barycentric functions of an edge are from nodal *)
Lemma apex_side z0 z1 : pdist (edge_apex z0 z1) z0 = pdist z1 z0 /\ pdist (edge_apex z0 z1) z1 = pdist z1 z0.
Proof.
  assert (S3 : sqrt 3 * sqrt 3 = 3) by (apply sqrt_sqrt; lra). unfold pdist, edge_apex. cbn [fst snd]. set (r := sqrt 3) in *.
  assert (E : forall a b : R, (a / 2 - r / 2 * b) * (a / 2 - r / 2 * b) = a * a / 4 - r * a * b / 2 + (r * r) * (b * b) / 4) by (intros; field). split; f_equal.
  - transitivity ((fst z1 - fst z0) * (fst z1 - fst z0) / 4 + (snd z1 - snd z0) * (snd z1 - snd z0) / 4 + (r * r) * ((fst z1 - fst z0) * (fst z1 - fst z0) + (snd z1 - snd z0) * (snd z1 - snd z0)) / 4); [field|rewrite S3; field].
  - transitivity ((fst z1 - fst z0) * (fst z1 - fst z0) / 4 + (snd z1 - snd z0) * (snd z1 - snd z0) / 4 + (r * r) * ((fst z1 - fst z0) * (fst z1 - fst z0) + (snd z1 - snd z0) * (snd z1 - snd z0)) / 4); [field|rewrite S3; field].
Qed.
Lemma pdist_parts a b : Rabs (fst a - fst b) <= pdist a b /\ Rabs (snd a - snd b) <= pdist a b.
Proof.
  unfold pdist. rewrite <- !sqrt_Rsqr_abs. unfold Rsqr. split; apply sqrt_le_1_alt.
  - pose proof (Rle_0_sqr (snd a - snd b)) as Q. unfold Rsqr in Q. lra.
  - pose proof (Rle_0_sqr (fst a - fst b)) as Q. unfold Rsqr in Q. lra.
Qed.
(** For ends with coordinates up to [M] at distance [l]: a multiple of the cutoff 1e-12 *)
Theorem C59_line_err z0 z1 M : 0 < pdist z1 z0 -> Rabs (fst z0) <= M -> Rabs (snd z0) <= M -> Rabs (fst z1) <= M -> Rabs (snd z1) <= M ->
  let l := pdist z1 z0 in line_err z0 z1 <= tol * ((2 * l + 4 * M + 3) / (sqrt 3 / 2 * (l * l)) + 2 * M + 2).
Proof.
  intros L0 A B C D l. fold l in L0. assert (S3 : 0 < sqrt 3) by (apply sqrt_lt_R0; lra). unfold line_err. cbv zeta.
  assert (Eh : Rabs (cross3 z0 z1 (edge_apex z0 z1)) = sqrt 3 / 2 * (l * l)) by (rewrite apex_cross; fold l; apply Rabs_right, Rle_ge; apply Rmult_le_pos; nra).
  destruct (apex_side z0 z1) as [A0 A1]. fold l in A0, A1. destruct (pdist_parts (edge_apex z0 z1) z0) as [P0 P1]. destruct (pdist_parts (edge_apex z0 z1) z1) as [P2 P3]. rewrite A0 in P0, P1. rewrite A1 in P2, P3.
  assert (G : forall dx dy x y, Rabs dx <= l -> Rabs dy <= l -> Rabs x <= M -> Rabs y <= M -> bary_err (cross3 z0 z1 (edge_apex z0 z1)) dx dy x y <= tol * ((2 * l + 4 * M + 3) / (sqrt 3 / 2 * (l * l)) + 2 * M + 2)).
  { intros dx dy x y X1 X2 X3 X4. unfold bary_err. rewrite Eh. apply Rmult_le_compat_l; [left; apply tol_pos|]. assert (Q : (Rabs dx + Rabs dy + 2 * Rabs x + 2 * Rabs y + 3) / (sqrt 3 / 2 * (l * l)) <= (2 * l + 4 * M + 3) / (sqrt 3 / 2 * (l * l))) by (apply Rmult_le_compat_r; [left; apply Rinv_0_lt_compat; apply Rmult_lt_0_compat; [lra|apply Rmult_lt_0_compat; exact L0]|lra]). lra. }
  repeat apply Rmax_lub; apply G; try assumption; rewrite Rabs_minus_sym; assumption.
Qed.
Print Assumptions C59_line_err.

Section Mesh.
Variable low_rank : nat -> matrix -> matrix.

(** An edge as its constructor makes it *)
Definition new_edge (e : edge) : Prop := exists a b p n c qt i tb o, mk_edge a b p n c qt i tb o = Ok e.
(** The cutoff drops no coefficient of the functions on the sampled edge [e]. *)
Definition kept_on (e : edge) (d : Z) : Prop :=
  let z0 := coord (e_anchor e) in let z1 := coord (e_endpnt e) in let z2 := edge_apex z0 z1 in let h := cross3 z0 z1 z2 in
  bary_sig h z2 z0 z1 /\ bary_sig h z0 z1 z2 /\ bary_sig h z1 z2 z0 /\
  (forall pre l0 l1 l2, pre_traces (view e) (Z.to_nat d) = Ok pre -> barycentric_coordinates_edge z0 z1 = Ok (l0, l1, l2) ->
     forall p, In p (retained (Z.to_nat d) pre) -> correction_kept p l0 l1 (at_ p z0) (at_ p z1)).

Lemma labelled_same e e' b : e_idx e' = e_idx e -> e_loop e' = e_loop e -> e_anchor e' = e_anchor e -> e_endpnt e' = e_endpnt e -> labelled e b -> labelled e' b.
Proof. intros A B C D. unfold labelled. rewrite A, B, C, D. tauto. Qed.
Lemma nodal_same eps e e' b : e_loop e' = e_loop e -> e_anchor e' = e_anchor e -> e_endpnt e' = e_endpnt e -> nodal eps e b -> nodal eps e' b.
Proof. intros B C D. unfold nodal. rewrite B, C, D. tauto. Qed.
Lemma vanishing_same eps e e' b : e_loop e' = e_loop e -> e_anchor e' = e_anchor e -> e_endpnt e' = e_endpnt e -> vanishing eps e b -> vanishing eps e' b.
Proof. intros B C D. unfold vanishing. rewrite B, C, D. tauto. Qed.
Lemma within_le a b x y : within a x y -> a <= b -> within b x y.
Proof. unfold within. lra. Qed.
Lemma nodal_le a b e sp : a <= b -> nodal a e sp -> nodal b e sp.
Proof. intros L N Lo. destruct (N Lo) as (p & q & E & A & B & C & D). exists p, q. repeat split; try assumption; eapply within_le; eassumption. Qed.
Lemma same_after o e : let e' := if Z.eqb o (-1) then reverse_orientation e else e in e_idx e' = e_idx e /\ e_loop e' = e_loop e /\ e_anchor e' = e_anchor e /\ e_endpnt e' = e_endpnt e.
Proof. cbv zeta. unfold reverse_orientation. destruct (Z.eqb o (-1)); [destruct (e_param e)|]; repeat split. Qed.
Lemma new_runs n p qd e e1 : get_quad_dict n p = Ok qd -> new_edge e -> parameterize qd e = Ok e1 -> e_loop e1 = false ->
  runs e1 (coord (e_anchor e1)) (coord (e_endpnt e1)).
Proof.
  intros Q (a & b & pc & nc & c & qt & i & tb & o & M) P Lo.
  assert (Le : e_loop e = false).
  { destruct (parameterize_frame _ _ _ _ _ Q P) as (q & _ & E). destruct (e_loop e) eqn:El; [|reflexivity]. exfalso. rewrite E in Lo.
    assert (Dy : e_diary e = [STranslate a]). { unfold mk_edge in M. destruct (check_idx i) as [j|]; [|discriminate]. cbn [bind] in M. destruct (check_t_bounds tb) as [t|]; [|discriminate]. cbn [bind] in M. apply Ok_inj in M. subst e. unfold set_cells, set_verts in *. cbn [e_loop e_diary] in *. destruct (veqb _ _); [reflexivity|discriminate]. }
    rewrite Dy in Lo. unfold after_diary in Lo. cbn [last_join with_smp with_param e_loop] in Lo. congruence. }
  destruct (C30_fresh _ _ _ _ _ _ _ _ _ _ _ _ _ _ Q M Le P) as (-> & -> & A & B). destruct (C33_well_sampled _ _ _ _ _ Q P) as [W _]. destruct W as (_ & Ns & _). split; [exact A|]. rewrite <- B. do 2 f_equal. lia.
Qed.
Lemma mesh_edge n p qd o e e1 e2 deg b : get_quad_dict n p = Ok qd -> new_edge e -> parameterize qd e = Ok e1 -> mk_espace low_rank e1 deg = Ok b -> resampled qd o e e2 ->
  labelled e2 b /\ (e_loop e2 = false -> tol <= pdist (coord (e_endpnt e2)) (coord (e_anchor e2)) ->
    nodal (line_err (coord (e_anchor e2)) (coord (e_endpnt e2))) e2 b /\ (forall d, deg = PInt d -> kept_on e1 d -> nodal 0 e2 b /\ vanishing 0 e2 b)).
Proof.
  intros Q N P E (e1' & P' & ->). rewrite P in P'. apply Ok_inj in P'. subst e1'. destruct (same_after o e1) as (I & Lo & A & B). split; [exact (labelled_same _ _ _ I Lo A B (espace_labelled _ _ _ _ E))|]. rewrite Lo, A, B. intros L D. pose proof (new_runs _ _ _ _ _ Q N P L) as Ru. split.
  - apply (nodal_same _ e1); try assumption. apply (espace_near low_rank _ _ _ E L Ru D).
  - intros d -> (K1 & K2 & K3 & K4). destruct (espace_nodal low_rank e1 (PInt d) b E L Ru D K1 K2 K3) as [X Y]; [intros d' pre l0 l1 l2 Ed; injection Ed as <-; apply K4|]. split; [apply (nodal_same _ e1)|apply (vanishing_same _ e1)]; assumption.
Qed.

(** The edge spaces of a mesh are made from its edges before any cell. The spaces that a cell gets
    are labelled for the edges of the cell, in whatever direction these run, and nodal up to
    [line_err]; nodal with vanishing edge functions when no coefficient is dropped. With this the
    hypotheses of C59_dimension, C59_vertices, C59_edges_vanish and C59_keys hold. *)
Theorem C59_mesh n p qd edges deg all es spaces : get_quad_dict n p = Ok qd -> (forall e, In e edges -> new_edge e) -> mesh_spaces low_rank qd edges deg = Ok all -> cell_spaces all es = Ok spaces ->
  (forall e', In e' es -> exists i o e, e_idx e' = Some (Z.of_nat i) /\ nth_error edges i = Some e /\ resampled qd o e e') ->
  Forall2 labelled es spaces /\
  ((forall e, In e es -> e_loop e = false -> tol <= pdist (coord (e_endpnt e)) (coord (e_anchor e))) ->
     (forall eps, (forall e, In e es -> line_err (coord (e_anchor e)) (coord (e_endpnt e)) <= eps) -> Forall2 (nodal eps) es spaces) /\
     ((forall d e e1, deg = PInt d -> In e edges -> parameterize qd e = Ok e1 -> kept_on e1 d) -> Forall2 (nodal 0) es spaces /\ Forall2 (vanishing 0) es spaces)).
Proof.
  intros Q N Em Ec Fr. unfold mesh_spaces in Em. apply map_res_F2 in Em. unfold cell_spaces in Ec. apply map_res_F2 in Ec.
  assert (X : Forall2 (fun e' b => In e' es /\ exists o e e1, In e edges /\ parameterize qd e = Ok e1 /\ mk_espace low_rank e1 deg = Ok b /\ resampled qd o e e') es spaces).
  { clear N. assert (Y : Forall2 (fun e' b => In e' es /\ match e_idx e' with Some i => pyget all i | None => Err TypeError end = Ok b) es spaces).
    { clear -Ec. induction Ec as [|e b l l' E Ec IH]; constructor; [split; [left; reflexivity|exact E]|]. revert IH. apply F2_imp. intros x y [I J]. split; [right; exact I|exact J]. }
    revert Y. apply F2_imp. intros e' b [I E]. split; [exact I|]. destruct (Fr e' I) as (i & o & e & Ei & Ee & Rs). rewrite Ei in E. assert (Li : (i < List.length all)%nat) by (rewrite <- (F2_len _ _ _ Em); apply nth_error_Some; congruence). destruct (nth_error all i) as [b'|] eqn:Eb; [|apply nth_error_None in Eb; lia]. rewrite (PegProofs.pyget_nat _ _ _ Eb) in E. apply Ok_inj in E. subst b'.
    pose proof (Forall2_nth _ _ _ Em _ _ _ Ee Eb) as Z. cbv beta in Z. destruct (parameterize qd e) as [e1|] eqn:E1; [|discriminate]. cbn [bind] in Z. exists o, e, e1. split; [eapply nth_error_In, Ee|]. split; [exact E1|]. split; [exact Z|exact Rs]. }
  assert (Y : Forall2 (fun e' b => In e' es /\ labelled e' b /\ exists e e1 dg, deg = PInt dg /\ In e edges /\ parameterize qd e = Ok e1 /\ (e_loop e' = false -> tol <= pdist (coord (e_endpnt e')) (coord (e_anchor e')) ->
    nodal (line_err (coord (e_anchor e')) (coord (e_endpnt e'))) e' b /\ (forall d, deg = PInt d -> kept_on e1 d -> nodal 0 e' b /\ vanishing 0 e' b))) es spaces).
  { revert X. apply F2_imp. intros e' b (I & o & e & e1 & Ie & P & E & Rs). destruct (mesh_edge _ _ _ _ _ _ _ _ _ Q (N e Ie) P E Rs) as [A B]. split; [exact I|]. split; [exact A|]. destruct (espace_inv _ _ _ _ E) as (dg & _ & Ed & _). exists e, e1, dg. auto. }
  clear X. split; [revert Y; apply F2_imp; intros e' b (_ & A & _); exact A|]. intros D. split.
  - intros eps Le. revert Y. apply F2_imp. intros e' b (I & _ & e & e1 & _ & _ & _ & _ & B). intros Lo. destruct (B Lo (D e' I Lo)) as [B1 _]. exact (nodal_le _ _ _ _ (Le e' I) B1 Lo).
  - intros K. split; revert Y; apply F2_imp; intros e' b (I & _ & e & e1 & dg & Ed & Ie & P & B) Lo; destruct (B Lo (D e' I Lo)) as [_ B2]; destruct (B2 dg Ed (K dg e e1 Ed Ie P)) as [B3 B4]; [exact (B3 Lo)|exact (B4 Lo)].
Qed.
End Mesh.
Print Assumptions C59_mesh.
