(** Properties of local function spaces (C59). *)
From Coq Require Import List ZArith Reals Lia Lra Bool String Permutation.
From Verif Require Import PyBase PolyModel PolySpec PolyProofs BaryModel QuadModel VertModel EdgeModel EdgeSpec EdgeProofs EdgeProofs2 ContourModel CellModel CellSpec CellProofs ContourProofs ContourProofs2 ContourProofs3 ContourProps CellProps3 InteriorProofs ContourProofs4 MeshModel TraceModel TraceSpec TraceProofs LocalModel LocalSpec LocalProofs LocalProofs2 LocalProofs3 LocalProps LocalProps3 NystromModel NystromSpec NystromProps2 EdgeSpaceModel GlobModel LocSpaceModel LocSpaceSpec LocSpaceProofs LocSpaceProofs2 LocSpaceProofs3 LocSpaceProofs4.
Import List ListNotations.
Open Scope R_scope.

Section Space.
Variable low_rank : nat -> matrix -> matrix.
Variable gmres : (list R -> res (list R)) -> list R -> (list R -> res (list R)) -> res (list R).
Variable set_iter : list Z -> list Z.
Let mk := mk_lspace low_rank gmres set_iter.

Lemma lspace_inv contains H c ess given deg i g L : ready contains H c -> boundary_edges H c ess -> mk H c given deg i g = Ok L ->
  exists d N spaces, deg = PInt d /\ (1 <= d)%Z /\ l_deg L = d /\ spaces_of low_rank (concat ess) d given spaces /\ centroid H c = Ok (l_centroid L) /\ find_area H c = Ok (l_area L) /\
    bubb_funs N H c d (l_centroid L) (l_area L) i g = Ok (l_bubb L) /\ vert_funs set_iter N H c spaces i g = Ok (l_vert L) /\ edge_funs N H c spaces i g = Ok (l_edge L) /\
    l_nums L = (List.length (l_vert L), List.length (l_edge L), List.length (l_bubb L), List.length (l_vert L) + List.length (l_edge L) + List.length (l_bubb L))%nat.
Proof.
  intros Rd B E. destruct (ready_uniform _ _ _ _ Rd B) as (F & _). unfold mk, mk_lspace in E. inv_as E d E1. apply set_deg_inv in E1. destruct E1 as [-> Hd]. inv_as E cen E2. inv_as E area E3. inv_as E spaces E4. inv_as E V E5. cbv zeta in E. inv_as E bs E6. inv_as E vs E7. inv_as E fs E8. apply Ok_inj in E. subst L. cbn [l_deg l_centroid l_area l_bubb l_vert l_edge l_nums].
  exists d, (to_nyst gmres H c V), spaces. repeat (split; [assumption || reflexivity|]). split; [|repeat (split; [assumption || reflexivity|]); reflexivity].
  unfold spaces_of. destruct given as [l|]; [apply Ok_inj in E4; exact E4|]. rewrite (kedges_ok F) in E4. cbn [bind] in E4. apply map_res_F2, E4.
Qed.
Lemma own_labelled es d given spaces : (forall l, given = Some l -> Forall2 labelled es l) -> spaces_of low_rank es d given spaces -> Forall2 labelled es spaces.
Proof. intros G S. destruct given as [l|]; [cbn in S; subst l; apply G; reflexivity|]. cbn in S. revert S. apply F2_imp. intros e b. apply espace_labelled. Qed.

(** ** Degrees *)
Theorem C59_refused H c given i g : mk H c given PNotInt i g = Err TypeError /\ forall d, (d < 1)%Z -> mk H c given (PInt d) i g = Err ValueError.
Proof. split; [reflexivity|]. intros d Hd. unfold mk, mk_lspace, set_deg. cbn [as_int bind]. destruct (Z.ltb_spec d 1); [reflexivity|lia]. Qed.

(** ** Dimension *)
(** A space of degree [d] has [d (d - 1) / 2] bubbles, one function per distinct vertex and one per
    edge function; the stored numbers are the lengths of the lists. *)
Theorem C59_dimension contains H c ess given d i g L : (forall l, Permutation (set_iter l) l) -> ready contains H c -> boundary_edges H c ess -> (forall l, given = Some l -> Forall2 labelled (concat ess) l) ->
  mk H c given (PInt d) i g = Ok L -> exists spaces, spaces_of low_rank (concat ess) d given spaces /\
  Z.of_nat (List.length (l_bubb L)) = (d * (d - 1) / 2)%Z /\ List.length (l_edge L) = list_sum (map (fun b => List.length (sp_edge b)) spaces) /\
  (indexed (concat ess) -> exists ps, NoDup ps /\ (forall p, In p ps <-> exists w, In w (vertices (concat ess)) /\ coord w = p) /\ List.length (l_vert L) = List.length ps) /\
  let '(nv, ne, nb, n) := l_nums L in nv = List.length (l_vert L) /\ ne = List.length (l_edge L) /\ nb = List.length (l_bubb L) /\ n = List.length (get_basis L).
Proof.
  intros Pm Rd B G E. destruct (lspace_inv _ _ _ _ _ _ _ _ _ Rd B E) as (d' & N & spaces & Ed & Hd & _ & Sp & _ & _ & Eb & Ev & Ee & En). injection Ed as <-. destruct (ready_uniform _ _ _ _ Rd B) as (F & _). pose proof (own_labelled _ _ _ _ G Sp) as Lb. destruct (all_labelled Lb) as [Ll Wd].
  exists spaces. split; [exact Sp|]. split; [|split; [|split]].
  - apply (bubb_inv _ _ _ _ _ _ _ Hd), F2_len in Eb. rewrite seq_length in Eb. rewrite <- Eb. apply Z2Nat.id. apply Z.div_pos; nia.
  - destruct (edge_inv F _ _ _ _ _ Ee) as (ls & -> & Fl). clear -Fl. induction Fl as [|b l bs ls Hl Fl IH]; [reflexivity|]. cbn [concat map]. rewrite app_length, IH. apply F2_len in Hl. rewrite seq_length in Hl. rewrite <- Hl. reflexivity.
  - intros Ix. destruct (positions_of (concat ess) (vert_indices (concat ess)) Ix (NoDup_nodup _ _) (vert_indices_In _)) as (ps & N1 & I1 & L1). exists ps. split; [exact N1|]. split; [exact I1|]. rewrite L1. apply (vert_inv F) in Ev; [|lia|exact Wd]. rewrite <- (F2_len _ _ _ Ev). apply Permutation_length, Pm.
  - rewrite En. unfold get_basis. rewrite !app_length. repeat split; lia.
Qed.

(** ** Vertex functions *)
(** The keys of the vertex functions are different and are those of the ends of the edges. *)
Theorem C59_vertex_keys contains H c ess given deg i g L : (forall l, Permutation (set_iter l) l) -> ready contains H c -> boundary_edges H c ess -> (forall l, given = Some l -> Forall2 labelled (concat ess) l) ->
  mk H c given deg i g = Ok L -> NoDup (map key_of (l_vert L)) /\ (forall ku, In ku (l_vert L) -> exists w, In w (vertices (concat ess)) /\ is_vert_key (key_of ku) (vidx w)) /\
  forall w, In w (vertices (concat ess)) -> exists ku, In ku (l_vert L) /\ is_vert_key (key_of ku) (vidx w).
Proof.
  intros Pm Rd B G E. destruct (lspace_inv _ _ _ _ _ _ _ _ _ Rd B E) as (d & N & spaces & _ & _ & _ & Sp & _ & _ & _ & Ev & _). destruct (ready_uniform _ _ _ _ Rd B) as (F & _). pose proof (own_labelled _ _ _ _ G Sp) as Lb. destruct (all_labelled Lb) as [Ll Wd]. apply (vert_inv F) in Ev; [|lia|exact Wd].
  assert (Em : set_iter (vert_indices (concat ess)) = map (fun ku => g_vert (key_of ku)) (l_vert L)) by (rewrite <- (map_id (set_iter _)); eapply F2_map_eq; [|exact Ev]; intros z ku (K & _); symmetry; apply K).
  assert (Nd : NoDup (set_iter (vert_indices (concat ess)))) by (apply (Permutation_NoDup (Permutation_sym (Pm _))), NoDup_nodup). split; [|split].
  - rewrite Em, <- (map_map key_of g_vert) in Nd. exact (NoDup_map_inv _ _ Nd).
  - intros ku I. assert (X : exists z, In z (set_iter (vert_indices (concat ess))) /\ is_vert_key (key_of ku) z). { clear -Ev I. induction Ev as [|z k l l' Hk Fl IH]; [destruct I|]. destruct I as [->|I]; [exists z; split; [left; reflexivity|apply Hk]|]. destruct (IH I) as (z' & I' & K). exists z'. split; [right; exact I'|exact K]. }
    destruct X as (z & Iz & K). apply (Permutation_in _ (Pm _)), vert_indices_In in Iz. destruct Iz as (w & Iw & <-). eauto.
  - intros w Iw. assert (Iz : In (vidx w) (set_iter (vert_indices (concat ess)))) by (apply (Permutation_in _ (Permutation_sym (Pm _))), vert_indices_In; eauto). clear -Ev Iz. induction Ev as [|z k l l' Hk Fl IH]; [destruct Iz|]. destruct Iz as [->|I]; [exists k; split; [left; reflexivity|apply Hk]|]. destruct (IH I) as (ku & I' & K). exists ku. split; [right; exact I'|exact K].
Qed.

(** On each edge a vertex function is a polynomial, or zero. It is zero on edges that do not meet
    the vertex; at the ends of edges it is 1 at the vertex and 0 elsewhere, up to the error of the
    edge spaces, so two edges that meet at a vertex agree there; its boundary values at samples
    that lie at ends are those values. *)
Theorem C59_vertices contains H c ess given deg i g L eps : ready contains H c -> boundary_edges H c ess -> (forall l, given = Some l -> Forall2 labelled (concat ess) l) -> mk H c given deg i g = Ok L ->
  (forall d spaces, deg = PInt d -> spaces_of low_rank (concat ess) d given spaces -> Forall2 (nodal eps) (concat ess) spaces) -> 0 <= eps -> two_ends (concat ess) ->
  forall ku z, In ku (l_vert L) -> is_vert_key (key_of ku) z -> exists fs, pieces (concat ess) (snd ku) fs /\
  (forall j e f, nth_error (concat ess) j = Some e -> nth_error fs j = Some f -> (f = zero_fun \/ exists p, f = peval RS p) /\ ((forall w, is_end w e -> vidx w <> z) -> f = zero_fun) /\ forall w, is_end w e -> within eps (f (vx w) (vy w)) (hat z w)) /\
  (forall j e f j' e' f' w w', nth_error (concat ess) j = Some e -> nth_error fs j = Some f -> nth_error (concat ess) j' = Some e' -> nth_error fs j' = Some f' -> is_end w e -> is_end w' e' -> vidx w = vidx w' -> within (2 * eps) (f (vx w) (vy w)) (f' (vx w') (vy w'))) /\
  exists v, get_trace_values (snd ku) = Ok v /\ forall j e m s w, nth_error (concat ess) j = Some e -> is_end w e -> nth_error (e_smp e) m = Some s -> (Z.of_nat m < open_num e)%Z -> sx s = coord w ->
    exists x, nth_error v (place (concat ess) j m) = Some x /\ within eps x (hat z w).
Proof.
  intros Rd B G E Nd Ee Te ku z I K. destruct (lspace_inv _ _ _ _ _ _ _ _ _ Rd B E) as (d & N & spaces & Ed & _ & _ & Sp & _ & _ & _ & Ev & _). specialize (Nd d spaces Ed Sp). destruct (ready_uniform _ _ _ _ Rd B) as (F & _). pose proof (own_labelled _ _ _ _ G Sp) as Lb. destruct (all_labelled Lb) as [Ll Wd]. apply (vert_inv F) in Ev; [|lia|exact Wd].
  assert (X : exists z', @vert_fun ess spaces z' ku). { clear -Ev I. induction Ev as [|z k l l' Hk Fl IH]; [destruct I|]. destruct I as [->|I]; [exists z; exact Hk|]. apply IH, I. }
  destruct X as (z' & K' & fs & Pc & Tf & _). assert (z' = z) by (destruct K as (_ & <- & _); symmetry; apply K'). subst z'.
  assert (Tf' : forall j e f, nth_error (concat ess) j = Some e -> nth_error fs j = Some f -> exists b, labelled e b /\ nodal eps e b /\ trace_for b z f).
  { intros j e f Ej Ef. destruct (nth_error spaces j) as [b|] eqn:Eb; [|apply nth_error_None in Eb; assert (j < List.length (concat ess))%nat by (apply nth_error_Some; congruence); lia]. destruct (Tf j b Eb) as (f' & Ef' & T). assert (f' = f) by congruence. subst f'. exists b. split; [exact (Forall2_nth _ _ _ Lb _ _ _ Ej Eb)|]. split; [exact (Forall2_nth _ _ _ Nd _ _ _ Ej Eb)|exact T]. }
  assert (V : forall j e f w, nth_error (concat ess) j = Some e -> nth_error fs j = Some f -> is_end w e -> within eps (f (vx w) (vy w)) (hat z w)).
  { intros j e f w Ej Ef Hw. destruct (Tf' j e f Ej Ef) as (b & L1 & N1 & T). apply (hat_value eps e b z f Ee L1 N1); [|exact T|exact Hw]. apply Te; [eapply nth_error_In, Ej|apply Hw]. }
  exists fs. split; [exact Pc|]. split; [|split].
  - intros j e f Ej Ef. split; [|split; [|intros w Hw; exact (V j e f w Ej Ef Hw)]].
    + destruct (Tf' j e f Ej Ef) as (b & _ & _ & [(k & p & key & _ & _ & _ & -> & _)|(-> & _)]); eauto.
    + intros Aw. destruct (Tf' j e f Ej Ef) as (b & L1 & _ & T). exact (hat_away _ _ _ _ L1 Aw T).
  - intros j e f j' e' f' w w' Ej Ef Ej' Ef' Hw Hw' Eq. pose proof (V j e f w Ej Ef Hw) as A. pose proof (V j' e' f' w' Ej' Ef' Hw') as A'. unfold hat in *. rewrite Eq in A. unfold within in *. set (h := if (vidx w' =? z)%Z then 1 else 0) in *. replace (f (vx w) (vy w) - f' (vx w') (vy w')) with ((f (vx w) (vy w) - h) - (f' (vx w') (vy w') - h)) by ring. eapply Rle_trans; [apply Rabs_triang|]. rewrite Rabs_Ropp. lra.
  - destruct Pc as (Lf & v & Gv & Hv). exists v. split; [exact Gv|]. intros j e m s w Ej Hw Es Lm Ec. destruct (proj2 Hv j e m Ej Lm) as (x & Ex & e' & s' & f & Ej' & Es' & Ef & Q). rewrite Ej in Ej'. injection Ej' as <-. rewrite Es in Es'. injection Es' as <-. exists x. split; [exact Ex|]. rewrite Q, Ec. exact (V j e f w Ej Ef Hw).
Qed.
End Space.
Print Assumptions C59_refused.
Print Assumptions C59_dimension.
Print Assumptions C59_vertex_keys.
Print Assumptions C59_vertices.
