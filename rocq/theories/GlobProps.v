(** C47: global numbering. *)
From Coq Require Import List ZArith Reals Bool String Lia.
From Verif Require Import PyBase PolyModel VertModel EdgeModel ContourModel CellModel CellProofs MeshModel MeshSpec MeshProofs MeshProps GlobModel GlobSpec GlobProofs.
Import List ListNotations.
Open Scope Z_scope.

(** The number of each function, and the three ranges *)
Definition number (m : mesh) (per : Z) (sizes : list Z) (d : dof) : Z :=
  match d with
  | Bubble c k => per * c + k
  | VertexFun v => m_ncells m * per + match index_of v (m_verts m) 0 with Ok r => r | Err _ => 0 end
  | EdgeFun e k => m_ncells m * per + m_nverts m + zsum (firstn (Z.to_nat e) sizes) + k
  end.

Lemma bubbles_nonneg d : 1 <= d -> 0 <= bubbles d.
Proof. intros D. unfold bubbles. apply Z.div_pos; nia. Qed.
Lemma numbered H is H' m deg sizes p : mk_mesh H is = Ok (H', m) -> mk_space m deg sizes = Ok p -> Forall (Z.le 0) sizes ->
  (forall d c, exists_dof (m_ncells m) (bubbles (p_deg p)) (m_verts m) sizes d -> seen_from d c -> exists k, key_of d = Ok k /\ get_global_idx p k c = Ok (number m (bubbles (p_deg p)) sizes d)) /\
  (forall d, exists_dof (m_ncells m) (bubbles (p_deg p)) (m_verts m) sizes d -> 0 <= number m (bubbles (p_deg p)) sizes d < p_num p) /\
  (forall d d', exists_dof (m_ncells m) (bubbles (p_deg p)) (m_verts m) sizes d -> exists_dof (m_ncells m) (bubbles (p_deg p)) (m_verts m) sizes d' -> number m (bubbles (p_deg p)) sizes d = number m (bubbles (p_deg p)) sizes d' -> d = d') /\
  (forall i, 0 <= i < p_num p -> exists d, exists_dof (m_ncells m) (bubbles (p_deg p)) (m_verts m) sizes d /\ number m (bubbles (p_deg p)) sizes d = i).
Proof.
  intros M S F. destruct (C44_tables _ _ _ _ M) as (_ & _ & _ & _ & _ & _ & _ & _ & IV & _ & NC & NV). apply increasing_nodup in IV.
  destruct (mk_space_fields _ _ _ _ S) as (d0 & _ & D1 & Pm & Pd & Ps & Pv & Pe & Pb & Pn & Pc & _). rewrite Pd. pose proof (bubbles_nonneg d0 D1) as B0. set (per := bubbles d0) in *.
  assert (C0 : 0 <= m_ncells m) by lia. assert (N0 : 0 <= m_ncells m * per) by nia.
  assert (Ro : forall v, In v (m_verts m) -> exists j, nth_error (m_verts m) j = Some v /\ (j < List.length (m_verts m))%nat /\ index_of v (m_verts m) 0 = Ok (Z.of_nat j)).
  { intros v I. apply In_nth_error in I. destruct I as (j & E). exists j. split; [exact E|]. split; [apply nth_error_Some; congruence|]. rewrite (index_of_nth _ IV _ _ E). f_equal. }
  assert (Re : forall e n k, 0 <= e -> nth_error sizes (Z.to_nat e) = Some n -> 0 <= k < n -> 0 <= zsum (firstn (Z.to_nat e) sizes) + k < zsum sizes).
  { intros e n k E0 E K. pose proof (firstn_add _ F _ _ E). assert (L : (Z.to_nat e < List.length sizes)%nat) by (apply nth_error_Some; congruence). pose proof (zsum_mono _ F (Z.to_nat e) (Datatypes.S (Z.to_nat e)) ltac:(lia)). pose proof (zsum_mono _ F (Datatypes.S (Z.to_nat e)) (List.length sizes) ltac:(lia)) as X. rewrite firstn_all in X. lia. }
  assert (Rb : forall c k, 0 <= c < m_ncells m -> 0 <= k < per -> 0 <= per * c + k < m_ncells m * per) by (intros; nia).
  split; [|split; [|split]].
  - intros [c' k|v|e k] c V Sn; cbn [exists_dof seen_from number] in *.
    + subst c'. destruct V as [Vc Vk]. eexists. split; [reflexivity|]. unfold get_global_idx. cbn [g_type g_bubb String.eqb Ascii.eqb Bool.eqb]. rewrite Pb, Pd. fold (bubbles d0). fold per. specialize (Rb c k Vc Vk). unfold in_range. rewrite (proj2 (Z.leb_le 0 _)), (proj2 (Z.ltb_lt _ _)) by lia. cbn [andb]. f_equal.
    + eexists. split; [reflexivity|]. destruct (Ro v V) as (j & Ej & Lj & Ij). unfold get_global_idx. cbn [g_type g_vert String.eqb Ascii.eqb Bool.eqb]. rewrite Pm, Ij. cbn [bind]. rewrite Pb, Pv. fold per. unfold in_range. rewrite (proj2 (Z.leb_le _ _)), (proj2 (Z.ltb_lt _ _)) by lia. reflexivity.
    + destruct V as (n & E0 & E & K). eexists. split; [reflexivity|]. unfold get_global_idx. cbn [g_type g_edge g_espace String.eqb Ascii.eqb Bool.eqb]. rewrite Pc, pyget_nat by exact E0. unfold geti. rewrite cumsum_nth by (apply Nat.lt_le_incl, nth_error_Some; congruence). cbn [bind]. pose proof (Re e n k E0 E K). rewrite Pb, Pv, Pn, Pv, Pe, Pb. fold per. unfold in_range. rewrite (proj2 (Z.leb_le _ _)), (proj2 (Z.ltb_lt _ _)) by lia. reflexivity.
  - intros [c k|v|e k] V; cbn [exists_dof number] in *; rewrite Pn, Pv, Pe, Pb.
    + destruct V as [Vc Vk]. specialize (Rb c k Vc Vk). pose proof (zsum_mono _ F O (List.length sizes) ltac:(lia)) as X. rewrite firstn_all in X. lia.
    + destruct (Ro v V) as (j & Ej & Lj & Ij). rewrite Ij. pose proof (zsum_mono _ F O (List.length sizes) ltac:(lia)) as X. rewrite firstn_all in X. lia.
    + destruct V as (n & E0 & E & K). pose proof (Re e n k E0 E K). lia.
  - intros [c k|v|e k] [c' k'|v'|e' k'] V V' Q; cbn [exists_dof number] in *.
    + assert (c = c') by nia. subst c'. f_equal. lia.
    + destruct (Ro v' V') as (j & Ej & Lj & Ij). rewrite Ij in Q. pose proof (Rb c k (proj1 V) (proj2 V)). lia.
    + destruct V' as (n & E0 & E & K). pose proof (Re e' n k' E0 E K). pose proof (Rb c k (proj1 V) (proj2 V)). lia.
    + destruct (Ro v V) as (j & Ej & Lj & Ij). rewrite Ij in Q. pose proof (Rb c' k' (proj1 V') (proj2 V')). lia.
    + destruct (Ro v V) as (j & Ej & Lj & Ij), (Ro v' V') as (j' & Ej' & Lj' & Ij'). rewrite Ij, Ij' in Q. assert (j = j') by lia. subst j'. f_equal. congruence.
    + destruct (Ro v V) as (j & Ej & Lj & Ij). rewrite Ij in Q. destruct V' as (n & E0 & E & K). pose proof (Re e' n k' E0 E K). lia.
    + destruct V as (n & E0 & E & K). pose proof (Re e n k E0 E K). pose proof (Rb c' k' (proj1 V') (proj2 V')). lia.
    + destruct (Ro v' V') as (j & Ej & Lj & Ij). rewrite Ij in Q. destruct V as (n & E0 & E & K). pose proof (Re e n k E0 E K). lia.
    + destruct V as (n & E0 & E & K), V' as (n' & E0' & E' & K'). destruct (locate_inj _ F _ _ _ _ _ _ E E' K K' ltac:(lia)) as [X ->]. assert (e = e') by lia. subst e'. reflexivity.
  - intros i I. rewrite Pn, Pv, Pe, Pb in I. fold per in I. destruct (Z.lt_ge_cases i (m_ncells m * per)) as [L|G].
    + exists (Bubble (i / per) (i mod per)). cbn [exists_dof number]. assert (P : 0 < per) by (destruct (Z.eq_dec per 0) as [Z|]; [rewrite Z in *; lia|lia]). pose proof (Z.mod_pos_bound i per P). pose proof (Z.div_mod i per ltac:(lia)). split; [split; [|lia]|lia]. split; [apply Z.div_pos; lia|]. apply Z.div_lt_upper_bound; [exact P|lia].
    + destruct (Z.lt_ge_cases i (m_ncells m * per + m_nverts m)) as [L|G'].
      * destruct (nth_error (m_verts m) (Z.to_nat (i - m_ncells m * per))) as [v|] eqn:E; [|apply nth_error_None in E; lia]. exists (VertexFun v). cbn [exists_dof number]. split; [exact (nth_error_In _ _ E)|]. rewrite (index_of_nth _ IV _ _ E). lia.
      * destruct (locate sizes F (i - m_ncells m * per - m_nverts m) ltac:(lia)) as (e & n & E & B). exists (EdgeFun (Z.of_nat e) (i - m_ncells m * per - m_nverts m - zsum (firstn e sizes))). cbn [exists_dof number]. rewrite Nat2Z.id. split; [exists n; split; [lia|split; [exact E|lia]]|lia].
Qed.

(** Every function of the space gets one number, whichever cell asks; the numbers are below
    [num_funs], different for different functions, and none is left out. *)
Theorem C47_bijection H is H' m deg sizes p : mk_mesh H is = Ok (H', m) -> mk_space m deg sizes = Ok p -> Forall (Z.le 0) sizes ->
  let dofs := exists_dof (m_ncells m) (bubbles (p_deg p)) (m_verts m) sizes in
  exists num : dof -> Z,
    (forall d c, dofs d -> seen_from d c -> exists k, key_of d = Ok k /\ get_global_idx p k c = Ok (num d)) /\
    (forall d, dofs d -> 0 <= num d < p_num p) /\
    (forall d d', dofs d -> dofs d' -> num d = num d' -> d = d') /\
    (forall i, 0 <= i < p_num p -> exists d, dofs d /\ num d = i) /\
    p_num p = m_nverts m + zsum sizes + m_ncells m * bubbles (p_deg p).
Proof.
  intros M S F dofs. exists (number m (bubbles (p_deg p)) sizes). destruct (numbered _ _ _ _ _ _ _ M S F) as (A & B & C & D). split; [exact A|]. split; [exact B|]. split; [exact C|]. split; [exact D|].
  destruct (mk_space_fields _ _ _ _ S) as (d0 & _ & _ & _ & Pd & _ & Pv & Pe & Pb & Pn & _). rewrite Pn, Pv, Pe, Pb, Pd. reflexivity.
Qed.
Print Assumptions C47_bijection.
(** Two cells give the same number exactly to the same function. *)
Theorem C47_shared H is H' m deg sizes p d c k d' c' k' : mk_mesh H is = Ok (H', m) -> mk_space m deg sizes = Ok p -> Forall (Z.le 0) sizes ->
  let dofs := exists_dof (m_ncells m) (bubbles (p_deg p)) (m_verts m) sizes in
  dofs d -> seen_from d c -> key_of d = Ok k -> dofs d' -> seen_from d' c' -> key_of d' = Ok k' ->
  get_global_idx p k c = get_global_idx p k' c' <-> d = d'.
Proof.
  intros M S F dofs V Sn K V' Sn' K'. destruct (numbered _ _ _ _ _ _ _ M S F) as (A & _ & C & _). destruct (A d c V Sn) as (k1 & E1 & G1), (A d' c' V' Sn') as (k2 & E2 & G2). assert (k1 = k) by congruence. assert (k2 = k') by congruence. subst k1 k2. rewrite G1, G2. split.
  - intros Q. apply Ok_inj in Q. symmetry. apply (C d' d V' V Q).
  - intros ->. reflexivity.
Qed.
Print Assumptions C47_shared.
(** The functions that a space with [repeat]-free tables does not contain: which keys are rejected *)
Theorem C47_rejected m deg sizes p v b e k c : mk_space m deg sizes = Ok p ->
  (~ In v (m_verts m) -> exists q, key_of (VertexFun v) = Ok q /\ get_global_idx p q c = Err ValueError) /\
  (forall q, key_of (Bubble c b) = Ok q -> (~ 0 <= bubbles (p_deg p) * c + b < m_ncells m * bubbles (p_deg p)) -> get_global_idx p q c = Err IndexError) /\
  (e < - Z.of_nat (List.length sizes) - 1 \/ Z.of_nat (List.length sizes) < e -> exists q, key_of (EdgeFun e k) = Ok q /\ get_global_idx p q c = Err IndexError) /\
  (0 <= e <= Z.of_nat (List.length sizes) -> ~ 0 <= zsum (firstn (Z.to_nat e) sizes) + k < zsum sizes -> exists q, key_of (EdgeFun e k) = Ok q /\ get_global_idx p q c = Err IndexError).
Proof.
  intros S. destruct (mk_space_fields _ _ _ _ S) as (d0 & _ & D1 & Pm & Pd & Ps & Pv & Pe & Pb & Pn & Pc & _). split; [|split; [|split]].
  - intros N. eexists. split; [reflexivity|]. unfold get_global_idx. cbn [g_type g_vert String.eqb Ascii.eqb Bool.eqb]. rewrite Pm, (index_of_out _ _ N). reflexivity.
  - intros q Q N. apply Ok_inj in Q. subst q. unfold get_global_idx. cbn [g_type g_bubb String.eqb Ascii.eqb Bool.eqb]. rewrite Pb. rewrite Pd in *. fold (bubbles d0) in *. unfold in_range. destruct (Z.leb_spec 0 (0 + bubbles d0 * c + b)); cbn [andb]; [|reflexivity]. destruct (Z.ltb_spec (0 + bubbles d0 * c + b) (m_ncells m * bubbles d0)); [exfalso; apply N; lia|reflexivity].
  - intros O. eexists. split; [reflexivity|]. unfold get_global_idx. cbn [g_type g_edge g_espace String.eqb Ascii.eqb Bool.eqb]. rewrite Pc. unfold pyget. rewrite cumsum_length. destruct (Z.ltb_spec e 0) as [L|G].
    + destruct (Z.ltb_spec (e + Z.of_nat (Datatypes.S (List.length sizes))) 0); [reflexivity|lia].
    + destruct (Z.ltb_spec e 0); [lia|]. unfold geti. rewrite (proj2 (nth_error_None _ _)); [reflexivity|]. rewrite cumsum_length. lia.
  - intros E N. eexists. split; [reflexivity|]. unfold get_global_idx. cbn [g_type g_edge g_espace String.eqb Ascii.eqb Bool.eqb]. rewrite Pc, pyget_nat by lia. unfold geti. rewrite cumsum_nth by lia. cbn [bind]. rewrite Pn, Pe. unfold in_range. destruct (Z.leb_spec (p_nbubb p + p_nvert p) (p_nbubb p + p_nvert p + zsum (firstn (Z.to_nat e) sizes) + k)); cbn [andb]; [|reflexivity]. destruct (Z.ltb_spec (p_nbubb p + p_nvert p + zsum (firstn (Z.to_nat e) sizes) + k) (p_nvert p + zsum sizes + p_nbubb p)); [exfalso; apply N; lia|reflexivity].
Qed.
Print Assumptions C47_rejected.
(** Only the three types are accepted, all indices must be integers, and indices that do not belong
    to the type are replaced by -1. *)
Theorem C47_keys ty e v b s : 
  (~ In ty ["vert"; "edge"; "bubb"]%string -> mk_key ty e v b s = Err ValueError) /\
  (In ty ["vert"; "edge"; "bubb"]%string -> In PNotInt [e; v; b; s] -> mk_key ty e v b s = Err TypeError) /\
  (forall e' v' b' s', e = PInt e' -> v = PInt v' -> b = PInt b' -> s = PInt s' ->
    (ty = "vert"%string -> mk_key ty e v b s = Ok (Key "vert" v' (-1) (-1) (-1) None None)) /\
    (ty = "edge"%string -> mk_key ty e v b s = Ok (Key "edge" (-1) e' s' (-1) None None)) /\
    (ty = "bubb"%string -> mk_key ty e v b s = Ok (Key "bubb" (-1) (-1) (-1) b' None None))).
Proof.
  split; [|split].
  - intros N. unfold mk_key. destruct (String.eqb_spec ty "vert"); [subst; exfalso; apply N; cbn; auto|]. destruct (String.eqb_spec ty "edge"); [subst; exfalso; apply N; cbn; auto|]. destruct (String.eqb_spec ty "bubb"); [subst; exfalso; apply N; cbn; auto|]. reflexivity.
  - intros I J. cbn in J. destruct I as [<-|[<-|[<-|[]]]]; destruct e, v, b, s; cbn; try reflexivity; exfalso; intuition discriminate.
  - intros e' v' b' s' -> -> -> ->. repeat split; intros ->; reflexivity.
Qed.
Print Assumptions C47_keys.

(** Invalid keys that are accepted: one bubble too many is the first bubble of the next cell, one
    edge function too many is the first function of the next edge. *)
Theorem C47_invalid_refuted H is H' m deg sizes p c e n n' : mk_mesh H is = Ok (H', m) -> mk_space m deg sizes = Ok p -> Forall (Z.le 0) sizes ->
  (0 <= c -> c + 1 < m_ncells m -> 2 <= p_deg p -> exists q q' g, key_of (Bubble c (bubbles (p_deg p))) = Ok q /\ key_of (Bubble (c + 1) 0) = Ok q' /\ get_global_idx p q c = Ok g /\ get_global_idx p q' (c + 1) = Ok g) /\
  (0 <= e -> nth_error sizes (Z.to_nat e) = Some n -> nth_error sizes (Z.to_nat (e + 1)) = Some n' -> 0 < n' -> exists q q' g, key_of (EdgeFun e n) = Ok q /\ key_of (EdgeFun (e + 1) 0) = Ok q' /\ get_global_idx p q c = Ok g /\ get_global_idx p q' c = Ok g).
Proof.
  intros M S F. destruct (numbered _ _ _ _ _ _ _ M S F) as (A & _). destruct (mk_space_fields _ _ _ _ S) as (d0 & _ & D1 & Pm & Pd & Ps & Pv & Pe & Pb & Pn & Pc & _). split.
  - intros C0 C1 D2. assert (0 < bubbles (p_deg p)). { rewrite Pd in *. unfold bubbles. apply Z.div_str_pos. nia. } destruct (A (Bubble (c + 1) 0) (c + 1)) as (q' & Q' & G'); [split; lia|reflexivity|]. do 3 eexists. split; [reflexivity|]. split; [exact Q'|]. split; [|exact G'].
    unfold get_global_idx. cbn [g_type g_bubb String.eqb Ascii.eqb Bool.eqb number]. rewrite Pb. rewrite Pd in *. fold (bubbles d0). unfold in_range. rewrite (proj2 (Z.leb_le _ _)), (proj2 (Z.ltb_lt _ _)) by nia. cbn [andb]. f_equal. lia.
  - intros E0 E E1 N. destruct (A (EdgeFun (e + 1) 0) c) as (q' & Q' & G'); [exists n'; split; [lia|split; [exact E1|lia]]|exact I|]. do 3 eexists. split; [reflexivity|]. split; [exact Q'|]. split; [|exact G'].
    unfold key_of in Q'. apply Ok_inj in Q'. subst q'. unfold get_global_idx in *. cbn [g_type g_edge g_espace String.eqb Ascii.eqb Bool.eqb number] in *. rewrite Pc in *. rewrite pyget_nat in * by lia. unfold geti in *. assert (L1 : (Z.to_nat (e + 1) < List.length sizes)%nat) by (apply nth_error_Some; congruence). rewrite cumsum_nth in * by lia. cbn [bind] in *. replace (Z.to_nat (e + 1)) with (Datatypes.S (Z.to_nat e)) in * by lia. rewrite (firstn_add _ F _ _ E) in *.
    replace (p_nbubb p + p_nvert p + (zsum (firstn (Z.to_nat e) sizes) + n) + 0) with (p_nbubb p + p_nvert p + zsum (firstn (Z.to_nat e) sizes) + n) in G' by lia. exact G'.
Qed.
Print Assumptions C47_invalid_refuted.
(** The two triangles with degree 3 and two functions per edge: 6 bubbles, 4 vertices, 10 edge
    functions. Vertex 5 has the same number from both cells. The key of edge -1 is accepted: it is
    the function after the last one minus one. *)
Example C47_example : exists H' m p, mk_mesh two_triangles [0; 1; 2; 4; 3]%nat = Ok (H', m) /\ mk_space m (PInt 3) [2; 2; 2; 2; 2] = Ok p /\ p_num p = 20 /\ p_cumsum p = [0; 2; 4; 6; 8; 10] /\ p_dofs p = [[]; []] /\
  map (fun dc => do k <- key_of (fst dc); get_global_idx p k (snd dc)) [(Bubble 0 2, 0); (Bubble 1 0, 1); (VertexFun 5, 0); (VertexFun 5, 1); (VertexFun 3, 0); (EdgeFun 1 1, 0); (EdgeFun 4 1, 1); (EdgeFun 4 2, 1); (EdgeFun 6 0, 0); (EdgeFun (-1) (-1), 0); (Bubble 0 3, 0); (Bubble 1 3, 1)] =
    [Ok 2; Ok 3; Ok 9; Ok 9; Err ValueError; Ok 13; Ok 19; Err IndexError; Err IndexError; Ok 19; Ok 3; Err IndexError] /\
  mk_space m (PInt 0) [] = Err ValueError /\ mk_space m PNotInt [] = Err TypeError /\ mk_key "face" (PInt 0) (PInt 0) (PInt 0) (PInt 0) = Err ValueError.
Proof. do 3 eexists. split; [vm_compute; reflexivity|]. split; [vm_compute; reflexivity|]. repeat split; vm_compute; reflexivity. Qed.

(** [build_local_function_space] appends the numbered keys of the basis to the list of its cell and
    leaves the other lists; a second call on the same cell appends them again. *)
Lemma map_res_length {A B} (f : A -> res B) l l' : map_res f l = Ok l' -> List.length l' = List.length l.
Proof. revert l'. induction l as [|x l IH]; intros l' E; cbn in E; [apply Ok_inj in E; subst; reflexivity|]. destruct (f x); [|discriminate]. cbn in E. destruct (map_res f l) as [r|]; [|discriminate]. cbn in E. apply Ok_inj in E. subst. cbn. f_equal. apply IH. reflexivity. Qed.
Lemma map_res_nth {A B} (f : A -> res B) l l' : map_res f l = Ok l' -> forall i x, nth_error l i = Some x -> exists y, f x = Ok y /\ nth_error l' i = Some y.
Proof. revert l'. induction l as [|x l IH]; intros l' E i z N; [destruct i; discriminate|]. cbn in E. destruct (f x) as [y|] eqn:Fx; [|discriminate]. cbn in E. destruct (map_res f l) as [r|]; [|discriminate]. cbn in E. apply Ok_inj in E. subst. destruct i; [injection N as <-; eauto|]. apply (IH r eq_refl i z N). Qed.
Lemma number_key_dofs H p l abs k : number_key H (with_dofs p l) abs k = number_key H p abs k.
Proof. reflexivity. Qed.
Theorem C47_register H p c keys l : nth_error (p_dofs p) c = Some l -> forall p' ks, register H p c keys = Ok (p', ks) ->
  nth_error (p_dofs p') c = Some (l ++ ks) /\ (forall c', c' <> c -> nth_error (p_dofs p') c' = nth_error (p_dofs p) c') /\ List.length ks = List.length keys /\
  forall i k, nth_error keys i = Some k -> exists k', nth_error ks i = Some k' /\ g_type k' = g_type k /\ g_vert k' = g_vert k /\ g_edge k' = g_edge k /\ g_espace k' = g_espace k /\ g_bubb k' = g_bubb k /\
    (exists g, g_glob k' = Some g /\ get_global_idx p k (Z.of_nat c) = Ok g /\ 0 <= g) /\ exists b, g_bdry k' = Some b /\ fun_is_on_boundary H p k = Ok b.
Proof.
  intros L p' ks R. unfold register in R. destruct (map_res (number_key H p (Z.of_nat c)) keys) as [ks'|] eqn:E; [|discriminate]. cbn [bind] in R. rewrite L in R. apply Ok_inj in R. assert (Ep : p' = with_dofs p (hset (p_dofs p) c (l ++ ks'))) by congruence; assert (ks = ks') by congruence; clear R; subst p' ks. cbn [p_dofs with_dofs].
  assert (Lc : (c < List.length (p_dofs p))%nat) by (apply nth_error_Some; congruence). split; [apply hset_same, Lc|]. split; [intros c' D; apply hset_other; [exact Lc|congruence]|]. split; [exact (map_res_length _ _ _ E)|].
  intros i k N. destruct (map_res_nth _ _ _ E i k N) as (k' & Nk & Nk'). exists k'. split; [exact Nk'|]. unfold number_key in Nk. destruct (get_global_idx p k (Z.of_nat c)) as [g|]; [|discriminate]. cbn [bind] in Nk. unfold set_glob_idx in Nk. destruct (Z.ltb_spec g 0); [discriminate|]. cbn [bind] in Nk. replace (fun_is_on_boundary H p _) with (fun_is_on_boundary H p k) in Nk by reflexivity. destruct (fun_is_on_boundary H p k) as [b|]; [|discriminate]. cbn [bind] in Nk. apply Ok_inj in Nk. subst k'. cbn. repeat split; eauto.
Qed.
Print Assumptions C47_register.
Theorem C47_twice_refuted H p c keys l p' ks p'' ks' : nth_error (p_dofs p) c = Some l -> register H p c keys = Ok (p', ks) -> register H p' c keys = Ok (p'', ks') -> ks' = ks /\ nth_error (p_dofs p'') c = Some (l ++ ks ++ ks).
Proof.
  intros L R R'. destruct (C47_register _ _ _ _ _ L _ _ R) as (L' & _). destruct (C47_register _ _ _ _ _ L' _ _ R') as (L'' & _). unfold register in R, R'. rewrite L in R. rewrite L' in R'. destruct (map_res (number_key H p (Z.of_nat c)) keys) as [q|] eqn:E; [|discriminate]. cbn [bind] in R. apply Ok_inj in R. assert (Ep : p' = with_dofs p (hset (p_dofs p) c (l ++ q))) by congruence; assert (ks = q) by congruence; clear R; subst p' ks.
  replace (map_res (number_key H (with_dofs p _) (Z.of_nat c)) keys) with (map_res (number_key H p (Z.of_nat c)) keys) in R' by reflexivity. rewrite E in R'. cbn [bind] in R'. apply Ok_inj in R'. assert (ks' = q) by congruence. subst ks'. split; [reflexivity|]. rewrite L''. rewrite app_assoc. reflexivity.
Qed.
Print Assumptions C47_twice_refuted.
