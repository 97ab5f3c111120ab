(** Properties of local function spaces (C59), continued: edge functions, keys, bubbles, totality. *)
From Coq Require Import List ZArith Reals Lia Lra Bool String Permutation.
From Verif Require Import PyBase PolyModel PolySpec PolyProofs PolyProofs2 PolyProofs3 PolyProps BaryModel BarySpec BaryProofs BaryProps EdgeSpaceSpec QuadModel VertModel EdgeModel EdgeSpec EdgeProofs EdgeProofs2 EdgeProps3 ContourModel CellModel CellSpec CellProofs ContourProofs ContourProofs2 ContourProofs3 ContourProps CellProps3 InteriorProofs ContourProofs4 MeshModel TraceModel TraceSpec TraceProofs LocalModel LocalSpec LocalProofs LocalProofs2 LocalProofs3 LocalProps LocalProps3 NystromModel NystromSpec NystromProps2 EdgeSpaceModel EdgeSpaceProps GlobModel ShiftProofs LocSpaceModel LocSpaceSpec LocSpaceProofs LocSpaceProofs2 LocSpaceProofs3 LocSpaceProofs4 LocSpaceProps.
Import List ListNotations.
Open Scope R_scope.

Section Space.
Variable low_rank : nat -> matrix -> matrix.
Variable gmres : (list R -> res (list R)) -> list R -> (list R -> res (list R)) -> res (list R).
Variable set_iter : list Z -> list Z.
Let mk := mk_lspace low_rank gmres set_iter.

(** ** Edge functions *)
(** The edge functions come edge by edge: the [k]-th one of edge [j] carries the index of the edge
    and [k], is the [k]-th edge trace on edge [j] and zero on the other edges. *)
Theorem C59_edges contains H c ess given d i g L : ready contains H c -> boundary_edges H c ess -> (forall l, given = Some l -> Forall2 labelled (concat ess) l) -> NoDup (map e_idx (concat ess)) -> mk H c given (PInt d) i g = Ok L ->
  exists spaces ls, spaces_of low_rank (concat ess) d given spaces /\ l_edge L = concat ls /\ List.length ls = List.length (concat ess) /\
  forall j e b l, nth_error (concat ess) j = Some e -> nth_error spaces j = Some b -> nth_error ls j = Some l ->
    Forall2 (fun k ku => exists z p fs, e_idx e = Some z /\ is_edge_key (key_of ku) z k /\ nth_error (sp_edge b) k = Some p /\ pieces (concat ess) (snd ku) fs /\ nth_error fs j = Some (peval RS p) /\ forall m, (m < List.length (concat ess))%nat -> m <> j -> nth_error fs m = Some zero_fun)
      (seq 0 (List.length (sp_edge b))) l.
Proof.
  intros Rd B G Nd E. destruct (lspace_inv _ _ _ _ _ _ _ _ _ _ _ _ Rd B E) as (d' & N & spaces & Ed & _ & _ & Sp & _ & _ & _ & _ & Ee & _). injection Ed as <-. destruct (ready_uniform _ _ _ _ Rd B) as (F & _). pose proof (own_labelled _ _ _ _ _ G Sp) as Lb. destruct (all_labelled Lb) as [Ll _].
  destruct (edge_inv F _ _ _ _ _ Ee) as (ls & El & Fl). exists spaces, ls. split; [exact Sp|]. split; [exact El|]. split; [rewrite <- (F2_len _ _ _ Fl); exact Ll|]. intros j e b l Ej Eb Elj. pose proof (Forall2_nth _ _ _ Fl _ _ _ Eb Elj) as Q. cbn beta in Q. revert Q. apply F2_imp. intros k ku (j' & p & fs & Ep & Ek & Ej' & _ & Pc & Fj & Fo).
  destruct (Forall2_nth _ _ _ Lb _ _ _ Ej Eb) as (Ei & _ & _ & _ & Kk). destruct (Kk k _ Ek) as (z & Ez & Kz). assert (Q : j' = j). { rewrite Ei in Ej'. apply (proj1 (NoDup_nth_error (map e_idx (concat ess))) Nd); [rewrite map_length; destruct (nth_error (concat ess) j') eqn:X; [apply nth_error_Some; congruence|discriminate]|]. rewrite !nth_error_map, Ej', Ej. reflexivity. }
  subst j'. exists z, p, fs. auto 8.
Qed.
(** They vanish at the ends of all edges, up to the error of the edge spaces. *)
Theorem C59_edges_vanish contains H c ess given d i g L eps : ready contains H c -> boundary_edges H c ess -> (forall l, given = Some l -> Forall2 labelled (concat ess) l) -> NoDup (map e_idx (concat ess)) -> mk H c given (PInt d) i g = Ok L ->
  (forall spaces, spaces_of low_rank (concat ess) d given spaces -> Forall2 (vanishing eps) (concat ess) spaces) -> 0 <= eps ->
  forall ku, In ku (l_edge L) -> exists v, get_trace_values (snd ku) = Ok v /\ forall j e m s w, nth_error (concat ess) j = Some e -> is_end w e -> nth_error (e_smp e) m = Some s -> (Z.of_nat m < open_num e)%Z -> sx s = coord w ->
    exists x, nth_error v (place (concat ess) j m) = Some x /\ within eps x 0.
Proof.
  intros Rd B G Nd E Va Ee ku I. destruct (C59_edges _ _ _ _ _ _ _ _ _ Rd B G Nd E) as (spaces & ls & Sp & El & Ln & X). specialize (Va spaces Sp). rewrite El in I. apply in_concat in I. destruct I as (l & Il & Ik). apply In_nth_error in Il. destruct Il as (j0 & Ej0). pose proof (own_labelled _ _ _ _ _ G Sp) as Lb. destruct (all_labelled Lb) as [Ll _].
  assert (Lj : (j0 < List.length ls)%nat) by (apply nth_error_Some; congruence). destruct (nth_error (concat ess) j0) as [e0|] eqn:Ee0; [|apply nth_error_None in Ee0; lia]. destruct (nth_error spaces j0) as [b0|] eqn:Eb0; [|apply nth_error_None in Eb0; lia]. specialize (X j0 e0 b0 l Ee0 Eb0 Ej0).
  apply In_nth_error in Ik. destruct Ik as (k & Ek). destruct (seq_F2 _ _ _ _ X) as [_ Y]. destruct (Y k ku Ek) as (z & p & fs & _ & _ & Ep & (Lf & v & Gv & Hv) & Fj & Fo). cbn [Nat.add] in Ep. exists v. split; [exact Gv|]. intros j e m s w Ej Hw Es Lm Ec. destruct (proj2 Hv j e m Ej Lm) as (x & Ex & e' & s' & f & Ej' & Es' & Ef & Q). rewrite Ej in Ej'. injection Ej' as <-. rewrite Es in Es'. injection Es' as <-. exists x. split; [exact Ex|]. rewrite Q, Ec. cbn [coord fst snd].
  destruct (Nat.eq_dec j j0) as [->|Nj].
  - rewrite Fj in Ef. injection Ef as <-. rewrite Ee0 in Ej. injection Ej as <-. destruct (Forall2_nth _ _ _ Va _ _ _ Ee0 Eb0 (proj1 Hw) p (nth_error_In _ _ Ep)) as [V1 V2]. destruct Hw as (_ & [-> | ->]); assumption.
  - rewrite (Fo j) in Ef; [|apply nth_error_Some; congruence|exact Nj]. injection Ef as <-. unfold within, zero_fun. rewrite Rminus_0_r, Rabs_R0. exact Ee.
Qed.

(** ** Keys *)
(** Every function carries its own key. *)
Theorem C59_keys contains H c ess given d i g L : (forall l, Permutation (set_iter l) l) -> ready contains H c -> boundary_edges H c ess -> (forall l, given = Some l -> Forall2 labelled (concat ess) l) -> NoDup (map e_idx (concat ess)) -> mk H c given (PInt d) i g = Ok L ->
  NoDup (map key_of (get_basis L)).
Proof.
  intros Pm Rd B G Nd E. destruct (C59_vertex_keys _ _ _ _ _ _ _ _ _ _ _ _ Pm Rd B G E) as (Nv & Kv & _). destruct (C59_edges _ _ _ _ _ _ _ _ _ Rd B G Nd E) as (spaces & ls & Sp & El & Ln & X). pose proof (own_labelled _ _ _ _ _ G Sp) as Lb. destruct (all_labelled Lb) as [Ll _].
  destruct (lspace_inv _ _ _ _ _ _ _ _ _ _ _ _ Rd B E) as (d' & N & _ & Ed & Hd & _ & _ & _ & _ & Eb & _). injection Ed as <-. apply (bubb_inv _ _ _ _ _ _ _ Hd) in Eb.
  assert (Tv : forall k, In k (map key_of (l_vert L)) -> g_type k = "vert"%string) by (intros k I; apply in_map_iff in I; destruct I as (ku & <- & I); destruct (Kv ku I) as (w & _ & K); apply K).
  assert (Xe : forall j l, nth_error ls j = Some l -> exists e b z, nth_error (concat ess) j = Some e /\ nth_error spaces j = Some b /\ (l = [] \/ e_idx e = Some z) /\ forall k ku, nth_error l k = Some ku -> is_edge_key (key_of ku) z k).
  { intros j l Ej. assert (Lj : (j < List.length ls)%nat) by (apply nth_error_Some; congruence). destruct (nth_error (concat ess) j) as [e|] eqn:Ee; [|apply nth_error_None in Ee; lia]. destruct (nth_error spaces j) as [b|] eqn:Eb'; [|apply nth_error_None in Eb'; lia]. specialize (X j e b l Ee Eb' Ej). destruct (seq_F2 _ _ _ _ X) as [_ Y]. exists e, b. destruct l as [|ku0 l]; [exists 0%Z; split; [reflexivity|]; split; [reflexivity|]; split; [auto|]; intros [|k] ku Q; discriminate|].
    destruct (Y 0%nat ku0 eq_refl) as (z & p & fs & Ez & _). exists z. split; [reflexivity|]. split; [reflexivity|]. split; [auto|]. intros k ku Ek. destruct (Y k ku Ek) as (z' & p' & fs' & Ez' & K & _). assert (z' = z) by congruence. subst z'. exact K. }
  assert (Te : forall k, In k (map key_of (l_edge L)) -> g_type k = "edge"%string).
  { intros k I. apply in_map_iff in I. destruct I as (ku & <- & I). rewrite El in I. apply in_concat in I. destruct I as (l & Il & Ik). apply In_nth_error in Il. destruct Il as (j & Ej). destruct (Xe j l Ej) as (e & b & z & _ & _ & _ & K). apply In_nth_error in Ik. destruct Ik as (k & Ek). apply (K k ku Ek). }
  assert (Tb : forall k, In k (map key_of (l_bubb L)) -> g_type k = "bubb"%string).
  { intros k I. apply in_map_iff in I. destruct I as (ku & <- & I). apply In_nth_error in I. destruct I as (n & En). destruct (seq_F2 _ _ _ _ Eb) as [_ Y]. destruct (Y n ku En) as (K & _). apply K. }
  unfold get_basis. rewrite !map_app. apply NoDup_parts; [exact Nv|apply NoDup_parts|].
  - apply (NoDup_map_inv (fun k => (g_edge k, g_espace k))). rewrite map_map, El.
    assert (Ne : forall j j' e e', nth_error (concat ess) j = Some e -> nth_error (concat ess) j' = Some e' -> e_idx e = e_idx e' -> j = j').
    { intros j j' e e' Ej Ej' Q. apply (proj1 (NoDup_nth_error (map e_idx (concat ess))) Nd); [rewrite map_length; apply nth_error_Some; congruence|]. rewrite !nth_error_map, Ej, Ej'. cbn. congruence. }
    assert (In_key : forall s j l, nth_error ls j = Some l -> s = j -> forall x, In x (map (fun ku => (g_edge (key_of ku), g_espace (key_of ku))) l) -> exists e k, nth_error (concat ess) j = Some e /\ e_idx e = Some (fst x) /\ snd x = Z.of_nat k).
    { intros s j l Ej _ x I. destruct (Xe j l Ej) as (e & b & z & Ee & _ & [->|Ez] & K); [destruct I|]. apply in_map_iff in I. destruct I as (ku & <- & I). apply In_nth_error in I. destruct I as (k & Ek). pose proof (K k ku Ek) as (_ & _ & Q1 & Q2 & _). exists e, k. cbn [fst snd]. rewrite Q1. auto. }
    assert (P : forall l1 s, (forall j l, nth_error l1 j = Some l -> nth_error ls (s + j) = Some l) -> NoDup (map (fun ku => (g_edge (key_of ku), g_espace (key_of ku))) (concat l1))).
    { induction l1 as [|l l1 IH]; intros s Sub; [constructor|]. cbn [concat]. rewrite map_app. pose proof (Sub 0%nat l eq_refl) as E0. rewrite Nat.add_0_r in E0. apply NoDup_parts.
      - destruct (Xe _ _ E0) as (e & b & z & _ & _ & _ & K). apply (NoDup_map_inv snd). rewrite map_map. cbn [snd]. apply (NoDup_map_inv Z.to_nat). rewrite map_map.
        assert (Q : map (fun ku : kfun => Z.to_nat (g_espace (key_of ku))) l = seq 0 (List.length l)). { apply nth_error_ext'. intros k. rewrite nth_error_map. destruct (nth_error l k) as [ku|] eqn:Ek; cbn [option_map].
          - assert (Lk : (k < List.length l)%nat) by (apply nth_error_Some; congruence). rewrite nth_error_seq by exact Lk. destruct (K k ku Ek) as (_ & _ & _ & -> & _). rewrite Nat2Z.id. reflexivity.
          - symmetry. apply nth_error_None. rewrite seq_length. apply nth_error_None, Ek. }
        rewrite Q. apply seq_NoDup.
      - apply (IH (Datatypes.S s)). intros j l' Ej. rewrite Nat.add_succ_comm. exact (Sub (Datatypes.S j) l' Ej).
      - intros x I1 I2. destruct (In_key s s l E0 eq_refl x I1) as (e & k & Ee & Ei & _). rewrite map_concat in I2. apply in_concat in I2. destruct I2 as (lm & Im & Ix). apply in_map_iff in Im. destruct Im as (l' & <- & Il'). apply In_nth_error in Il'. destruct Il' as (j & Ej). pose proof (Sub (Datatypes.S j) l' Ej) as E1. destruct (In_key _ _ l' E1 eq_refl x Ix) as (e' & k' & Ee' & Ei' & _). pose proof (Ne _ _ _ _ Ee Ee' ltac:(congruence)). lia. }
    apply (P ls 0%nat). intros j l Ej. exact Ej.
  - apply (NoDup_map_inv g_bubb). rewrite map_map. apply (NoDup_map_inv Z.to_nat). rewrite map_map.
    assert (Q : map (fun ku : kfun => Z.to_nat (g_bubb (key_of ku))) (l_bubb L) = seq 0 (List.length (l_bubb L))). { destruct (seq_F2 _ _ _ _ Eb) as [_ Y]. apply nth_error_ext'. intros k. rewrite nth_error_map. destruct (nth_error (l_bubb L) k) as [ku|] eqn:Ek; cbn [option_map].
      - assert (Lk : (k < List.length (l_bubb L))%nat) by (apply nth_error_Some; congruence). rewrite nth_error_seq by exact Lk. destruct (Y k ku Ek) as ((_ & _ & _ & _ & Q) & _). unfold key_of. rewrite Q. rewrite Nat2Z.id. reflexivity.
      - symmetry. apply nth_error_None. rewrite seq_length. apply nth_error_None, Ek. }
    rewrite Q. apply seq_NoDup.
  - intros k I1 I2. pose proof (Te k I1). pose proof (Tb k I2). congruence.
  - intros k I1 I2. pose proof (Tv k I1). apply in_app_or in I2. destruct I2 as [I2|I2]; [pose proof (Te k I2)|pose proof (Tb k I2)]; congruence.
Qed.
End Space.
Print Assumptions C59_edges.
Print Assumptions C59_edges_vanish.
Print Assumptions C59_keys.
