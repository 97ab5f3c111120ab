(** Lemmas on the constructor of local function spaces. *)
From Coq Require Import List ZArith Reals Lia Lra Bool String Permutation.
From Verif Require Import PyBase PolyModel PolySpec PolyProofs BaryModel BarySpec BaryProofs BaryProps EdgeSpaceSpec QuadModel VertModel EdgeModel EdgeSpec EdgeProofs EdgeProofs2 ContourModel CellModel CellSpec CellProofs ContourProofs ContourProofs2 ContourProofs3 ContourProps InteriorProofs ContourProofs4 MeshModel TraceModel TraceSpec TraceProofs LocalModel LocalSpec LocalProofs LocalProofs2 LocalProofs3 NystromModel EdgeSpaceModel EdgeSpaceProps EdgeSpaceProps2 GlobModel LocSpaceModel LocSpaceSpec LocSpaceProofs.
Import List ListNotations.
Open Scope R_scope.

(** ** Keys *)
Lemma vert_key_ok v : exists k, vert_key v = Ok k /\ is_vert_key k v.
Proof. eexists. split; [reflexivity|]. repeat split. Qed.
Lemma edge_key_ok i n : exists k, edge_key (Some i) n = Ok k /\ is_edge_key k i n.
Proof. eexists. split; [reflexivity|]. repeat split. Qed.
Lemma edge_key_none n : edge_key None n = Err TypeError.
Proof. reflexivity. Qed.
Lemma bubb_key_ok n : exists k, bubb_key n = Ok k /\ is_bubb_key k n.
Proof. eexists. split; [reflexivity|]. repeat split. Qed.
Lemma vert_key_inv v k : vert_key v = Ok k -> is_vert_key k v.
Proof. intros E. destruct (vert_key_ok v) as (k' & E' & K). rewrite E in E'. apply Ok_inj in E'. subst. exact K. Qed.
Lemma edge_key_inv o n k : edge_key o n = Ok k -> exists i, o = Some i /\ is_edge_key k i n.
Proof. destruct o as [i|]; [|intros E; rewrite edge_key_none in E; discriminate]. intros E. destruct (edge_key_ok i n) as (k' & E' & K). rewrite E in E'. apply Ok_inj in E'. subst. eauto. Qed.
Lemma bubb_key_inv n k : bubb_key n = Ok k -> is_bubb_key k n.
Proof. intros E. destruct (bubb_key_ok n) as (k' & E' & K). rewrite E in E'. apply Ok_inj in E'. subst. exact K. Qed.

Lemma map_res_F2 {A B} (f : A -> res B) l l' : map_res f l = Ok l' -> Forall2 (fun a b => f a = Ok b) l l'.
Proof.
  revert l'. induction l as [|a l IH]; intros l' E; cbn [map_res] in E; [apply Ok_inj in E; subst; constructor|].
  destruct (f a) as [b|] eqn:Ea; [|discriminate]. cbn [bind] in E. destruct (map_res f l) as [bs|]; [|discriminate]. cbn [bind] in E. apply Ok_inj in E. subst. constructor; [exact Ea|]. apply IH. reflexivity.
Qed.
Lemma F2_map_res {A B} (f : A -> res B) l l' : Forall2 (fun a b => f a = Ok b) l l' -> map_res f l = Ok l'.
Proof. intros F. induction F as [|a b l l' E F IH]; [reflexivity|]. cbn [map_res]. rewrite E. cbn [bind]. rewrite IH. reflexivity. Qed.
Lemma F2_imp {A B} (P Q : A -> B -> Prop) l l' : (forall a b, P a b -> Q a b) -> Forall2 P l l' -> Forall2 Q l l'.
Proof. intros I F. induction F; constructor; auto. Qed.
Lemma F2_len {A B} (P : A -> B -> Prop) l l' : Forall2 P l l' -> List.length l = List.length l'.
Proof. intros F. induction F; cbn; lia. Qed.
Lemma map_res_all {A B} (f : A -> res B) l : (forall a, In a l -> exists b, f a = Ok b) -> exists l', map_res f l = Ok l'.
Proof.
  induction l as [|a l IH]; intros X; [eexists; reflexivity|]. cbn [map_res]. destruct (X a (or_introl eq_refl)) as (b & ->). cbn [bind]. destruct (IH (fun a' I => X a' (or_intror I))) as (bs & ->). cbn [bind]. eauto.
Qed.

(** ** Edge spaces *)
Section View.
Variable low_rank : nat -> matrix -> matrix.
Lemma view_int e v : well_sampled e -> List.length v = List.length (e_smp e) -> exists x, integrate_over_edge v false e = Ok x /\ ev_int (view e) v = x.
Proof.
  intros W L. unfold view. cbn [ev_int]. assert (X : exists x, integrate_over_edge v false e = Ok x).
  { destruct W as (P & N & B & _). unfold integrate_over_edge, multiply_by_dx_norm, integrate_preweighted. rewrite P, L, N, Z.eqb_refl. unfold np_mul. rewrite map_length, L, Nat.eqb_refl. cbn [bind]. rewrite map_length, combine_length, map_length, L, Nat.min_id, N, Z.eqb_refl.
    destruct (e_smp e) as [|s l]; [cbn in N; lia|]. destruct v as [|x v]; [discriminate|]. cbn [map combine]. eauto. }
  destruct X as (x & E). exists x. rewrite E. split; reflexivity.
Qed.
Lemma set_deg_inv deg d : set_deg deg = Ok d -> deg = PInt d /\ (1 <= d)%Z.
Proof. unfold set_deg. destruct deg as [z|]; [|discriminate]. cbn [as_int bind]. destruct (Z.ltb_spec z 1); [discriminate|]. intros E. apply Ok_inj in E. subst. split; [reflexivity|lia]. Qed.
Lemma espace_inv e deg b : mk_espace low_rank e deg = Ok b -> exists d s, deg = PInt d /\ (1 <= d)%Z /\ e_param e = true /\ mk_edge_space low_rank (view e) d = Ok s /\
  sp_idx b = e_idx e /\ sp_vert b = es_vert s /\ sp_edge b = es_edge s /\
  Forall2 is_vert_key (sp_vkeys b) (map vidx (if e_loop e then [] else [e_anchor e; e_endpnt e])) /\
  Forall2 (fun k key => exists i, e_idx e = Some i /\ is_edge_key key i k) (seq 0 (List.length (es_edge s))) (sp_ekeys b).
Proof.
  intros E. unfold mk_espace in E. destruct (set_deg deg) as [d|] eqn:Ed; [|discriminate]. apply set_deg_inv in Ed. destruct Ed as [-> Hd]. cbn [bind] in E. unfold get_sampled_points in E. destruct (e_param e) eqn:P; [|discriminate]. cbn [bind] in E.
  destruct (mk_edge_space low_rank (view e) d) as [s|] eqn:Es; [|discriminate]. cbn [bind] in E.
  assert (K : exists vk, (if e_loop e then Ok [] else map_res vert_key [vidx (e_anchor e); vidx (e_endpnt e)]) = Ok vk /\ Forall2 is_vert_key vk (map vidx (if e_loop e then [] else [e_anchor e; e_endpnt e]))).
  { destruct (e_loop e); [exists []; split; [reflexivity|constructor]|]. eexists. split; [reflexivity|]. repeat constructor. }
  destruct K as (vk & Ev & Fv). rewrite Ev in E. cbn [bind] in E. destruct (map_res (edge_key (e_idx e)) _) as [ek|] eqn:Ek; [|discriminate]. cbn [bind] in E. apply Ok_inj in E. subst b. exists d, s. cbn [sp_idx sp_vert sp_edge sp_vkeys sp_ekeys].
  repeat (split; [assumption || reflexivity|]). apply map_res_F2 in Ek. revert Ek. apply F2_imp. intros k key. apply edge_key_inv.
Qed.
Lemma seq_F2 {B} (P : nat -> B -> Prop) l : forall n s, Forall2 P (seq s n) l -> List.length l = n /\ forall k x, nth_error l k = Some x -> P (s + k)%nat x.
Proof.
  induction l as [|y l IH]; intros n s F; destruct n as [|n]; cbn [seq] in F; inversion F; subst.
  - split; [reflexivity|]. intros [|k] x E; discriminate.
  - destruct (IH n (S s) H4) as [L X]. split; [cbn; lia|]. intros [|k] x E; cbn [nth_error] in E; [injection E as <-; rewrite Nat.add_0_r; assumption|]. rewrite <- Nat.add_succ_comm. apply X, E.
Qed.
Lemma espace_labelled e deg b : mk_espace low_rank e deg = Ok b -> labelled e b.
Proof.
  intros E. destruct (espace_inv _ _ _ E) as (d & s & _ & _ & _ & Es & Hi & Hv & He & Fv & Fe). destruct (C17_counts _ _ _ _ Es) as (Lv & _ & _ & Le & _). destruct (seq_F2 _ _ _ _ Fe) as [L X].
  split; [exact Hi|]. split; [exact Fv|]. split; [|split].
  - rewrite Hv, Lv. rewrite (F2_len _ _ _ Fv). cbn [view ev_loop]. destruct (e_loop e); reflexivity.
  - rewrite He. exact L.
  - intros k key Ek. exact (X k key Ek).
Qed.

(** The view of an edge that runs from [a] to [z] *)
Definition runs (e : edge) (a z : pt) : Prop := option_map sx (nth_error (e_smp e) 0) = Some a /\ option_map sx (nth_error (e_smp e) (Nat.pred (List.length (e_smp e)))) = Some z.
Lemma last_irrel {A} (l : list A) : forall x d d', last (x :: l) d = last (x :: l) d'.
Proof. induction l as [|y l IH]; intros x d d'; [reflexivity|]. exact (IH y d d'). Qed.
Lemma runs_view e a z : runs e a z -> exists rest, ev_pts (view e) = a :: rest /\ last (ev_pts (view e)) a = z.
Proof.
  intros [A B]. cbn [view ev_pts]. destruct (e_smp e) as [|s l]; [discriminate|]. cbn [nth_error option_map] in A. injection A as A. cbn [map]. rewrite A. exists (map sx l). split; [reflexivity|].
  cbn [List.length Nat.pred] in B. rewrite <- A in *. clear A. revert s B. induction l as [|t l IH]; intros s B; cbn [map last nth_error List.length option_map] in *; [injection B as <-; reflexivity|].
  destruct l as [|t' l]; [cbn in *; injection B as <-; reflexivity|]. cbn [map]. cbn [map] in IH. rewrite (last_irrel _ _ _ (sx t)). exact (IH t B).
Qed.
Lemma espace_nodal e deg b : mk_espace low_rank e deg = Ok b -> e_loop e = false -> runs e (coord (e_anchor e)) (coord (e_endpnt e)) ->
  let z0 := coord (e_anchor e) in let z1 := coord (e_endpnt e) in let z2 := edge_apex z0 z1 in let h := cross3 z0 z1 z2 in
  tol <= pdist z1 z0 -> bary_sig h z2 z0 z1 -> bary_sig h z0 z1 z2 -> bary_sig h z1 z2 z0 ->
  (forall d pre l0 l1 l2, deg = PInt d -> pre_traces (view e) (Z.to_nat d) = Ok pre -> barycentric_coordinates_edge z0 z1 = Ok (l0, l1, l2) ->
     forall p, In p (retained (Z.to_nat d) pre) -> correction_kept p l0 l1 (at_ p z0) (at_ p z1)) ->
  nodal 0 e b /\ vanishing 0 e b.
Proof.
  intros E Lo Ru z0 z1 z2 h Hl S0 S1 S2 K. destruct (espace_inv _ _ _ E) as (d & s & Ed & _ & _ & Es & _ & Hv & He & _). destruct (runs_view _ _ _ Ru) as (rest & Ep & El). fold z0 in Ep, El. fold z1 in El.
  destruct (C17_conforming low_rank (view e) d s z0 rest Lo Ep) as [(v0 & v1 & Ev & A1 & A2 & A3 & A4) B]; [rewrite El; assumption..| |exact Es|].
  - rewrite El. intros pre l0 l1 l2 Epre Eb p Ip. exact (K d pre l0 l1 l2 Ed Epre Eb p Ip).
  - rewrite El in *. assert (W : forall x y : R, x = y -> within 0 x y) by (intros x y ->; unfold within; rewrite Rminus_diag_eq, Rabs_R0 by reflexivity; lra). split.
    + intros _. exists v0, v1. rewrite Hv. repeat split; try apply W; assumption.
    + intros _ p Ip. rewrite He in Ip. destruct (B p Ip). split; apply W; assumption.
Qed.
(** Without the conditions on the cutoff *)
Definition line_err (z0 z1 : pt) : R :=
  let z2 := edge_apex z0 z1 in let h := cross3 z0 z1 z2 in let err (a b z : pt) := bary_err h (fst a - fst b) (snd a - snd b) (fst z) (snd z) in
  Rmax (Rmax (err z2 z1 z0) (err z2 z1 z1)) (Rmax (err z0 z2 z0) (err z0 z2 z1)).
Lemma espace_near e deg b : mk_espace low_rank e deg = Ok b -> e_loop e = false -> runs e (coord (e_anchor e)) (coord (e_endpnt e)) ->
  tol <= pdist (coord (e_endpnt e)) (coord (e_anchor e)) -> nodal (line_err (coord (e_anchor e)) (coord (e_endpnt e))) e b.
Proof.
  intros E Lo Ru Hl _. destruct (espace_inv _ _ _ E) as (d & s & Ed & _ & _ & Es & _ & Hv & _). destruct (runs_view _ _ _ Ru) as (rest & Ep & El). set (z0 := coord (e_anchor e)) in *. set (z1 := coord (e_endpnt e)) in *.
  destruct (C17_conforming_error low_rank (view e) d s z0 rest Lo Ep) as [(v0 & v1 & Ev & A1 & A2 & A3 & A4) _]; [rewrite El; assumption|exact Es|]. rewrite El in *.
  exists v0, v1. split; [congruence|]. unfold within, at_vert. fold (at_ v0 z0). fold (at_ v0 z1). fold (at_ v1 z0). fold (at_ v1 z1). unfold line_err.
  assert (M1 := Rmax_l). assert (M2 := Rmax_r). rewrite !Rminus_0_r. repeat split; eauto 6 using Rle_trans.
Qed.
End View.
