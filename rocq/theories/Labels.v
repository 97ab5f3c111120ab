(** Cells whose edges join known points: the contours can be computed from labels. *)
From Coq Require Import List ZArith Reals Lia Lra Bool String Sorted Permutation.
From Verif Require Import PyBase PolyModel BaryModel QuadModel CurveModel VertModel EdgeModel ContourModel CellModel CellSpec CellProofs CellProps MeshSpec ContourProofs2.
Import List ListNotations.
Open Scope R_scope.

Lemma nodup_map_nth l (c : list nat) : NoDup l -> NoDup c -> Forall (fun k => (k < List.length l)%nat) c -> NoDup (map (fun k => nth k l 0%nat) c).
Proof.
  intros Nl. induction 1 as [|x c NI N IH]; intros F; [constructor|]. inversion F as [|? ? Fx F']; subst. cbn. constructor; [|apply IH, F']. intros I. apply in_map_iff in I. destruct I as (y & E & Iy). rewrite Forall_forall in F'. specialize (F' _ Iy). apply (NoDup_nth l 0%nat) in E; try assumption. subst. contradiction.
Qed.

Lemma nodup_left {A} (a b : list A) : NoDup (a ++ b) -> NoDup a.
Proof. induction a as [|x a IH]; intros N; [constructor|]. inversion N as [|? ? NI N']; subst. constructor; [|apply IH, N']. intros I. apply NI, in_or_app. left. exact I. Qed.

Lemma labelled H z ids es (pnt : nat -> vert) stops starts inc cs mesh rtol atol :
  (0 <= z)%Z -> 0 < rtol -> 0 < atol -> refs H ids es -> Forall (belongs z) es ->
  map (stop_pt z) es = map pnt stops -> map (start_pt z) es = map pnt starts ->
  NoDup starts -> NoDup stops -> (forall a b, In a stops -> In b starts -> near (pnt a) (pnt b) -> a = b) ->
  List.length inc = List.length es -> (forall j a, nth_error stops j = Some a -> exists i, nth_error inc j = Some i /\ nth_error starts i = Some a) -> incl starts stops ->
  contour_loop (List.length es) inc (List.length es) 0 (repeat false (List.length es)) [] = Ok cs -> NoDup (concat cs) -> Forall (fun k => (k < List.length es)%nat) (concat cs) ->
  exists c, mk_cell H z ids mesh rtol atol = Ok c /\ c_idx c = z /\ map k_edges (c_comps c) = map (map (fun k => nth k ids 0%nat)) cs /\ map k_orients (c_comps c) = map (map (fun k => nth k (signs z es) 0%Z)) cs /\
    c_holes c = (Z.of_nat (List.length cs) - 1)%Z.
Proof.
  intros Hz Hr Ha R FB EQs EQt NDt NDs Far Li Inc Sub CL NDc Bd.
  assert (Gs : forall j e, nth_error es j = Some e -> exists a, nth_error stops j = Some a /\ stop_pt z e = pnt a).
  { intros j e Ej. assert (X : nth_error (map (stop_pt z) es) j = Some (stop_pt z e)) by (rewrite nth_error_map, Ej; reflexivity). rewrite EQs, nth_error_map in X. destruct (nth_error stops j) as [a|]; [|discriminate]. injection X as X. eauto. }
  assert (Gt : forall j e, nth_error es j = Some e -> exists a, nth_error starts j = Some a /\ start_pt z e = pnt a).
  { intros j e Ej. assert (X : nth_error (map (start_pt z) es) j = Some (start_pt z e)) by (rewrite nth_error_map, Ej; reflexivity). rewrite EQt, nth_error_map in X. destruct (nth_error starts j) as [a|]; [|discriminate]. injection X as X. eauto. }
  assert (Ls : List.length stops = List.length es) by (rewrite <- (map_length pnt), <- EQs, map_length; reflexivity).
  assert (Lt : List.length starts = List.length es) by (rewrite <- (map_length pnt), <- EQt, map_length; reflexivity).
  assert (FW : forall i j e e', nth_error es i = Some e -> nth_error es j = Some e' -> follows z e e' -> nth_error stops i = nth_error starts j).
  { intros i j e e' Ei Ej F. destruct (Gs _ _ Ei) as (a & A1 & A2). destruct (Gt _ _ Ej) as (b & B1 & B2). unfold follows in F. rewrite A2, B2 in F. apply Far in F; [congruence|eapply nth_error_In, A1|eapply nth_error_In, B1]. }
  assert (BW : forall i j e e', nth_error es i = Some e -> nth_error es j = Some e' -> nth_error stops i = nth_error starts j -> follows z e e').
  { intros i j e e' Ei Ej F. destruct (Gs _ _ Ei) as (a & A1 & A2). destruct (Gt _ _ Ej) as (b & B1 & B2). unfold follows. assert (a = b) by congruence. subst b. rewrite A2, B2. apply near_refl. }
  assert (UN : forall (l : list nat) i j, NoDup l -> (i < List.length l)%nat -> nth_error l i = nth_error l j -> i = j) by (intros l i j N Hi E; rewrite NoDup_nth_error in N; apply N; assumption).
  assert (M : matched z es).
  { split; intros e I; apply In_nth_error in I; destruct I as (i & Ei).
    - destruct (Gs _ _ Ei) as (a & A1 & A2). destruct (Inc _ _ A1) as (j & _ & Ej). destruct (nth_error es j) as [e'|] eqn:Ee'; [|apply nth_error_None in Ee'; assert (j < List.length starts)%nat by (apply nth_error_Some; congruence); lia].
      exists j. split; [exists e'; split; [exact Ee'|apply (BW i j); congruence]|]. intros k (x & Ek & Fk). apply (FW i k _ _ Ei Ek) in Fk. apply (UN starts); [exact NDt|apply nth_error_Some; congruence|congruence].
    - destruct (Gt _ _ Ei) as (a & A1 & A2). assert (I : In a stops) by (apply Sub; eapply nth_error_In, A1). apply In_nth_error in I. destruct I as (j & Ej). destruct (nth_error es j) as [e'|] eqn:Ee'; [|apply nth_error_None in Ee'; assert (j < List.length stops)%nat by (apply nth_error_Some; congruence); lia].
      exists j. split; [exists e'; split; [exact Ee'|apply (BW j i); congruence]|]. intros k (x & Ek & Fk). apply (FW k i _ _ Ek Ei) in Fk. apply (UN stops); [exact NDs|apply nth_error_Some; congruence|congruence]. }
  pose proof (matched_nodup _ _ _ _ R M) as NDi. pose proof (Forall2_len _ _ _ R) as LL.
  assert (EI : incidence es (signs z es) = Ok inc).
  { destruct (incidence_ok z es M) as (inc' & Ei & Li' & _ & Si). rewrite Ei. f_equal. apply nth_error_ext'. intros j. destruct (Nat.lt_ge_cases j (List.length es)) as [L|L].
    - destruct (Si j L) as (i & e & e' & A & B & C & D & F). rewrite A. apply (FW j i _ _ C D) in F. destruct (nth_error stops j) as [a|] eqn:Ea; [|apply nth_error_None in Ea; lia]. destruct (Inc _ _ Ea) as (i' & X & Y). rewrite X. f_equal. apply (UN starts); [exact NDt|lia|congruence].
    - rewrite (proj2 (nth_error_None _ _)), (proj2 (nth_error_None _ _)); [reflexivity|lia|lia]. }
  unfold mk_cell, cell_idx. destruct (Z.ltb_spec z 0); [lia|]. cbn [bind]. rewrite (refs_deref _ _ _ R). cbn [bind]. rewrite (orientations_ok z es FB). cbn [bind]. fold (signs z es). unfold boundary_components. rewrite EI. cbn [bind]. rewrite CL. cbn [bind].
  rewrite (map_res_map _ (fun c => Contour z (map (fun k => nth k ids 0%nat) c) (map (fun k => nth k (signs z es) 0%Z) c) None [] None None)).
  - cbn [bind]. destruct (Rle_dec atol 0); [lra|]. destruct (Rle_dec rtol 0); [lra|]. eexists. split; [reflexivity|]. cbn [c_idx c_comps c_holes]. rewrite !map_map. split; [reflexivity|]. split; [apply map_ext; reflexivity|]. split; [apply map_ext; reflexivity|rewrite map_length; lia].
  - intros c Ic. assert (Bc : Forall (fun k => (k < List.length es)%nat) c) by (rewrite Forall_forall in Bd |- *; intros k Ik; apply Bd, in_concat; eauto).
    assert (Nc : NoDup c). { clear -NDc Ic. induction cs as [|d cs IH]; [destruct Ic|]. cbn in NDc. destruct Ic as [->|Ic]; [eapply nodup_left, NDc|]. apply IH; [|exact Ic]. clear -NDc. induction d as [|x d IH]; [exact NDc|]. inversion NDc; subst. auto. }
    rewrite (map_res_map (geti ids) (fun k => nth k ids 0%nat)).
    + cbn [bind]. rewrite (map_res_map (geti (signs z es)) (fun k => nth k (signs z es) 0%Z)).
      * cbn [bind]. unfold mk_contour, set_mesh_id. destruct (Z.ltb_spec z 0); [lia|]. cbn [bind]. rewrite add_edges_ok; [reflexivity| | | |intros i _ []].
        -- apply nodup_map_nth; [exact NDi|exact Nc|]. rewrite LL. exact Bc.
        -- rewrite !map_length. reflexivity.
        -- apply Forall_map, Forall_forall. intros i Ii. rewrite Forall_forall in Bc. specialize (Bc _ Ii). unfold signs. destruct (nth_error es i) as [e|] eqn:Ee; [|apply nth_error_None in Ee; lia]. rewrite (nth_error_nth _ _ 0%Z (x := if Z.eqb z (e_pos e) then 1%Z else (-1)%Z)) by (rewrite nth_error_map, Ee; reflexivity). destruct (Z.eqb z (e_pos e)); tauto.
      * intros k Ik. apply geti_ok. rewrite Forall_forall in Bc. apply nth_error_nth'. unfold signs. rewrite map_length. apply Bc, Ik.
    + intros k Ik. apply geti_ok. rewrite Forall_forall in Bc. apply nth_error_nth'. rewrite LL. apply Bc, Ik.
Qed.

(** Increasing lists with the same elements are equal. *)
Lemma sorted_eq (l l' : list nat) : StronglySorted lt l -> StronglySorted lt l' -> (forall x, In x l <-> In x l') -> l = l'.
Proof.
  intros S. revert l'. induction S as [|x l S IH F]; intros l' S' E.
  - destruct l' as [|y l']; [reflexivity|]. destruct (proj2 (E y) (or_introl eq_refl)).
  - destruct S' as [|y l' S' F']; [destruct (proj1 (E x) (or_introl eq_refl))|]. rewrite Forall_forall in F, F'.
    assert (x = y). { destruct (proj1 (E x) (or_introl eq_refl)) as [->|I]; [reflexivity|]. destruct (proj2 (E y) (or_introl eq_refl)) as [->|J]; [reflexivity|]. specialize (F' _ I). specialize (F _ J). lia. }
    subst y. f_equal. apply IH; [exact S'|]. intros u. split; intros I.
    + destruct (proj1 (E u) (or_intror I)) as [->|J]; [specialize (F _ I); lia|exact J].
    + destruct (proj2 (E u) (or_intror I)) as [->|J]; [specialize (F' _ I); lia|exact J].
Qed.
Lemma subseq_In {A} (a b : list A) : subseq a b -> forall x, In x a -> In x b.
Proof. induction 1; intros y I; [exact I|right; auto|destruct I as [->|I]; [left; reflexivity|right; auto]]. Qed.
Lemma subseq_sorted (a b : list nat) : subseq a b -> StronglySorted lt b -> StronglySorted lt a.
Proof.
  induction 1 as [|x a b S IH|x a b S IH]; intros T; [constructor| |]; inversion T as [|? ? T' F]; subst; [apply IH, T'|]. constructor; [apply IH, T'|]. rewrite Forall_forall in *. intros y I. apply F. eapply subseq_In; eassumption.
Qed.
Lemma seq_sorted n s : StronglySorted lt (seq s n).
Proof. revert s. induction n as [|n IH]; intros s; cbn; constructor; [apply IH|]. apply Forall_forall. intros x I. apply in_seq in I. lia. Qed.
