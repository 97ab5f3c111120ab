(** Lemmas on the values and the keys of the functions of a local space. *)
From Coq Require Import List ZArith Reals Lia Lra Bool String Permutation.
From Verif Require Import PyBase PolyModel PolySpec PolyProofs BaryModel QuadModel VertModel EdgeModel EdgeSpec EdgeProofs EdgeProofs2 ContourModel CellModel CellSpec CellProofs ContourProofs ContourProofs2 ContourProofs3 ContourProps InteriorProofs ContourProofs4 MeshModel TraceModel TraceSpec TraceProofs LocalModel LocalSpec LocalProofs LocalProofs2 LocalProofs3 NystromModel EdgeSpaceModel GlobModel LocSpaceModel LocSpaceSpec LocSpaceProofs LocSpaceProofs2 LocSpaceProofs3.
Import List ListNotations.
Open Scope R_scope.

Lemma labelled_wide e b : labelled e b -> wide b.
Proof. intros (_ & _ & L & _). unfold wide. lia. Qed.
Lemma all_labelled {es spaces} : Forall2 labelled es spaces -> List.length spaces = List.length es /\ Forall wide spaces.
Proof. intros Fl. induction Fl as [|e b es l Lb Fl [L Wd]]; [split; [reflexivity|constructor]|]. split; [cbn; lia|]. constructor; [eapply labelled_wide, Lb|exact Wd]. Qed.


Lemma labelled_loop e b z f : labelled e b -> e_loop e = true -> trace_for b z f -> f = zero_fun.
Proof.
  intros (_ & Fv & Lv & _) Lo T. rewrite Lo in Fv. cbn in Fv. inversion Fv as [E|]. rewrite <- E in Lv. destruct (sp_vert b) eqn:Ev; [|discriminate]. destruct T as [(k & p & key & Ep & _)|(E' & _)]; [|exact E']. rewrite Ev in Ep. destruct k; discriminate.
Qed.
Lemma labelled_trace e b z f p q : labelled e b -> e_loop e = false -> sp_vert b = [p; q] -> trace_for b z f ->
  (vidx (e_endpnt e) = z /\ f = peval RS q) \/ (vidx (e_endpnt e) <> z /\ vidx (e_anchor e) = z /\ f = peval RS p) \/ (vidx (e_endpnt e) <> z /\ vidx (e_anchor e) <> z /\ f = zero_fun).
Proof.
  intros (_ & Fv & _) Lo Ev T. rewrite Lo in Fv. cbn [map] in Fv. assert (X : exists k0 k1, sp_vkeys b = [k0; k1] /\ is_vert_key k0 (vidx (e_anchor e)) /\ is_vert_key k1 (vidx (e_endpnt e))).
  { inversion Fv as [|k0 ? ks ? K0 Fv' E1]; subst. inversion Fv' as [|k1 ? ks' ? K1 Fv'' E2]; subst. inversion Fv''; subst. eauto. }
  destruct X as (k0 & k1 & Ek2 & K0 & K1). assert (G0 : g_vert k0 = vidx (e_anchor e)) by apply K0. assert (G1 : g_vert k1 = vidx (e_endpnt e)) by apply K1.
  unfold trace_for in T. rewrite Ev, Ek2 in T. cbn [List.length] in T. destruct T as [(k & p' & key & Ep & Ek & Ez & -> & M)|(-> & M)].
  - destruct k as [|[|k]]; cbn [nth_error] in Ep, Ek; [| |destruct k; discriminate].
    + injection Ep as <-. injection Ek as <-. right. left. pose proof (M 1%nat k1 ltac:(lia) eq_refl). split; [congruence|]. split; [congruence|reflexivity].
    + injection Ep as <-. injection Ek as <-. left. split; [congruence|reflexivity].
  - pose proof (M 0%nat k0 ltac:(lia) eq_refl). pose proof (M 1%nat k1 ltac:(lia) eq_refl). right. right. repeat split; congruence.
Qed.
(** The trace for [z] on an edge with two ends is 1 at the end [z] and 0 at the other. *)
Lemma hat_value eps e b z f : 0 <= eps -> labelled e b -> nodal eps e b -> vidx (e_anchor e) <> vidx (e_endpnt e) -> trace_for b z f -> forall w, is_end w e -> within eps (f (vx w) (vy w)) (hat z w).
Proof.
  intros Ee Lb Nb Dt T w (Lo & Hw). destruct (Nb Lo) as (p & q & Ev & A1 & A2 & A3 & A4). unfold at_vert in *. unfold hat.
  destruct (labelled_trace _ _ _ _ _ _ Lb Lo Ev T) as [(X & ->)|[(X & Y & ->)|(X & Y & ->)]].
  - destruct Hw as [->| ->]; [rewrite (proj2 (Z.eqb_neq _ _)) by congruence; exact A3|rewrite (proj2 (Z.eqb_eq _ _)) by exact X; exact A4].
  - destruct Hw as [->| ->]; [rewrite (proj2 (Z.eqb_eq _ _)) by exact Y; exact A1|rewrite (proj2 (Z.eqb_neq _ _)) by exact X; exact A2].
  - assert (E0 : (if (vidx w =? z)%Z then 1 else 0) = 0) by (destruct Hw as [->| ->]; rewrite (proj2 (Z.eqb_neq _ _)) by assumption; reflexivity). rewrite E0. unfold within, zero_fun. rewrite Rminus_0_r, Rabs_R0. exact Ee.
Qed.
(** Away from the vertex the function is zero. *)
Lemma hat_away e b z f : labelled e b -> (forall w, is_end w e -> vidx w <> z) -> trace_for b z f -> f = zero_fun.
Proof.
  intros Lb Aw T. destruct (e_loop e) eqn:Lo; [exact (labelled_loop _ _ _ _ Lb Lo T)|]. pose proof Lb as (_ & Fv & Lv & _). rewrite Lo in Fv. cbn [map] in Fv. pose proof (F2_len _ _ _ Fv) as L2. cbn [List.length] in L2. rewrite L2 in Lv. destruct (sp_vert b) as [|p [|q [|r l]]] eqn:Ev; try discriminate.
  destruct (labelled_trace _ _ _ _ _ _ Lb Lo Ev T) as [(X & _)|[(_ & X & _)|(_ & _ & X)]]; [|  |exact X].
  - destruct (Aw (e_endpnt e)); [split; auto|exact X].
  - destruct (Aw (e_anchor e)); [split; auto|exact X].
Qed.

(** ** Indices *)
Lemma vert_indices_In es z : In z (vert_indices es) <-> exists w, In w (vertices es) /\ vidx w = z.
Proof.
  unfold vert_indices. rewrite nodup_In. unfold vertices. split.
  - intros I. apply in_flat_map in I. destruct I as (e & Ie & I). destruct (e_loop e) eqn:Lo; [destruct I|]. destruct I as [<-|[<-|[]]]; eexists; (split; [|reflexivity]); apply in_flat_map; exists e; rewrite Lo; cbn; auto.
  - intros (w & Iw & <-). apply in_flat_map in Iw. destruct Iw as (e & Ie & I). apply in_flat_map. exists e. split; [exact Ie|]. destruct (e_loop e); [destruct I|]. cbn in *. destruct I as [<-|[<-|[]]]; auto.
Qed.
Lemma F2_map_eq {A B C} (P : A -> B -> Prop) (f : A -> C) (g : B -> C) l l' : (forall a b, P a b -> f a = g b) -> Forall2 P l l' -> map f l = map g l'.
Proof. intros X Fl. induction Fl; cbn; f_equal; auto. Qed.
(** Indices that tell vertices apart count positions. *)
Lemma positions_of es (l : list Z) : indexed es -> NoDup l -> (forall z, In z l <-> exists w, In w (vertices es) /\ vidx w = z) ->
  exists ps, NoDup ps /\ (forall p, In p ps <-> exists w, In w (vertices es) /\ coord w = p) /\ List.length ps = List.length l.
Proof.
  intros Ix. set (V := vertices es) in *. assert (IxV : forall v w, In v V -> In w V -> (vidx v = vidx w <-> coord v = coord w)) by exact Ix. clearbody V. clear Ix. intros ND Iff.
  assert (G : forall l, NoDup l -> (forall z, In z l -> exists w, In w V /\ vidx w = z) -> exists ws, Forall2 (fun z w => In w V /\ vidx w = z) l ws).
  { clear. induction l as [|z l IH]; intros ND X; [exists []; constructor|]. destruct (X z (or_introl eq_refl)) as (w & Hw). inversion ND; subst. destruct (IH ltac:(assumption) (fun z' I => X z' (or_intror I))) as (ws & Fw). exists (w :: ws). constructor; assumption. }
  destruct (G l ND (fun z I => proj1 (Iff z) I)) as (ws & Fw). exists (map coord ws). split; [|split].
  - clear -Fw ND IxV. induction Fw as [|z w l ws (Iw & Ew) Fw IH]; [constructor|]. inversion ND as [|? ? Nz ND']; subst. cbn [map]. constructor; [|apply IH, ND']. intros I. apply in_map_iff in I. destruct I as (w' & Ec & Iw'). apply Nz.
    assert (X : exists z', In z' l /\ In w' V /\ vidx w' = z'). { clear -Fw Iw'. induction Fw as [|z w l ws Hw Fw IH]; [destruct Iw'|]. destruct Iw' as [->|I]; [exists z; split; [left; reflexivity|exact Hw]|]. destruct (IH I) as (z' & I' & Hz). exists z'. split; [right; exact I'|exact Hz]. }
    destruct X as (z' & Iz & Iw2 & Ez). rewrite (proj2 (IxV w w' Iw Iw2)) by congruence. rewrite Ez. exact Iz.
  - intros p. split.
    + intros I. apply in_map_iff in I. destruct I as (w & Ec & Iw). exists w. split; [|exact Ec]. clear -Fw Iw. induction Fw as [|z w' l ws Hw Fw IH]; [destruct Iw|]. destruct Iw as [->|I]; [apply Hw|auto].
    + intros (w & Iw & Ec). assert (Iz : In (vidx w) l) by (apply Iff; eauto). assert (X : exists w', In w' ws /\ In w' V /\ vidx w' = vidx w). { clear -Fw Iz. induction Fw as [|z w' l ws Hw Fw IH]; [destruct Iz|]. destruct Iz as [->|I]; [exists w'; split; [left; reflexivity|exact Hw]|]. destruct (IH I) as (w2 & I' & Hz). exists w2. split; [right; exact I'|exact Hz]. }
      destruct X as (w' & Iw' & Vw' & Ev). apply in_map_iff. exists w'. split; [|exact Iw']. rewrite <- Ec. apply IxV; assumption.
  - rewrite map_length. symmetry. exact (F2_len _ _ _ Fw).
Qed.

(** ** Keys *)
Lemma NoDup_parts {A} (l1 l2 : list A) : NoDup l1 -> NoDup l2 -> (forall x, In x l1 -> ~ In x l2) -> NoDup (l1 ++ l2).
Proof. induction l1 as [|x l1 IH]; intros N1 N2 D; [exact N2|]. inversion N1; subst. cbn. constructor; [|apply IH; auto; intros y I; apply D; right; exact I]. intros I. apply in_app_or in I. destruct I as [I|I]; [contradiction|]. exact (D x (or_introl eq_refl) I). Qed.
Lemma NoDup_proj {A B} (f : A -> B) l : NoDup (map f l) -> NoDup l.
Proof. apply NoDup_map_inv. Qed.
Lemma nth_error_ext' {A} (l l' : list A) : (forall n, nth_error l n = nth_error l' n) -> l = l'.
Proof. revert l'. induction l as [|x l IH]; intros [|y l'] X; [reflexivity|discriminate (X 0%nat)|discriminate (X 0%nat)|]. pose proof (X 0%nat) as X0. injection X0 as ->. f_equal. apply IH. intros n. exact (X (S n)). Qed.
Lemma nth_error_seq n : forall s k, (k < n)%nat -> nth_error (seq s n) k = Some (s + k)%nat.
Proof. induction n as [|n IH]; intros s k L; [lia|]. destruct k as [|k]; cbn [seq nth_error]; [f_equal; lia|]. rewrite IH by lia. f_equal. lia. Qed.
Lemma map_concat {A B} (f : A -> B) ll : map f (concat ll) = concat (map (map f) ll).
Proof. induction ll as [|l ll IH]; [reflexivity|]. cbn. rewrite map_app, IH. reflexivity. Qed.
