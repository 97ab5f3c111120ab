(** Lemmas for C82: cells with rectangles or circles around them and circular holes can be built. *)
From Coq Require Import List ZArith Reals Lia Lra Psatz Bool String Permutation.
From Coquelicot Require Import Coquelicot.
From Verif Require Import PyBase PolyModel PolySpec PolyProofs BaryModel BBoxModel QuadModel QuadSpec QuadProofs QuadProps CurveModel CurveSpec CurveProps VertModel EdgeModel ContourModel CellModel CellSpec EdgeSpec EdgeProofs EdgeProofs2 EdgeProps EdgeProps3 EdgeProps4 CellProofs CellProps ContourProofs ContourProofs3 ContourProofs4 ContourProps CellProps2 CellProps3 Annulus ConvSpec ConvProofs ConvProofs2 ConvProofs3 ConvProofs4.
From Verif Require Import MeshModel MeshSpec MeshProofs MeshProps Labels PegSpec PegProofs PegProps PegProps2 ConvProps4 ConvProofs5 ConvProps5 BoardSpec BoardProofs2 BoardProofs3.
From Verif Require BoardProofs GlobProofs.
Import List ListNotations.

Lemma box_points H z x0 x1 y0 y1 i1 i2 i3 i4 p n qd F : (2 <= p)%Z -> (4 <= n)%Z -> get_quad_dict (PInt n) p = Ok qd -> bounded_by H z true (Box x0 x1 y0 y1 i1 i2 i3 i4) ->
  (forall i e, In i [i1; i2; i3; i4] -> nth_error H i = Some e -> resampled qd (sign_for z e) e (F i)) ->
  forall q, In q (concat (map (fun i => spots (F i)) [i1; i2; i3; i4])) -> outline_curve (Box x0 x1 y0 y1 i1 i2 i3 i4) q.
Proof.
  intros Hp Hn Eq (Hx & Hy & e1 & e2 & e3 & e4 & N1 & N2 & N3 & N4 & R1 & R2 & R3 & R4) Rs q. assert (T0 : 0 < TOL) by (unfold TOL; lra).
  assert (D1 : TOL <= pdist (x0, y0) (x1, y0)) by (apply pdist_flat_x, Hx). assert (D2 : TOL <= pdist (x1, y0) (x1, y1)) by (apply pdist_flat_y, Hy).
  assert (D3 : TOL <= pdist (x1, y1) (x0, y1)) by (rewrite pdist_sym; apply pdist_flat_x, Hx). assert (D4 : TOL <= pdist (x0, y1) (x0, y0)) by (rewrite pdist_sym; apply pdist_flat_y, Hy).
  destruct (runs_open _ _ _ _ p n qd _ R1 D1 Hp Hn Eq (Rs i1 e1 ltac:(cbn; tauto) N1)) as (_ & S1). destruct (runs_open _ _ _ _ p n qd _ R2 D2 Hp Hn Eq (Rs i2 e2 ltac:(cbn; tauto) N2)) as (_ & S2).
  destruct (runs_open _ _ _ _ p n qd _ R3 D3 Hp Hn Eq (Rs i3 e3 ltac:(cbn; tauto) N3)) as (_ & S3). destruct (runs_open _ _ _ _ p n qd _ R4 D4 Hp Hn Eq (Rs i4 e4 ltac:(cbn; tauto) N4)) as (_ & S4).
  cbn [map concat]. rewrite app_nil_r, !in_app_iff. unfold outline_curve. intros [I|[I|[I|I]]].
  - left. destruct (S1 q I) as (s & Hs & ->); unfold pt_add, pt_scale, pt_sub; cbn [fst snd]; split; [nra|left; ring].
  - right. destruct (S2 q I) as (s & Hs & ->); unfold pt_add, pt_scale, pt_sub; cbn [fst snd]; split; [nra|right; ring].
  - left. destruct (S3 q I) as (s & Hs & ->); unfold pt_add, pt_scale, pt_sub; cbn [fst snd]; split; [nra|right; ring].
  - right. destruct (S4 q I) as (s & Hs & ->); unfold pt_add, pt_scale, pt_sub; cbn [fst snd]; split; [nra|left; ring].
Qed.

Lemma nodup_concat_pairs {A B} (f : A -> list B) l : Forall (fun x => NoDup (f x)) l -> ForallOrdPairs (fun x y => forall q, In q (f x) -> In q (f y) -> False) l -> NoDup (concat (map f l)).
Proof.
  intros F P. induction P as [|x l Px P IH]; [constructor|]. inversion F as [|? ? F1 F2]; subst. cbn [map concat]. apply nodup_app_intro; [exact F1|apply IH, F2|]. intros q I J. apply in_concat in J. destruct J as (l' & J1 & J2). apply in_map_iff in J1. destruct J1 as (y & <- & Iy). rewrite Forall_forall in Px. exact (Px y Iy q I J2).
Qed.
Lemma pairs_F2 {A B} (P : A -> B -> Prop) (R1 : B -> B -> Prop) (R2 : A -> A -> Prop) l l' : Forall2 P l l' -> (forall a a' b b', In a l -> In a' l -> P a b -> P a' b' -> R1 b b' -> R2 a a') -> ForallOrdPairs R1 l' -> ForallOrdPairs R2 l.
Proof.
  intros F. induction F as [|x y l l' Pxy F IH]; intros Im O; [constructor|]. inversion O as [|? ? O1 O2]; subst. constructor.
  - clear O IH O2. assert (K : forall k, incl k l -> forall k', Forall2 P k k' -> Forall (R1 y) k' -> Forall (R2 x) k).
    { intros k Ik k' Fk. induction Fk as [|a b k k' Pab Fk IHk]; intros O; [constructor|]. inversion O; subst. constructor; [|apply IHk; [intros z Iz; apply Ik; right; exact Iz|assumption]]. apply (Im x a y b); auto; [left; reflexivity|right; apply Ik; left; reflexivity]. }
    exact (K l (fun z i => i) l' F O1).
  - apply IH; [|exact O2]. intros a a' b b' Ia Ia'. apply Im; right; assumption.
Qed.
Lemma pairs_self {A} (R1 : A -> A -> Prop) l : ForallOrdPairs R1 l -> forall x y l1 l2 l3, l = l1 ++ x :: l2 ++ y :: l3 -> R1 x y.
Proof.
  intros O. induction O as [|a l Fa O IH]; intros x y l1 l2 l3 E; [destruct l1; discriminate|]. destruct l1 as [|b l1]; cbn [app] in E; injection E as -> ->; [|eapply IH; reflexivity].
  rewrite Forall_forall in Fa. apply Fa. apply in_or_app. right. left. reflexivity.
Qed.

Lemma nodup_part (ks : list contour) k : In k ks -> NoDup (concat (map k_edges ks)) -> NoDup (k_edges k).
Proof.
  intros Ik. induction ks as [|k0 ks IH]; [destruct Ik|]. cbn [map concat]. intros ND. destruct Ik as [->|Ik].
  - clear -ND. induction (k_edges k) as [|x l IHl]; [constructor|]. inversion ND as [|? ? A B]; subst. constructor; [intros Ix; apply A, in_or_app; auto|auto].
  - apply IH; [exact Ik|]. clear -ND. induction (k_edges k0) as [|x l IHl]; [exact ND|]. inversion ND; subst. auto.
Qed.

Lemma F2_left {A B} (P : A -> B -> Prop) l l' : Forall2 P l l' -> forall a, In a l -> exists b, P a b.
Proof. intros F. induction F as [|x y l l' Pxy F IH]; intros a Ia; [destruct Ia|]. destruct Ia as [<-|Ia]; [eauto|apply IH, Ia]. Qed.
Lemma spots_split (F : nat -> edge) (ks : list contour) : concat (map (fun i => spots (F i)) (concat (map k_edges ks))) = concat (map (fun k => concat (map (fun i => spots (F i)) (k_edges k))) ks).
Proof. induction ks as [|k ks IH]; [reflexivity|]. cbn [map concat]. rewrite map_app, concat_app, IH. reflexivity. Qed.

Section Shape.
Variables (H : heap) (m : mesh) (p n : Z) (qd : quad * quad).
Hypothesis HP : (2 <= p)%Z.
Hypothesis Hn : (4 <= n)%Z.
Hypothesis Q : get_quad_dict (PInt n) p = Ok qd.
Variables (z : Z) (c : cell).
Hypothesis G : get_cell H m z = Ok c.

Lemma fit_samplable X k b l : map deparameterize X = H -> In k (c_comps c) -> NoDup (k_edges k) -> k_edges k = outline_ids l -> fit H z b l -> samplable within qd X k.
Proof.
  intros Dx Ik ND EK (Bd & Fi). pose proof (got_signs _ _ _ _ _ G Ik) as F2. destruct l as [x0 x1 y0 y1 i1 i2 i3 i4|ct r i]; cbn [outline_ids] in EK.
  - subst b. rewrite <- Dx in Bd. apply bare_box in Bd. eapply (box_ready X z k _ _ _ _ _ _ _ _ p n qd HP Hn Q ND EK); [| |exact Bd].
    + intros a x e Ea Ex. assert (Eh : nth_error H x = Some (deparameterize e)) by (rewrite <- Dx, nth_error_map, Ex; reflexivity). clear -F2 Ea Eh. revert a Ea. induction F2 as [|y o l l' (e' & E & Eo) F IH]; intros [|a] Ea; try discriminate; cbn in *; [injection Ea as ->; f_equal; rewrite E in Eh; injection Eh as ->; exact Eo|apply IH, Ea].
    + rewrite <- (Forall2_len _ _ _ F2), EK. reflexivity.
  - destruct Fi as (Hr & Tr). destruct Bd as (e & Ei & Re & _). pose proof (Tr e Ei) as Qt. rewrite <- Dx in Ei. destruct (bare_nth _ _ _ Ei) as (f & Ef & Eb). rewrite Eb in Re, Qt. pose proof (Forall2_len _ _ _ F2) as L. rewrite EK in L. destruct (k_orients k) as [|o [|]] eqn:EO; try discriminate.
    apply (round_ready X k i f ct r o p n qd HP Hn Q EK EO Ef); [exact Re|exact Qt|exact Hr].
Qed.
Lemma fit_spots F k b l : (forall k j i o e, In k (c_comps c) -> nth_error (k_edges k) j = Some i -> nth_error (k_orients k) j = Some o -> nth_error H i = Some e -> resampled qd o e (F i)) -> In k (c_comps c) -> k_edges k = outline_ids l -> fit H z b l ->
  NoDup (concat (map (fun i => spots (F i)) (k_edges k))) /\ forall q, In q (concat (map (fun i => spots (F i)) (k_edges k))) -> outline_curve l q.
Proof.
  intros HF Ik EK (Bd & Fi). pose proof (got_signs _ _ _ _ _ G Ik) as F2. destruct l as [x0 x1 y0 y1 i1 i2 i3 i4|ct r i]; cbn [outline_ids] in EK.
  - subst b. rewrite EK. assert (Rs : forall i e, In i [i1; i2; i3; i4] -> nth_error H i = Some e -> resampled qd (sign_for z e) e (F i)).
    { intros x e Ix Ex. rewrite <- EK in Ix. apply In_nth_error in Ix. destruct Ix as (j & Ej). assert (Eo : nth_error (k_orients k) j = Some (sign_for z e)). { clear -F2 Ej Ex. revert j Ej. induction F2 as [|y o l l' (e' & E & Eo) F IH]; intros [|a] Ea; try discriminate; cbn in *; [injection Ea as ->; f_equal; rewrite E in Ex; injection Ex as ->; exact Eo|apply IH, Ea]. } exact (HF k j x _ e Ik Ej Eo Ex). }
    split; [apply (box_open H z x0 x1 y0 y1 i1 i2 i3 i4 p n qd F HP Hn Q Bd Rs)|apply (box_points H z x0 x1 y0 y1 i1 i2 i3 i4 p n qd F HP Hn Q Bd Rs)].
  - destruct Fi as (Hr & Tr). destruct Bd as (e & Ei & Re & _). pose proof (Forall2_len _ _ _ F2) as L. rewrite EK in L |- *. destruct (k_orients k) as [|o [|]] eqn:EO; try discriminate. cbn [map concat]. rewrite app_nil_r.
    destruct (round_open e ct r o p n qd (F i) HP Hn Q Re (Tr e Ei)) as (N1 & B1). { apply (HF k 0%nat i o e Ik); [rewrite EK; reflexivity|rewrite EO; reflexivity|exact Ei]. }
    split; [exact N1|]. intros q Iq. destruct (B1 q Iq) as (t & ->). cbn [outline_curve fst snd]. pose proof (sin2_cos2 t) as SC. unfold Rsqr in SC. replace (fst ct + r * cos t - fst ct) with (r * cos t) by ring. replace (snd ct + r * sin t - snd ct) with (r * sin t) by ring. replace ((r * cos t) ^ 2 + (r * sin t) ^ 2) with (r ^ 2 * (sin t * sin t + cos t * cos t)) by ring. rewrite SC. ring.
Qed.
Lemma shaped_done outer rims : map k_edges (c_comps c) = map outline_ids (outer :: rims) -> shaped H z outer rims ->
  (forall X, map deparameterize X = H -> exists X' c', param_cell within qd false X c = Ok (X', c')) /\ BoardProofs.spread qd H c.
Proof.
  intros EK (Fo & Fr & Ap). destruct (got_made _ _ _ _ G) as (ids & Mk). pose proof (built_wf _ _ _ _ _ _ _ Mk) as W. pose proof W as (NDc & _ & _). unfold cell_edges in NDc.
  assert (F2 : Forall2 (fun k l => (k_edges k = outline_ids l /\ exists b, fit H z b l) /\ In k (c_comps c)) (c_comps c) (outer :: rims)).
  { assert (Fa : Forall (fun l => exists b, fit H z b l) (outer :: rims)) by (constructor; [eauto|revert Fr; apply Forall_impl; eauto]). clear -EK Fa. revert EK Fa. generalize (outer :: rims). intros ls. assert (K : forall ks, incl ks (c_comps c) -> forall ls, map k_edges ks = map outline_ids ls -> Forall (fun l => exists b, fit H z b l) ls -> Forall2 (fun k l => (k_edges k = outline_ids l /\ exists b, fit H z b l) /\ In k (c_comps c)) ks ls).
    { intros ks Ik. induction ks as [|k ks IH]; intros [|l l0] E Fa; try discriminate; [constructor|]. cbn [map] in E. injection E as E1 E2. inversion Fa; subst. constructor; [split; [split; assumption|apply Ik; left; reflexivity]|apply IH; [intros x Ix; apply Ik; right; exact Ix|exact E2|assumption]]. }
    intros EK Fa. apply K; [intros x Ix; exact Ix|exact EK|exact Fa]. }
  split.
  - intros X Dx. apply (ready_cell within qd (PInt n) p X c Q W); [intros E0; rewrite E0 in EK; discriminate|]. apply Forall_forall. intros k Ik.
    assert (ND : NoDup (k_edges k)) by (exact (nodup_part _ _ Ik NDc)).
    clear -F2 Ik ND Dx HP Hn Q G. assert (K : exists l, k_edges k = outline_ids l /\ exists b, fit H z b l). { destruct (F2_left _ _ _ F2 k Ik) as (l & (Pl & _)). exists l. exact Pl. }
    destruct K as (l & EK & b & Fi). exact (fit_samplable X k b l Dx Ik ND EK Fi).
  - intros F HF. unfold cell_edges. rewrite spots_split.
    apply nodup_concat_pairs.
    + apply Forall_forall. intros k Ik. assert (K : exists l, k_edges k = outline_ids l /\ exists b, fit H z b l). { destruct (F2_left _ _ _ F2 k Ik) as (l & (Pl & _)). exists l. exact Pl. }
      destruct K as (l & E1 & b & Fi). apply (fit_spots F k b l HF Ik E1 Fi).
    + apply (pairs_F2 _ apart _ _ _ F2); [|exact Ap]. intros k k' l l' _ _ ((E1 & b & Fi) & Ik) ((E1' & b' & Fi') & Ik') A q I I'. destruct (fit_spots F k b l HF Ik E1 Fi) as (_ & P1). destruct (fit_spots F k' b' l' HF Ik' E1' Fi') as (_ & P2). exact (A q (P1 q I) (P2 q I')).
Qed.
End Shape.

(** Every edge of a fitting outline can be sampled. *)
Lemma fit_param H z b l p n qd i e : (2 <= p)%Z -> (4 <= n)%Z -> get_quad_dict (PInt n) p = Ok qd -> fit H z b l -> In i (outline_ids l) -> nth_error H i = Some e -> exists e1, parameterize qd e = Ok e1.
Proof.
  intros Hp Hn Q (Bd & Fi) Ii Ei. destruct l as [x0 x1 y0 y1 i1 i2 i3 i4|ct r i0]; cbn [outline_ids In] in Ii.
  - subst b. destruct Bd as (Hx & Hy & e1 & e2 & e3 & e4 & N1 & N2 & N3 & N4 & R1 & R2 & R3 & R4).
    assert (D1 : TOL <= pdist (x0, y0) (x1, y0)) by (apply pdist_flat_x, Hx). assert (D2 : TOL <= pdist (x1, y0) (x1, y1)) by (apply pdist_flat_y, Hy).
    assert (D3 : TOL <= pdist (x1, y1) (x0, y1)) by (rewrite pdist_sym; apply pdist_flat_x, Hx). assert (D4 : TOL <= pdist (x0, y1) (x0, y0)) by (rewrite pdist_sym; apply pdist_flat_y, Hy).
    destruct Ii as [<-|[<-|[<-|[<-|[]]]]]; [rewrite N1 in Ei|rewrite N2 in Ei|rewrite N3 in Ei|rewrite N4 in Ei]; injection Ei as <-; [apply (runs_spots _ _ _ _ p n qd R1 D1 Hp Hn Q)|apply (runs_spots _ _ _ _ p n qd R2 D2 Hp Hn Q)|apply (runs_spots _ _ _ _ p n qd R3 D3 Hp Hn Q)|apply (runs_spots _ _ _ _ p n qd R4 D4 Hp Hn Q)].
  - destruct Ii as [<-|[]]. destruct Bd as (e' & Ei' & Re & _). rewrite Ei' in Ei. injection Ei as ->. destruct (smooth_positions e _ _ p n qd (round_smooth e ct r Re) Hp Hn Q) as (e1 & Ep & _). eauto.
Qed.
