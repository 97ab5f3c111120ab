(** Lemmas on the functions of local function spaces. *)
From Coq Require Import List ZArith Reals Lia Lra Bool String Permutation.
From Verif Require Import PyBase PolyModel PolySpec PolyProofs BaryModel QuadModel VertModel EdgeModel EdgeSpec EdgeProofs EdgeProofs2 ContourModel CellModel CellSpec CellProofs ContourProofs ContourProofs2 ContourProofs3 ContourProps InteriorProofs ContourProofs4 MeshModel TraceModel TraceSpec TraceProofs LocalModel LocalSpec LocalProofs LocalProofs2 LocalProofs3 NystromModel EdgeSpaceModel GlobModel LocSpaceModel LocSpaceSpec LocSpaceProofs LocSpaceProofs2.
Import List ListNotations.
Open Scope R_scope.

Lemma find_idx_ok l i j : forall k, find_idx i l k = Ok j -> (k <= j)%nat /\ nth_error l (j - k) = Some i /\ forall m, (m < j - k)%nat -> nth_error l m <> Some i.
Proof.
  induction l as [|o l IH]; intros k E; [discriminate|]. cbn [find_idx] in E.
  assert (D : (match i, o with Some a, Some b => Z.eqb a b | None, None => true | _, _ => false end) = true <-> o = i).
  { destruct i as [a|], o as [b|]; split; intros X; try discriminate; try reflexivity; [apply Z.eqb_eq in X; congruence|injection X as ->; apply Z.eqb_refl]. }
  destruct (match i, o with Some a, Some b => Z.eqb a b | None, None => true | _, _ => false end).
  - apply Ok_inj in E. subst k. rewrite Nat.sub_diag. split; [lia|]. split; [cbn; f_equal; apply D; reflexivity|]. intros m Q; lia.
  - destruct (IH _ E) as (L & N & M). split; [lia|]. replace (j - k)%nat with (S (j - S k)) by lia. split; [exact N|]. intros [|m] Q; cbn [nth_error]; [intros X; injection X as X; apply D in X; discriminate|apply M; lia].
Qed.
Lemma find_idx_total l i : In i l -> forall k, exists j, find_idx i l k = Ok j.
Proof.
  induction l as [|o l IH]; intros I k; [destruct I|]. cbn [find_idx]. destruct I as [->|I].
  - destruct i as [a|]; [rewrite Z.eqb_refl|]; eauto.
  - match goal with |- context [if ?b then _ else _] => destruct b end; eauto.
Qed.

Section Funs.
Context {H : heap} {c : cell} {ess : list (list edge)}.
Hypothesis F : cell_fresh H c ess.
Let es := concat ess.
Let W : Forall well_sampled es := all_well F.

Lemma carr_data t fs : carr es t fs -> exists a, tr_vals t = Some a /\ boundary_data es (TTrace t) a.
Proof. intros (_ & _ & _ & a & Ea & (La & _)). exists a. split; [exact Ea|]. split; [exact La|left; exact Ea]. Qed.
Lemma pieces_of S f t i g u fs : mk_lpois S H c f (TTrace t) i g = Ok u -> carr es t fs -> pieces es u fs.
Proof.
  intros E (_ & _ & L & a & Ea & Ha). split; [exact L|]. destruct (mk_lpois_trace F _ _ _ _ _ _ E) as (v & Ev & Lv & D). exists v. split; [exact Ev|].
  assert (X : v = a). { destruct D as [D|(k & D & Fk)]; [congruence|]. rewrite Ea in D. injection D as D. subst a. destruct Ha as (La & _). unfold fitting, csize in Lv. fold es in Lv. rewrite <- La in Lv. cbn [List.length] in Lv. destruct v as [|x [|y v]]; cbn [List.length] in Lv; try lia. inversion Fk; subst. reflexivity. }
  rewrite X. exact Ha.
Qed.

(** A vertex function *)
Definition vert_fun (spaces : list espace) (v : Z) (ku : kfun) : Prop :=
  is_vert_key (fst ku) v /\ exists fs, pieces es (snd ku) fs /\ (forall j b, nth_error spaces j = Some b -> exists f, nth_error fs j = Some f /\ trace_for b v f) /\
    forall j, (List.length spaces <= j < List.length es)%nat -> nth_error fs j = Some zero_fun.
Definition wide (b : espace) : Prop := (List.length (sp_vert b) <= List.length (sp_vkeys b))%nat.

Lemma keys_map l keys : map_res vert_key l = Ok keys -> Forall2 (fun v k => is_vert_key k v) l keys.
Proof. intros E. apply map_res_F2 in E. revert E. apply F2_imp. intros a b. apply vert_key_inv. Qed.
Lemma vert_inv set_iter N spaces i g l : vert_funs set_iter N H c spaces i g = Ok l -> (List.length spaces <= List.length es)%nat -> Forall wide spaces ->
  Forall2 (vert_fun spaces) (set_iter (vert_indices es)) l.
Proof.
  intros E L Wd. unfold vert_funs in E. rewrite (kedges_ok F) in E. fold es in E. cbn [bind] in E. destruct (map_res vert_key _) as [keys|] eqn:Ek; [|discriminate]. cbn [bind] in E. apply keys_map in Ek. apply map_res_F2 in E. remember (set_iter (vert_indices es)) as vs. clear Heqvs. revert l E.
  induction Ek as [|v k vs keys K Ek IH]; intros l E; inversion E as [|? ku ? l' Ekl E']; subst; constructor; [|apply IH; assumption].
  assert (Kv : g_vert k = v) by apply K. rewrite Kv in Ekl. destruct (vert_trace_ok W spaces v L Wd) as (t & fs & Et & C & P & Z0). rewrite Et in Ekl. cbn [bind] in Ekl.
  destruct (mk_lpois N H c [] (TTrace t) i g) as [u|] eqn:Eu; [|discriminate]. cbn [bind] in Ekl. apply Ok_inj in Ekl. subst ku. split; [exact K|]. exists fs. cbn [snd]. split; [eapply pieces_of; eassumption|]. split; assumption.
Qed.
Definition solves (N : nyst) (i g : bool) : Prop := forall f t, (exists v, boundary_data es t v) -> exists u, mk_lpois N H c f t i g = Ok u.
Lemma vert_total set_iter N spaces i g : solves N i g -> (List.length spaces <= List.length es)%nat -> Forall wide spaces -> exists l, vert_funs set_iter N H c spaces i g = Ok l.
Proof.
  intros Sv L Wd. unfold vert_funs. rewrite (kedges_ok F). fold es. cbn [bind]. destruct (map_res_all vert_key (set_iter (vert_indices es))) as (keys & ->); [intros v _; destruct (vert_key_ok v) as (k & -> & _); eauto|]. cbn [bind]. apply map_res_all. intros k _.
  destruct (vert_trace_ok W spaces (g_vert k) L Wd) as (t & fs & -> & C & _). cbn [bind]. destruct (carr_data _ _ C) as (a & _ & D). destruct (Sv [] (TTrace t) (ex_intro _ a D)) as (u & ->). cbn [bind]. eauto.
Qed.

(** An edge function *)
Definition edge_fun (b : espace) (k : nat) (ku : kfun) : Prop :=
  exists j p fs, nth_error (sp_edge b) k = Some p /\ nth_error (sp_ekeys b) k = Some (fst ku) /\
    option_map e_idx (nth_error es j) = Some (sp_idx b) /\ (forall m, (m < j)%nat -> option_map e_idx (nth_error es m) <> Some (sp_idx b)) /\
    pieces es (snd ku) fs /\ nth_error fs j = Some (peval RS p) /\ forall m, (m < List.length es)%nat -> m <> j -> nth_error fs m = Some zero_fun.
Lemma geti_ok {A} (l : list A) n x : geti l n = Ok x -> nth_error l n = Some x.
Proof. unfold geti. destruct (nth_error l n); [|discriminate]. intros E. apply Ok_inj in E. subst. reflexivity. Qed.
Lemma space_inv N i g b l : space_funs N H c i g b = Ok l -> Forall2 (edge_fun b) (seq 0 (List.length (sp_edge b))) l.
Proof.
  intros E. unfold space_funs in E. rewrite (kedges_ok F) in E. fold es in E. cbn [bind] in E. destruct (find_idx _ _ 0) as [j|] eqn:Ej; [|discriminate]. cbn [bind] in E. destruct (find_idx_ok _ _ _ _ Ej) as (_ & Nj & Mj). rewrite Nat.sub_0_r in *.
  apply map_res_F2 in E. revert E. apply F2_imp. intros k ku E. destruct (geti (sp_edge b) k) as [p|] eqn:Ep; [|discriminate]. cbn [bind] in E. rewrite nth_error_map in Nj. assert (Lj : (j < List.length es)%nat) by (apply nth_error_Some; destruct (nth_error es j); [discriminate|discriminate Nj]).
  destruct (edge_trace_ok W j p Lj) as (t & fs & Et & C & Fj & Fo). rewrite Et in E. cbn [bind] in E. destruct (geti (sp_ekeys b) k) as [key|] eqn:Ek; [|discriminate]. cbn [bind] in E. destruct (mk_lpois N H c [] (TTrace t) i g) as [u|] eqn:Eu; [|discriminate]. cbn [bind] in E. apply Ok_inj in E. subst ku.
  exists j, p, fs. cbn [fst snd]. split; [apply geti_ok, Ep|]. split; [apply geti_ok, Ek|]. split; [exact Nj|]. split; [intros m Lm X; apply (Mj m Lm); rewrite nth_error_map; exact X|]. split; [eapply pieces_of; eassumption|]. split; assumption.
Qed.
Lemma space_total N i g b : solves N i g -> (exists e, In e es /\ e_idx e = sp_idx b) -> (List.length (sp_edge b) <= List.length (sp_ekeys b))%nat -> exists l, space_funs N H c i g b = Ok l.
Proof.
  intros Sv (e & Ie & Ei) L. unfold space_funs. rewrite (kedges_ok F). fold es. cbn [bind]. destruct (find_idx_total (map e_idx es) (sp_idx b)) with (k := 0%nat) as (j & Ej); [rewrite <- Ei; apply in_map, Ie|]. rewrite Ej. cbn [bind]. destruct (find_idx_ok _ _ _ _ Ej) as (_ & Nj & _). rewrite Nat.sub_0_r, nth_error_map in Nj. assert (Lj : (j < List.length es)%nat) by (apply nth_error_Some; destruct (nth_error es j); [discriminate|discriminate Nj]).
  apply map_res_all. intros k Ik. apply in_seq in Ik. unfold geti. destruct (nth_error (sp_edge b) k) as [p|] eqn:Ep; [|apply nth_error_None in Ep; lia]. cbn [bind]. destruct (edge_trace_ok W j p Lj) as (t & fs & -> & C & _). cbn [bind]. destruct (nth_error (sp_ekeys b) k) as [key|] eqn:Ek; [|apply nth_error_None in Ek; lia]. cbn [bind].
  destruct (carr_data _ _ C) as (a & _ & D). destruct (Sv [] (TTrace t) (ex_intro _ a D)) as (u & ->). cbn [bind]. eauto.
Qed.
Lemma edge_inv N spaces i g l : edge_funs N H c spaces i g = Ok l -> exists ls, l = concat ls /\ Forall2 (fun b l => Forall2 (edge_fun b) (seq 0 (List.length (sp_edge b))) l) spaces ls.
Proof.
  unfold edge_funs. destruct (map_res _ spaces) as [ls|] eqn:E; [|discriminate]. cbn [bind]. intros X. apply Ok_inj in X. exists ls. split; [exact X|]. apply map_res_F2 in E. revert E. apply F2_imp. intros b l'. apply space_inv.
Qed.
Lemma edge_total N spaces i g : solves N i g -> Forall (fun b => (exists e, In e es /\ e_idx e = sp_idx b) /\ (List.length (sp_edge b) <= List.length (sp_ekeys b))%nat) spaces -> exists l, edge_funs N H c spaces i g = Ok l.
Proof.
  intros Sv Fs. unfold edge_funs. destruct (map_res_all (space_funs N H c i g) spaces) as (ls & ->); [|cbn [bind]; eauto]. intros b Ib. rewrite Forall_forall in Fs. destruct (Fs b Ib). apply space_total; assumption.
Qed.

(** A bubble *)
Definition bubb_fun (N : nyst) (i g : bool) (cen : pt) (area : R) (k : nat) (ku : kfun) : Prop :=
  is_bubb_key (fst ku) k /\ mk_lpois N H c (centered_monomial cen area k) (TVal (VScal 0)) i g = Ok (snd ku).
Lemma bubb_inv N d cen area i g l : (1 <= d)%Z -> bubb_funs N H c d cen area i g = Ok l -> Forall2 (bubb_fun N i g cen area) (seq 0 (Z.to_nat (d * (d - 1) / 2))) l.
Proof.
  intros Hd E. unfold bubb_funs in E. destruct (Z.ltb_spec d 2).
  - assert (d = 1%Z) by lia. subst d. apply Ok_inj in E. subst l. cbn. constructor.
  - apply map_res_F2 in E. revert E. apply F2_imp. intros k ku E. destruct (bubb_key k) as [key|] eqn:Ek; [|discriminate]. cbn [bind] in E. destruct (mk_lpois _ _ _ _ _ _ _) as [u|] eqn:Eu; [|discriminate]. cbn [bind] in E. apply Ok_inj in E. subst ku. split; [apply bubb_key_inv, Ek|exact Eu].
Qed.
Lemma bubb_total N d cen area i g : solves N i g -> exists l, bubb_funs N H c d cen area i g = Ok l.
Proof.
  intros Sv. unfold bubb_funs. destruct (Z.ltb d 2); [eauto|]. apply map_res_all. intros k _. destruct (bubb_key_ok k) as (key & -> & _). cbn [bind]. destruct (trace_scal F 0) as (v & _ & L & Fv). destruct (Sv (centered_monomial cen area k) (TVal (VScal 0))) as (u & ->); [|cbn [bind]; eauto]. exists v. split; assumption.
Qed.
End Funs.
