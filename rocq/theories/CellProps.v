(** Cells: C36 (decomposition of the boundary into closed contours). *)
From Coq Require Import List ZArith Reals Lia Lra Bool Permutation String.
From Verif Require Import PyBase PolyModel BaryModel QuadModel CurveModel VertModel EdgeModel EdgeSpec ContourModel CellModel CellSpec CellProofs.
Import List ListNotations.
Open Scope R_scope.

(** [ids] refers to the edges [es] *)
Definition refs (H : heap) (ids : list nat) (es : list edge) : Prop := Forall2 (fun i e => nth_error H i = Some e) ids es.
(** In the boundary of cell [z], edge object [j] starts where edge object [i] ends. *)
Definition follows_ref (H : heap) (z : Z) (i j : nat) : Prop := exists e e', nth_error H i = Some e /\ nth_error H j = Some e' /\ follows z e e'.

Lemma refs_deref H ids es : refs H ids es -> map_res (deref H) ids = Ok es.
Proof. intros R. apply map_res_ok. eapply Forall2_impl; [|exact R]. intros i e E. unfold deref. rewrite E. reflexivity. Qed.
Lemma deref_refs H ids es : map_res (deref H) ids = Ok es -> refs H ids es.
Proof. intros R. apply map_res_ok in R. eapply Forall2_impl; [|exact R]. intros i e E. unfold deref in E. destruct (nth_error H i); [congruence|discriminate]. Qed.

Lemma add_edges_ok is : forall os k, NoDup is -> List.length is = List.length os -> Forall (fun o => o = 1 \/ o = -1)%Z os -> (forall i, In i is -> ~ In i (k_edges k)) ->
  add_edges k is os = Ok (Contour (k_cell k) (k_edges k ++ is) (k_orients k ++ os) (k_npts k) (k_vidx k) (k_closest k) (k_int k)).
Proof.
  unfold add_edges. intros os k ND L F D. rewrite (proj2 (Nat.eqb_eq _ _) L). revert os k L F D. induction ND as [|i is NI ND IH]; intros [|o os] k L F D; try discriminate.
  - cbn. rewrite !app_nil_r. destruct k; reflexivity.
  - inversion F as [|? ? Ho F']; subst. cbn [combine fold_res fst snd]. unfold add_edge at 1. assert (Eo : (Z.eqb o 1 || Z.eqb o (-1))%bool = true) by (destruct Ho; subst; reflexivity). rewrite Eo.
    assert (Ex : existsb (Nat.eqb i) (k_edges k) = false).
    { destruct (existsb _ _) eqn:E; [|reflexivity]. apply existsb_exists in E. destruct E as (j & Ij & Ej). apply Nat.eqb_eq in Ej. subst j. exfalso. exact (D i (or_introl eq_refl) Ij). }
    rewrite Ex. cbn [bind]. rewrite IH; cbn; [rewrite <- !app_assoc; reflexivity|injection L; auto|exact F'|]. intros j Ij Ij'. apply in_app_or in Ij'. destruct Ij' as [Ij'|[<-|[]]]; [exact (D j (or_intror Ij) Ij')|contradiction].
Qed.

Lemma matched_nodup H z ids es : refs H ids es -> matched z es -> NoDup ids.
Proof.
  intros R [MS MP]. apply NoDup_nth_error. intros i1 i2 L1 E. destruct (nth_error ids i1) as [r|] eqn:E1; [|apply nth_error_None in E1; lia].
  pose proof (Forall2_len _ _ _ R) as LL. assert (L2 : (i2 < List.length ids)%nat) by (apply nth_error_Some; congruence).
  destruct (nth_error es i1) as [e1|] eqn:H1; [|apply nth_error_None in H1; lia]. destruct (nth_error es i2) as [e2|] eqn:H2; [|apply nth_error_None in H2; lia].
  pose proof (Forall2_nth _ _ _ R _ _ _ E1 H1) as A1. pose proof (Forall2_nth _ _ _ R i2 r e2 (eq_sym E) H2) as A2. cbn in A1, A2. assert (e2 = e1) by congruence. subst e2.
  destruct (MP e1 (nth_error_In _ _ H1)) as (j & (e' & Hj & Fj) & _). destruct (MS e' (nth_error_In _ _ Hj)) as (u & _ & U). assert (u = i1) by (apply U; exists e1; auto). assert (u = i2) by (apply U; exists e1; auto). congruence.
Qed.

Lemma cycle_cyclic inc s c : cycle inc s c -> cyclic (fun i j => nth_error inc i = Some j) c.
Proof.
  intros ((t & Et) & N & F & P & C). assert (NE : c <> []) by (rewrite Et; discriminate). split; [exact NE|]. intros i x y Hx Hy. assert (Li : (i < List.length c)%nat) by (apply nth_error_Some; congruence).
  destruct (Nat.eq_dec (S i) (List.length c)) as [E|E].
  - rewrite E, Nat.mod_same in Hy by lia. rewrite Et in Hy. injection Hy as <-. pose proof (last_nth c s NE) as HL. replace (List.length c - 1)%nat with i in HL by lia. congruence.
  - rewrite Nat.mod_small in Hy by lia. exact (P i x y Hx Hy).
Qed.
Lemma cyclic_map {A B} (f : A -> B) (P : A -> A -> Prop) (Q : B -> B -> Prop) l : (forall x y, In x l -> In y l -> P x y -> Q (f x) (f y)) -> cyclic P l -> cyclic Q (map f l).
Proof.
  intros HPQ [NE C]. split; [destruct l; [congruence|discriminate]|]. intros i x y Hx Hy. rewrite map_length in Hy. rewrite nth_error_map in Hx, Hy.
  destruct (nth_error l i) as [a|] eqn:Ea; [|discriminate]. destruct (nth_error l (S i mod _)) as [b|] eqn:Eb; [|discriminate]. injection Hx as <-. injection Hy as <-. apply HPQ; [eapply nth_error_In, Ea|eapply nth_error_In, Eb|]. exact (C i a b Ea Eb).
Qed.

(** What a successful construction yields *)
Definition decomposed (H : heap) (z : Z) (ids : list nat) (ks : list contour) : Prop :=
  Permutation (concat (map k_edges ks)) ids /\
  Forall (fun k => k_cell k = z /\ cyclic (follows_ref H z) (k_edges k) /\ NoDup (k_edges k) /\
    Forall2 (fun i o => exists e, nth_error H i = Some e /\ belongs z e /\ o = (if Z.eqb z (e_pos e) then 1 else -1)%Z) (k_edges k) (k_orients k) /\
    k_npts k = None /\ k_vidx k = [] /\ k_closest k = None /\ k_int k = None) ks.

Lemma components_ok H z ids es : (0 <= z)%Z -> refs H ids es -> Forall (belongs z) es -> matched z es ->
  exists ks, boundary_components z ids es (signs z es) = Ok ks /\ decomposed H z ids ks.
Proof.
  intros Hz R FB M. pose proof (Forall2_len _ _ _ R) as LL. unfold boundary_components. destruct (incidence_ok z es M) as (inc & Ei & Li & NDi & Si). rewrite Ei. cbn [bind].
  assert (BD : forall j i, nth_error inc j = Some i -> (i < List.length inc)%nat).
  { intros j i Hj. assert (Lj : (j < List.length es)%nat) by (rewrite <- Li; apply nth_error_Some; congruence). destruct (Si j Lj) as (i' & _ & _ & X1 & X2 & _). rewrite Li. congruence. }
  destruct (contour_loop_ok inc NDi BD (List.length inc) 0 (repeat false (List.length inc)) []) as (cs & Ec & Pc & Fc).
  - apply repeat_length.
  - constructor.
  - reflexivity.
  - intros a b _. split; intros [].
  - constructor.
  - intros x Hx. destruct (in_dec _ _ _) as [[]|]. clear -Hx. revert x Hx. induction (List.length inc) as [|n IH]; intros [|x] Hx; try lia; [reflexivity|]. cbn. apply IH. lia.
  - constructor.
  - lia.
  - rewrite Li in Ec. rewrite Ec. cbn [bind].
    set (idx := fun i => nth i ids 0%nat). set (sg := fun i => nth i (signs z es) 0%Z).
    assert (ND : NoDup ids) by (eapply matched_nodup; eassumption).
    assert (Ix : forall i, (i < List.length es)%nat -> exists e, nth_error es i = Some e /\ nth_error ids i = Some (idx i) /\ nth_error H (idx i) = Some e /\ nth_error (signs z es) i = Some (sg i) /\ sg i = (if Z.eqb z (e_pos e) then 1 else -1)%Z).
    { intros i Hi. destruct (nth_error es i) as [e|] eqn:E; [|apply nth_error_None in E; lia]. destruct (nth_error ids i) as [r|] eqn:Er; [|apply nth_error_None in Er; lia]. exists e. assert (X : idx i = r) by (unfold idx; apply nth_error_nth with (d := 0%nat) in Er; exact Er). rewrite X.
      assert (Y : nth_error (signs z es) i = Some (if Z.eqb z (e_pos e) then 1 else -1)%Z) by (unfold signs; rewrite nth_error_map, E; reflexivity). assert (Z' : sg i = (if Z.eqb z (e_pos e) then 1 else -1)%Z) by (unfold sg; eapply nth_error_nth, Y). rewrite Z'. repeat split; auto. exact (Forall2_nth _ _ _ R _ _ _ Er E). }
    assert (BC : forall c, In c cs -> forall i, In i c -> (i < List.length es)%nat).
    { intros c Hc i Hi. rewrite <- Li. assert (I : In i (seq 0 (List.length inc))) by (apply (Permutation_in _ Pc), in_concat; exists c; auto). apply in_seq in I. lia. }
    assert (NDc : forall c, In c cs -> NoDup c).
    { intros c Hc. rewrite Forall_forall in Fc. destruct (Fc c Hc) as (s & _ & N & _). exact N. }
    assert (inj : forall i j, (i < List.length es)%nat -> (j < List.length es)%nat -> idx i = idx j -> i = j).
    { intros i j Hi Hj E. destruct (Ix i Hi) as (_ & _ & A & _). destruct (Ix j Hj) as (_ & _ & B & _). rewrite NoDup_nth_error in ND. apply ND; [lia|congruence]. }
    exists (map (fun c => Contour z (map idx c) (map sg c) None [] None None) cs). split.
    + apply map_res_map. intros c Hc. assert (BC' := BC c Hc). rewrite (map_res_map (geti ids) idx) by (intros i Hi; apply geti_ok; destruct (Ix i (BC' i Hi)) as (e & _ & A & _); exact A). cbn [bind].
      rewrite (map_res_map (geti (signs z es)) sg) by (intros i Hi; apply geti_ok; destruct (Ix i (BC' i Hi)) as (e & _ & _ & _ & A & _); exact A). cbn [bind].
      unfold mk_contour, set_mesh_id. destruct (Z.ltb_spec z 0); [lia|]. cbn [bind]. rewrite add_edges_ok; [reflexivity| | | |intros i _ []].
      * specialize (NDc c Hc). clear -NDc BC' inj. induction NDc as [|i c NI N IH]; [constructor|]. cbn. constructor; [|apply IH; intros; apply BC'; right; assumption]. intros I. apply in_map_iff in I. destruct I as (j & Ej & Ij). apply NI. rewrite <- (inj j i); [exact Ij|apply BC'; right; exact Ij|apply BC'; left; reflexivity|exact Ej].
      * rewrite !map_length. reflexivity.
      * apply Forall_map, Forall_forall. intros i Hi. destruct (Ix i (BC' i Hi)) as (e & _ & _ & _ & _ & ->). destruct (Z.eqb z (e_pos e)); tauto.
    + split.
      * rewrite map_map. cbn [k_edges]. rewrite <- (map_map (fun c => c) (map idx)), map_id. rewrite <- concat_map. apply (Permutation_map idx) in Pc. rewrite Pc. rewrite Li, <- LL. clear. unfold idx. induction ids as [|r ids IH]; [reflexivity|]. cbn [List.length seq map nth]. constructor. rewrite <- seq_shift, map_map. exact IH.
      * apply Forall_map, Forall_forall. intros c Hc. cbn [k_cell k_edges k_orients k_npts k_vidx k_closest k_int]. assert (BC' := BC c Hc). split; [reflexivity|]. split; [|split; [|split; [|repeat split]]].
        -- rewrite Forall_forall in Fc. destruct (Fc c Hc) as (s & Cy). apply (cyclic_map idx (fun i j => nth_error inc i = Some j)); [|eapply cycle_cyclic, Cy]. intros i j Hi Hj Hij. destruct (Si i (BC' i Hi)) as (j' & e & e' & A1 & A2 & A3 & A4 & A5). assert (j' = j) by congruence. subst j'.
           destruct (Ix i (BC' i Hi)) as (f & F1 & _ & F2 & _). destruct (Ix j A2) as (g & G1 & _ & G2 & _). exists e, e'. split; [congruence|]. split; [congruence|exact A5].
        -- specialize (NDc c Hc). clear -NDc BC' inj. induction NDc as [|i c NI N IH]; [constructor|]. cbn. constructor; [|apply IH; intros; apply BC'; right; assumption]. intros I. apply in_map_iff in I. destruct I as (j & Ej & Ij). apply NI. rewrite <- (inj j i); [exact Ij|apply BC'; right; exact Ij|apply BC'; left; reflexivity|exact Ej].
        -- clear -BC' Ix FB. induction c as [|i c IH]; [constructor|]. cbn. constructor; [|apply IH; intros; apply BC'; right; assumption]. destruct (Ix i (BC' i (or_introl eq_refl))) as (e & E1 & _ & E2 & _ & E3). exists e. split; [exact E2|]. split; [|exact E3]. rewrite Forall_forall in FB. apply FB. eapply nth_error_In, E1.
Qed.

(** With a valid cell number and positive tolerances, construction succeeds exactly when every edge
    borders the cell and the endpoints are matched one-to-one; otherwise the error is an
    EmbeddingError. In particular the traversal always ends. *)
Theorem C36_error H z ids es mesh rtol atol : (0 <= z)%Z -> 0 < rtol -> 0 < atol -> refs H ids es ->
  (Forall (belongs z) es /\ matched z es -> exists c, mk_cell H z ids mesh rtol atol = Ok c) /\
  (~ (Forall (belongs z) es /\ matched z es) -> mk_cell H z ids mesh rtol atol = Err EmbeddingError).
Proof.
  intros Hz Hr Ha R. unfold mk_cell, cell_idx. destruct (Z.ltb_spec z 0); [lia|]. cbn [bind]. rewrite (refs_deref _ _ _ R). cbn [bind]. split.
  - intros [FB M]. rewrite (orientations_ok z es FB). cbn [bind]. fold (signs z es). destruct (components_ok H z ids es Hz R FB M) as (ks & -> & _). cbn [bind]. destruct (Rle_dec atol 0); [lra|]. destruct (Rle_dec rtol 0); [lra|]. eexists. reflexivity.
  - intros N. destruct (orientations z es) as [os|x] eqn:E.
    + apply orientations_inv in E. destruct E as [FB ->]. cbn [bind]. fold (signs z es). unfold boundary_components. rewrite incidence_err; [reflexivity|]. intros M. apply N. auto.
    + destruct (Forall_dec (belongs z)) with (l := es) as [F|F].
      { intros e. unfold belongs. destruct (Z.eq_dec z (e_pos e)); [left; tauto|]. destruct (Z.eq_dec z (e_neg e)); [left; tauto|right; tauto]. }
      * rewrite orientations_ok in E by exact F. discriminate.
      * rewrite orientations_err in E by exact F. cbn. congruence.
Qed.
Print Assumptions C36_error.

(** A cell that was built contains each given edge exactly once, in closed contours. *)
Theorem C36_contours H z ids mesh rtol atol c : mk_cell H z ids mesh rtol atol = Ok c ->
  NoDup ids /\ Permutation (cell_edges c) ids /\ c_nedges c = List.length ids /\ c_holes c = (Z.of_nat (List.length (c_comps c)) - 1)%Z /\
  Forall (fun k => cyclic (follows_ref H z) (k_edges k) /\
    Forall2 (fun i o => exists e, nth_error H i = Some e /\ belongs z e /\ o = (if Z.eqb z (e_pos e) then 1 else -1)%Z) (k_edges k) (k_orients k)) (c_comps c).
Proof.
  unfold mk_cell, cell_idx. destruct (Z.ltb_spec z 0); [discriminate|]. cbn [bind]. destruct (map_res (deref H) ids) as [es|] eqn:R; [|discriminate]. apply deref_refs in R. cbn [bind]. destruct (orientations z es) as [os|] eqn:E; [|discriminate]. apply orientations_inv in E. destruct E as [FB ->]. cbn [bind]. fold (signs z es).
  assert (M : {matched z es} + {~ matched z es}).
  { pose proof (sums_matched z es) as S. cbv zeta in S. destruct (andb _ _); [left; apply S; reflexivity|right; intros M; apply S in M; discriminate]. }
  destruct M as [M|M]; [|unfold boundary_components; rewrite incidence_err by exact M; discriminate].
  destruct (components_ok H z ids es ltac:(lia) R FB M) as (ks & -> & P & F). cbn [bind]. destruct (Rle_dec atol 0); [discriminate|]. destruct (Rle_dec rtol 0); [discriminate|]. intros X. apply Ok_inj in X. subst c. unfold cell_edges. cbn [c_comps c_nedges c_holes].
  split; [eapply matched_nodup; eassumption|]. split; [exact P|]. split.
  - rewrite <- (Permutation_length P). clear. induction ks as [|k ks IH]; [reflexivity|]. cbn. rewrite app_length, IH. reflexivity.
  - split; [lia|]. eapply Forall_impl; [|exact F]. cbn. tauto.
Qed.
Print Assumptions C36_contours.

(** Other arguments that are rejected *)
Theorem C36_rejected H z ids mesh rtol atol c : ((z < 0)%Z -> mk_cell H z ids mesh rtol atol = Err ValueError) /\ (mk_cell H z ids mesh rtol atol = Ok c -> 0 < rtol /\ 0 < atol /\ (0 <= z)%Z).
Proof.
  unfold mk_cell, cell_idx. destruct (Z.ltb_spec z 0); split; try (intros; reflexivity || discriminate || lia). cbn [bind].
  destruct (map_res _ _); [|discriminate]. cbn [bind]. destruct (orientations _ _); [|discriminate]. cbn [bind]. destruct (boundary_components _ _ _ _); [|discriminate]. cbn [bind]. destruct (Rle_dec atol 0); [discriminate|]. destruct (Rle_dec rtol 0); [discriminate|]. intros _. repeat split; lra || lia.
Qed.

(** Example: a triangle whose second listed edge runs backwards; the edges are not listed in order. *)
Definition plain_edge (a b : vert) (p n : Z) : edge := Edge a b p n Line [] "kress" None true false false (-1) [] (0, 2 * PI) [SJoin a b].
Lemma near_refl v : near v v.
Proof. unfold near, pdist. replace (_ + _) with 0 by ring. rewrite sqrt_0. lra. Qed.
Lemma not_near v w : 1 <= (vx v - vx w) ^ 2 + (vy v - vy w) ^ 2 -> ~ near v w.
Proof.
  intros H N. unfold near, pdist, coord in N. cbn [fst snd] in N. assert (1 <= sqrt ((vx v - vx w) * (vx v - vx w) + (vy v - vy w) * (vy v - vy w))) by (rewrite <- sqrt_1 at 1; apply sqrt_le_1_alt; lra). lra.
Qed.
Definition triangle : list edge :=
  [plain_edge (mkvert 0 0) (mkvert 1 0) 0 (-1); plain_edge (mkvert 0 0) (mkvert 0 1) (-1) 0; plain_edge (mkvert 1 0) (mkvert 0 1) 0 (-1)].
Ltac nears := match goal with
  | |- near ?v ?v => apply near_refl
  | H : near _ _ |- _ => exfalso; revert H; apply not_near; cbn; lra
  end.
Ltac one_of k := exists k; split; [eexists; split; [reflexivity|]; unfold follows; cbn; nears|];
  let j := fresh "j" in let e := fresh "e" in let E := fresh "E" in let F := fresh "F" in
  intros [|[|[|j]]] (e & E & F); cbn in E; try (destruct j; discriminate); injection E as <-; unfold follows in F; cbn in F; first [reflexivity|nears].
Lemma triangle_matched : matched 0 triangle.
Proof.
  split; intros e [<-|[<-|[<-|[]]]].
  - one_of 2%nat.
  - one_of 0%nat.
  - one_of 1%nat.
  - one_of 1%nat.
  - one_of 2%nat.
  - one_of 0%nat.
Qed.
Example C36_example : exists c k, mk_cell triangle 0 [0; 1; 2]%nat (33, 33)%Z (1 / 20) (1 / 20) = Ok c /\ c_comps c = [k] /\ k_edges k = [0; 2; 1]%nat /\ k_orients k = [1; 1; -1]%Z /\ c_holes c = 0%Z.
Proof.
  assert (R : refs triangle [0; 1; 2]%nat triangle) by (repeat constructor).
  destruct (C36_error triangle 0 [0; 1; 2]%nat triangle (33, 33)%Z (1 / 20) (1 / 20) ltac:(lia) ltac:(lra) ltac:(lra) R) as [OK _]. destruct OK as (c & E).
  { split; [repeat constructor; unfold belongs; cbn; tauto|exact triangle_matched]. }
  destruct (C36_contours _ _ _ _ _ _ _ E) as (_ & P & _ & Hh & F). exists c. pose proof E as E0. unfold mk_cell in E. cbn [cell_idx Z.ltb Z.compare bind] in E. rewrite (refs_deref _ _ _ R) in E. cbn [bind] in E. rewrite orientations_ok in E by (repeat constructor; unfold belongs; cbn; tauto). cbn [bind] in E. fold (signs 0 triangle) in E. unfold boundary_components in E.
  destruct (incidence_ok 0 triangle triangle_matched) as (inc & Ei & Li & NDi & Si). rewrite Ei in E. cbn [bind] in E.
  assert (I0 : inc = [2; 0; 1]%nat).
  { destruct inc as [|i0 [|i1 [|i2 [|i3 inc]]]]; try discriminate Li.
    destruct (Si 0%nat ltac:(cbn; lia)) as (j0 & f0 & g0 & A0 & B0 & C0 & D0 & F0). destruct (Si 1%nat ltac:(cbn; lia)) as (j1 & f1 & g1 & A1 & B1 & C1 & D1 & F1). destruct (Si 2%nat ltac:(cbn; lia)) as (j2 & f2 & g2 & A2 & B2 & C2 & D2 & F2).
    injection A0 as <-. injection A1 as <-. injection A2 as <-. injection C0 as <-. injection C1 as <-. injection C2 as <-. unfold follows in F0, F1, F2. cbn in B0, B1, B2.
    f_equal; [|f_equal; [|f_equal]].
    - destruct i0 as [|[|[|i0]]]; [| |reflexivity|lia]; injection D0 as <-; cbn in F0; nears.
    - destruct i1 as [|[|[|i1]]]; [reflexivity| | |lia]; injection D1 as <-; cbn in F1; nears.
    - destruct i2 as [|[|[|i2]]]; [|reflexivity| |lia]; injection D2 as <-; cbn in F2; nears. }
  subst inc. cbn in E. destruct (Rle_dec (1 / 20) 0); [lra|]. apply Ok_inj in E. subst c. eexists. split; [exact E0|]. repeat split.
Qed.
(** Without the third edge the same list is refused. *)
Example C36_example_open : mk_cell triangle 0 [0; 1]%nat (33, 33)%Z (1 / 20) (1 / 20) = Err EmbeddingError.
Proof.
  assert (R : refs triangle [0; 1]%nat (firstn 2 triangle)) by (repeat constructor).
  apply (C36_error triangle 0 [0; 1]%nat _ (33, 33)%Z (1 / 20) (1 / 20) ltac:(lia) ltac:(lra) ltac:(lra) R). intros [_ [M _]]. destruct (M _ (or_introl eq_refl)) as (i & (e & Hi & Fi) & _). unfold follows in Fi. destruct i as [|[|i]]; [| |destruct i; discriminate]; injection Hi as <-; cbn in Fi; nears.
Qed.
