(** Lemmas on the tables of contours and cells. *)
From Coq Require Import List ZArith Reals Lia Lra Bool Permutation String.
From Verif Require Import PyBase PolyModel BaryModel BBoxModel QuadModel VertModel EdgeModel EdgeSpec ContourModel CellModel CellSpec CellProofs CellProps ContourProofs EdgeProps4.
Import List ListNotations.
Open Scope R_scope.

(** ** The closest vertex table *)

Definition closest_block (n a : Z) (e : edge) : list Z := repeat a (Z.to_nat (e_npts e / 2)) ++ repeat ((a + open_num e) mod n)%Z (Z.to_nat (open_num e - e_npts e / 2)).
Fixpoint closest_from (n a : Z) (es : list edge) : list (list Z) :=
  match es with [] => [] | e :: es' => closest_block n a e :: closest_from n (a + open_num e) es' end.
Definition closest (es : list edge) : list Z := concat (closest_from (total (map open_num es)) 0 es).

Lemma half_bounds e : well_sampled e -> (1 <= e_npts e / 2 < open_num e)%Z.
Proof. intros (_ & _ & N & _). unfold open_num. pose proof (Z.div_mod (e_npts e) 2 ltac:(lia)). pose proof (Z.mod_pos_bound (e_npts e) 2 ltac:(lia)). lia. Qed.
Lemma closest_block_length n a e : well_sampled e -> Z.of_nat (List.length (closest_block n a e)) = open_num e.
Proof. intros W. pose proof (half_bounds e W). unfold closest_block. rewrite app_length, !repeat_length. lia. Qed.
Lemma closest_lengths n es : forall a, Forall well_sampled es -> Forall2 (fun m v => Z.of_nat (List.length v) = m) (map open_num es) (closest_from n a es).
Proof. induction es as [|e es IH]; intros a W; [constructor|]. inversion W; subst. cbn [map closest_from]. constructor; [apply closest_block_length; assumption|apply IH; assumption]. Qed.
Lemma closest_nth n es : forall a i e, nth_error es i = Some e -> nth_error (closest_from n a es) i = Some (closest_block n (a + total (firstn i (map open_num es))) e).
Proof.
  induction es as [|e0 es IH]; intros a [|i] e E; try discriminate.
  - injection E as ->. cbn. rewrite Z.add_0_r. reflexivity.
  - cbn [nth_error closest_from map firstn]. rewrite (IH _ i e E). do 2 f_equal. unfold total. cbn [fold_right]. lia.
Qed.

Lemma set_slice_fill {A} (p z r : list A) a b c : Z.to_nat a = List.length p -> Z.to_nat b = (List.length p + List.length z)%nat -> set_slice (p ++ z ++ r) a b [c] = Ok (p ++ repeat c (List.length z) ++ r).
Proof.
  intros Ha Hb. unfold set_slice. rewrite Ha, Hb. rewrite !app_length. rewrite (Nat.min_l (List.length p + List.length z)) by lia. rewrite !(Nat.min_l (List.length p)) by lia. replace (List.length p + List.length z - List.length p)%nat with (List.length z) by lia.
  rewrite firstn_app, Nat.sub_diag, firstn_all, firstn_O, app_nil_r. rewrite skipn_app, skipn_all2 by lia. replace (List.length p + List.length z - List.length p)%nat with (List.length z) by lia. rewrite skipn_app, Nat.sub_diag, skipn_all. cbn [app skipn].
  destruct (Nat.eqb_spec (List.length [c]) (List.length z)) as [E|E]; [|reflexivity]. rewrite <- E. reflexivity.
Qed.

Definition with_ktables (k : contour) n v cl : contour := Contour (k_cell k) (k_edges k) (k_orients k) n v cl (k_int k).

Lemma find_closest_ok H k es : fresh H k es -> find_closest_local H k = Ok (with_ktables k (k_npts k) (k_vidx k) (Some (closest es))).
Proof.
  intros F. unfold find_closest_local, guard. rewrite (fresh_guard _ _ _ F). cbn [bind]. destruct F as (R & W & HN & HV).
  assert (L1 := Forall2_len _ _ _ R).
  assert (Emid : map_res (fun ii => do e <- deref H (snd ii); do v <- geti (k_vidx k) (fst ii); Ok (v + e_npts e / 2)%Z) (combine (seq 0 (k_num k)) (k_edges k)) = Ok (map (fun ie => (total (firstn (fst ie) (map open_num es)) + e_npts (snd ie) / 2)%Z) (combine (seq 0 (k_num k)) es))).
  { apply map_res_ok. unfold k_num. rewrite HV.
    assert (G : forall m l ls, Forall2 (fun i e => nth_error H i = Some e) l ls -> (m + List.length ls <= List.length es)%nat -> Forall2 (fun a b => (do e <- deref H (snd a); do v <- geti (offsets (map open_num es)) (fst a); Ok (v + e_npts e / 2)%Z) = Ok b) (combine (seq m (List.length l)) l) (map (fun ie => (total (firstn (fst ie) (map open_num es)) + e_npts (snd ie) / 2)%Z) (combine (seq m (List.length l)) ls))).
    { intros m l ls X. revert m. induction X as [|i e l ls Hi X IH]; intros m Hm; [constructor|]. cbn [List.length seq combine map fst snd] in *. constructor; [|apply IH; lia]. cbn [fst snd]. unfold deref. rewrite Hi. cbn [bind]. unfold geti, offsets. rewrite offsets_nth by (rewrite map_length; lia). reflexivity. }
    apply G; [exact R|]. lia. }
  rewrite Emid. cbn [bind]. rewrite HN. cbn [attr bind]. unfold k_num. rewrite L1.
  pose proof (closest_lengths (total (map open_num es)) es 0 W) as CL. pose proof (Forall2_len _ _ _ CL) as L2. rewrite map_length in L2.
  replace (Z.to_nat (total (map open_num es))) with (List.length (concat (closest_from (total (map open_num es)) 0 es))) by (rewrite <- (Nat2Z.id (List.length _)), <- (nums_all _ _ CL); reflexivity). rewrite L2. rewrite fill_all with (vs := closest_from (total (map open_num es)) 0 es).
  - cbn [bind]. reflexivity.
  - intros i v p z r Ev Lp Lz. assert (Li : (i < List.length es)%nat) by (rewrite L2; apply nth_error_Some; congruence). destruct (nth_error es i) as [e|] eqn:Ee; [|apply nth_error_None in Ee; lia]. rewrite (closest_nth _ _ _ _ _ Ee) in Ev. injection Ev as <-.
    unfold geti. rewrite HV. unfold offsets. rewrite !offsets_nth by (rewrite map_length; lia). cbn [bind]. rewrite nth_error_map, nth_error_combine, Ee.
    assert (Es : nth_error (seq 0 (List.length (closest_from (total (map open_num es)) 0 es))) i = Some i) by (rewrite <- L2; clear -Li; generalize (List.length es) Li; intros n Hn; rewrite (nth_error_nth' _ 0%nat) by (rewrite seq_length; lia); rewrite seq_nth by lia; reflexivity).
    rewrite Es. cbn [option_map bind fst snd].
    assert (We : well_sampled e) by (rewrite Forall_forall in W; apply W; eapply nth_error_In, Ee). pose proof (half_bounds e We) as HB.
    rewrite (firstn_snoc (map open_num es) i (open_num e)) by (rewrite nth_error_map, Ee; reflexivity). rewrite total_snoc. rewrite !Z.add_0_l.
    pose proof (nums_off _ _ CL i) as O. assert (Lp' : Z.to_nat (total (firstn i (map open_num es))) = List.length p) by (rewrite O, Nat2Z.id; congruence). set (a := total (firstn i (map open_num es))) in *. assert (Ha : (0 <= a)%Z) by lia.
    assert (Lz' : List.length z = Z.to_nat (open_num e)) by (rewrite Lz; pose proof (closest_block_length (total (map open_num es)) a e We); lia). rewrite <- (firstn_skipn (Z.to_nat (e_npts e / 2)) z). set (z1 := firstn _ z). set (z2 := skipn _ z). assert (L1' : List.length z1 = Z.to_nat (e_npts e / 2)) by (unfold z1; rewrite firstn_length; lia). assert (L2' : List.length z2 = Z.to_nat (open_num e - e_npts e / 2)) by (unfold z2; rewrite skipn_length; lia).
    rewrite <- app_assoc. rewrite set_slice_fill by lia. cbn [bind]. rewrite app_assoc. rewrite set_slice_fill by (rewrite app_length, repeat_length; lia). unfold closest_block. rewrite L1', L2', <- !app_assoc. reflexivity.
Qed.

Lemma refs_guard H k es : refs H (k_edges k) es -> Forall well_sampled es -> all_param H k = true.
Proof. intros R W. exact (fresh_guard H (with_ktables k (Some (total (map open_num es))) (offsets (map open_num es)) None) es (conj R (conj W (conj eq_refl eq_refl)))). Qed.
Lemma find_num_ok H k es : refs H (k_edges k) es -> Forall well_sampled es -> find_num_pts H k = Ok (with_ktables k (Some (total (map open_num es))) (k_vidx k) (k_closest k)).
Proof.
  intros R W. unfold find_num_pts, guard. rewrite (refs_guard _ _ _ R W). cbn [bind].
  assert (G : forall a, fold_res (fun n i => do e <- deref H i; Ok (n + (e_npts e - 1))%Z) (k_edges k) a = Ok (a + total (map open_num es))%Z).
  { clear W. unfold refs in R. induction R as [|i e l ls Hi R IH]; intros a; [cbn; f_equal; lia|]. cbn [fold_res map]. unfold deref. rewrite Hi. cbn [bind]. fold (deref H). change (fun n j => do e0 <- match nth_error H j with Some e1 => Ok e1 | None => Err KeyError end; Ok (n + (e_npts e0 - 1))%Z) with (fun n j => do e0 <- deref H j; Ok (n + (e_npts e0 - 1))%Z). rewrite IH. f_equal. unfold total, open_num. cbn [fold_right]. lia. }
  rewrite G. reflexivity.
Qed.
Lemma last_snoc {A} (l : list A) x d : last (l ++ [x]) d = x.
Proof. induction l as [|a [|b l] IH]; [reflexivity|reflexivity|]. exact IH. Qed.
Lemma find_vidx_ok H k es : refs H (k_edges k) es -> Forall well_sampled es -> find_local_vert_idx H k = Ok (with_ktables k (k_npts k) (offsets (map open_num es)) (k_closest k)).
Proof.
  intros R W. unfold find_local_vert_idx, guard. rewrite (refs_guard _ _ _ R W). cbn [bind].
  assert (G : forall v a, last v 0%Z = a -> v <> [] -> fold_res (fun v i => do e <- deref H i; Ok (v ++ [(last v 0 + e_npts e - 1)%Z])) (k_edges k) v = Ok (removelast v ++ offsets_from a (map open_num es))).
  { clear W. unfold refs in R. induction R as [|i e l ls Hi R IH]; intros v a Hv NE; [cbn; rewrite <- Hv; f_equal; apply app_removelast_last, NE|]. cbn [fold_res map]. unfold deref at 1. rewrite Hi. cbn [bind]. rewrite (IH _ (a + open_num e)%Z); [|rewrite last_snoc, Hv; unfold open_num; lia|destruct v; discriminate].
    rewrite removelast_last. cbn [offsets_from]. rewrite (app_removelast_last 0%Z NE) at 1. rewrite Hv, <- app_assoc. reflexivity. }
  rewrite (G [0%Z] 0%Z); [reflexivity|reflexivity|discriminate].
Qed.

(** The tables of a contour whose edges have been sampled *)
Lemma tables_ok H k es : refs H (k_edges k) es -> Forall well_sampled es ->
  (do k <- find_num_pts H k; do k <- find_local_vert_idx H k; find_closest_local H k) = Ok (with_ktables k (Some (total (map open_num es))) (offsets (map open_num es)) (Some (closest es))).
Proof.
  intros R W. rewrite (find_num_ok H k es R W). cbn [bind]. rewrite (find_vidx_ok _ _ es) by assumption. cbn [bind]. rewrite (find_closest_ok _ _ es); [reflexivity|]. repeat split; assumption.
Qed.

(** ** Parameterizing *)

Lemma param_edges_gen qd ids : forall os H H', NoDup ids -> List.length ids = List.length os ->
  fold_res (fun H io => do e <- deref H (fst io); do e <- parameterize qd e; Ok (hset H (fst io) (if Z.eqb (snd io) (-1) then reverse_orientation e else e))) (combine ids os) H = Ok H' ->
  List.length H' = List.length H /\ (forall j, ~ In j ids -> nth_error H' j = nth_error H j) /\
  forall m i o, nth_error ids m = Some i -> nth_error os m = Some o -> exists e e', nth_error H i = Some e /\ nth_error H' i = Some e' /\ resampled qd o e e'.
Proof.
  induction ids as [|i ids IH]; intros [|o os] H H' ND L E; try discriminate.
  - cbn in E. apply Ok_inj in E. subst. split; [reflexivity|]. split; [reflexivity|]. intros [|m] ? ? X; discriminate.
  - cbn [combine fold_res fst snd] in E. inversion ND as [|? ? NI ND']; subst. unfold deref at 1 in E. destruct (nth_error H i) as [e|] eqn:Ei; [|discriminate]. cbn [bind] in E. destruct (parameterize qd e) as [e1|] eqn:Ep; [|discriminate]. cbn [bind] in E.
    assert (Li : (i < List.length H)%nat) by (apply nth_error_Some; congruence). destruct (IH os _ _ ND' ltac:(injection L; auto) E) as (A & B & C). rewrite hset_length in A by exact Li. split; [exact A|]. split.
    + intros j Nj. rewrite B by (intros X; apply Nj; right; exact X). apply hset_other; [exact Li|]. intros ->. apply Nj. left. reflexivity.
    + intros [|m] i' o' Hi Ho.
      * injection Hi as <-. injection Ho as <-. exists e. eexists. split; [exact Ei|]. split; [rewrite B by exact NI; apply hset_same, Li|]. exists e1. auto.
      * destruct (C m i' o' Hi Ho) as (a & b & X & Y & Z). exists a, b. split; [|auto]. rewrite hset_other in X; [exact X|exact Li|]. intros ->. apply NI. eapply nth_error_In, Hi.
Qed.
Lemma nth_error_ext' {A} (l l' : list A) : (forall i, nth_error l i = nth_error l' i) -> l = l'.
Proof. revert l'. induction l as [|a l IH]; intros [|b l'] E; [reflexivity|discriminate (E O)|discriminate (E O)|]. f_equal; [injection (E O); auto|apply IH; intros i; exact (E (S i))]. Qed.
Lemma refs_total H l : Forall (fun i => (i < List.length H)%nat) l -> exists es, refs H l es.
Proof. induction 1 as [|i l Hi F (es & R)]; [exists []; constructor|]. destruct (nth_error H i) as [e|] eqn:E; [|apply nth_error_None in E; lia]. exists (e :: es). constructor; assumption. Qed.
Lemma refs_agree H H' l es : (forall j, In j l -> nth_error H' j = nth_error H j) -> refs H l es -> refs H' l es.
Proof. intros A R. unfold refs in *. induction R as [|i e l es Hi R IH]; constructor; [rewrite A by (left; reflexivity); exact Hi|apply IH; intros j Hj; apply A; right; exact Hj]. Qed.

Lemma reversed_sampled qd n p o e e' : get_quad_dict n p = Ok qd -> resampled qd o e e' -> well_sampled e'.
Proof. intros Q (e1 & P & ->). destruct (C33_well_sampled _ _ _ _ _ Q P) as (A & B & _). destruct (Z.eqb o (-1)); assumption. Qed.

Lemma resampled_list qd H H' ids os : List.length ids = List.length os ->
  (forall m i o, nth_error ids m = Some i -> nth_error os m = Some o -> exists e e', nth_error H i = Some e /\ nth_error H' i = Some e' /\ resampled qd o e e') ->
  exists es es', refs H ids es /\ refs H' ids es' /\ Forall2 (fun oe e' => resampled qd (fst oe) (snd oe) e') (combine os es) es'.
Proof.
  revert os. induction ids as [|i ids IH]; intros [|o os] L C; try discriminate; [exists [], []; repeat constructor|].
  destruct (C O i o eq_refl eq_refl) as (e & e' & X & Y & Z). destruct (IH os ltac:(injection L; auto) (fun m => C (S m))) as (es & es' & A & B & D). exists (e :: es), (e' :: es'). repeat split; constructor; assumption.
Qed.
Lemma resampled_all qd n p os es es' : get_quad_dict n p = Ok qd -> Forall2 (fun oe e' => resampled qd (fst oe) (snd oe) e') (combine os es) es' -> Forall well_sampled es'.
Proof. intros Q F. remember (combine os es) as l. clear Heql. induction F as [|oe e' l l' R F IH]; constructor; [eapply reversed_sampled; eassumption|exact IH]. Qed.

Lemma param_edges_ok qd n p H k H' : get_quad_dict n p = Ok qd -> NoDup (k_edges k) -> List.length (k_edges k) = List.length (k_orients k) -> param_edges qd H k = Ok H' ->
  exists es es', refs H (k_edges k) es /\ refs H' (k_edges k) es' /\ Forall2 (fun oe e' => resampled qd (fst oe) (snd oe) e') (combine (k_orients k) es) es' /\ Forall well_sampled es' /\
    List.length H' = List.length H /\ forall j, ~ In j (k_edges k) -> nth_error H' j = nth_error H j.
Proof.
  intros Q ND L E. destruct (param_edges_gen qd (k_edges k) (k_orients k) H H' ND L E) as (A & B & C). destruct (resampled_list qd H H' _ _ L C) as (es & es' & R & R' & F). exists es, es'. repeat split; auto. eapply resampled_all; eassumption.
Qed.

Section Inside.
Variable contains : R -> list pt -> pt -> bool.

Lemma interior_keeps H k k' : find_interior_point contains H k = Ok k' -> exists p, k' = Contour (k_cell k) (k_edges k) (k_orients k) (k_npts k) (k_vidx k) (k_closest k) p.
Proof.
  unfold find_interior_point. destruct (guard H k); [|discriminate]. cbn [bind]. destruct (contour_points H k) as [[x y]|]; [|discriminate]. cbn [bind]. destruct (bounding_box _ x y) as [[[[? ?] ?] ?]|]; [|discriminate]. cbn [bind]. destruct (interior_loop _ _ _ _ _ _ _ _ _) as [p|]; [|discriminate]. cbn [bind]. intros E. apply Ok_inj in E. subst. eexists. reflexivity.
Qed.

(** Any fact the search for an interior point establishes *)
Variable Pk : contour -> list edge -> Prop.
Hypothesis HPk : forall H k es k', fresh H k es -> find_interior_point contains H k = Ok k' -> Pk k' es.

Lemma param_contour_ok qd n p H k H' k' : get_quad_dict n p = Ok qd -> NoDup (k_edges k) -> List.length (k_edges k) = List.length (k_orients k) -> param_contour contains qd H k = Ok (H', k') ->
  exists es es', refs H (k_edges k) es /\ fresh H' k' es' /\ Forall2 (fun oe e' => resampled qd (fst oe) (snd oe) e') (combine (k_orients k) es) es' /\
    k_edges k' = k_edges k /\ k_orients k' = k_orients k /\ (k_closest k' = Some (closest es') /\ Pk k' es') /\
    List.length H' = List.length H /\ forall j, ~ In j (k_edges k) -> nth_error H' j = nth_error H j.
Proof.
  intros Q ND L E. unfold param_contour in E. destruct (param_edges qd H k) as [H1|] eqn:E1; [|discriminate]. cbn [bind] in E. destruct (param_edges_ok _ _ _ _ _ _ Q ND L E1) as (es & es' & R & R' & F & W & LH & FR).
  pose proof (tables_ok H1 k es' R' W) as T. destruct (find_num_pts H1 k) as [k1|]; [|discriminate]. cbn [bind] in *. destruct (find_local_vert_idx H1 k1) as [k2|]; [|discriminate]. cbn [bind] in *. rewrite T in E. cbn [bind] in E. destruct (find_interior_point contains H1 _) as [k3|] eqn:E3; [|discriminate]. cbn [bind] in E. apply Ok_inj in E. injection E as -> ->. assert (X : Pk k3 es') by (eapply HPk; [|exact E3]; split; [exact R'|split; [exact W|split; reflexivity]]). apply interior_keeps in E3. destruct E3 as (q & ->).
  exists es, es'. repeat split; auto.
Qed.

Definition wf_contour (k : contour) : Prop := List.length (k_edges k) = List.length (k_orients k).

Lemma fresh_frame H H' k es : (forall j, In j (k_edges k) -> nth_error H' j = nth_error H j) -> fresh H k es -> fresh H' k es.
Proof. intros A (R & F). split; [eapply refs_agree; eassumption|exact F]. Qed.

(** All components: old edges [ess], new edges [ess'] *)
Lemma param_comps_gen qd n p (Q : get_quad_dict n p = Ok qd) ks : forall H done essd H' ks',
  NoDup (concat (map k_edges done) ++ concat (map k_edges ks)) -> Forall wf_contour ks ->
  Forall2 (fresh H) done essd -> Forall2 (fun k es => k_closest k = Some (closest es) /\ Pk k es) done essd ->
  fold_res (fun Hl k => do (H, k) <- param_contour contains qd (fst Hl) k; Ok (H, snd Hl ++ [k])) ks (H, done) = Ok (H', ks') ->
  exists new ess ess', ks' = done ++ new /\ Forall2 (fresh H') ks' (essd ++ ess') /\ Forall2 (fun k es => k_closest k = Some (closest es) /\ Pk k es) ks' (essd ++ ess') /\
    map k_edges new = map k_edges ks /\ map k_orients new = map k_orients ks /\ Forall2 (fun k es => refs H (k_edges k) es) ks ess /\
    Forall2 (fun oe es' => Forall2 (fun oe e' => resampled qd (fst oe) (snd oe) e') oe es') (map (fun ke => combine (k_orients (fst ke)) (snd ke)) (combine ks ess)) ess' /\
    List.length H' = List.length H /\ forall j, ~ In j (concat (map k_edges ks)) -> nth_error H' j = nth_error H j.
Proof.
  induction ks as [|k ks IH]; intros H done essd H' ks' ND WF FD CD E.
  - cbn in E. apply Ok_inj in E. injection E as <- <-. exists [], [], []. rewrite !app_nil_r. repeat split; auto; constructor.
  - cbn [fold_res fst snd] in E. inversion WF as [|? ? Wk WF']; subst. destruct (param_contour contains qd H k) as [[H1 k1]|] eqn:E1; [|discriminate]. cbn [bind] in E.
    cbn [map concat] in ND. assert (NDk : NoDup (k_edges k)). { clear -ND. induction (concat (map k_edges done)) as [|x l IHl]; [|apply IHl; inversion ND; assumption]. clear -ND. cbn in ND. induction (k_edges k) as [|x l IHl]; [constructor|]. cbn in ND. inversion ND; subst. constructor; [intros I; apply H1, in_or_app; left; exact I|auto]. }
    destruct (param_contour_ok _ _ _ _ _ _ _ Q NDk Wk E1) as (es & es' & R & F & RS & Ek & Eo & Ec & LH & FR).
    assert (Dis : forall x, In x (concat (map k_edges done)) -> ~ In x (k_edges k ++ concat (map k_edges ks))).
    { clear -ND. intros x Hx. induction (concat (map k_edges done)) as [|y l IHl]; [destruct Hx|]. cbn in ND. inversion ND; subst. destruct Hx as [->|Hx]; [intros I; apply H1, in_or_app; right; exact I|auto]. }
    assert (Dis2 : forall x, In x (k_edges k) -> ~ In x (concat (map k_edges ks))).
    { clear -ND. intros x Hx. induction (concat (map k_edges done)) as [|y l IHl]; [|apply IHl; inversion ND; assumption]. cbn in ND. induction (k_edges k) as [|y l IHl]; [destruct Hx|]. cbn in ND. inversion ND; subst. destruct Hx as [->|Hx]; [intros I; apply H1, in_or_app; right; exact I|auto]. }
    destruct (IH H1 (done ++ [k1]) (essd ++ [es']) H' ks') as (new & ess & ess' & A1 & A2 & A3 & A4 & A5 & A6 & A7 & A8 & A9).
    + rewrite map_app, concat_app. cbn [map concat]. rewrite Ek, app_nil_r, <- app_assoc. exact ND.
    + exact WF'.
    + apply Forall2_app; [|constructor; [exact F|constructor]]. 
      assert (G : forall l ls, (forall x, In x (concat (map k_edges l)) -> In x (concat (map k_edges done))) -> Forall2 (fresh H) l ls -> Forall2 (fresh H1) l ls).
      { intros l ls Hl F2. induction F2 as [|k0 e0 l ls F0 F2 IH2]; constructor; [|apply IH2; intros x Hx; apply Hl; cbn; apply in_or_app; right; exact Hx]. eapply fresh_frame; [|exact F0]. intros j Hj. apply FR. intros I. apply (Dis j); [apply Hl; cbn; apply in_or_app; left; exact Hj|apply in_or_app; left; exact I]. }
      apply G; auto.
    + apply Forall2_app; [exact CD|constructor; [exact Ec|constructor]].
    + exact E.
    + exists (k1 :: new), (es :: ess), (es' :: ess'). rewrite <- !app_assoc in A1. rewrite <- !app_assoc in A2. rewrite <- !app_assoc in A3. cbn [app] in *. split; [exact A1|]. split; [exact A2|]. split; [exact A3|]. split; [cbn; congruence|]. split; [cbn; congruence|]. split.
      { constructor; [exact R|].
        assert (G : forall l ls, (forall x, In x (concat (map k_edges l)) -> In x (concat (map k_edges ks))) -> Forall2 (fun k es => refs H1 (k_edges k) es) l ls -> Forall2 (fun k es => refs H (k_edges k) es) l ls).
        { intros l ls Hl F2. induction F2 as [|k0 e0 l ls F0 F2 IH2]; constructor; [|apply IH2; intros x Hx; apply Hl; cbn; apply in_or_app; right; exact Hx]. eapply refs_agree; [|exact F0]. intros j Hj. symmetry. apply FR. intros I. apply (Dis2 j I). apply Hl. cbn. apply in_or_app. left. exact Hj. }
        apply G; auto. }
      split; [cbn [combine map fst snd]; constructor; [exact RS|exact A7]|]. split; [congruence|]. intros j Hj. rewrite A9; [apply FR|]; intros I; apply Hj; cbn; apply in_or_app; [left|right]; exact I.
Qed.
End Inside.
