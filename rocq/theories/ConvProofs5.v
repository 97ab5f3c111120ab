(** Lemmas for the examples of C79: cells bounded by rectangles and circles can be parameterized, whatever the number of points. *)
From Coq Require Import List ZArith Reals Lia Lra Psatz Bool String Permutation.
From Coquelicot Require Import Coquelicot.
From Verif Require Import PyBase PolyModel PolySpec BaryModel BBoxModel QuadModel QuadSpec QuadProofs QuadProps CurveModel CurveSpec CurveProps VertModel EdgeModel ContourModel CellModel CellSpec EdgeSpec EdgeProofs EdgeProofs2 EdgeProps EdgeProps3 EdgeProps4 CellProofs CellProps ContourProofs ContourProofs2 ContourProofs3 InteriorProofs ContourProofs4 CellProofs2 Annulus ConvSpec ConvProofs ConvProofs2 ConvProofs3 ConvProofs4.
Import List ListNotations.
Open Scope R_scope.

(** ** The positions of the samples *)
Lemma smooth_positions e X DX p n qd : smooth_edge e X DX -> (2 <= p)%Z -> (4 <= n)%Z -> get_quad_dict (PInt n) p = Ok qd -> exists e1, parameterize qd e = Ok e1 /\ e_param e1 = true /\
  map sx (e_smp e1) = map (fun i => traced X e (param_arg e (rule_phi p e (INR i * (2 * PI / INR (2 * Z.to_nat n)))))) (seq 0 (2 * Z.to_nat n + 1)).
Proof.
  intros (Hq & Ht & Hsp & HX & HDX & HR & HF) Hp Hn Eq. pose proof PI_RGT_0 as HP.
  destruct (C22_derivatives _ _ _ Hsp HX) as (DX' & DDX & HDX' & HDDX & _). rewrite HDX in HDX'. apply Ok_inj in HDX'. subst DX'.
  assert (Hdt : 0 < param_dt e) by (unfold param_dt; apply Rdiv_lt_0_compat; lra).
  assert (Harg : forall t, 0 <= t <= 2 * PI -> fst (e_tb e) <= param_arg e t <= snd (e_tb e)).
  { intros t Ht'. unfold param_arg. split; [nra|]. apply Rle_trans with (fst (e_tb e) + 2 * PI * param_dt e); [nra|]. unfold param_dt. right. field. lra. }
  assert (HR' : forall t, 0 <= t <= 2 * PI -> 0 < norm2 (pt_scale (param_dt e) (DX (param_arg e t)))).
  { intros t Ht'. rewrite norm2_scale. apply Rmult_lt_0_compat; [nra|]. apply HR, Harg, Ht'. }
  destruct (edge_dict p e n Hp Hn Hq) as (qd' & q & E & Epick & En & Et & Ew). rewrite Eq in E. apply Ok_inj in E. subst qd'.
  pose proof (parameterize_jets (PInt n) p qd e q X DX DDX Eq Epick HX HDX HDDX HR' HF) as PJ. cbv zeta in PJ.
  eexists. split; [exact PJ|]. match type of PJ with _ = Ok (with_qtype (after_diary ?l ?e0 ?m) ?y) => destruct (after_diary_fields l e0 m y) as (F1 & F2 & F3) end.
  split; [rewrite F1; reflexivity|]. rewrite F3, Et, Ew. unfold curve_jets. rewrite !map_map. rewrite combine_map_same, map_map. reflexivity.
Qed.
Lemma rule_0 p e : (2 <= p)%Z -> rule_phi p e 0 = 0.
Proof. intros H. unfold rule_phi. destruct (String.eqb _ _); [reflexivity|apply kress_0; lia]. Qed.
Lemma rule_2PI p e : (2 <= p)%Z -> rule_phi p e (2 * PI) = 2 * PI.
Proof. intros H. unfold rule_phi. destruct (String.eqb _ _); [reflexivity|apply kress_2PI; lia]. Qed.
Lemma in_tail {A} (a : A) l x : In x l -> x = a \/ In x (tl (a :: l)).
Proof. auto. Qed.

(** Positions of the open samples of an edge run through in either direction *)
Definition spots (e : edge) : list pt := map sx (open_smp e).
Lemma reversed_spots e o P m : e_param e = true -> map sx (e_smp e) = map P (seq 0 (m + 1)) ->
  spots (if Z.eqb o (-1) then reverse_orientation e else e) = (if Z.eqb o (-1) then rev (map P (seq 1 m)) else map P (seq 0 m)).
Proof.
  intros Pe E. unfold spots, open_smp. rewrite map_removelast'. destruct (Z.eqb o (-1)).
  - unfold reverse_orientation. rewrite Pe. cbn [with_smp e_smp]. rewrite map_rev, map_map, (map_ext _ sx (fun _ => eq_refl)), E, removelast_rev. f_equal. rewrite Nat.add_1_r. reflexivity.
  - rewrite E, removelast_map, removelast_seq. reflexivity.
Qed.
Lemma spots_range e o P m q : e_param e = true -> map sx (e_smp e) = map P (seq 0 (m + 1)) -> In q (spots (if Z.eqb o (-1) then reverse_orientation e else e)) -> exists i, (i <= m)%nat /\ q = P i.
Proof.
  intros Pe E I. rewrite (reversed_spots e o P m Pe E) in I. destruct (Z.eqb o (-1)); [apply in_rev in I|]; apply in_map_iff in I; destruct I as (i & <- & Hi); apply in_seq in Hi; exists i; split; auto; lia.
Qed.
Lemma spots_first e o P m : (0 < m)%nat -> e_param e = true -> map sx (e_smp e) = map P (seq 0 (m + 1)) -> In (P (if Z.eqb o (-1) then m else 0%nat)) (spots (if Z.eqb o (-1) then reverse_orientation e else e)).
Proof.
  intros Hm Pe E. rewrite (reversed_spots e o P m Pe E). destruct (Z.eqb o (-1)); [apply -> in_rev|]; apply in_map, in_seq; lia.
Qed.
Lemma spots_inner e o P m i : e_param e = true -> map sx (e_smp e) = map P (seq 0 (m + 1)) -> (0 < i < m)%nat -> In (P i) (spots (if Z.eqb o (-1) then reverse_orientation e else e)).
Proof.
  intros Pe E Hi. rewrite (reversed_spots e o P m Pe E). destruct (Z.eqb o (-1)); [apply -> in_rev|]; apply in_map, in_seq; lia.
Qed.
Lemma node_range n i : (4 <= n)%Z -> (i <= 2 * Z.to_nat n)%nat -> 0 <= INR i * (2 * PI / INR (2 * Z.to_nat n)) <= 2 * PI.
Proof.
  intros Hn Hi. pose proof PI_RGT_0 as HP. assert (HN : 0 < INR (2 * Z.to_nat n)) by (apply lt_0_INR; lia). assert (Hi' : 0 <= INR i <= INR (2 * Z.to_nat n)) by (split; [apply pos_INR|apply le_INR; lia]).
  split; [apply Rmult_le_pos; [lra|apply Rlt_le, Rdiv_lt_0_compat; lra]|]. apply Rle_trans with (INR (2 * Z.to_nat n) * (2 * PI / INR (2 * Z.to_nat n))); [apply Rmult_le_compat_r; [apply Rlt_le, Rdiv_lt_0_compat; lra|lra]|right; field; lra].
Qed.
Lemma node_last n : (4 <= n)%Z -> INR (2 * Z.to_nat n) * (2 * PI / INR (2 * Z.to_nat n)) = 2 * PI.
Proof. intros Hn. assert (HN : 0 < INR (2 * Z.to_nat n)) by (apply lt_0_INR; lia). field. lra. Qed.

(** A straight edge run from [u] to [v] *)
Definition on_segment (u v q : pt) : Prop := exists s, 0 <= s <= 1 /\ q = pt_add u (pt_scale s (pt_sub v u)).
Lemma segment_rev u v q : on_segment u v q -> on_segment v u q.
Proof. intros (s & Hs & ->). exists (1 - s). split; [lra|]. unfold pt_add, pt_scale, pt_sub. cbn [fst snd]. f_equal; ring. Qed.
Definition sign_for (z : Z) (e : edge) : Z := if Z.eqb z (e_pos e) then 1%Z else (-1)%Z.
Lemma runs_spots z e u v p n qd : runs z e u v -> TOL <= pdist u v -> (2 <= p)%Z -> (4 <= n)%Z -> get_quad_dict (PInt n) p = Ok qd ->
  (exists e1, parameterize qd e = Ok e1) /\ forall e', resampled qd (sign_for z e) e e' -> In u (spots e') /\ forall q, In q (spots e') -> on_segment u v q.
Proof.
  intros R D Hp Hn Eq. pose proof PI_RGT_0 as HP. destruct (runs_smooth z e u v R D) as (Sm & _). destruct (smooth_positions e line_X line_DX p n qd Sm Hp Hn Eq) as (e1 & Ep & Pe & Ps). split; [exists e1; exact Ep|].
  intros e' (e1' & Ep' & ->). rewrite Ep in Ep'. apply Ok_inj in Ep'. subst e1'.
  set (P := fun i : nat => traced line_X e (param_arg e (rule_phi p e (INR i * (2 * PI / INR (2 * Z.to_nat n)))))) in *. set (m := (2 * Z.to_nat n)%nat) in *.
  assert (G : forall a b, straight e a b -> P 0%nat = a /\ P m = b /\ forall i, (i <= m)%nat -> on_segment a b (P i)).
  { intros a b S. pose proof S as (_ & Tb & _). assert (PA : forall t, param_arg e t = t) by (intros t; unfold param_arg, param_dt; rewrite Tb; cbn [fst snd]; field; lra).
    assert (E : forall i, P i = pt_add a (pt_scale (rule_phi p e (INR i * (2 * PI / INR m)) / (2 * PI)) (pt_sub b a))) by (intros i; unfold P; rewrite PA, (straight_traced e a b _ S); reflexivity). split; [|split].
    - rewrite E. cbn [INR]. rewrite Rmult_0_l, rule_0 by exact Hp. destruct a, b. unfold pt_add, pt_scale, pt_sub. cbn [fst snd]. unfold Rdiv. f_equal; ring.
    - rewrite E. unfold m. rewrite node_last, rule_2PI by assumption. destruct a, b. unfold pt_add, pt_scale, pt_sub. cbn [fst snd]. f_equal; field; lra.
    - intros i Hi. rewrite E. eexists. split; [|reflexivity]. destruct (proj1 (edge_rule p e Hp) _ (node_range n i Hn Hi)) as ((A & B) & _). fold m in A, B. split; [apply Rmult_le_pos; [exact A|apply Rlt_le, Rinv_0_lt_compat; lra]|]. apply Rmult_le_reg_r with (2 * PI); [lra|]. unfold Rdiv. rewrite Rmult_assoc, Rinv_l by lra. lra. }
  assert (Hm : (0 < m)%nat) by (unfold m; lia). unfold sign_for. destruct R as [[Ez S]|[Ez S]]; destruct (G _ _ S) as (A & B & C).
  - rewrite <- Ez, Z.eqb_refl. change (Z.eqb 1 (-1)) with false. cbn iota. split; [|intros q Iq; destruct (spots_range e1 1 P m q Pe Ps Iq) as (i & Hi & ->); apply C, Hi].
    pose proof (spots_first e1 1 P m Hm Pe Ps) as F. cbn [Z.eqb Pos.eqb] in F. rewrite A in F. exact F.
  - destruct (Z.eqb_spec z (e_pos e)) as [X|_]; [contradiction|]. change (Z.eqb (-1) (-1)) with true. cbn iota. split; [|intros q Iq; destruct (spots_range e1 (-1) P m q Pe Ps Iq) as (i & Hi & ->); apply segment_rev, C, Hi].
    pose proof (spots_first e1 (-1) P m Hm Pe Ps) as F. cbn [Z.eqb Pos.eqb] in F. rewrite B in F. exact F.
Qed.

(** ** The interior point of a contour *)
(** The search for an interior point succeeds on a contour with these edges. *)
Definition central (contains : R -> list pt -> pt -> bool) (es : list edge) : Prop :=
  forall box, bounding_box TOL (xs_of (contour_smp es)) (ys_of (contour_smp es)) = Ok box -> 0 < clearance box -> exists a p, In a usable /\ In p (grid box a) /\ acceptable contains es (clearance box) p.

(** Points of a list touch all sides of a rectangle and do not leave it. *)
Definition framed (l : list pt) (x0 x1 y0 y1 : R) : Prop :=
  (forall q, In q l -> x0 <= fst q <= x1 /\ y0 <= snd q <= y1) /\
  (exists q, In q l /\ fst q = x0) /\ (exists q, In q l /\ fst q = x1) /\ (exists q, In q l /\ snd q = y0) /\ (exists q, In q l /\ snd q = y1).
Lemma framed_box l x0 x1 y0 y1 : x0 + TOL <= x1 -> y0 + TOL <= y1 -> framed l x0 x1 y0 y1 -> bounding_box TOL (map fst l) (map snd l) = Ok (x0, x1, y0, y1).
Proof.
  intros Hx Hy (A & (a & Ia & Ea) & (b & Ib & Eb) & (c & Ic & Ec) & (d & Id & Ed)). destruct l as [|q l]; [destruct Ia|]. cbn [map bounding_box].
  assert (F : forall g : pt -> R, forall x, (exists q', In q' (q :: l) /\ g q' = x) -> In x (g q :: map g l)) by (intros g x (q' & I & <-); apply (in_map g (q :: l)), I).
  assert (X0 : lmin (fst q) (map fst l) = x0). { apply Annulus.list_min; [apply (F fst); eauto|]. apply (Forall_map fst (fun y => x0 <= y) (q :: l)), Forall_forall. intros r Ir. apply A, Ir. }
  assert (X1 : lmax (fst q) (map fst l) = x1). { apply Annulus.list_max; [apply (F fst); eauto|]. apply (Forall_map fst (fun y => y <= x1) (q :: l)), Forall_forall. intros r Ir. apply A, Ir. }
  assert (Y0 : lmin (snd q) (map snd l) = y0). { apply Annulus.list_min; [apply (F snd); eauto|]. apply (Forall_map snd (fun y => y0 <= y) (q :: l)), Forall_forall. intros r Ir. apply A, Ir. }
  assert (Y1 : lmax (snd q) (map snd l) = y1). { apply Annulus.list_max; [apply (F snd); eauto|]. apply (Forall_map snd (fun y => y <= y1) (q :: l)), Forall_forall. intros r Ir. apply A, Ir. }
  rewrite X0, X1, Y0, Y1. cbv zeta. assert (0 < TOL) by (unfold TOL; lra). pose proof (Rmax_l (x1 - x0) (y1 - y0)). repeat match goal with |- context [Rlt_dec ?u ?v] => destruct (Rlt_dec u v); [lra|] end. reflexivity.
Qed.
Lemma grid_mid x0 x1 y0 y1 : In ((x0 + x1) / 2, (y0 + y1) / 2) (grid (x0, x1, y0, y1) 8).
Proof.
  unfold grid, meshgrid. apply in_concat. assert (E : forall a b, In ((a + b) / 2) (linspace a b 8)) by (intros a b; apply in_map_iff; exists 4%nat; split; [cbn [INR]; field|apply in_seq; lia]).
  eexists. split; [apply in_map_iff; exists ((y0 + y1) / 2); split; [reflexivity|apply E]|apply in_map_iff; exists ((x0 + x1) / 2); split; [reflexivity|apply E]].
Qed.
(** A containment test: there are points of the path to the left, to the right, below and above. It is exact for paths around
    rectangles. *)
Definition within (rad : R) (path : list pt) (p : pt) : bool :=
  existsb (fun q : pt => Rltb (fst q) (fst p)) path && existsb (fun q : pt => Rltb (fst p) (fst q)) path && existsb (fun q : pt => Rltb (snd q) (snd p)) path && existsb (fun q : pt => Rltb (snd p) (snd q)) path.
Lemma central_mid es x0 x1 y0 y1 : x0 + TOL <= x1 -> y0 + TOL <= y1 -> framed (concat (map spots es)) x0 x1 y0 y1 ->
  (forall e s, In e es -> In s (e_smp e) -> 1 / 100 * Rmin (x1 - x0) (y1 - y0) <= pdist (sx s) ((x0 + x1) / 2, (y0 + y1) / 2)) -> central within es.
Proof.
  intros Hx Hy F D box B C. assert (0 < TOL) by (unfold TOL; lra). assert (EP : map sx (contour_smp es) = concat (map spots es)) by (unfold contour_smp, spots; rewrite concat_map, map_map; reflexivity).
  assert (E : box = (x0, x1, y0, y1)). { unfold xs_of, ys_of in B. rewrite <- (map_map sx fst), <- (map_map sx snd), EP in B. apply Ok_inj. transitivity (bounding_box TOL (map fst (concat (map spots es))) (map snd (concat (map spots es)))); [symmetry; exact (framed_box _ x0 x1 y0 y1 Hx Hy F)|exact B]. } subst box.
  exists 8%nat, ((x0 + x1) / 2, (y0 + y1) / 2). split; [left; reflexivity|]. split; [apply grid_mid|]. split.
  - rewrite EP. destruct F as (_ & (a & Ia & Ea) & (b & Ib & Eb) & (c & Ic & Ec) & (d & Id & Ed)). unfold within. cbn [fst snd]. rewrite !andb_true_iff, !existsb_exists. repeat split; [exists a|exists b|exists c|exists d]; (split; [assumption|apply Rltb_true; lra]).
  - intros s Is. apply in_concat in Is. destruct Is as (l & Il & Is). apply in_map_iff in Il. destruct Il as (e & <- & Ie). cbn [clearance]. apply (D e s Ie Is).
Qed.

(** ** Contours *)
Lemma param_edges_total qd ids : forall os H, NoDup ids -> List.length ids = List.length os -> (forall i, In i ids -> exists e e1, nth_error H i = Some e /\ parameterize qd e = Ok e1) ->
  exists H', fold_res (fun H io => do e <- deref H (fst io); do e <- parameterize qd e; Ok (hset H (fst io) (if Z.eqb (snd io) (-1) then reverse_orientation e else e))) (combine ids os) H = Ok H'.
Proof.
  induction ids as [|i ids IH]; intros [|o os] H ND L A; try discriminate; [eexists; reflexivity|]. cbn [combine fold_res fst snd]. inversion ND as [|? ? NI ND']; subst. destruct (A i (or_introl eq_refl)) as (e & e1 & Ei & Ep). unfold deref at 1. rewrite Ei. cbn [bind]. rewrite Ep. cbn [bind].
  assert (Li : (i < List.length H)%nat) by (apply nth_error_Some; congruence). apply IH; [exact ND'|injection L; auto|]. intros j Ij. destruct (A j (or_intror Ij)) as (f & f1 & Ej & Fp). exists f, f1. split; [|exact Fp]. rewrite hset_other; [exact Ej|exact Li|]. intros ->. contradiction.
Qed.
(** The contour can be parameterized in every heap that has the same edges in its places. *)
Definition samplable (contains : R -> list pt -> pt -> bool) (qd : quad * quad) (H : heap) (k : contour) : Prop :=
  forall H1, (forall j, In j (k_edges k) -> nth_error H1 j = nth_error H j) -> exists H' k', param_contour contains qd H1 k = Ok (H', k') /\ forall j, ~ In j (k_edges k) -> nth_error H' j = nth_error H1 j.
Lemma contour_ready contains qd n p H k es : get_quad_dict n p = Ok qd -> NoDup (k_edges k) -> List.length (k_edges k) = List.length (k_orients k) -> k_edges k <> [] -> refs H (k_edges k) es ->
  (forall e, In e es -> exists e1, parameterize qd e = Ok e1) -> (forall es', Forall2 (fun oe e' => resampled qd (fst oe) (snd oe) e') (combine (k_orients k) es) es' -> central contains es') -> samplable contains qd H k.
Proof.
  intros Q ND L NE R A C H1 EH. assert (R1 : refs H1 (k_edges k) es) by (apply (refs_agree H); assumption).
  destruct (param_edges_total qd (k_edges k) (k_orients k) H1 ND L) as (H2 & E2).
  { intros i Hi. assert (X : exists e, In e es /\ nth_error H1 i = Some e). { clear -R1 Hi. unfold refs in R1. induction R1 as [|j e l es Hj F IH]; [destruct Hi|]. destruct Hi as [<-|Hi]; [exists e; split; [left; reflexivity|exact Hj]|]. destruct (IH Hi) as (e' & I & E). exists e'. split; [right; exact I|exact E]. } destruct X as (e & Ie & Ee). destruct (A e Ie) as (e1 & E1). eauto. }
  destruct (param_edges_ok qd n p H1 k H2 Q ND L E2) as (es1 & es' & R1' & R2 & F & W & _ & FR). assert (es1 = es). { clear -R1 R1'. unfold refs in *. revert es1 R1'. induction R1 as [|j e l es Hj F IH]; intros es1 F1; inversion F1; subst; [reflexivity|]. f_equal; [congruence|apply IH; assumption]. } subst es1.
  unfold param_contour, param_edges. rewrite E2. cbn [bind]. pose proof (tables_ok H2 k es' R2 W) as T. destruct (find_num_pts H2 k) as [k1|]; [|discriminate]. cbn [bind] in *. destruct (find_local_vert_idx H2 k1) as [k2|]; [|discriminate]. cbn [bind] in *. rewrite T. cbn [bind].
  set (k3 := with_ktables _ _ _ _). assert (Fr : fresh H2 k3 es') by (split; [exact R2|split; [exact W|split; reflexivity]]). assert (NE' : es' <> []). { intros ->. inversion R2 as [X|]; congruence. }
  destruct (find_interior_total contains H2 k3 es' Fr NE') as (box & B & P1 & P2). assert (OK : exists k', find_interior_point contains H2 k3 = Ok k').
  { destruct (Rlt_dec 0 (clearance box)) as [Cl|Cl]; [apply (proj1 (P1 Cl)), (C es' F box B Cl)|]. destruct (P2 ltac:(lra)) as (k' & E & _). eauto. }
  destruct OK as (k' & Ek). rewrite Ek. cbn [bind]. exists H2, k'. split; [reflexivity|exact FR].
Qed.
Lemma NoDup_tail {A} (l l' : list A) : NoDup (l ++ l') -> NoDup l'.
Proof. induction l as [|a l IH]; intros ND; [exact ND|]. inversion ND; auto. Qed.
Lemma NoDup_app_disj {A} (l l' : list A) x : NoDup (l ++ l') -> In x l -> In x l' -> False.
Proof. induction l as [|a l IH]; intros ND I I'; [destruct I|]. inversion ND as [|? ? NI ND']; subst. destruct I as [->|I]; [apply NI, in_or_app; right; exact I'|exact (IH ND' I I')]. Qed.
Lemma ready_comps contains qd ks : forall H l, Forall (samplable contains qd H) ks -> NoDup (concat (map k_edges ks)) ->
  is_ok (fold_res (fun Hl k => do (H, k) <- param_contour contains qd (fst Hl) k; Ok (H, snd Hl ++ [k])) ks (H, l)) = true.
Proof.
  induction ks as [|k ks IH]; intros H l F ND; [reflexivity|]. inversion F as [|? ? R F']; subst. cbn [map concat] in ND. cbn [fold_res fst snd]. destruct (R H (fun _ _ => eq_refl)) as (H' & k' & E & FR). rewrite E. cbn [bind]. apply IH; [|apply (NoDup_tail (k_edges k) _ ND)].
  rewrite Forall_forall in *. intros k1 Ik1 H1 E1. apply (F' k1 Ik1). intros j Ij. rewrite (E1 j Ij). apply FR. intros Ik. apply (NoDup_app_disj (k_edges k) (concat (map k_edges ks)) j ND Ik). apply in_concat. exists (k_edges k1). split; [apply in_map, Ik1|exact Ij].
Qed.
Lemma ready_cell contains qd n p H c : get_quad_dict n p = Ok qd -> wf_cell c -> c_comps c <> [] -> Forall (samplable contains qd H) (c_comps c) -> exists H' c', param_cell contains qd false H c = Ok (H', c').
Proof. intros Q W NE F. apply (param_cell_total contains qd n p H c Q W NE). unfold param_comps. apply ready_comps; [exact F|apply W]. Qed.

Lemma samples_range e o P m s : e_param e = true -> map sx (e_smp e) = map P (seq 0 (m + 1)) -> In s (e_smp (if Z.eqb o (-1) then reverse_orientation e else e)) -> exists i, (i <= m)%nat /\ sx s = P i.
Proof.
  intros Pe E I. assert (X : In (sx s) (map sx (e_smp e))).
  { destruct (Z.eqb o (-1)); [|apply in_map, I]. unfold reverse_orientation in I. rewrite Pe in I. cbn [with_smp e_smp] in I. apply in_rev in I. apply in_map_iff in I. destruct I as (s' & <- & I). apply (in_map sx) in I. exact I. }
  rewrite E in X. apply in_map_iff in X. destruct X as (i & <- & Hi). apply in_seq in Hi. exists i. split; [lia|reflexivity].
Qed.
Lemma spots_smp e q : In q (spots e) -> exists s, In s (e_smp e) /\ sx s = q.
Proof. intros I. apply in_map_iff in I. destruct I as (s & <- & I). exists s. split; [|reflexivity]. unfold open_smp in I. clear -I. induction (e_smp e) as [|a [|b l] IH]; [destruct I|destruct I|]. destruct I as [<-|I]; [left; reflexivity|right; apply IH, I]. Qed.
Lemma runs_samples z e u v p n qd e' s : runs z e u v -> TOL <= pdist u v -> (2 <= p)%Z -> (4 <= n)%Z -> get_quad_dict (PInt n) p = Ok qd -> resampled qd (sign_for z e) e e' -> In s (e_smp e') -> on_segment u v (sx s).
Proof.
  intros R D Hp Hn Eq (e1' & Ep' & ->) I. pose proof PI_RGT_0 as HP. destruct (runs_smooth z e u v R D) as (Sm & _). destruct (smooth_positions e line_X line_DX p n qd Sm Hp Hn Eq) as (e1 & Ep & Pe & Ps). rewrite Ep in Ep'. apply Ok_inj in Ep'. subst e1'.
  destruct (samples_range e1 _ _ _ s Pe Ps I) as (i & Hi & ->). cbv beta.
  assert (G : forall a b, straight e a b -> on_segment a b (traced line_X e (param_arg e (rule_phi p e (INR i * (2 * PI / INR (2 * Z.to_nat n))))))).
  { intros a b S. pose proof S as (_ & Tb & _). assert (PA : forall t, param_arg e t = t) by (intros t; unfold param_arg, param_dt; rewrite Tb; cbn [fst snd]; field; lra). rewrite PA, (straight_traced e a b _ S). eexists. split; [|reflexivity].
    destruct (proj1 (edge_rule p e Hp) _ (node_range n i Hn Hi)) as ((A & B) & _). split; [apply Rmult_le_pos; [exact A|apply Rlt_le, Rinv_0_lt_compat; lra]|]. apply Rmult_le_reg_r with (2 * PI); [lra|]. unfold Rdiv at 1. rewrite Rmult_assoc, Rinv_l by lra. lra. }
  destruct R as [[_ S]|[_ S]]; [apply G, S|apply segment_rev, G, S].
Qed.
Lemma pdist_ge_x a b : Rabs (fst a - fst b) <= pdist a b.
Proof. unfold pdist. rewrite <- sqrt_Rsqr_abs. apply sqrt_le_1_alt. unfold Rsqr. pose proof (Rle_0_sqr (snd a - snd b)) as X. unfold Rsqr in X. lra. Qed.
Lemma pdist_ge_y a b : Rabs (snd a - snd b) <= pdist a b.
Proof. unfold pdist. rewrite <- sqrt_Rsqr_abs. apply sqrt_le_1_alt. unfold Rsqr. pose proof (Rle_0_sqr (fst a - fst b)) as X. unfold Rsqr in X. lra. Qed.

Lemma pdist_flat_x x0 x1 y : x0 + TOL <= x1 -> TOL <= pdist (x0, y) (x1, y).
Proof. intros H. pose proof (pdist_ge_x (x0, y) (x1, y)) as X. cbn [fst] in X. rewrite Rabs_minus_sym, Rabs_right in X; unfold TOL in *; lra. Qed.
Lemma pdist_flat_y x y0 y1 : y0 + TOL <= y1 -> TOL <= pdist (x, y0) (x, y1).
Proof. intros H. pose proof (pdist_ge_y (x, y0) (x, y1)) as X. cbn [snd] in X. rewrite Rabs_minus_sym, Rabs_right in X; unfold TOL in *; lra. Qed.

Lemma box_ready H z k x0 x1 y0 y1 i1 i2 i3 i4 p n qd : (2 <= p)%Z -> (4 <= n)%Z -> get_quad_dict (PInt n) p = Ok qd -> NoDup (k_edges k) -> k_edges k = [i1; i2; i3; i4] ->
  (forall j i e, nth_error (k_edges k) j = Some i -> nth_error H i = Some e -> nth_error (k_orients k) j = Some (sign_for z e)) -> List.length (k_orients k) = 4%nat ->
  bounded_by H z true (Box x0 x1 y0 y1 i1 i2 i3 i4) -> samplable within qd H k.
Proof.
  intros Hp Hn Eq ND EK EO LO (Hx & Hy & e1 & e2 & e3 & e4 & N1 & N2 & N3 & N4 & R1 & R2 & R3 & R4). assert (T0 : 0 < TOL) by (unfold TOL; lra).
  assert (OO : k_orients k = [sign_for z e1; sign_for z e2; sign_for z e3; sign_for z e4]).
  { rewrite EK in EO. pose proof (EO 0%nat i1 e1 eq_refl N1) as A1. pose proof (EO 1%nat i2 e2 eq_refl N2) as A2. pose proof (EO 2%nat i3 e3 eq_refl N3) as A3. pose proof (EO 3%nat i4 e4 eq_refl N4) as A4.
    destruct (k_orients k) as [|a [|b [|c [|d [|]]]]]; try discriminate. cbn in A1, A2, A3, A4. congruence. }
  assert (D1 : TOL <= pdist (x0, y0) (x1, y0)) by (apply pdist_flat_x, Hx). assert (D2 : TOL <= pdist (x1, y0) (x1, y1)) by (apply pdist_flat_y, Hy).
  assert (D3 : TOL <= pdist (x1, y1) (x0, y1)) by (rewrite pdist_sym; apply pdist_flat_x, Hx). assert (D4 : TOL <= pdist (x0, y1) (x0, y0)) by (rewrite pdist_sym; apply pdist_flat_y, Hy).
  destruct (runs_spots _ _ _ _ p n qd R1 D1 Hp Hn Eq) as (P1 & S1). destruct (runs_spots _ _ _ _ p n qd R2 D2 Hp Hn Eq) as (P2 & S2). destruct (runs_spots _ _ _ _ p n qd R3 D3 Hp Hn Eq) as (P3 & S3). destruct (runs_spots _ _ _ _ p n qd R4 D4 Hp Hn Eq) as (P4 & S4).
  apply (contour_ready within qd (PInt n) p H k [e1; e2; e3; e4] Eq ND).
  - rewrite EK, OO. reflexivity.
  - rewrite EK. discriminate.
  - rewrite EK. repeat (constructor; [assumption|]). constructor.
  - intros e [<-|[<-|[<-|[<-|[]]]]]; assumption.
  - rewrite OO. cbn [combine]. intros es' F. inversion F as [|? f1 ? l1 G1 F1]; subst. inversion F1 as [|? f2 ? l2 G2 F2]; subst. inversion F2 as [|? f3 ? l3 G3 F3]; subst. inversion F3 as [|? f4 ? l4 G4 F4]; subst. inversion F4; subst. clear F F1 F2 F3 F4. cbn [fst snd] in G1, G2, G3, G4.
    assert (B : forall f s, In f [f1; f2; f3; f4] -> In s (e_smp f) -> (x0 <= fst (sx s) <= x1 /\ y0 <= snd (sx s) <= y1) /\ (fst (sx s) = x0 \/ fst (sx s) = x1 \/ snd (sx s) = y0 \/ snd (sx s) = y1)).
    { intros f s [<-|[<-|[<-|[<-|[]]]]] Is.
      - destruct (runs_samples _ _ _ _ _ _ _ _ s R1 D1 Hp Hn Eq G1 Is) as (t & Ht & ->). unfold pt_add, pt_scale, pt_sub. cbn [fst snd]. split; [nra|right; right; left; ring].
      - destruct (runs_samples _ _ _ _ _ _ _ _ s R2 D2 Hp Hn Eq G2 Is) as (t & Ht & ->). unfold pt_add, pt_scale, pt_sub. cbn [fst snd]. split; [nra|right; left; ring].
      - destruct (runs_samples _ _ _ _ _ _ _ _ s R3 D3 Hp Hn Eq G3 Is) as (t & Ht & ->). unfold pt_add, pt_scale, pt_sub. cbn [fst snd]. split; [nra|right; right; right; ring].
      - destruct (runs_samples _ _ _ _ _ _ _ _ s R4 D4 Hp Hn Eq G4 Is) as (t & Ht & ->). unfold pt_add, pt_scale, pt_sub. cbn [fst snd]. split; [nra|left; ring]. }
    destruct (S1 f1 G1) as (C1 & _). destruct (S2 f2 G2) as (C2 & _). destruct (S3 f3 G3) as (C3 & _).
    apply (central_mid _ x0 x1 y0 y1 Hx Hy).
    + cbn [map concat]. split; [|split; [|split; [|split]]].
      * intros q Iq. rewrite !in_app_iff in Iq. assert (Q : exists f, In f [f1; f2; f3; f4] /\ In q (spots f)). { destruct Iq as [I|[I|[I|[I|[]]]]]; [exists f1|exists f2|exists f3|exists f4]; (split; [cbn; tauto|exact I]). } destruct Q as (f & If & Sq). destruct (spots_smp f q Sq) as (s & Is & <-). apply (B f s If Is).
      * exists (x0, y0). split; [apply in_or_app; left; exact C1|reflexivity].
      * exists (x1, y0). split; [apply in_or_app; right; apply in_or_app; left; exact C2|reflexivity].
      * exists (x0, y0). split; [apply in_or_app; left; exact C1|reflexivity].
      * exists (x1, y1). split; [apply in_or_app; right; apply in_or_app; right; apply in_or_app; left; exact C3|reflexivity].
    + intros f s If Is. destruct (B f s If Is) as (_ & Q). pose proof (Rmin_l (x1 - x0) (y1 - y0)). pose proof (Rmin_r (x1 - x0) (y1 - y0)). assert (0 < Rmin (x1 - x0) (y1 - y0)) by (apply Rmin_glb_lt; lra).
      destruct Q as [Q|[Q|[Q|Q]]].
      * eapply Rle_trans; [|apply pdist_ge_x]. cbn [fst]. rewrite Q, Rabs_minus_sym, Rabs_right; lra.
      * eapply Rle_trans; [|apply pdist_ge_x]. cbn [fst]. rewrite Q, Rabs_right; lra.
      * eapply Rle_trans; [|apply pdist_ge_y]. cbn [snd]. rewrite Q, Rabs_minus_sym, Rabs_right; lra.
      * eapply Rle_trans; [|apply pdist_ge_y]. cbn [snd]. rewrite Q, Rabs_right; lra.
Qed.

(** A circle *)
Lemma arg_max (f : nat -> R) m : exists k, (k <= m)%nat /\ forall i, (i <= m)%nat -> f i <= f k.
Proof.
  induction m as [|m (k & Hk & A)]; [exists 0%nat; split; [lia|]; intros i Hi; replace i with 0%nat by lia; lra|]. destruct (Rle_dec (f k) (f (S m))) as [L|L].
  - exists (S m). split; [lia|]. intros i Hi. destruct (Nat.eq_dec i (S m)) as [->|D]; [lra|]. specialize (A i ltac:(lia)). lra.
  - exists k. split; [lia|]. intros i Hi. destruct (Nat.eq_dec i (S m)) as [->|D]; [lra|]. apply A. lia.
Qed.
Lemma round_ready H k i e c r o p n qd : (2 <= p)%Z -> (4 <= n)%Z -> get_quad_dict (PInt n) p = Ok qd -> k_edges k = [i] -> k_orients k = [o] -> nth_error H i = Some e -> round_edge e c r -> e_qtype e = "trap"%string -> TOL <= r -> samplable within qd H k.
Proof.
  intros Hp Hn Eq EK EO Ei Re Qt Hr. pose proof PI_RGT_0 as HP. assert (T0 : 0 < TOL) by (unfold TOL; lra). pose proof (round_smooth e c r Re) as Sm. destruct (smooth_positions e _ _ p n qd Sm Hp Hn Eq) as (e1 & Ep & Pe & Ps).
  apply (contour_ready within qd (PInt n) p H k [e] Eq).
  - rewrite EK. constructor; [intros []|constructor].
  - rewrite EK, EO. reflexivity.
  - rewrite EK. discriminate.
  - rewrite EK. constructor; [exact Ei|constructor].
  - intros f [<-|[]]. exists e1. exact Ep.
  - rewrite EO. cbn [combine]. intros es' F. inversion F as [|? f ? l G F1]; subst. inversion F1; subst. clear F F1. cbn [fst snd] in G. destruct G as (e1' & Ep' & ->). rewrite Ep in Ep'. apply Ok_inj in Ep'. subst e1'.
    set (N := Z.to_nat n) in *. assert (HN : 0 < INR N) by (apply lt_0_INR; unfold N; lia). set (T := fun i : nat => INR i * (2 * PI / INR (2 * N))) in *. set (P := fun i : nat => (fst c + r * cos (T i), snd c + r * sin (T i))).
    assert (ET : forall i, T i = INR i * (PI / INR N)) by (intros j; unfold T; rewrite mult_INR; cbn [INR]; field; lra).
    assert (Ps' : map sx (e_smp e1) = map P (seq 0 (2 * N + 1))).
    { rewrite Ps. apply map_ext. intros j. pose proof Re as (_ & Tb & _). assert (PA : forall t, param_arg e t = t) by (intros t; unfold param_arg, param_dt; rewrite Tb; cbn [fst snd]; field; lra). rewrite PA. unfold rule_phi. rewrite Qt. cbn [String.eqb Ascii.eqb Bool.eqb]. rewrite (round_traced e c r _ Re). unfold px, py, P. reflexivity. }
    clear Ps. assert (N4 : (4 <= N)%nat) by (unfold N; lia).
    assert (TN : T N = PI) by (rewrite ET; field; lra). assert (T2 : T (2 * N)%nat = 2 * PI) by (rewrite ET, mult_INR; cbn [INR]; field; lra). assert (T00 : T 0%nat = 0) by (rewrite ET; cbn [INR]; ring).
    assert (TS : forall j, (j <= 2 * N)%nat -> sin (T (2 * N - j)%nat) = - sin (T j)). { intros j Hj. replace (T (2 * N - j)%nat) with (- T j + 2 * 1 * PI) by (rewrite !ET, minus_INR, mult_INR by exact Hj; cbn [INR]; field; lra). change 1 with (INR 1). rewrite sin_period. apply sin_neg. }
    destruct (arg_max (fun j => sin (T j)) (2 * N)) as (K & HK & MK). cbv beta in MK.
    assert (SH : 1 / 2 <= sin (T K)).
    { apply Rle_trans with (sin (T (N / 2)%nat)); [|apply MK; pose proof (Nat.div_le_upper_bound N 2 N); lia]. rewrite <- sin_PI6. pose proof (Nat.div_mod N 2 ltac:(lia)) as DM. pose proof (Nat.mod_upper_bound N 2 ltac:(lia)) as MB.
      assert (H1 : INR N - 1 <= 2 * INR (N / 2) <= INR N). { change 2 with (INR 2). rewrite <- mult_INR. change 1 with (INR 1) at 1. rewrite <- minus_INR by lia. split; apply le_INR; lia. }
      assert (H4 : 4 <= INR N) by (replace 4 with (INR 4) by (cbn; ring); apply le_INR; exact N4). assert (B : PI / 6 <= T (N / 2)%nat <= PI / 2).
      { rewrite ET. assert (HQ : 0 < PI / INR N) by (apply Rdiv_lt_0_compat; lra). assert (HM : INR N * (PI / INR N) = PI) by (field; lra). set (g := PI / INR N) in *. split; nra. }
      apply sin_incr_1; lra. }
    assert (K0 : (0 < K < 2 * N)%nat). { split; [destruct K; [|lia]; rewrite T00, sin_0 in SH; lra|]. destruct (Nat.eq_dec K (2 * N)) as [->|D]; [|lia]. rewrite T2, sin_2PI in SH. lra. }
    set (M := r * sin (T K)). assert (HM : r / 2 <= M) by (unfold M; nra).
    assert (SB : forall j, (j <= 2 * N)%nat -> - M <= r * sin (T j) <= M). { intros j Hj. pose proof (MK j Hj). pose proof (MK (2 * N - j)%nat ltac:(lia)) as X. rewrite TS in X by exact Hj. unfold M. split; nra. }
    apply (central_mid _ (fst c - r) (fst c + r) (snd c - M) (snd c + M)); [lra|lra| |].
    + cbn [map concat]. rewrite app_nil_r. split; [|split; [|split; [|split]]].
      * intros q Iq. destruct (spots_range e1 o P (2 * N) q Pe Ps' Iq) as (j & Hj & ->). unfold P. cbn [fst snd]. pose proof (SB j Hj). pose proof (COS_bound (T j)). split; [nra|lra].
      * exists (P N). split; [apply spots_inner with (m := (2 * N)%nat); [exact Pe|exact Ps'|lia]|]. unfold P. cbn [fst]. rewrite TN, cos_PI. ring.
      * eexists. split; [apply (spots_first e1 o P (2 * N)); [lia|exact Pe|exact Ps']|]. unfold P. cbn [fst]. destruct (Z.eqb o (-1)); [rewrite T2, cos_2PI|rewrite T00, cos_0]; ring.
      * exists (P (2 * N - K)%nat). split; [apply spots_inner with (m := (2 * N)%nat); [exact Pe|exact Ps'|lia]|]. unfold P. cbn [snd]. rewrite TS by lia. unfold M. ring.
      * exists (P K). split; [apply spots_inner with (m := (2 * N)%nat); [exact Pe|exact Ps'|lia]|]. reflexivity.
    + intros f s [<-|[]] Is. destruct (samples_range e1 o P (2 * N) s Pe Ps' Is) as (j & Hj & ->). replace ((fst c - r + (fst c + r)) / 2) with (fst c) by field. replace ((snd c - M + (snd c + M)) / 2) with (snd c) by field.
      assert (ED : pdist (P j) (fst c, snd c) = r). { unfold pdist, P. cbn [fst snd]. pose proof (sin2_cos2 (T j)) as SC. unfold Rsqr in SC. match goal with |- sqrt ?a = _ => replace a with (r * r * (sin (T j) * sin (T j) + cos (T j) * cos (T j))) by ring end. rewrite SC, Rmult_1_r. apply sqrt_square. lra. }
      rewrite ED. pose proof (Rmin_l (fst c + r - (fst c - r)) (snd c + M - (snd c - M))). lra.
Qed.
