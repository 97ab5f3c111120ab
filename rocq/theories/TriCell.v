(** A concrete cell for examples about local function spaces: the triangle with corners (0, 0),
    (s, 0) and (0, s), each side sampled at nine points. The side from (0, 0) to (0, s) runs against
    the boundary of the cell. *)
From Coq Require Import List ZArith Reals Lia Lra Bool String Permutation.
From Verif Require Import PyBase PolyModel PolySpec BaryModel BBoxModel QuadModel CurveModel VertModel EdgeModel EdgeSpec EdgeProofs EdgeProofs2 EdgeProps EdgeProps3 ContourModel CellModel CellSpec CellProofs CellProps ContourProofs ContourProofs2 ContourProofs3 ContourProps InteriorProofs ContourProofs4 CellProofs2 Annulus CellProps2 CellProps3 TraceModel TraceSpec LocalModel LocalSpec LocalProofs LocalProofs2.
Import List ListNotations.
Open Scope R_scope.

(** ** Straight sides *)
Definition side (a b : vert) (p n k : Z) : edge := Edge a b p n Line [] "trap" (Some k) (orb (Z.ltb p 0) (Z.ltb n 0)) false false (-1) [] (0, 2 * PI) [SJoin a b].
Definition seg (a b : vert) (i : nat) : sample :=
  let L := pdist (coord a) (coord b) in let T := ((vx b - vx a) / L, (vy b - vy a) / L) in
  Smp (vx a + INR i / 8 * (vx b - vx a), vy a + INR i / 8 * (vy b - vy a)) T (snd T, - fst T) (L / (2 * PI)) 0.
Lemma far_veqb a b : TOL <= pdist (coord a) (coord b) -> veqb a (VVert b) = false.
Proof. intros D. unfold veqb, vnorm, mkvert. cbn [vx vy]. rewrite pdist_pow. apply Rltb_false. exact D. Qed.
Lemma side_mk a b p n k : TOL <= pdist (coord a) (coord b) -> (0 <= k)%Z -> mk_edge a b p n Line "trap" (Some (PInt k)) (0, 2 * PI) [] = Ok (side a b p n k).
Proof.
  intros D Hk. pose proof PI_RGT_0. unfold mk_edge, check_idx, check_t_bounds. cbn [fst snd bind]. destruct (Z.ltb_spec k 0); [lia|]. cbn [bind]. destruct (Rle_dec (2 * PI) 0); [lra|]. cbn [bind]. unfold set_verts, set_cells. cbn [e_anchor e_endpnt e_pos e_neg e_curve e_opts e_qtype e_idx e_bdry e_loop e_param e_npts e_smp e_tb e_diary]. rewrite (far_veqb _ _ D). reflexivity.
Qed.
Lemma side_param a b p n k : TOL <= pdist (coord a) (coord b) -> exists e, parameterize dict4 (side a b p n k) = Ok e /\
  e_anchor e = a /\ e_endpnt e = b /\ e_idx e = Some k /\ e_loop e = false /\ e_npts e = 9%Z /\ e_param e = true /\ e_qtype e = "trap"%string /\ e_smp e = map (seg a b) (seq 0 9).
Proof.
  intros D. pose proof PI_RGT_0 as HP. assert (F : diary_fine (0, 0) (1, 0) [SJoin a b]) by (cbn [diary_fine step_fine]; rewrite dist01; unfold Rdiv; rewrite Rinv_1, Rmult_1_r; unfold TOL in *; repeat split; lra).
  destruct line_ends as [E0 E1]. pose proof (parameterize_jets (PInt 4) 7 dict4 (side a b p n k) (fst dict4) _ _ _ dict4_ok eq_refl eq_refl eq_refl eq_refl) as P. cbn [side e_tb e_diary fst snd] in P. rewrite E0, E1 in P. fold (side a b p n k) in P. eexists. split; [apply P; [|exact F]|].
  { intros t _. rewrite norm2_scale. unfold param_dt, norm2. cbn [side e_tb fst snd]. replace ((2 * PI - 0) / (2 * PI)) with 1 by (field; lra). assert (0 < 1 / (2 * PI)) by (apply Rdiv_lt_0_compat; lra). nra. }
  clear P. match goal with |- context [with_qtype (after_diary ?l ?e0 ?m) ?y] => destruct (after_diary_fields l e0 m y) as (-> & -> & ->) end. unfold after_diary. cbn [last_join]. unfold set_verts, with_smp, with_qtype. cbn [e_anchor e_endpnt e_idx e_loop e_npts e_param with_param side e_qtype]. rewrite (far_veqb _ _ D). repeat (split; [reflexivity|]).
  set (Sm := diary_sim _ _ _). assert (EL : forall u, lin Sm (u, 0) = (u * (vx b - vx a), u * (vy b - vy a)) /\ sapp Sm (u, 0) = (vx a + u * (vx b - vx a), vy a + u * (vy b - vy a))).
  { intros u. unfold Sm. cbn [diary_sim]. rewrite comp_lin, id_lin, comp_app, id_app. unfold step_sim, join_sim, sapp, lin, pt_div, coord. cbn [s_c s_d s_flip]. unfold norm2, pt_scale, pt_sub, pt_conj, pt_mul, pt_add. cbn [fst snd]. split; f_equal; field. }
  assert (A : forall t, param_arg (side a b p n k) t = t) by (intros t; unfold param_arg, param_dt; cbn [side e_tb fst snd]; field; lra).
  assert (Dt : param_dt (side a b p n k) = 1) by (unfold param_dt; cbn [side e_tb fst snd]; field; lra).
  set (L := pdist (coord a) (coord b)) in *. assert (L0 : 0 < L) by (unfold TOL in D; lra).
  assert (NW : norm (lin Sm (pt_scale 1 (1 / (2 * PI), 0))) = L / (2 * PI)).
  { rewrite pt_scale_1, (proj1 (EL _)). unfold norm, norm2, L, pdist, coord. cbn [fst snd]. replace (1 / (2 * PI) * (vx b - vx a) * (1 / (2 * PI) * (vx b - vx a)) + 1 / (2 * PI) * (vy b - vy a) * (1 / (2 * PI) * (vy b - vy a))) with (((vx a - vx b) * (vx a - vx b) + (vy a - vy b) * (vy a - vy b)) * (/ (2 * PI) * / (2 * PI))) by (field; lra). rewrite sqrt_mult_alt by (apply Rplus_le_le_0_compat; apply Rle_0_sqr). rewrite sqrt_square by (left; apply Rinv_0_lt_compat; lra). reflexivity. }
  unfold curve_jets. rewrite map_map. cbn [fst snd dict4 q_t q_wgt]. unfold linspace. rewrite map_map.
  assert (G : forall l, map (fun x => EdgeSpec.sample_of (Jet (sapp Sm (param_arg (side a b p n k) (fst x) / (2 * PI), 0)) (lin Sm (pt_scale (param_dt (side a b p n k)) (1 / (2 * PI), 0))) (lin Sm (pt_scale (param_dt (side a b p n k) ^ 2) (0, 0))) (snd x)))
      (combine (map (fun i => 0 + INR i * ((2 * PI - 0) / INR 8)) l) (map (fun _ => 1) l)) = map (seg a b) l).
  { induction l as [|i l IH]; [reflexivity|]. cbn [map combine]. rewrite IH. f_equal. unfold EdgeSpec.sample_of. cbn [jx jd jdd jw fst snd]. rewrite A, Dt, NW. unfold seg. fold L.
    replace ((0 + INR i * ((2 * PI - 0) / INR 8)) / (2 * PI)) with (INR i / 8) by (simpl (INR 8); field; lra). rewrite (proj2 (EL _)). rewrite pt_scale_1, (proj1 (EL _)). 
    assert (Ez : lin Sm (pt_scale (1 ^ 2) (0, 0)) = (0, 0)) by (replace (pt_scale (1 ^ 2) (0, 0)) with ((0, 0) : pt) by (unfold pt_scale; cbn [fst snd]; f_equal; ring); rewrite (proj1 (EL 0)); f_equal; ring). rewrite Ez.
    unfold pt_scale, cw, cross. cbn [fst snd]. f_equal.
    - apply f_equal2; field; lra.
    - apply f_equal2; field; lra.
    - field; lra.
    - unfold Rdiv at 1. ring. }
  apply G.
Qed.
Lemma seg_reverse a b : TOL <= pdist (coord a) (coord b) -> rev (map reverse_sample (map (seg a b) (seq 0 9))) = map (seg b a) (seq 0 9).
Proof.
  intros D. assert (Sy : pdist (coord b) (coord a) = pdist (coord a) (coord b)) by (unfold pdist; f_equal; ring). unfold TOL in D. pose proof PI_RGT_0.
  assert (G : forall i j, INR i + INR j = 8 -> reverse_sample (seg a b i) = seg b a j).
  { intros i j E. unfold reverse_sample, seg. rewrite Sy. cbn [sx sT sN sw sk fst snd]. replace (INR i) with (8 - INR j) by lra. f_equal; try (apply f_equal2); try field; lra. }
  cbn [seq map rev app]. repeat (apply f_equal2; [apply G; cbn [INR]; lra|]). reflexivity.
Qed.

(** ** The cell *)
Section Triangle.
Variables (s : R) (i0 i1 i2 : Z).
Hypothesis Hs : 1 <= s.
Definition v0 : vert := Vert 0 0 i0.
Definition v1 : vert := Vert s 0 i1.
Definition v2 : vert := Vert 0 s i2.
Definition sides : heap := [side v0 v1 0 (-1) 0; side v0 v2 (-1) 0 1; side v1 v2 0 (-1) 2].
Lemma len01 : pdist (coord v0) (coord v1) = s.
Proof. unfold pdist, coord. cbn [v0 v1 fst snd vx vy]. replace ((0 - s) * (0 - s) + (0 - 0) * (0 - 0)) with (s * s) by ring. apply sqrt_square. lra. Qed.
Lemma len02 : pdist (coord v0) (coord v2) = s.
Proof. unfold pdist, coord. cbn [v0 v2 fst snd vx vy]. replace ((0 - 0) * (0 - 0) + (0 - s) * (0 - s)) with (s * s) by ring. apply sqrt_square. lra. Qed.
Lemma len12 : pdist (coord v1) (coord v2) = s * sqrt 2.
Proof. unfold pdist, coord. cbn [v1 v2 fst snd vx vy]. replace ((s - 0) * (s - 0) + (0 - s) * (0 - s)) with ((s * s) * 2) by ring. rewrite sqrt_mult_alt by nra. rewrite sqrt_square by lra. reflexivity. Qed.
Lemma root2 : 1 < sqrt 2 < 2.
Proof. split; [rewrite <- sqrt_1 at 1; apply sqrt_lt_1_alt; lra|]. rewrite <- (sqrt_square 2) at 2 by lra. apply sqrt_lt_1_alt; lra. Qed.
Lemma far01 : TOL <= pdist (coord v0) (coord v1).
Proof. rewrite len01. unfold TOL. lra. Qed.
Lemma far02 : TOL <= pdist (coord v0) (coord v2).
Proof. rewrite len02. unfold TOL. lra. Qed.
Lemma far12 : TOL <= pdist (coord v1) (coord v2).
Proof. rewrite len12. pose proof root2. unfold TOL. nra. Qed.

Lemma corners v w : In v [v0; v1; v2] -> In w [v0; v1; v2] -> near v w -> v = w.
Proof.
  intros [<-|[<-|[<-|[]]]] [<-|[<-|[<-|[]]]] N; try reflexivity; exfalso; revert N; apply not_near; cbn [v0 v1 v2 vx vy]; nra.
Qed.
Ltac corner := match goal with
  | |- near ?v ?v => apply near_refl
  | H : near ?v ?w |- _ => exfalso; let E := fresh in assert (E : v = w) by (apply corners; [cbn [In]; auto|cbn [In]; auto|exact H]); apply (f_equal (fun q => vx q + 2 * vy q)) in E; cbn [v0 v1 v2 vx vy] in E; lra
  end.
Ltac one_side k := exists k; split; [eexists; split; [reflexivity|]; unfold follows; unfold stop_pt, start_pt; cbn [side e_pos e_neg e_anchor e_endpnt Z.eqb Pos.eqb]; corner|];
  let j := fresh "j" in let e := fresh "e" in let E := fresh "E" in let F := fresh "F" in
  intros [|[|[|j]]] (e & E & F); cbn [sides nth_error] in E; try (destruct j; discriminate); injection E as <-; unfold follows in F; unfold stop_pt, start_pt in F; cbn [side e_pos e_neg e_anchor e_endpnt Z.eqb Pos.eqb] in F; first [reflexivity|corner].
Lemma sides_matched : matched 0 sides.
Proof.
  split; intros e [<-|[<-|[<-|[]]]].
  - one_side 2%nat.
  - one_side 0%nat.
  - one_side 1%nat.
  - one_side 1%nat.
  - one_side 2%nat.
  - one_side 0%nat.
Qed.
Definition tri_contour : contour := Contour 0 [0; 2; 1]%nat [1; 1; -1]%Z None [] None None.
Definition tri_cell (m : Z * Z) : cell := Cell 0 [tri_contour] 0 3 [1; -1; 1]%Z m (1 / 20) (1 / 20) None None None None.
Lemma tri_made m : mk_cell sides 0 [0; 1; 2]%nat m (1 / 20) (1 / 20) = Ok (tri_cell m).
Proof.
  unfold mk_cell. cbn [cell_idx Z.ltb Z.compare bind]. change (map_res (deref sides) [0; 1; 2]%nat) with (Ok sides). cbn [bind]. change (orientations 0 sides) with (Ok (signs 0 sides)). cbn [bind]. unfold boundary_components.
  destruct (incidence_ok 0 sides sides_matched) as (inc & Ei & Li & NDi & Si). rewrite Ei. cbn [bind].
  assert (I0 : inc = [2; 0; 1]%nat).
  { destruct inc as [|j0 [|j1 [|j2 [|j3 inc]]]]; try discriminate Li.
    destruct (Si 0%nat ltac:(cbn; lia)) as (k0 & f0 & g0 & A0 & B0 & C0 & D0 & F0). destruct (Si 1%nat ltac:(cbn; lia)) as (k1 & f1 & g1 & A1 & B1 & C1 & D1 & F1). destruct (Si 2%nat ltac:(cbn; lia)) as (k2 & f2 & g2 & A2 & B2 & C2 & D2 & F2).
    injection A0 as <-. injection A1 as <-. injection A2 as <-. injection C0 as <-. injection C1 as <-. injection C2 as <-. unfold follows, stop_pt, start_pt in F0, F1, F2. cbn [sides List.length] in B0, B1, B2. cbn [side e_pos e_anchor e_endpnt Z.eqb Pos.eqb] in F0, F1, F2.
    f_equal; [|f_equal; [|f_equal]].
    - destruct j0 as [|[|[|j0]]]; [| |reflexivity|lia]; injection D0 as <-; cbn [side e_pos e_anchor e_endpnt Z.eqb Pos.eqb] in F0; clear F1 F2; corner.
    - destruct j1 as [|[|[|j1]]]; [reflexivity| | |lia]; injection D1 as <-; cbn [side e_pos e_anchor e_endpnt Z.eqb Pos.eqb] in F1; clear F0 F2; corner.
    - destruct j2 as [|[|[|j2]]]; [|reflexivity| |lia]; injection D2 as <-; cbn [side e_pos e_anchor e_endpnt Z.eqb Pos.eqb] in F2; clear F0 F1; corner. }
  subst inc. match goal with |- bind ?a _ = _ => change a with (Ok [tri_contour]) end. cbn [bind]. destruct (Rle_dec (1 / 20) 0); [lra|]. reflexivity.
Qed.

(** The test whether a point is inside: exact for this triangle *)
Definition in_tri (_ : R) (_ : list pt) (p : pt) : bool := Rltb 0 (fst p) && Rltb 0 (snd p) && Rltb (fst p + snd p) s.
(** The sides of the parameterized cell, in the order of the boundary *)
Definition is_side (a b : vert) (p n k o : Z) (e : edge) : Prop :=
  resampled dict4 o (side a b p n k) e /\ e_anchor e = a /\ e_endpnt e = b /\ e_idx e = Some k /\ e_loop e = false /\ e_npts e = 9%Z /\ e_qtype e = "trap"%string /\
  e_smp e = map (if Z.eqb o (-1) then seg b a else seg a b) (seq 0 9).
Lemma side_exists a b p n k o : TOL <= pdist (coord a) (coord b) -> exists e1, parameterize dict4 (side a b p n k) = Ok e1 /\ is_side a b p n k o (if Z.eqb o (-1) then reverse_orientation e1 else e1).
Proof.
  intros D. destruct (side_param a b p n k D) as (e1 & E & A & B & I & L & N & P & Q & Sm). exists e1. split; [exact E|]. split; [exists e1; split; [exact E|reflexivity]|].
  destruct (Z.eqb o (-1)); [|repeat split; assumption]. unfold reverse_orientation. rewrite P. cbn [with_smp e_anchor e_endpnt e_idx e_loop e_npts e_qtype e_smp]. repeat (split; [assumption|]). rewrite Sm. apply seg_reverse, D.
Qed.
Definition tri_ready (H : heap) (c : cell) (e0 e1 e2 : edge) : Prop :=
  ready in_tri H c /\ boundary_edges H c [[e0; e2; e1]] /\ c_holes c = 0%Z /\ is_side v0 v1 0 (-1) 0 1 e0 /\ is_side v0 v2 (-1) 0 1 (-1) e1 /\ is_side v1 v2 0 (-1) 2 1 e2.
Definition corner_list : list pt := map (fun i => sx (seg v0 v1 i)) (seq 0 8) ++ map (fun i => sx (seg v1 v2 i)) (seq 0 8) ++ map (fun i => sx (seg v2 v0 i)) (seq 0 8).
Lemma tri_path e0 e1 e2 : is_side v0 v1 0 (-1) 0 1 e0 -> is_side v0 v2 (-1) 0 1 (-1) e1 -> is_side v1 v2 0 (-1) 2 1 e2 -> map sx (contour_smp [e0; e2; e1]) = corner_list.
Proof.
  intros (_ & _ & _ & _ & _ & _ & _ & S0) (_ & _ & _ & _ & _ & _ & _ & S1) (_ & _ & _ & _ & _ & _ & _ & S2). unfold contour_smp. cbn [map concat]. unfold open_smp. rewrite S0, S1, S2. cbn [Z.eqb Pos.eqb]. reflexivity.
Qed.
Lemma eighth i : In i (seq 0 8) -> 0 <= INR i / 8 < 1.
Proof. intros I. apply in_seq in I. assert (0 <= INR i) by apply pos_INR. assert (INR i < INR 8) by (apply lt_INR; lia). simpl (INR 8) in *. lra. Qed.
Lemma corner_In p : In p corner_list -> exists t, 0 <= t < 1 /\ (p = (t * s, 0) \/ p = ((1 - t) * s, t * s) \/ p = (0, (1 - t) * s)).
Proof.
  intros I. unfold corner_list in I. apply in_app_or in I. destruct I as [I|I]; [|apply in_app_or in I; destruct I as [I|I]]; apply in_map_iff in I; destruct I as (i & <- & I); exists (INR i / 8); (split; [apply eighth, I|]); cbn [seg sx v0 v1 v2 vx vy]; [left|right; left|right; right]; apply f_equal2; ring.
Qed.
Lemma corner_mem : In (0, 0) corner_list /\ In (s, 0) corner_list /\ In (0, s) corner_list.
Proof.
  unfold corner_list. rewrite !in_app_iff, !in_map_iff. split; [|split].
  - left. exists 0%nat. split; [|apply in_seq; lia]. cbn [seg sx v0 v1 v2 vx vy INR]. apply f_equal2; field.
  - right. left. exists 0%nat. split; [|apply in_seq; lia]. cbn [seg sx v0 v1 v2 vx vy INR]. apply f_equal2; field.
  - right. right. exists 0%nat. split; [|apply in_seq; lia]. cbn [seg sx v0 v1 v2 vx vy INR]. apply f_equal2; field.
Qed.
Lemma corner_cons : exists l, corner_list = (0, 0) :: l.
Proof. unfold corner_list. cbn [seq map app]. eexists. f_equal. cbn [seg sx v0 v1 vx vy INR]. apply f_equal2; field. Qed.
Lemma list_min_gen x l m : In m (x :: l) -> (forall y, In y (x :: l) -> m <= y) -> lmin x l = m.
Proof. intros I F. apply Annulus.list_min; [exact I|apply Forall_forall, F]. Qed.
Lemma list_max_gen x l m : In m (x :: l) -> (forall y, In y (x :: l) -> y <= m) -> lmax x l = m.
Proof. intros I F. apply Annulus.list_max; [exact I|apply Forall_forall, F]. Qed.
Lemma corner_box : bounding_box TOL (map fst corner_list) (map snd corner_list) = Ok (0, s, 0, s).
Proof.
  destruct corner_mem as (M0 & M1 & M2). assert (Bx : forall p, In p corner_list -> 0 <= fst p <= s /\ 0 <= snd p <= s) by (intros p I; destruct (corner_In p I) as (t & T & [->|[->| ->]]); cbn [fst snd]; nra).
  destruct corner_cons as (l & E). rewrite E in *. cbn [map fst snd bounding_box].
  assert (N1 : lmin 0 (map fst l) = 0). { apply (list_min_gen 0 (map fst l)); [left; reflexivity|]. intros y I. change (0 :: map fst l) with (map fst ((0, 0) :: l)) in I. apply in_map_iff in I. destruct I as (p & <- & I). apply Bx, I. }
  assert (N2 : lmax 0 (map fst l) = s). { apply (list_max_gen 0 (map fst l)); [apply (in_map fst) in M1; exact M1|]. intros y I. change (0 :: map fst l) with (map fst ((0, 0) :: l)) in I. apply in_map_iff in I. destruct I as (p & <- & I). apply Bx, I. }
  assert (N3 : lmin 0 (map snd l) = 0). { apply (list_min_gen 0 (map snd l)); [left; reflexivity|]. intros y I. change (0 :: map snd l) with (map snd ((0, 0) :: l)) in I. apply in_map_iff in I. destruct I as (p & <- & I). apply Bx, I. }
  assert (N4 : lmax 0 (map snd l) = s). { apply (list_max_gen 0 (map snd l)); [apply (in_map snd) in M2; exact M2|]. intros y I. change (0 :: map snd l) with (map snd ((0, 0) :: l)) in I. apply in_map_iff in I. destruct I as (p & <- & I). apply Bx, I. }
  rewrite N1, N2, N3, N4. cbv zeta. unfold TOL. rewrite Rmax_left by lra. repeat match goal with |- context [Rlt_dec ?a ?b] => destruct (Rlt_dec a b); [lra|] end. reflexivity.
Qed.
Lemma corner_far p : In p corner_list -> s / 100 <= pdist p (s / 4, s / 4).
Proof.
  intros I. unfold pdist. rewrite <- (sqrt_square (s / 100)) by lra. apply sqrt_le_1_alt. destruct (corner_In p I) as (t & T & [->|[->| ->]]); cbn [fst snd].
  - pose proof (Rle_0_sqr (t * s - s / 4)) as Q. unfold Rsqr in Q. nra.
  - assert (E : ((1 - t) * s - s / 4) + (t * s - s / 4) = s / 2) by field. set (a := (1 - t) * s - s / 4) in *. set (b := t * s - s / 4) in *. pose proof (Rle_0_sqr (a - b)) as Q. unfold Rsqr in Q. nra.
  - pose proof (Rle_0_sqr ((1 - t) * s - s / 4)) as Q. unfold Rsqr in Q. nra.
Qed.
Lemma quarter_grid : In (s / 4, s / 4) (InteriorProofs.grid (0, s, 0, s) 8).
Proof.
  unfold InteriorProofs.grid, meshgrid. apply in_concat. assert (E : In (s / 4) (linspace 0 s 8)) by (apply in_map_iff; exists 2%nat; split; [cbn [INR]; field|apply in_seq; lia]).
  eexists. split; [apply in_map_iff; exists (s / 4); split; [reflexivity|exact E]|apply in_map_iff; exists (s / 4); split; [reflexivity|exact E]].
Qed.
Lemma tri_param : exists H k e0 e1 e2, param_contour in_tri dict4 sides tri_contour = Ok (H, k) /\ H = [e0; e1; e2] /\ is_side v0 v1 0 (-1) 0 1 e0 /\ is_side v0 v2 (-1) 0 1 (-1) e1 /\ is_side v1 v2 0 (-1) 2 1 e2.
Proof.
  destruct (side_exists v0 v1 0 (-1) 0 1 far01) as (a0 & P0 & S0). destruct (side_exists v0 v2 (-1) 0 1 (-1) far02) as (a1 & P1 & S1). destruct (side_exists v1 v2 0 (-1) 2 1 far12) as (a2 & P2 & S2). cbn [Z.eqb Pos.eqb] in S0, S1, S2. set (b1 := reverse_orientation a1) in *.
  assert (EH : param_edges dict4 sides tri_contour = Ok [a0; b1; a2]).
  { unfold param_edges, tri_contour. cbn [k_edges k_orients combine fold_res fst snd]. change (deref sides 0) with (Ok (side v0 v1 0 (-1) 0)). cbn [bind]. rewrite P0. cbn [bind Z.eqb Pos.eqb]. change (deref (hset sides 0 a0) 2) with (Ok (side v1 v2 0 (-1) 2)). cbn [bind]. rewrite P2. cbn [bind Z.eqb Pos.eqb]. change (deref (hset (hset sides 0 a0) 2 a2) 1) with (Ok (side v0 v2 (-1) 0 1)). cbn [bind]. rewrite P1. cbn [bind Z.eqb Pos.eqb]. reflexivity. }
  unfold param_contour. rewrite EH. cbn [bind]. assert (Wl : Forall well_sampled [a0; a2; b1]) by (repeat apply Forall_cons; try apply Forall_nil; eapply reversed_sampled; try exact dict4_ok; [apply S0|apply S2|apply S1]).
  assert (Rf : refs [a0; b1; a2] (k_edges tri_contour) [a0; a2; b1]) by (repeat constructor).
  pose proof (tables_ok [a0; b1; a2] tri_contour [a0; a2; b1] Rf Wl) as T. destruct (ContourModel.find_num_pts [a0; b1; a2] tri_contour) as [k1|]; [|discriminate]. cbn [bind] in *. destruct (find_local_vert_idx [a0; b1; a2] k1) as [k2|]; [|discriminate]. cbn [bind] in *. rewrite T. cbn [bind].
  set (k := with_ktables _ _ _ _). assert (F : fresh [a0; b1; a2] k [a0; a2; b1]) by (split; [exact Rf|split; [exact Wl|split; reflexivity]]). destruct (find_interior_total in_tri [a0; b1; a2] k [a0; a2; b1] F ltac:(discriminate)) as (box & B & A & _).
  pose proof (tri_path a0 b1 a2 S0 S1 S2) as Pa. assert (Eb : box = (0, s, 0, s)). { unfold xs_of, ys_of in B. rewrite <- (map_map sx fst), <- (map_map sx snd), Pa in B. pose proof (eq_trans (eq_sym B) corner_box) as B2. injection B2 as B2. exact B2. } subst box.
  assert (C : clearance (0, s, 0, s) = s / 100) by (unfold clearance; rewrite Rmin_left by lra; field). rewrite C in A. destruct (A ltac:(lra)) as [OK _]. destruct OK as (k' & E').
  { exists 8%nat, (s / 4, s / 4). split; [left; reflexivity|]. split; [apply quarter_grid|]. split.
    - unfold in_tri. cbn [fst snd]. rewrite !andb_true_iff. repeat split; apply Rltb_true; lra.
    - intros t It. assert (It' : In (sx t) corner_list \/ sx t = (s, 0) \/ sx t = (0, s) \/ sx t = (0, 0)).
      { rewrite <- Pa. cbn [map concat] in It. rewrite app_nil_r in It. destruct S0 as (_ & _ & _ & _ & _ & _ & _ & S0). destruct S1 as (_ & _ & _ & _ & _ & _ & _ & S1). destruct S2 as (_ & _ & _ & _ & _ & _ & _ & S2). cbn [Z.eqb Pos.eqb] in *.
        assert (X : forall a b, In t (map (seg a b) (seq 0 9)) -> In t (map (seg a b) (seq 0 8)) \/ t = seg a b 8) by (intros a b I; change (seq 0 9) with (seq 0 8 ++ [8%nat]) in I; rewrite map_app in I; apply in_app_or in I; destruct I as [I|[<-|[]]]; auto).
        rewrite Pa. unfold corner_list. rewrite !in_app_iff. rewrite !in_app_iff, S0, S1, S2 in It. destruct It as [It|[It|It]]; apply X in It; destruct It as [It|It].
        - left. left. apply in_map_iff in It. destruct It as (i & <- & I). apply in_map_iff. eauto.
        - right. left. rewrite It. cbn [seg sx v0 v1 vx vy INR]. apply f_equal2; field.
        - left. right. left. apply in_map_iff in It. destruct It as (i & <- & I). apply in_map_iff. eauto.
        - right. right. left. rewrite It. cbn [seg sx v2 v1 vx vy INR]. apply f_equal2; field.
        - left. right. right. apply in_map_iff in It. destruct It as (i & <- & I). apply in_map_iff. eauto.
        - right. right. right. rewrite It. cbn [seg sx v0 v2 vx vy INR]. apply f_equal2; field. }
      destruct corner_mem as (M0 & M1 & M2). apply corner_far. destruct It' as [I|[->|[->| ->]]]; assumption. }
  rewrite E'. cbn [bind]. exists [a0; b1; a2], k', a0, b1, a2. repeat (split; [reflexivity || assumption|]). exact S2.
Qed.
Lemma tri_after m : exists H c e0 e1 e2, param_cell in_tri dict4 false sides (tri_cell m) = Ok (H, c) /\ tri_ready H c e0 e1 e2 /\ c_int c = None.
Proof.
  pose proof (tri_made m) as B. destruct tri_param as (H & k & e0 & e1 & e2 & P & EH & S0 & S1 & S2). pose proof (built_wf _ _ _ _ _ _ _ B) as W.
  destruct (param_cell_total in_tri dict4 (PInt 4) 7 sides (tri_cell m) dict4_ok W ltac:(discriminate)) as (H' & c' & PC); [unfold param_comps; cbn [tri_cell c_comps fold_res fst snd]; rewrite P; reflexivity|].
  assert (Rd : ready in_tri H' c') by (exists sides, 0%Z, [0; 1; 2]%nat, m, (1 / 20), (1 / 20), (tri_cell m), (PInt 4), 7%Z, dict4, false, sides; split; [exact B|]; split; [exact dict4_ok|exact PC]).
  destruct (ready_fresh _ _ _ Rd) as (ess & F & _). destruct (param_cell_ok in_tri (fun _ _ => True) (fun _ _ _ _ _ _ => I) dict4 _ _ _ _ _ _ _ dict4_ok W PC) as (ess0 & ess' & Pr). pose proof (Permutation.Permutation_map fst (p_edges _ _ _ _ _ _ _ _ _ Pr)) as PE. rewrite !map_map in PE. cbn [fst] in PE. change (map (fun x => k_edges x) (c_comps (tri_cell m))) with [[0; 2; 1]%nat] in PE. apply Permutation.Permutation_sym, Permutation.Permutation_length_1_inv in PE.
  destruct F as (_ & Hh & _). assert (X : exists k, c_comps c' = [k] /\ k_edges k = [0; 2; 1]%nat) by (destruct (c_comps c') as [|k1 [|? ?]]; try discriminate; exists k1; split; [reflexivity|]; cbn [map] in PE; congruence). destruct X as (k1 & Ek & Ke).
  assert (EH' : H' = [e0; e1; e2] /\ c_int c' = None).
  { unfold param_cell, param_comps in PC. cbn [tri_cell c_comps fold_res fst snd] in PC. rewrite P in PC. cbn [bind fold_res] in PC. unfold cell_num_pts in PC. inv_as PC c1 E1. inv_as PC c2 E2. inv_as PC c3 E3. inv_as PC c4 E4. apply Ok_inj in PC. injection PC as -> ->. split; [exact EH|].
    unfold cell_closest in E4. inv_as E4 u4 E4a. inv_as E4 n4 E4b. inv_as E4 l4 E4c. apply Ok_inj in E4. subst c4. cbn [with_tables c_int].
    unfold cell_start_idx in E3. inv_as E3 u3 E3a. inv_as E3 n3 E3b. destruct n3. apply Ok_inj in E3. subst c3. cbn [with_tables c_int].
    unfold find_outer in E2. inv_as E2 u2 E2a. cbv zeta in E2. inv_as E2 o2 E2b. inv_as E2 k2 E2c. inv_as E2 k3 E2d. apply Ok_inj in E2. subst c2. cbn [with_comps c_int].
    inv_as E1 u1 E1a. inv_as E1 n1 E1b. apply Ok_inj in E1. subst c1. reflexivity. }
  destruct EH' as [-> Ei]. exists [e0; e1; e2], c', e0, e1, e2. split; [exact PC|]. split; [|exact Ei]. split; [exact Rd|]. split; [|split; [rewrite Hh, Ek; reflexivity|repeat (split; [assumption|]); assumption]].
  unfold boundary_edges. rewrite Ek. constructor; [|constructor]. rewrite Ke. unfold refs. repeat constructor.
Qed.
Lemma tri_exists : exists H c e0 e1 e2, tri_ready H c e0 e1 e2 /\ c_int c = None.
Proof. destruct (tri_after (5, 5)%Z) as (H & c & e0 & e1 & e2 & _ & X). eauto 6. Qed.
End Triangle.
