(** Concrete cells bounded by circles, used in examples and counterexamples. *)
From Coq Require Import List ZArith Reals Lia Lra Psatz Bool Permutation String.
From Verif Require Import PyBase PolyModel BaryModel BBoxModel QuadModel CurveModel VertModel EdgeModel EdgeSpec EdgeProofs EdgeProps EdgeProps3 ContourModel CellModel CellSpec CellProofs CellProps ContourProofs ContourProofs2 ContourProofs3 InteriorProofs ContourProofs4 CellProofs2 EdgeProps4.
Import List ListNotations.
Open Scope R_scope.

(** The circle of radius [r] around [(x, 0)], with cell [p] inside and cell [n] outside *)
Definition ring (x r : R) (p n : Z) : edge :=
  Edge (mkvert x 0) (mkvert x 0) p n Circle [("radius"%string, r)] "trap" None (orb (Z.ltb p 0) (Z.ltb n 0)) true false (-1) [] (0, 2 * PI) [STranslate (mkvert x 0)].
Lemma ring_mk x r p n : mk_edge (mkvert x 0) (mkvert x 0) p n Circle "trap" None (0, 2 * PI) [("radius"%string, r)] = Ok (ring x r p n).
Proof.
  pose proof PI_RGT_0 as HP. assert (V : veqb (mkvert x 0) (VVert (mkvert x 0)) = true).
  { unfold veqb, vnorm, mkvert. cbn [vx vy]. apply Rltb_true. replace ((x - x) ^ 2 + (0 - 0) ^ 2) with 0 by ring. rewrite sqrt_0. lra. }
  unfold mk_edge, check_idx, check_t_bounds. cbn [fst snd bind]. destruct (Rle_dec (2 * PI) 0); [lra|]. cbn [bind]. unfold set_cells, set_verts. rewrite V. reflexivity.
Qed.

(** Its nine samples, counterclockwise for [s = 1] and clockwise for [s = -1] *)
Definition oct (x r s : R) : list pt :=
  let h := r / sqrt 2 in
  [(x + r, 0); (x + h, s * h); (x, s * r); (x - h, s * h); (x - r, 0); (x - h, - (s * h)); (x, - (s * r)); (x + h, - (s * h)); (x + r, 0)].

Lemma angles : (cos (1 * (PI / 4)) = 1 / sqrt 2 /\ sin (1 * (PI / 4)) = 1 / sqrt 2) /\ (cos (2 * (PI / 4)) = 0 /\ sin (2 * (PI / 4)) = 1) /\ (cos (3 * (PI / 4)) = - (1 / sqrt 2) /\ sin (3 * (PI / 4)) = 1 / sqrt 2) /\ (cos (4 * (PI / 4)) = -1 /\ sin (4 * (PI / 4)) = 0) /\
  (cos (5 * (PI / 4)) = - (1 / sqrt 2) /\ sin (5 * (PI / 4)) = - (1 / sqrt 2)) /\ (cos (6 * (PI / 4)) = 0 /\ sin (6 * (PI / 4)) = -1) /\ (cos (7 * (PI / 4)) = 1 / sqrt 2 /\ sin (7 * (PI / 4)) = - (1 / sqrt 2)) /\ (cos (8 * (PI / 4)) = 1 /\ sin (8 * (PI / 4)) = 0).
Proof.
  assert (A1 : cos (1 * (PI / 4)) = 1 / sqrt 2 /\ sin (1 * (PI / 4)) = 1 / sqrt 2) by (rewrite Rmult_1_l; split; [apply cos_PI4|apply sin_PI4]).
  assert (A2 : cos (2 * (PI / 4)) = 0 /\ sin (2 * (PI / 4)) = 1) by (replace (2 * (PI / 4)) with (PI / 2) by field; split; [apply cos_PI2|apply sin_PI2]).
  assert (S2 : forall t c s, cos t = c /\ sin t = s -> cos (t + PI / 2) = - s /\ sin (t + PI / 2) = c).
  { intros t c s [<- <-]. rewrite cos_plus, sin_plus, cos_PI2, sin_PI2. split; ring. }
  assert (G : forall m t c s, cos (m * (PI / 4)) = c /\ sin (m * (PI / 4)) = s -> t = m + 2 -> cos (t * (PI / 4)) = - s /\ sin (t * (PI / 4)) = c).
  { intros m t c s H ->. replace ((m + 2) * (PI / 4)) with (m * (PI / 4) + PI / 2) by field. apply S2, H. }
  pose proof (G 1 3 _ _ A1 ltac:(lra)) as A3. pose proof (G 2 4 _ _ A2 ltac:(lra)) as A4. pose proof (G 3 5 _ _ A3 ltac:(lra)) as A5. pose proof (G 4 6 _ _ A4 ltac:(lra)) as A6. pose proof (G 5 7 _ _ A5 ltac:(lra)) as A7. pose proof (G 6 8 _ _ A6 ltac:(lra)) as A8.
  rewrite ?Ropp_involutive, ?Ropp_0 in *. repeat split; tauto || lra.
Qed.

Definition ring_points (x r : R) : list pt := map (fun t => (r * cos t + x, r * sin t + 0)) (linspace 0 (2 * PI) 8).
Lemma ring_points_oct x r : ring_points x r = oct x r 1.
Proof.
  pose proof angles as ((C1 & S1) & (C2 & S2) & (C3 & S3) & (C4 & S4) & (C5 & S5) & (C6 & S6) & (C7 & S7) & (C8 & S8)).
  unfold ring_points, linspace. cbn [seq map INR].
  replace (0 + 0 * ((2 * PI - 0) / (1 + 1 + 1 + 1 + 1 + 1 + 1 + 1))) with 0 by ring. rewrite cos_0, sin_0.
  replace (0 + 1 * ((2 * PI - 0) / (1 + 1 + 1 + 1 + 1 + 1 + 1 + 1))) with (1 * (PI / 4)) by field.
  replace (0 + (1 + 1) * ((2 * PI - 0) / (1 + 1 + 1 + 1 + 1 + 1 + 1 + 1))) with (2 * (PI / 4)) by field.
  replace (0 + (1 + 1 + 1) * ((2 * PI - 0) / (1 + 1 + 1 + 1 + 1 + 1 + 1 + 1))) with (3 * (PI / 4)) by field.
  replace (0 + (1 + 1 + 1 + 1) * ((2 * PI - 0) / (1 + 1 + 1 + 1 + 1 + 1 + 1 + 1))) with (4 * (PI / 4)) by field.
  replace (0 + (1 + 1 + 1 + 1 + 1) * ((2 * PI - 0) / (1 + 1 + 1 + 1 + 1 + 1 + 1 + 1))) with (5 * (PI / 4)) by field.
  replace (0 + (1 + 1 + 1 + 1 + 1 + 1) * ((2 * PI - 0) / (1 + 1 + 1 + 1 + 1 + 1 + 1 + 1))) with (6 * (PI / 4)) by field.
  replace (0 + (1 + 1 + 1 + 1 + 1 + 1 + 1) * ((2 * PI - 0) / (1 + 1 + 1 + 1 + 1 + 1 + 1 + 1))) with (7 * (PI / 4)) by field.
  replace (0 + (1 + 1 + 1 + 1 + 1 + 1 + 1 + 1) * ((2 * PI - 0) / (1 + 1 + 1 + 1 + 1 + 1 + 1 + 1))) with (8 * (PI / 4)) by field.
  rewrite C1, S1, C2, S2, C3, S3, C4, S4, C5, S5, C6, S6, C7, S7, C8, S8. unfold oct. assert (sqrt 2 <> 0) by (apply Rgt_not_eq, sqrt_lt_R0; lra).
  repeat (apply f_equal2; [apply f_equal2; field; assumption|]). reflexivity.
Qed.

Lemma ring_param x r p n : exists e, parameterize dict4 (ring x r p n) = Ok e /\ e_param e = true /\ e_npts e = 9%Z /\ map sx (e_smp e) = oct x r 1.
Proof.
  pose proof PI_RGT_0. eexists. split; [reflexivity|]. split; [reflexivity|]. split; [reflexivity|]. rewrite <- ring_points_oct. unfold translate, on_smp, log. unfold ring. ecbn. cbn [fst dict4 q_t q_wgt].
  unfold ring_points, linspace. rewrite !map_map. cbn [seq map combine fst snd sx raw_sample mkvert vx vy]. unfold circle_R. cbn [opt String.eqb Ascii.eqb Bool.eqb].
  assert (D : forall t, 1 / 2 * (2 * PI - 0) / PI * t + 0 = t) by (intros t; field; lra). rewrite !D. reflexivity.
Qed.
(** Sampling again gives the same samples. *)
Lemma ring_again x r p n e : parameterize dict4 (ring x r p n) = Ok e -> parameterize dict4 e = Ok e /\ parameterize dict4 (reverse_orientation e) = Ok e.
Proof. intros E. assert (X : forall a b : res edge, a = b -> a = Ok e -> b = Ok e) by congruence. unfold parameterize in E. cbn [ring e_qtype e_tb e_curve e_opts String.eqb Ascii.eqb Bool.eqb bind cX cDX cDDX] in E. apply Ok_inj in E. subst e. split; reflexivity. Qed.
(** Edges with the geometry of a ring, whatever their present samples are *)
Definition like (e0 : edge) (x r : R) (p n : Z) : Prop := parameterize dict4 e0 = parameterize dict4 (ring x r p n).
Lemma like_after x r p n o e0 e : like e0 x r p n -> resampled dict4 o e0 e -> like e x r p n.
Proof. intros L (e1 & E & ->). unfold like in *. rewrite L in E. destruct (ring_again _ _ _ _ _ E) as [A B]. rewrite E. destruct (Z.eqb o (-1)); assumption. Qed.
Lemma ring_resampled x r p n o e0 e : like e0 x r p n -> resampled dict4 o e0 e -> e_npts e = 9%Z /\ map sx (e_smp e) = oct x r (if Z.eqb o (-1) then -1 else 1).
Proof.
  intros L (e1 & E & ->). unfold like in L. rewrite L in E. destruct (ring_param x r p n) as (e2 & E2 & P & N & S). assert (e2 = e1) by congruence. subst e2. destruct (Z.eqb o (-1)); [|auto]. unfold reverse_orientation. rewrite P. split; [exact N|]. cbn [with_smp e_smp]. rewrite map_rev, map_map. rewrite (map_ext _ sx (fun _ => eq_refl)), S. unfold oct. cbn [rev app].
  repeat (apply f_equal2; [apply f_equal2; ring|]). reflexivity.
Qed.

(** Containment in the disc on which points 0 and 4 of the path are opposite. This is what
    [contains] has to decide for the octagons above. *)
Definition disc (rad : R) (path : list pt) (p : pt) : bool :=
  let a := nth 0 path (0, 0) in let b := nth 4 path (0, 0) in
  let c := (1 / 2 * (fst a + fst b), 1 / 2 * (snd a + snd b)) in Rltb (pdist p c) (pdist a c).

Lemma pdist_flat (a b d : R) : 0 <= d -> (a - b) * (a - b) = d * d -> pdist (a, 0) (b, 0) = d.
Proof. intros D E. unfold pdist. cbn [fst snd]. replace (_ + _) with (d * d) by (rewrite <- E; ring). apply sqrt_square, D. Qed.
Lemma disc_oct x r s p rest : 0 < r -> s = 1 \/ s = -1 -> disc 0 (firstn 8 (oct x r s) ++ rest) p = Rltb (pdist p (x, 0)) r.
Proof.
  intros R0 S. unfold disc. cbn [oct firstn app nth fst snd]. replace (1 / 2 * (x + r + (x - r))) with x by field. replace (1 / 2 * (0 + 0)) with 0 by ring. rewrite (pdist_flat (x + r) x r) by (lra || ring). reflexivity.
Qed.
Lemma oct_dist x r s p : 0 < r -> s = 1 \/ s = -1 -> In p (oct x r s) -> pdist p (x, 0) = r.
Proof.
  intros R0 S I. assert (Q : sqrt 2 * sqrt 2 = 2) by (apply sqrt_sqrt; lra). assert (Q0 : 0 < sqrt 2) by (apply sqrt_lt_R0; lra). assert (Hh : r / sqrt 2 * (r / sqrt 2) = r * r / 2) by (unfold Rdiv; replace (r * / sqrt 2 * (r * / sqrt 2)) with (r * r * / (sqrt 2 * sqrt 2)) by (field; lra); rewrite Q; reflexivity).
  assert (G : forall u v, u * u + v * v = r * r -> p = (x + u, v) -> pdist p (x, 0) = r).
  { intros u v E ->. unfold pdist. cbn [fst snd]. replace (_ + _) with (r * r) by (rewrite <- E; ring). apply sqrt_square. lra. }
  assert (S2 : s * s = 1) by (destruct S; subst; ring). set (h := r / sqrt 2) in *. unfold oct in I. fold h in I.
  assert (G' : forall a b, (a, b) = p -> (a - x) * (a - x) + b * b = r * r -> pdist p (x, 0) = r). { intros a b <- E. apply (G (a - x) b E). f_equal. ring. }
  cbn [In] in I. repeat destruct I as [I|I]; try contradiction; apply (G' _ _ I); try (ring_simplify; nra); nra.
Qed.

Lemma half_side r : 0 < r -> 0 <= r / sqrt 2 <= r.
Proof.
  intros R0. assert (Q : 1 <= sqrt 2) by (rewrite <- sqrt_1 at 1; apply sqrt_le_1_alt; lra). split; [apply Rlt_le, Rdiv_lt_0_compat; lra|]. apply Rmult_le_reg_r with (sqrt 2); [lra|]. unfold Rdiv. rewrite Rmult_assoc, Rinv_l by lra. nra.
Qed.
Lemma list_min x l m : In m (x :: l) -> Forall (fun y => m <= y) (x :: l) -> lmin x l = m.
Proof. intros I F. destruct (lmin_le l x) as [A B]. pose proof (lmin_In l x) as C. rewrite Forall_forall in F, B. specialize (F _ C). destruct I as [<-|I]; [lra|]. specialize (B _ I). lra. Qed.
Lemma list_max x l m : In m (x :: l) -> Forall (fun y => y <= m) (x :: l) -> lmax x l = m.
Proof. intros I F. destruct (lmax_ge l x) as [A B]. pose proof (lmax_In l x) as C. rewrite Forall_forall in F, B. specialize (F _ C). destruct I as [<-|I]; [lra|]. specialize (B _ I). lra. Qed.

Lemma oct_box x r s : 1 <= r -> s = 1 \/ s = -1 -> bounding_box TOL (map fst (firstn 8 (oct x r s))) (map snd (firstn 8 (oct x r s))) = Ok (x - r, x + r, - r, r).
Proof.
  intros R1 S. pose proof (half_side r ltac:(lra)) as Hh. unfold oct. set (h := r / sqrt 2) in *. cbn [firstn map fst snd bounding_box].
  assert (Y : (s = 1 -> In (- r) [0; s * h; s * r; s * h; 0; - (s * h); - (s * r); - (s * h)] /\ In r [0; s * h; s * r; s * h; 0; - (s * h); - (s * r); - (s * h)]) /\ (s = -1 -> In (- r) [0; s * h; s * r; s * h; 0; - (s * h); - (s * r); - (s * h)] /\ In r [0; s * h; s * r; s * h; 0; - (s * h); - (s * r); - (s * h)])).
  { split; intros ->; split; cbn [In].
    - do 6 right. left. ring.
    - do 2 right. left. ring.
    - do 2 right. left. ring.
    - do 6 right. left. ring. }
  assert (Y' : In (- r) [0; s * h; s * r; s * h; 0; - (s * h); - (s * r); - (s * h)] /\ In r [0; s * h; s * r; s * h; 0; - (s * h); - (s * r); - (s * h)]) by (destruct S; tauto).
  assert (M1 : lmin (x + r) [x + h; x; x - h; x - r; x - h; x; x + h] = x - r) by (apply list_min; [cbn; tauto|repeat (apply Forall_cons; [lra|]); apply Forall_nil]).
  assert (M2 : lmax (x + r) [x + h; x; x - h; x - r; x - h; x; x + h] = x + r) by (apply list_max; [cbn; tauto|repeat (apply Forall_cons; [lra|]); apply Forall_nil]).
  assert (M3 : lmin 0 [s * h; s * r; s * h; 0; - (s * h); - (s * r); - (s * h)] = - r) by (apply list_min; [tauto|destruct S; subst; repeat (apply Forall_cons; [lra|]); apply Forall_nil]).
  assert (M4 : lmax 0 [s * h; s * r; s * h; 0; - (s * h); - (s * r); - (s * h)] = r) by (apply list_max; [tauto|destruct S; subst; repeat (apply Forall_cons; [lra|]); apply Forall_nil]).
  rewrite M1, M2, M3, M4. cbv zeta. unfold TOL. rewrite Rmax_left by lra. repeat match goal with |- context [Rlt_dec ?a ?b] => destruct (Rlt_dec a b); [lra|] end. reflexivity.
Qed.

Lemma grid_centre x r : In (x, 0) (grid (x - r, x + r, - r, r) 8).
Proof.
  unfold grid, meshgrid. apply in_concat. assert (E : forall a, In a (linspace (a - r) (a + r) 8)) by (intros a; apply in_map_iff; exists 4%nat; split; [cbn [INR]; field|apply in_seq; lia]).
  eexists. split; [apply in_map_iff; exists 0; split; [reflexivity|]|apply in_map_iff; exists x; split; [reflexivity|apply E]]. specialize (E 0). replace (0 - r) with (- r) in E by ring. replace (0 + r) with r in E by ring. exact E.
Qed.

(** A contour of one ring can be parameterized. *)
Lemma map_removelast' {A B} (f : A -> B) l : map f (removelast l) = removelast (map f l).
Proof. induction l as [|a [|b l] IH]; [reflexivity|reflexivity|]. change (removelast (a :: b :: l)) with (a :: removelast (b :: l)). cbn [map]. rewrite IH. reflexivity. Qed.
Lemma ring_path e x r s : map sx (e_smp e) = oct x r s -> path_of [e] = firstn 8 (oct x r s).
Proof. intros E. unfold path_of, contour_smp. cbn [map concat]. rewrite app_nil_r. unfold open_smp. rewrite map_removelast', E. reflexivity. Qed.

Lemma ring_accept e x r s : 1 <= r -> s = 1 \/ s = -1 -> map sx (e_smp e) = oct x r s ->
  bounding_box TOL (xs_of (contour_smp [e])) (ys_of (contour_smp [e])) = Ok (x - r, x + r, - r, r) /\ clearance (x - r, x + r, - r, r) = r / 50 /\ acceptable disc [e] (r / 50) (x, 0).
Proof.
  intros R1 S E. pose proof (ring_path e x r s E) as P. unfold path_of in P. split; [|split].
  - unfold xs_of, ys_of. rewrite <- (map_map sx fst), <- (map_map sx snd), P. apply oct_box; assumption.
  - unfold clearance. rewrite Rmin_left by lra. field.
  - split.
    + rewrite P, <- (app_nil_r (firstn 8 _)). rewrite disc_oct by (lra || assumption). apply Rltb_true. rewrite (pdist_flat x x 0) by (lra || ring). lra.
    + intros t It. cbn [map concat] in It. rewrite app_nil_r in It. rewrite (oct_dist x r s); [lra|lra|exact S|]. rewrite <- E. apply in_map, It.
Qed.

Definition unset (z : Z) (i : nat) (o : Z) : contour := Contour z [i] [o] None [] None None.

Lemma ring_contour H i e0 x r p n z o : 1 <= r -> nth_error H i = Some e0 -> like e0 x r p n -> exists H' k', param_contour disc dict4 H (unset z i o) = Ok (H', k') /\ forall j, j <> i -> nth_error H' j = nth_error H j.
Proof.
  intros R1 Ei Lk. unfold param_contour, param_edges. cbn [unset k_edges k_orients combine fold_res fst snd]. unfold deref at 1. rewrite Ei. cbn [bind]. destruct (ring_param x r p n) as (e & E & P & N & S). rewrite <- Lk in E. rewrite E. cbn [bind]. set (e1 := if Z.eqb o (-1) then reverse_orientation e else e).
  assert (RS : resampled dict4 o e0 e1) by (exists e; split; [exact E|reflexivity]). destruct (ring_resampled _ _ _ _ _ _ _ Lk RS) as [N1 S1]. pose proof (reversed_sampled _ _ _ _ _ _ dict4_ok RS) as W. assert (Li : (i < List.length H)%nat) by (apply nth_error_Some; congruence).
  assert (Rf : refs (hset H i e1) [i] [e1]) by (constructor; [apply hset_same, Li|constructor]). assert (Wl : Forall well_sampled [e1]) by (constructor; [exact W|constructor]).
  pose proof (tables_ok (hset H i e1) (unset z i o) [e1] Rf Wl) as T. change (Contour z [i] [o] None [] None None) with (unset z i o). destruct (find_num_pts (hset H i e1) (unset z i o)) as [k1|]; [|discriminate]. cbn [bind] in *. destruct (find_local_vert_idx (hset H i e1) k1) as [k2|]; [|discriminate]. cbn [bind] in *. rewrite T. cbn [bind].
  set (k := with_ktables _ _ _ _). assert (F : fresh (hset H i e1) k [e1]) by (split; [exact Rf|split; [exact Wl|split; reflexivity]]). destruct (find_interior_total disc (hset H i e1) k [e1] F ltac:(discriminate)) as (box & B & A & _).
  assert (SG : (if Z.eqb o (-1) then -1 else 1) = 1 \/ (if Z.eqb o (-1) then -1 else 1) = -1) by (destruct (Z.eqb o (-1)); [right|left]; reflexivity). destruct (ring_accept e1 x r _ R1 SG S1) as (B' & C & Ac). assert (box = (x - r, x + r, - r, r)) by congruence. subst box. rewrite C in A. destruct (A ltac:(lra)) as [OK _]. destruct OK as (k' & E').
  { exists 8%nat, (x, 0). split; [left; reflexivity|]. split; [apply grid_centre|exact Ac]. }
  rewrite E'. cbn [bind]. exists (hset H i e1), k'. split; [reflexivity|]. intros j D. apply hset_other; [exact Li|congruence].
Qed.
Lemma rings_comps ks : forall H l, Forall (fun k => exists z i o e0 x r p n, k = unset z i o /\ 1 <= r /\ nth_error H i = Some e0 /\ like e0 x r p n) ks -> NoDup (concat (map k_edges ks)) ->
  is_ok (fold_res (fun Hl k => do (H, k) <- param_contour disc dict4 (fst Hl) k; Ok (H, snd Hl ++ [k])) ks (H, l)) = true.
Proof.
  induction ks as [|k ks IH]; intros H l F ND; [reflexivity|]. inversion F as [|? ? (z & i & o & e0 & x & r & p & n & -> & R1 & Ei & Lk) F']; subst. cbn [map concat unset k_edges app] in ND. inversion ND as [|? ? NI ND']; subst. destruct (ring_contour H i e0 x r p n z o R1 Ei Lk) as (H' & k' & E & FR). cbn [fold_res fst snd]. change (Contour z [i] [o] None [] None None) with (unset z i o). rewrite E. cbn [bind]. apply IH; [|exact ND'].
  rewrite Forall_forall in *. intros k Ik. destruct (F' k Ik) as (z1 & i1 & o1 & e1 & x1 & r1 & p1 & n1 & -> & R1' & E1 & L1). exists z1, i1, o1, e1, x1, r1, p1, n1. split; [reflexivity|]. split; [exact R1'|]. split; [|exact L1]. rewrite FR; [exact E1|]. intros ->. apply NI. apply in_concat. exists [i]. split; [apply (in_map k_edges) in Ik; exact Ik|left; reflexivity].
Qed.

(** ** Two cells: a disc, and the ring around it *)

(** Circle 0 has radius 1 around (1, 0), circle 1 radius 4 around (0, 0). Cell 2 is inside circle 0,
    cell 1 is between the circles. *)
Definition rings : heap := [ring 1 1 2 1; ring 0 4 1 (-1)].
Definition made (z : Z) (cs : list contour) (os : list Z) (m : Z * Z) (tol : R) : cell := Cell z cs (-1 + Z.of_nat (List.length cs)) (List.length cs) os m tol tol None None None None.

Lemma two_matched es : es = [ring 1 1 2 1; ring 0 4 1 (-1)] \/ es = [ring 0 4 1 (-1); ring 1 1 2 1] -> matched 1 es.
Proof.
  assert (U : forall e, In e [ring 1 1 2 1; ring 0 4 1 (-1)] -> forall e', In e' [ring 1 1 2 1; ring 0 4 1 (-1)] -> follows 1 e e' -> e = e').
  { intros e [<-|[<-|[]]] e' [<-|[<-|[]]] F; try reflexivity; exfalso; revert F; unfold follows; cbn; apply not_near; cbn; lra. }
  assert (S : forall e, In e [ring 1 1 2 1; ring 0 4 1 (-1)] -> follows 1 e e) by (intros e [<-|[<-|[]]]; unfold follows; cbn; apply near_refl).
  assert (D : ring 1 1 2 1 <> ring 0 4 1 (-1)) by (intros E; apply (f_equal e_pos) in E; discriminate).
  assert (G : forall a b, In a [ring 1 1 2 1; ring 0 4 1 (-1)] -> In b [ring 1 1 2 1; ring 0 4 1 (-1)] -> a <> b -> matched 1 [a; b]).
  { intros a b Ia Ib N. split; intros e Ie.
    - destruct Ie as [<-|[<-|[]]].
      + exists 0%nat. split; [exists a; split; [reflexivity|apply S, Ia]|]. intros [|[|[|j]]] (e' & E & F'); cbn in E; try discriminate; injection E as <-; [reflexivity|]. exfalso. apply N, (U a Ia b Ib F').
      + exists 1%nat. split; [exists b; split; [reflexivity|apply S, Ib]|]. intros [|[|[|j]]] (e' & E & F'); cbn in E; try discriminate; injection E as <-; [|reflexivity]. exfalso. apply N. symmetry. apply (U b Ib a Ia F').
    - destruct Ie as [<-|[<-|[]]].
      + exists 0%nat. split; [exists a; split; [reflexivity|apply S, Ia]|]. intros [|[|[|j]]] (e' & E & F'); cbn in E; try discriminate; injection E as <-; [reflexivity|]. exfalso. apply N. symmetry. apply (U b Ib a Ia F').
      + exists 1%nat. split; [exists b; split; [reflexivity|apply S, Ib]|]. intros [|[|[|j]]] (e' & E & F'); cbn in E; try discriminate; injection E as <-; [|reflexivity]. exfalso. apply N, (U a Ia b Ib F'). }
  intros [->| ->]; apply G; cbn [In]; auto; intros E; apply D; congruence.
Qed.
Lemma incidence_self z es : matched z es -> (forall e, In e es -> follows z e e) -> incidence es (signs z es) = Ok (seq 0 (List.length es)).
Proof.
  intros M S. destruct (incidence_ok z es M) as (inc & Ei & Li & NDi & Si). rewrite Ei. f_equal. apply nth_error_ext'. intros i. destruct (Nat.lt_ge_cases i (List.length es)) as [L|L].
  - destruct (Si i L) as (j & f & g & A & B & C & D & F). rewrite A. destruct M as [M _]. assert (Ig : In f es) by (eapply nth_error_In, C). destruct (M f Ig) as (m & (x & Hm & Fm) & Um). assert (m = i) by (apply Um; exists f; split; [exact C|apply S, Ig]). assert (m = j) by (apply Um; exists g; auto). assert (j = i) by congruence. clear Um. subst j. symmetry. rewrite (nth_error_nth' _ 0%nat) by (rewrite seq_length; exact L). rewrite seq_nth by exact L. f_equal. lia.
  - rewrite (proj2 (nth_error_None _ _)), (proj2 (nth_error_None _ _)); [reflexivity|rewrite seq_length; lia|lia].
Qed.

Lemma ring_cell_inner m tol : 0 < tol -> mk_cell rings 1 [0; 1]%nat m tol tol = Ok (made 1 [unset 1 0 (-1); unset 1 1 1] [-1; 1]%Z m tol).
Proof.
  intros T. unfold mk_cell. cbn [cell_idx Z.ltb Z.compare bind]. change (map_res (deref rings) [0; 1]%nat) with (Ok [ring 1 1 2 1; ring 0 4 1 (-1)]). cbn [bind]. change (orientations 1 [ring 1 1 2 1; ring 0 4 1 (-1)]) with (Ok (signs 1 [ring 1 1 2 1; ring 0 4 1 (-1)])). cbn [bind].
  unfold boundary_components. rewrite incidence_self; [|apply two_matched; left; reflexivity|intros e [<-|[<-|[]]]; unfold follows; cbn; apply near_refl]. cbn [bind]. 
  match goal with |- bind ?a _ = _ => change a with (Ok [unset 1 0 (-1); unset 1 1 1]) end. cbn [bind]. destruct (Rle_dec tol 0); [lra|]. reflexivity.
Qed.
Lemma ring_cell_outer m tol : 0 < tol -> mk_cell rings 1 [1; 0]%nat m tol tol = Ok (made 1 [unset 1 1 1; unset 1 0 (-1)] [1; -1]%Z m tol).
Proof.
  intros T. unfold mk_cell. cbn [cell_idx Z.ltb Z.compare bind]. change (map_res (deref rings) [1; 0]%nat) with (Ok [ring 0 4 1 (-1); ring 1 1 2 1]). cbn [bind]. change (orientations 1 [ring 0 4 1 (-1); ring 1 1 2 1]) with (Ok (signs 1 [ring 0 4 1 (-1); ring 1 1 2 1])). cbn [bind].
  unfold boundary_components. rewrite incidence_self; [|apply two_matched; right; reflexivity|intros e [<-|[<-|[]]]; unfold follows; cbn; apply near_refl]. cbn [bind]. 
  match goal with |- bind ?a _ = _ => change a with (Ok [unset 1 1 1; unset 1 0 (-1)]) end. cbn [bind]. destruct (Rle_dec tol 0); [lra|]. reflexivity.
Qed.
Lemma disc_cell m tol : 0 < tol -> mk_cell rings 2 [0]%nat m tol tol = Ok (made 2 [unset 2 0 1] [1]%Z m tol).
Proof.
  intros T. unfold mk_cell. cbn [cell_idx Z.ltb Z.compare bind]. change (map_res (deref rings) [0]%nat) with (Ok [ring 1 1 2 1]). cbn [bind]. change (orientations 2 [ring 1 1 2 1]) with (Ok (signs 2 [ring 1 1 2 1])). cbn [bind].
  unfold boundary_components. rewrite incidence_self.
  - cbn [bind]. match goal with |- bind ?a _ = _ => change a with (Ok [unset 2 0 1]) end. cbn [bind]. destruct (Rle_dec tol 0); [lra|]. reflexivity.
  - split; intros e [<-|[]]; exists 0%nat; (split; [eexists; split; [reflexivity|unfold follows; cbn; apply near_refl]|]); intros [|[|j]] (e' & E & _); cbn in E; congruence || reflexivity.
  - intros e [<-|[]]; unfold follows; cbn; apply near_refl.
Qed.

(** They can be parameterized, one after the other. *)
Lemma like_self x r p n : like (ring x r p n) x r p n.
Proof. reflexivity. Qed.
Definition like_rings (H : heap) : Prop := exists e0 e1, nth_error H 0 = Some e0 /\ nth_error H 1 = Some e1 /\ like e0 1 1 2 1 /\ like e1 0 4 1 (-1).
Lemma rings_like : like_rings rings.
Proof. exists (ring 1 1 2 1), (ring 0 4 1 (-1)). repeat split. Qed.

Definition circles (c : cell) : Prop := exists z os m tol, c = made z [unset z 0 (-1); unset z 1 1] os m tol \/ c = made z [unset z 1 1; unset z 0 (-1)] os m tol \/ c = made z [unset z 0 1] os m tol.
Lemma circles_wf c : circles c -> wf_cell c.
Proof.
  intros (z & os & m & tol & [->|[->| ->]]); (split; [unfold cell_edges; cbn; repeat constructor; cbn; intuition discriminate|]); (split; [reflexivity|]); cbn [made c_comps]; repeat (apply Forall_cons; [split; [reflexivity|discriminate]|]); apply Forall_nil.
Qed.
Lemma circles_param H c : like_rings H -> circles c -> exists H' c', param_cell disc dict4 false H c = Ok (H', c').
Proof.
  intros (e0 & e1 & E0 & E1 & L0 & L1) C. apply (param_cell_total disc dict4 (PInt 4) 7 H c dict4_ok (circles_wf c C)).
  - destruct C as (z & os & m & tol & [->|[->| ->]]); discriminate.
  - destruct (circles_wf c C) as (ND & _). destruct C as (z & os & m & tol & [->|[->| ->]]); unfold param_comps; cbn [made c_comps] in *; apply rings_comps; try exact ND.
    + constructor; [|constructor; [|constructor]]; [exists z, 0%nat, (-1)%Z, e0, 1, 1, 2%Z, 1%Z|exists z, 1%nat, 1%Z, e1, 0, 4, 1%Z, (-1)%Z]; repeat split; try assumption; lra.
    + constructor; [|constructor; [|constructor]]; [exists z, 1%nat, 1%Z, e1, 0, 4, 1%Z, (-1)%Z|exists z, 0%nat, (-1)%Z, e0, 1, 1, 2%Z, 1%Z]; repeat split; try assumption; lra.
    + constructor; [|constructor]; exists z, 0%nat, 1%Z, e0, 1, 1, 2%Z, 1%Z; repeat split; try assumption; lra.
Qed.
