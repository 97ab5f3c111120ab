(** Lemmas about the meshes of the library: the curves of the edges. *)
From Coq Require Import List ZArith Reals Lia Lra Bool String.
From Coquelicot Require Import Coquelicot.
From Verif Require Import PyBase PolyModel BaryModel QuadModel CurveModel CurveSpec CurveProps VertModel EdgeModel EdgeSpec EdgeProofs EdgeProofs2 EdgeProps ContourModel CellModel MeshModel LibModel LibSpec LibProofs.
Import List ListNotations.
Open Scope R_scope.

Lemma speed_ok s u : pt_derive (point s) u (speed s u).
Proof. destruct s; split; cbn [point speed fst snd]; auto_derive; auto; ring. Qed.
Lemma bend_ok s u : pt_derive (speed s) u (bend s u).
Proof. destruct s; split; cbn [speed bend fst snd]; auto_derive; auto; ring. Qed.
Lemma pt_derive_unique f g t a b : (forall t, f t = g t) -> pt_derive f t a -> pt_derive g t b -> a = b.
Proof.
  intros E [A1 A2] [B1 B2]. apply is_derive_unique in A1, A2, B1, B2. destruct a, b. cbn [fst snd] in *. rewrite <- A1, <- A2, <- B1, <- B2. f_equal; apply Derive_ext; intros; rewrite E; reflexivity.
Qed.
Lemma pt_derive_slow f k t a : pt_derive f (t / k) a -> pt_derive (fun t => f (t / k)) t (pt_scale (/ k) a).
Proof.
  intros [A1 A2]. unfold Rdiv in *. split; cbn [pt_scale fst snd].
  - apply (is_derive_comp (fun s => fst (f s)) (fun t => t * / k)); [exact A1|]. auto_derive; auto; ring.
  - apply (is_derive_comp (fun s => snd (f s)) (fun t => t * / k)); [exact A2|]. auto_derive; auto; ring.
Qed.
Lemma pt_derive_scale f k t a : pt_derive f t a -> pt_derive (fun t => pt_scale k (f t)) t (pt_scale k a).
Proof. intros [A1 A2]. split; cbn [pt_scale fst snd]; apply (is_derive_scal (fun s => _ (f s))); assumption. Qed.

(** An edge traces a shape if its samples are those of the shape for every quadrature. *)
Definition follows_shape (e : edge) (s : shape) : Prop :=
  forall n p qd, get_quad_dict n p = Ok qd -> exists e' q, q = (if String.eqb (e_qtype e) "trap" then fst qd else snd qd) /\ parameterize qd e = Ok e' /\ e_param e' = true /\ e_npts e' = (2 * Z.of_nat (q_n q) + 1)%Z /\
    e_smp e' = map (fun tw => sample_of (shape_jet s (fst tw) (snd tw))) (combine (q_t q) (q_wgt q)) /\ List.length (e_smp e') = (2 * q_n q + 1)%nat /\
    (forall t w, regular (shape_jet s t w) \/ ~ 0 <= t <= 2 * PI).

Lemma shape_ok e s X DX : (e_qtype e = "trap" \/ e_qtype e = "kress")%string -> e_tb e = (0, 2 * PI) -> spline_ok (e_curve e) ->
  cX (e_curve e) (e_opts e) = Ok X -> cDX (e_curve e) (e_opts e) = Ok DX -> (forall t, 0 < norm2 (DX t)) -> diary_fine (X 0) (X (2 * PI)) (e_diary e) ->
  (forall t, sapp (diary_sim (X 0) (X (2 * PI)) (e_diary e)) (X t) = point s (t / (2 * PI))) -> follows_shape e s.
Proof.
  intros HQ TB SP HX HDX HR HF HS n p qd HD. pose proof PI_RGT_0 as HP.
  assert (Q : exists q, q = (if String.eqb (e_qtype e) "trap" then fst qd else snd qd) /\ (e_qtype e = "trap"%string /\ q = fst qd \/ e_qtype e = "kress"%string /\ q = snd qd)) by (destruct HQ as [-> | ->]; eexists; (split; [reflexivity|]); cbn; auto).
  destruct Q as (q & Eq & Q). pose proof (C25_geometry_partial n p qd e q X DX HD Q) as G. rewrite TB in G. cbn [fst snd] in G. destruct G as (e' & c & c' & c'' & E & P1 & P2 & Hc & HDer & HSm & HL & HReg); try assumption; [lra|intros; apply HR|].
  assert (C0 : forall t, c t = point s (t / (2 * PI))). { intros t. rewrite Hc, <- HS. do 2 f_equal. field. lra. }
  assert (C1 : forall t, c' t = pt_scale (/ (2 * PI)) (speed s (t / (2 * PI)))). { intros t. destruct (HDer t) as [D1 _]. apply (pt_derive_unique c (fun t => point s (t / (2 * PI))) t); [exact C0|exact D1|]. apply pt_derive_slow, speed_ok. }
  assert (C2 : forall t, c'' t = pt_scale (/ (2 * PI) * / (2 * PI)) (bend s (t / (2 * PI)))). { intros t. destruct (HDer t) as [_ D2]. apply (pt_derive_unique c' (fun t => pt_scale (/ (2 * PI)) (speed s (t / (2 * PI)))) t); [exact C1|exact D2|]. rewrite <- pt_scale_scale. apply (pt_derive_scale (fun t => speed s (t / (2 * PI)))), pt_derive_slow, bend_ok. }
  exists e', q. split; [exact Eq|]. split; [exact E|]. split; [exact P1|]. split; [exact P2|]. split; [|split; [exact HL|]].
  - rewrite HSm. apply map_ext. intros [t w]. cbn [fst snd]. unfold shape_jet. rewrite C0, C1, C2. reflexivity.
  - intros t w. destruct (Rle_dec 0 t); [|right; lra]. destruct (Rle_dec t (2 * PI)); [|right; lra]. left. unfold regular, shape_jet. cbn [jd]. rewrite <- C1. apply HReg. lra.
Qed.

(** ** The kinds of edges *)
Lemma sapp_id z : sapp sim_id z = z.
Proof. unfold sapp, lin, sim_id, pt_add, pt_mul. cbn [s_c s_d s_flip fst snd]. destruct z. cbn [fst snd]. f_equal; ring. Qed.
Lemma sim_comp_id S : s_flip S = false -> sim_comp sim_id S = S.
Proof. destruct S as [[c1 c2] [d1 d2] f]. intros E. cbn in E. subst f. unfold sim_comp, sapp, lin, sim_id, pt_add, pt_mul. cbn [s_c s_d s_flip fst snd xorb]. f_equal; f_equal; ring. Qed.
Lemma one_join p q a b z : sapp (diary_sim p q [SJoin a b]) z = sapp (join_sim p q (coord a) (coord b)) z.
Proof. cbn [diary_sim]. f_equal. apply sim_comp_id. reflexivity. Qed.
Lemma one_shift p q a z : sapp (diary_sim p q [STranslate a]) z = (fst z + vx a, snd z + vy a).
Proof. cbn [diary_sim]. rewrite sim_comp_id by reflexivity. unfold sapp, lin, step_sim, pt_add, pt_mul, coord. cbn [s_c s_d s_flip fst snd]. destruct z. cbn [fst snd]. f_equal; ring. Qed.
Lemma trig1 t : cos t * cos t + sin t * sin t = 1.
Proof. pose proof (sin2_cos2 t) as E. unfold Rsqr in E. lra. Qed.

Lemma join_of S p q : s_flip S = false -> 0 < pdist p q -> join_sim p q (sapp S p) (sapp S q) = S.
Proof.
  intros F D. assert (N : 0 < norm2 (pt_sub q p)) by (rewrite <- pdist_sq, pdist_sym; nra). destruct S as [[c1 c2] [d1 d2] f]. cbn in F. subst f. destruct p as [p1 p2], q as [q1 q2]. unfold norm2, pt_sub in N. cbn [fst snd] in N. unfold join_sim, sapp, lin, pt_div, norm2, pt_scale, pt_sub, pt_conj, pt_mul, pt_add. cbn [s_c s_d s_flip fst snd]. f_equal; f_equal; field; lra.
Qed.

Section Kinds.
Variable pnt : nat -> vert.
Notation at_ z := (pnt (Z.to_nat z)).
Definition edge_num (k : call) (i : nat) : edge := with_idx (made_edge pnt k) (Some (Z.of_nat i)).

Lemma line_shape a b p n i : a <> b -> TOL <= pdist (coord (at_ a)) (coord (at_ b)) -> follows_shape (edge_num (line_call a b p n) i) (Segment (coord (at_ a)) (coord (at_ b))).
Proof.
  intros N D. pose proof PI_RGT_0 as HP. destruct line_ends as [E0 E1]. eapply shape_ok; [right; reflexivity|reflexivity|exact I|reflexivity|reflexivity| | |].
  - intros t. unfold norm2. cbn [fst snd]. assert (0 < 1 / (2 * PI)) by (apply Rdiv_lt_0_compat; lra). nra.
  - cbv beta. rewrite E0, E1. cbn [edge_num with_idx made_edge line_call l_from l_to e_diary]. destruct (Z.eqb_spec a b); [contradiction|]. cbn [diary_fine step_fine]. rewrite dist01. unfold TOL in *. repeat split; lra.
  - intros t. cbv beta. rewrite E0, E1. cbn [edge_num with_idx made_edge line_call l_from l_to e_diary]. destruct (Z.eqb_spec a b); [contradiction|]. rewrite one_join. unfold join_sim, sapp, lin, pt_div, norm2, pt_scale, pt_sub, pt_conj, pt_mul, pt_add. cbn [s_c s_d s_flip fst snd point]. f_equal; field; lra.
Qed.
Lemma circle_shape a p n r i : 0 < r -> follows_shape (edge_num (circle_call a p n r) i) (Oval (coord (at_ a)) r r).
Proof.
  intros P. pose proof PI_RGT_0 as HP. eapply shape_ok; [left; reflexivity|reflexivity|exact I|reflexivity|reflexivity| | |]; cbn [edge_num with_idx made_edge circle_call l_from l_to e_diary e_opts l_opts].
  - intros t. unfold norm2, circle_R. cbn [fst snd opt String.eqb Ascii.eqb Bool.eqb]. pose proof (trig1 t). nra.
  - rewrite Z.eqb_refl. cbn. auto.
  - intros t. rewrite Z.eqb_refl, one_shift. unfold circle_R. cbn [fst snd opt String.eqb Ascii.eqb Bool.eqb point coord]. replace (2 * PI * (t / (2 * PI))) with t by (field; lra). f_equal; ring.
Qed.
Lemma eye_shape a p i : follows_shape (edge_num (eye_call a p) i) (Oval (coord (at_ a)) (9 / 100) (12 / 100)).
Proof.
  pose proof PI_RGT_0 as HP. eapply shape_ok; [left; reflexivity|reflexivity|exact I|reflexivity|reflexivity| | |]; cbn [edge_num with_idx made_edge eye_call l_from l_to e_diary e_opts l_opts].
  - intros t. unfold norm2, GHOST_SCALE. cbn [fst snd]. pose proof (trig1 t). nra.
  - rewrite Z.eqb_refl. cbn. auto.
  - intros t. rewrite Z.eqb_refl, one_shift. unfold GHOST_SCALE. cbn [fst snd point coord]. replace (2 * PI * (t / (2 * PI))) with t by (field; lra). f_equal; field.
Qed.
Lemma wave_shape a b p n i len : a <> b -> TOL <= len -> coord (at_ b) = (vx (at_ a) + len, vy (at_ a)) ->
  follows_shape (edge_num (Call a b p n SineWave "kress" [("amp"%string, 1 / 10); ("freq"%string, 6)]) i) (Wave (coord (at_ a)) len (len / 10) 6).
Proof.
  intros N LP EB. pose proof PI_RGT_0 as HP. assert (L0 : 0 < len) by (unfold TOL in LP; lra).
  assert (Z0 : 1 / 10 * sin (6 * 0 / 2) = 0) by (replace (6 * 0 / 2) with 0 by field; rewrite sin_0; ring).
  assert (Z1 : 1 / 10 * sin (6 * (2 * PI) / 2) = 0) by (replace (6 * (2 * PI) / 2) with (0 + 2 * INR 3 * PI) by (cbn [INR]; field); rewrite sin_period, sin_0; ring).
  destruct line_ends as [E0 E1]. injection E0 as E0. injection E1 as E1.
  assert (DL : pdist (coord (at_ a)) (coord (at_ b)) = len). { rewrite EB. unfold pdist, coord. cbn [fst snd]. match goal with |- sqrt ?x = _ => replace x with (len * len) by ring end. apply sqrt_square. lra. }
  eapply shape_ok; [right; reflexivity|reflexivity|exact I|reflexivity|reflexivity| | |].
  - intros t. unfold norm2. cbn [fst snd]. assert (0 < 1 / (2 * PI)) by (apply Rdiv_lt_0_compat; lra). match goal with |- 0 < ?x * ?x + ?y * ?y => assert (0 <= y * y) by (apply Rle_0_sqr) end. nra.
  - cbv beta. cbn [edge_num with_idx made_edge l_from l_to e_diary]. rewrite Z0, Z1, E0, E1. destruct (Z.eqb_spec a b); [contradiction|]. cbn [diary_fine step_fine]. rewrite dist01, DL. unfold TOL in *. repeat split; lra.
  - intros t. cbv beta. cbn [edge_num with_idx made_edge l_from l_to e_diary]. rewrite Z0, Z1, E0, E1. destruct (Z.eqb_spec a b); [contradiction|]. rewrite one_join, EB. unfold join_sim, sapp, lin, pt_div, norm2, pt_scale, pt_sub, pt_conj, pt_mul, pt_add, coord. cbn [s_c s_d s_flip fst snd point]. replace (6 * PI * (t / (2 * PI))) with (6 * t / 2) by (field; lra). f_equal; field; lra.
Qed.
(** The arc of [th] degrees: [c + r e^(i f)] is its first point and [c + r e^(i (f + w))] its last. *)
Lemma arc_shape a b p n i th (c : pt) r f : a <> b -> 0 < th < 360 -> let w := th * PI / 180 in
  TOL <= r -> TOL <= pdist (coord (at_ a)) (coord (at_ b)) -> TOL <= pdist (1, 0) (cos w, sin w) -> coord (at_ a) = point (Arc c r f w) 0 -> coord (at_ b) = point (Arc c r f w) 1 ->
  follows_shape (edge_num (Call a b p n CircularArcDeg "kress" [("theta0"%string, th)]) i) (Arc c r f w).
Proof.
  intros N HT w Hr Dab Dpq EA EB. pose proof PI_RGT_0 as HP. assert (R0 : 0 < r) by (unfold TOL in Hr; lra). assert (P0 : 0 < pdist (1, 0) (cos w, sin w)) by (unfold TOL in Dpq; lra).
  assert (UN : deg_unpack [("theta0"%string, th)] = Ok (th / 360)). { unfold deg_unpack. cbn [opt String.eqb Ascii.eqb Bool.eqb]. destruct (Rle_dec th 0); [lra|]. destruct (Rlt_dec 360 th); [lra|]. reflexivity. }
  assert (X0 : (cos (th / 360 * 0), sin (th / 360 * 0)) = (1, 0)) by (rewrite Rmult_0_r, cos_0, sin_0; reflexivity).
  assert (W : th / 360 * (2 * PI) = w) by (unfold w; field).
  set (S0 := Sim (r * cos f, r * sin f) c false).
  assert (SA : forall phi, sapp S0 (cos phi, sin phi) = (fst c + r * cos (f + phi), snd c + r * sin (f + phi))). { intros phi. rewrite cos_plus, sin_plus. unfold S0, sapp, lin, pt_add, pt_mul. cbn [s_c s_d s_flip fst snd]. f_equal; ring. }
  assert (J : join_sim (1, 0) (cos w, sin w) (coord (at_ a)) (coord (at_ b)) = S0).
  { rewrite EA, EB. cbn [point]. rewrite Rmult_0_r, Rmult_1_r, <- !SA, cos_0, sin_0. apply join_of; [reflexivity|exact P0]. }
  eapply shape_ok; [right; reflexivity|reflexivity|exact I| | | | |]; cbn [edge_num with_idx made_edge l_from l_to e_diary e_curve e_opts l_curve l_opts].
  - cbn [cX]. rewrite UN. reflexivity.
  - cbn [cDX]. rewrite UN. reflexivity.
  - intros t. unfold norm2. cbn [fst snd]. pose proof (trig1 (th / 360 * t)). set (om := th / 360) in *. assert (0 < om * om) by (assert (0 < om) by (unfold om; lra); nra). replace (_ + _) with (om * om * (cos (om * t) * cos (om * t) + sin (om * t) * sin (om * t))) by ring. rewrite H. lra.
  - cbv beta. rewrite X0, W. destruct (Z.eqb_spec a b); [contradiction|]. cbn [diary_fine step_fine]. split; [|exact I]. split; [exact Dab|]. split; [exact Dpq|]. rewrite <- (join_sim_norm (1, 0) (cos w, sin w) (coord (at_ a)) (coord (at_ b)) P0), J. unfold norm, norm2, S0. cbn [s_c fst snd]. replace (_ + _) with (r * r) by (pose proof (trig1 f) as T; replace (r * cos f * (r * cos f) + r * sin f * (r * sin f)) with (r * r * (cos f * cos f + sin f * sin f)) by ring; rewrite T; ring). rewrite sqrt_square; lra.
  - intros t. cbv beta. rewrite X0, W. destruct (Z.eqb_spec a b); [contradiction|]. rewrite one_join, J, SA. cbn [point]. replace (w * (t / (2 * PI))) with (th / 360 * t) by (unfold w; field; lra). reflexivity.
Qed.
End Kinds.
