(** Lemmas for C82: the cells of a pegboard can be built on sampled edges, and its counts. *)
From Coq Require Import List ZArith Reals Lia Lra Psatz Bool String Permutation.
From Coquelicot Require Import Coquelicot.
From Verif Require Import PyBase PolyModel PolySpec PolyProofs BaryModel BBoxModel QuadModel QuadSpec QuadProofs QuadProps CurveModel CurveSpec CurveProps VertModel EdgeModel ContourModel CellModel CellSpec EdgeSpec EdgeProofs EdgeProofs2 EdgeProps EdgeProps3 EdgeProps4 CellProofs CellProps ContourProofs ContourProofs3 ContourProofs4 ContourProps CellProps2 CellProps3 Annulus ConvSpec ConvProofs ConvProofs2 ConvProofs3 ConvProofs4.
From Verif Require Import MeshModel MeshSpec MeshProofs MeshProps Labels PegSpec PegProofs PegProps PegProps2 ConvProps4 ConvProofs5 ConvProps5 BoardProofs2.
From Verif Require BoardProofs GlobProofs.
Import List ListNotations.
Open Scope R_scope.

Lemma bare_straight e u v : straight (deparameterize e) u v -> straight e u v.
Proof. exact (fun x => x). Qed.
Lemma bare_runs z e u v : runs z (deparameterize e) u v -> runs z e u v.
Proof. exact (fun x => x). Qed.
Lemma bare_nth X i e : nth_error (map deparameterize X) i = Some e -> exists f, nth_error X i = Some f /\ e = deparameterize f.
Proof. rewrite nth_error_map. destruct (nth_error X i) as [f|]; [|discriminate]. intros E. injection E as <-. eauto. Qed.
Lemma bare_box X z x0 x1 y0 y1 i1 i2 i3 i4 : bounded_by (map deparameterize X) z true (Box x0 x1 y0 y1 i1 i2 i3 i4) -> bounded_by X z true (Box x0 x1 y0 y1 i1 i2 i3 i4).
Proof.
  intros (Hx & Hy & e1 & e2 & e3 & e4 & N1 & N2 & N3 & N4 & R1 & R2 & R3 & R4). destruct (bare_nth _ _ _ N1) as (f1 & E1 & ->). destruct (bare_nth _ _ _ N2) as (f2 & E2 & ->). destruct (bare_nth _ _ _ N3) as (f3 & E3 & ->). destruct (bare_nth _ _ _ N4) as (f4 & E4 & ->).
  split; [exact Hx|]. split; [exact Hy|]. exists f1, f2, f3, f4. auto 10.
Qed.
Lemma got_signs H m z c k : get_cell H m z = Ok c -> In k (c_comps c) -> Forall2 (fun i o => exists e, nth_error H i = Some e /\ o = sign_for z e) (k_edges k) (k_orients k).
Proof.
  intros G Ik. destruct (got_made _ _ _ _ G) as (ids & Mk). destruct (C36_contours _ _ _ _ _ _ _ Mk) as (_ & _ & _ & _ & F). rewrite Forall_forall in F. destruct (F k Ik) as (_ & F2). clear -F2. induction F2 as [|x o l l' (e & E & _ & Eo) F IH]; constructor; [exists e; auto|exact IH].
Qed.
Lemma hole_qtype M N radius i j k : (1 <= M)%nat -> (1 <= N)%nat -> e_qtype (with_idx (edge_of M N radius (Hole i j)) k) = "trap"%string.
Proof.
  intros HM HN. pose proof (made_ok M N radius (Hole i j)) as Em. cbn [made_for] in Em. unfold mk_edge in Em. cbn [check_idx bind] in Em. unfold check_t_bounds in Em. cbn [fst snd] in Em. pose proof PI_RGT_0. destruct (Rle_dec (2 * PI) 0); [lra|]. cbn [bind] in Em. apply Ok_inj in Em. rewrite Em. unfold set_verts, set_cells. destruct (veqb _ _); reflexivity.
Qed.

Section Board.
Variables (M N : nat) (radius : R) (H : heap) (m : mesh) (p n : Z) (qd : quad * quad).
Hypothesis HM : (1 <= M)%nat.
Hypothesis HN : (1 <= N)%nat.
Hypothesis E : pegboard (Z.of_nat M, Z.of_nat N) radius = Ok (H, m).
Hypothesis HP : (2 <= p)%Z.
Hypothesis Hn : (4 <= n)%Z.
Hypothesis Q : get_quad_dict (PInt n) p = Ok qd.
Hypothesis HS : (Z.of_nat (Nat.max M N) <= side_bound (holes_of radius))%Z.
Hypothesis HR : 0 < radius -> TOL <= radius * spacing M N /\ radius < 1 / 2.
Let h := spacing M N.

Lemma board_far : TOL <= h.
Proof. unfold h. apply Rle_trans with (1 / IZR (side_bound (holes_of radius))); [unfold TOL; destruct (holes_of radius); cbn; lra|]. apply spacing_far; [exact HM|exact HN|destruct (holes_of radius); reflexivity|exact HS]. Qed.
Lemma board_edge s : present M N (holes_of radius) s -> nth_error H (place M N s) = Some (with_idx (edge_of M N radius s) (Some (Z.of_nat (place M N s)))).
Proof. destruct (pegboard_ok M N radius HM HN) as (H0 & m0 & E0 & LH & ME & ND & MK). rewrite E0 in E. apply Ok_inj in E. injection E as -> ->. apply ND. Qed.
Lemma board_signs z c k i e : get_cell H m z = Ok c -> In k (c_comps c) -> In i (k_edges k) -> nth_error H i = Some e -> exists j, nth_error (k_edges k) j = Some i /\ nth_error (k_orients k) j = Some (sign_for z e).
Proof.
  intros G Ik Ii Ei. pose proof (got_signs _ _ _ _ _ G Ik) as F2. apply In_nth_error in Ii. destruct Ii as (j & Ej). exists j. split; [exact Ej|]. clear -F2 Ei Ej. revert j Ej. induction F2 as [|y o l l' (e' & E & Eo) F IH]; intros [|j] Ej; try discriminate; cbn in *; [injection Ej as ->; f_equal; congruence|apply IH, Ej].
Qed.
Definition disc_of (i j : nat) (q : pt) : Prop := exists t, q = (fst (coord (centre M N i j)) + radius * h * cos t, snd (coord (centre M N i j)) + radius * h * sin t).
Lemma disc_inside i j q : 0 < radius -> disc_of i j q -> INR j * h < fst q < INR (S j) * h /\ INR i * h < snd q < INR (S i) * h.
Proof.
  intros Hr (t & ->). destruct (HR Hr) as (_ & Hr2). pose proof (spacing_pos M N HM HN) as SP. fold h in SP. cbn [fst snd]. unfold coord. cbn [centre vx vy fst snd]. fold h. rewrite !S_INR. pose proof (COS_bound t) as C. pose proof (SIN_bound t) as D. assert (A : 0 < radius * h < h / 2) by nra. set (r := radius * h) in *. split; split; nra.
Qed.
Lemma hole_spots i j o e' : 0 < radius -> (i < M)%nat -> (j < N)%nat -> resampled qd o (with_idx (edge_of M N radius (Hole i j)) (Some (Z.of_nat (place M N (Hole i j))))) e' -> NoDup (spots e') /\ forall q, In q (spots e') -> disc_of i j q.
Proof. intros Hr Hi Hj Rs. apply (round_open (with_idx (edge_of M N radius (Hole i j)) (Some (Z.of_nat (place M N (Hole i j))))) (coord (centre M N i j)) (radius * h) o p n qd e' HP Hn Q); [apply hole_round; assumption|apply hole_qtype; assumption|exact Rs]. Qed.
Lemma hole_samplable X i j k o : map deparameterize X = H -> 0 < radius -> (i < M)%nat -> (j < N)%nat -> k_edges k = [place M N (Hole i j)] -> k_orients k = [o] -> samplable within qd X k.
Proof.
  intros Dx Hr Hi Hj EK EO. assert (Ne : nth_error H (place M N (Hole i j)) = Some (with_idx (edge_of M N radius (Hole i j)) (Some (Z.of_nat (place M N (Hole i j)))))) by (apply board_edge; cbn; split; [auto|apply holes_of_spec, Hr]).
  rewrite <- Dx in Ne. destruct (bare_nth _ _ _ Ne) as (f & Ef & Eb). pose proof (hole_round M N radius i j (Some (Z.of_nat (place M N (Hole i j)))) HM HN Hr) as Re. pose proof (hole_qtype M N radius i j (Some (Z.of_nat (place M N (Hole i j)))) HM HN) as Qt. rewrite Eb in Re, Qt.
  apply (round_ready X k _ f (coord (centre M N i j)) (radius * h) o p n qd HP Hn Q EK EO Ef); [exact Re|exact Qt|apply HR, Hr].
Qed.
Lemma square_samplable X c i j k : map deparameterize X = H -> (i < M)%nat -> (j < N)%nat -> get_cell H m (square N i j) = Ok c -> In k (c_comps c) -> NoDup (k_edges k) -> k_edges k = map (place M N) [Hor i j; Ver i (S j); Hor (S i) j; Ver i j] -> samplable within qd X k.
Proof.
  intros Dx Hi Hj G Ik NDk EK. pose proof (square_bounded M N radius H m i j HM HN E Hi Hj board_far) as BS. cbv zeta in BS. rewrite <- Dx in BS. apply bare_box in BS.
  eapply (box_ready X (square N i j) k _ _ _ _ _ _ _ _ p n qd HP Hn Q NDk EK); [| |exact BS].
  - intros a x e Ea Ex. assert (Eh : nth_error H x = Some (deparameterize e)) by (rewrite <- Dx, nth_error_map, Ex; reflexivity). pose proof (got_signs _ _ _ _ _ G Ik) as F2. clear -F2 Ea Eh. revert a Ea. induction F2 as [|y o l l' (e' & E & Eo) F IH]; intros [|a] Ea; try discriminate; cbn in *; [injection Ea as ->; f_equal; rewrite E in Eh; injection Eh as ->; exact Eo|apply IH, Ea].
  - rewrite <- (Forall2_len _ _ _ (got_signs _ _ _ _ _ G Ik)), EK. reflexivity.
Qed.
Definition cell_done (z : Z) : Prop := exists c, get_cell H m z = Ok c /\ (forall X, map deparameterize X = H -> exists X' c', param_cell within qd false X c = Ok (X', c')) /\ BoardProofs.spread qd H c.
Lemma square_done i j : (i < M)%nat -> (j < N)%nat -> cell_done (square N i j).
Proof.
  intros Hi Hj. destruct (C46_get_cell_partial M N radius (holes_of radius) H m i j HM HN (holes_of_spec radius) E Hi Hj) as (C1 & _). destruct (C1 HS) as (c & G & _ & _ & KE & KO). exists c. split; [exact G|].
  destruct (got_made _ _ _ _ G) as (ids & Mk). pose proof (built_wf _ _ _ _ _ _ _ Mk) as W. pose proof W as (NDc & _ & _). unfold cell_edges in NDc.
  assert (Bx : forall F, (forall k j i o e, In k (c_comps c) -> nth_error (k_edges k) j = Some i -> nth_error (k_orients k) j = Some o -> nth_error H i = Some e -> resampled qd o e (F i)) -> forall k, In k (c_comps c) -> k_edges k = map (place M N) [Hor i j; Ver i (S j); Hor (S i) j; Ver i j] ->
    let l := concat (map (fun i => spots (F i)) (k_edges k)) in NoDup l /\ forall q, In q l -> fst q = INR j * h \/ fst q = INR (S j) * h \/ snd q = INR i * h \/ snd q = INR (S i) * h).
  { intros F HF k Ik EK. pose proof (square_bounded M N radius H m i j HM HN E Hi Hj board_far) as BS. cbv zeta in BS. rewrite EK. apply (box_open H (square N i j) _ _ _ _ _ _ _ _ p n qd F HP Hn Q BS). intros x e Ix Ex. destruct (board_signs _ _ k x e G Ik) as (a & Ea & Eo); [rewrite EK; exact Ix|exact Ex|]. exact (HF k a x _ e Ik Ea Eo Ex). }
  pose proof square_samplable as SQ. clear HS C1. destruct (holes_of radius) eqn:EH; cbn [map] in KE, KO; destruct (c_comps c) as [|k1 [|k2 [|]]] eqn:Ec; try discriminate; cbn [map concat] in KE, KO, NDc.
  - injection KE as K1 K2. injection KO as O1 O2. assert (Hr : 0 < radius) by (apply holes_of_spec; exact EH). split.
    + intros X Dx. apply (ready_cell within qd (PInt n) p X c Q W); rewrite Ec; [discriminate|]. constructor; [|constructor; [|constructor]].
      * apply (SQ X c i j k1 Dx Hi Hj G); [rewrite Ec; left; reflexivity| |exact K1]. rewrite K1 in *. cbn [app map] in NDc |- *. clear -NDc. inversion NDc as [|? ? A NDc']; subst. inversion NDc' as [|? ? A' NDc'']; subst. inversion NDc'' as [|? ? A'' NDc3]; subst. inversion NDc3 as [|? ? A3 NDc4]; subst. cbn [In] in *. repeat (constructor; [cbn [In]; tauto|]). constructor.
      * exact (hole_samplable X i j k2 _ Dx Hr Hi Hj K2 O2).
    + intros F HF. rewrite Ec in HF. unfold cell_edges. rewrite Ec. cbn [map concat]. rewrite app_nil_r, map_app, concat_app. destruct (Bx F HF k1 (or_introl eq_refl) K1) as (N1 & B1). cbv zeta in N1, B1.
      assert (Eh : nth_error H (place M N (Hole i j)) = Some (with_idx (edge_of M N radius (Hole i j)) (Some (Z.of_nat (place M N (Hole i j)))))) by (apply board_edge; rewrite EH; cbn; auto).
      destruct (hole_spots i j (-1)%Z (F (place M N (Hole i j))) Hr Hi Hj) as (N2 & B2). { apply (HF k2 0%nat (place M N (Hole i j)) (-1)%Z); [right; left; reflexivity|rewrite K2; reflexivity|rewrite O2; reflexivity|exact Eh]. }
      rewrite K2. cbn [map concat]. rewrite app_nil_r. apply nodup_app_intro; [exact N1|exact N2|]. intros q I1 I2. specialize (B1 q I1). pose proof (disc_inside i j q Hr (B2 q I2)) as B3. lra.
  - injection KE as K1. split.
    + intros X Dx. apply (ready_cell within qd (PInt n) p X c Q W); rewrite Ec; [discriminate|]. constructor; [|constructor]. apply (SQ X c i j k1 Dx Hi Hj G); [rewrite Ec; left; reflexivity| |exact K1]. rewrite app_nil_r in NDc. exact NDc.
    + intros F HF. rewrite Ec in HF. unfold cell_edges. rewrite Ec. cbn [map concat]. rewrite app_nil_r. apply (Bx F HF k1 (or_introl eq_refl) K1).
Qed.
Lemma hole_done i j : 0 < radius -> (i < M)%nat -> (j < N)%nat -> cell_done (Z.of_nat (M * N) + square N i j).
Proof.
  intros Hr Hi Hj. destruct (C46_get_cell_partial M N radius (holes_of radius) H m i j HM HN (holes_of_spec radius) E Hi Hj) as (_ & C2). destruct (C2 (proj2 (holes_of_spec radius) Hr)) as (c & G & _ & KE & KO). exists c. split; [exact G|]. destruct (got_made _ _ _ _ G) as (ids & Mk). pose proof (built_wf _ _ _ _ _ _ _ Mk) as W.
  destruct (c_comps c) as [|k [|]] eqn:Ec; try discriminate. cbn [map] in KE, KO. injection KE as K1. injection KO as O1. split.
  - intros X Dx. apply (ready_cell within qd (PInt n) p X c Q W); rewrite Ec; [discriminate|]. constructor; [|constructor]. exact (hole_samplable X i j k _ Dx Hr Hi Hj K1 O1).
  - intros F HF. rewrite Ec in HF. unfold cell_edges. rewrite Ec. cbn [map concat]. rewrite app_nil_r, K1. cbn [map concat]. rewrite app_nil_r.
    apply (hole_spots i j 1%Z (F (place M N (Hole i j))) Hr Hi Hj). apply (HF k 0%nat (place M N (Hole i j)) 1%Z); [left; reflexivity|rewrite K1; reflexivity|rewrite O1; reflexivity|]. apply board_edge. cbn. split; [auto|apply holes_of_spec, Hr].
Qed.
Lemma board_done z : In z (m_cells m) -> cell_done z.
Proof.
  intros Iz. destruct (C46_mesh M N radius (holes_of radius) HM HN (holes_of_spec radius)) as (H' & m' & E' & _ & _ & _ & Cs). rewrite E in E'. apply Ok_inj in E'. injection E' as -> ->. apply Cs in Iz. destruct Iz as [Hz Lz].
  destruct (Z_lt_ge_dec z (Z.of_nat (M * N))) as [A|A].
  - set (r := Z.to_nat z). pose proof (Nat.div_mod r N ltac:(lia)) as DM. pose proof (Nat.mod_upper_bound r N ltac:(lia)) as MB. replace z with (square N (r / N) (r mod N)) by (unfold square, r in *; lia). apply square_done; [apply Nat.div_lt_upper_bound; unfold r; lia|exact MB].
  - pose proof hole_done as HD. clear HS. destruct (holes_of radius) eqn:EH; [|lia]. set (r := Z.to_nat (z - Z.of_nat (M * N))). pose proof (Nat.div_mod r N ltac:(lia)) as DM. pose proof (Nat.mod_upper_bound r N ltac:(lia)) as MB. replace z with (Z.of_nat (M * N) + square N (r / N) (r mod N))%Z by (unfold square, r in *; lia). apply HD; [apply holes_of_spec; exact EH|apply Nat.div_lt_upper_bound; unfold r; lia|exact MB].
Qed.

(** ** The edges *)
Lemma board_loop s : present M N (holes_of radius) s -> e_loop (edge_of M N radius s) = match s with Hole _ _ => true | _ => false end.
Proof.
  intros P. destruct (edge_of_fields M N radius s) as (_ & _ & _ & _ & ->). pose proof board_far as SP. assert (0 < TOL) by (unfold TOL; lra). unfold veqb, vnorm, mkvert. cbn [vx vy]. destruct s as [i j|i j|i j].
  - apply Rltb_false. cbn [from_of to_of grid_vert vx vy]; rewrite S_INR; match goal with |- _ <= sqrt ?a => replace a with (h * h) by (unfold h; ring) end; rewrite sqrt_square by lra; unfold TOL in SP; lra.
  - apply Rltb_false. cbn [from_of to_of grid_vert vx vy]; rewrite S_INR; match goal with |- _ <= sqrt ?a => replace a with (h * h) by (unfold h; ring) end; rewrite sqrt_square by lra; unfold TOL in SP; lra.
  - apply Rltb_true. cbn [from_of to_of]. match goal with |- sqrt ?a < _ => replace a with 0 by ring end. rewrite sqrt_0. lra.
Qed.
Lemma board_param s : present M N (holes_of radius) s -> exists e1, parameterize qd (with_idx (edge_of M N radius s) (Some (Z.of_nat (place M N s)))) = Ok e1.
Proof.
  intros P. pose proof board_far as SP. destruct s as [i j|i j|i j].
  - pose proof (square_straight M N radius (Hor i j) (Some (Z.of_nat (place M N (Hor i j)))) HM HN Logic.I SP) as St. eapply (fun R D => proj1 (runs_spots (e_pos (with_idx (edge_of M N radius (Hor i j)) (Some (Z.of_nat (place M N (Hor i j)))))) _ _ _ p n qd R D HP Hn Q)); [left; split; [reflexivity|exact St]|]. unfold coord. cbn [from_of to_of grid_vert vx vy]. apply pdist_flat_x. rewrite S_INR. fold h. nra.
  - pose proof (square_straight M N radius (Ver i j) (Some (Z.of_nat (place M N (Ver i j)))) HM HN Logic.I SP) as St. eapply (fun R D => proj1 (runs_spots (e_pos (with_idx (edge_of M N radius (Ver i j)) (Some (Z.of_nat (place M N (Ver i j)))))) _ _ _ p n qd R D HP Hn Q)); [left; split; [reflexivity|exact St]|]. unfold coord. cbn [from_of to_of grid_vert vx vy]. apply pdist_flat_y. rewrite S_INR. fold h. nra.
  - cbn in P. assert (Hr : 0 < radius) by (apply holes_of_spec, P). pose proof (hole_round M N radius i j (Some (Z.of_nat (place M N (Hole i j)))) HM HN Hr) as Re. destruct (smooth_positions _ _ _ p n qd (round_smooth _ _ _ Re) HP Hn Q) as (e1 & Ep & _). eauto.
Qed.
Lemma board_ends s : present M N (holes_of radius) s -> (0 <= vidx (from_of M N s))%Z /\ (0 <= vidx (to_of M N s))%Z /\ (match s with Hole _ _ => False | _ => True end -> TOL <= pdist (coord (to_of M N s)) (coord (from_of M N s))).
Proof.
  intros P. pose proof board_far as SP. destruct s as [i j|i j|i j]; cbn [from_of to_of grid_vert centre vidx]; (split; [lia|split; [lia|]]); intros X; [| |destruct X]; rewrite pdist_sym; unfold coord, grid_vert; cbn [vx vy]; rewrite S_INR; [apply pdist_flat_x|apply pdist_flat_y]; fold h; nra.
Qed.
Lemma count_range l K : NoDup l -> (forall v, In v l <-> (0 <= v < Z.of_nat K)%Z) -> List.length l = K.
Proof.
  intros ND I. rewrite <- (seq_length K 0), <- (map_length Z.of_nat). apply Permutation_length, NoDup_Permutation; [exact ND|apply FinFun.Injective_map_NoDup; [intros a b; lia|apply seq_NoDup]|]. intros v. rewrite I, in_map_iff. split.
  - intros Hv. exists (Z.to_nat v). split; [lia|apply in_seq; lia].
  - intros (a & <- & Ia). apply in_seq in Ia. lia.
Qed.
Lemma board_counts : m_ncells m = Z.of_nat (M * N * if holes_of radius then 2 else 1) /\ m_nverts m = Z.of_nat (S M * S N).
Proof.
  destruct (pegboard_ok M N radius HM HN) as (H0 & m0 & E0 & LH & ME & ND & MK). assert (Q0 : H0 = H /\ m0 = m) by (rewrite E0 in E; apply Ok_inj in E; injection E as <- <-; auto). destruct Q0 as [-> ->].
  destruct (C46_mesh M N radius (holes_of radius) HM HN (holes_of_spec radius)) as (H' & m' & E' & _ & _ & _ & Cs). rewrite E in E'. apply Ok_inj in E'. injection E' as -> ->.
  destruct (C44_tables _ _ _ _ MK) as (_ & _ & _ & _ & _ & _ & Ic & _ & Iv & Vs & -> & ->). split; f_equal; apply count_range; [apply GlobProofs.increasing_nodup, Ic|exact Cs|apply GlobProofs.increasing_nodup, Iv|].
  intros v. rewrite Vs. split.
  - intros (Hv & k & e & Ik & Ek & Lo & En). split; [exact Hv|]. apply in_seq in Ik. rewrite peg_list_length in Ik. destruct (place_cover M N (holes_of radius) k HN) as (s & P & <-); [lia|]. rewrite (peg_list_nth _ _ _ _ P) in Ek. injection Ek as <-. rewrite (board_loop s P) in Lo. destruct (edge_of_fields M N radius s) as (_ & _ & Fa & Fb & _). unfold ends_at in En. rewrite Fa, Fb in En. destruct s as [i j|i j|i j]; cbn [from_of to_of grid_vert vidx present] in *; [nia|nia|discriminate].
  - intros Hv. split; [lia|]. set (r := Z.to_nat v). pose proof (Nat.div_mod r (S N) ltac:(lia)) as DM. pose proof (Nat.mod_upper_bound r (S N) ltac:(lia)) as MB. set (i := (r / S N)%nat) in *. set (j := (r mod S N)%nat) in *. assert (Hi : (i < S M)%nat) by (apply Nat.div_lt_upper_bound; unfold r; lia).
    assert (X : exists s, present M N (holes_of radius) s /\ match s with Hole _ _ => False | _ => True end /\ (vidx (from_of M N s) = v \/ vidx (to_of M N s) = v)).
    { destruct (Nat.eq_dec j N) as [EN|NN].
      - exists (Hor i (Nat.pred j)). cbn [present from_of to_of grid_vert vidx]. split; [lia|]. split; [exact Logic.I|]. right. unfold r in *. lia.
      - exists (Hor i j). cbn [present from_of to_of grid_vert vidx]. split; [lia|]. split; [exact Logic.I|]. left. unfold r in *. lia. }
    destruct X as (s & P & Ns & En). exists (place M N s), (edge_of M N radius s). split; [apply in_seq; rewrite peg_list_length; pose proof (place_bound _ _ _ _ HN P); lia|]. split; [apply peg_list_nth, P|]. split; [rewrite (board_loop s P); destruct s; [reflexivity|reflexivity|destruct Ns]|]. destruct (edge_of_fields M N radius s) as (_ & _ & Fa & Fb & _). unfold ends_at. rewrite Fa, Fb. destruct En as [En|En]; [left|right]; congruence.
Qed.
End Board.
