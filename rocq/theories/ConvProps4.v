(** Convergence of integrals of polynomials over cells, continued (C79): cells bounded by rectangles and circles, and the cells of a
    pegboard *)
From Coq Require Import List ZArith Reals Lia Lra Psatz Bool String Permutation.
From Coquelicot Require Import Coquelicot.
From Verif Require Import PyBase PolyModel PolySpec PolyProofs PolyProofs2 PolyProofs4 IntPolyModel IntPolyProofs BaryModel BBoxModel QuadModel QuadSpec QuadProofs QuadProps CurveModel CurveSpec CurveProps VertModel EdgeModel ContourModel CellModel CellSpec EdgeSpec EdgeProofs EdgeProofs2 EdgeProps EdgeProps3 EdgeProps4 CellProofs CellProps ContourProofs ContourProofs3 ContourProofs4 ContourProps CellProps2 CellProps3 Annulus LocalModel LocalSpec LocalProps2 ConvSpec ConvProofs ConvProofs2 ConvProps ConvProps2 ConvProofs3 ConvProofs4 ConvProps3.
From Verif Require Import MeshModel Labels PegSpec PegProofs PegProps PegProps2.
Import List ListNotations.
Open Scope R_scope.

Definition shape_X (H : list edge) (i : nat) : R -> pt := match nth_error H i with Some e => match e_curve e with Circle => ring_X (circle_R (e_opts e)) | _ => line_X end | None => line_X end.
Definition shape_DX (H : list edge) (i : nat) : R -> pt := match nth_error H i with Some e => match e_curve e with Circle => ring_DX (circle_R (e_opts e)) | _ => line_DX end | None => line_DX end.
Definition shape_V (H : list edge) (i : nat) : R -> pt := match nth_error H i with Some e => match e_curve e with Circle => ring_DX (circle_R (e_opts e)) | _ => joined e end | None => line_DX end.
Lemma runs_line z e u v : runs z e u v -> e_curve e = Line.
Proof. intros [[_ (X & _)]|[_ (X & _)]]; exact X. Qed.
Lemma box_far x0 x1 y0 y1 : x0 + TOL <= x1 -> y0 + TOL <= y1 -> (forall y, TOL <= pdist (x0, y) (x1, y)) /\ (forall x, TOL <= pdist (x, y0) (x, y1)).
Proof.
  intros Lx Ly. assert (T0 : 0 < TOL) by (unfold TOL; lra). split; [intros y|intros x]; unfold pdist; cbn [fst snd].
  - replace ((x0 - x1) * (x0 - x1) + (y - y) * (y - y)) with ((x1 - x0) * (x1 - x0)) by ring. rewrite sqrt_square by lra. lra.
  - replace ((x - x) * (x - x) + (y0 - y1) * (y0 - y1)) with ((y1 - y0) * (y1 - y0)) by ring. rewrite sqrt_square by lra. lra.
Qed.
Lemma bounded_smooth H z b l i e : bounded_by H z b l -> In i (outline_ids l) -> nth_error H i = Some e -> smooth_edge e (shape_X H i) (shape_DX H i) /\ velocity e (shape_X H i) (shape_V H i).
Proof.
  assert (G : forall i e u v, nth_error H i = Some e -> (if b then runs z e u v else runs z e v u) -> TOL <= pdist u v -> smooth_edge e (shape_X H i) (shape_DX H i) /\ velocity e (shape_X H i) (shape_V H i)).
  { clear. intros i e u v E Rn D. unfold shape_X, shape_DX, shape_V. rewrite E. destruct b; rewrite (runs_line _ _ _ _ Rn); apply (runs_smooth _ _ _ _ Rn); [exact D|rewrite pdist_sym; exact D]. }
  destruct l as [x0 x1 y0 y1 i1 i2 i3 i4|c r i0]; cbn [bounded_by outline_ids].
  - intros (Lx & Ly & e1 & e2 & e3 & e4 & N1 & N2 & N3 & N4 & R1 & R2 & R3 & R4) I E. destruct (box_far _ _ _ _ Lx Ly) as (Dx & Dy). destruct I as [<-|[<-|[<-|[<-|[]]]]].
    + rewrite N1 in E. injection E as <-. apply (G _ _ _ _ N1 R1), Dx.
    + rewrite N2 in E. injection E as <-. apply (G _ _ _ _ N2 R2), Dy.
    + rewrite N3 in E. injection E as <-. apply (G _ _ _ _ N3 R3). rewrite pdist_sym. apply Dx.
    + rewrite N4 in E. injection E as <-. apply (G _ _ _ _ N4 R4). rewrite pdist_sym. apply Dy.
  - intros (e0 & N0 & Rd & _) [<-|[]] E. rewrite N0 in E. injection E as <-. unfold shape_X, shape_DX, shape_V. rewrite N0. pose proof Rd as (-> & _ & -> & _). split; [apply (round_smooth _ c), Rd|apply (round_velocity _ c), Rd].
Qed.
Lemma bounded_flux f H z b l : bounded_by H z b l -> boundary_integral (poly_field f) H z (outline_ids l) (shape_X H) (shape_V H) = (if b then 1 else -1) * outline_integral (peval RS f) l.
Proof.
  assert (T0 : 0 < TOL) by (unfold TOL; lra).
  assert (G : forall i e u v, nth_error H i = Some e -> (if b then runs z e u v else runs z e v u) -> TOL <= pdist u v -> line_integral (poly_field f) (side z e) (traced (shape_X H i) e) (shape_V H i) (fst (e_tb e)) (snd (e_tb e)) = (if b then 1 else -1) * seg_flux f u v).
  { intros i e u v E Rn D. unfold shape_X, shape_V. rewrite E. destruct b; rewrite (runs_line _ _ _ _ Rn), (runs_flux f _ _ _ _ Rn); [ring|lra|rewrite (seg_flux_rev f u v); ring|rewrite pdist_sym; lra]. }
  destruct l as [x0 x1 y0 y1 i1 i2 i3 i4|c r i0]; cbn [bounded_by outline_ids outline_integral]; unfold boundary_integral; cbn [map].
  - intros (Lx & Ly & e1 & e2 & e3 & e4 & N1 & N2 & N3 & N4 & R1 & R2 & R3 & R4). destruct (box_far _ _ _ _ Lx Ly) as (Dx & Dy). rewrite N1, N2, N3, N4.
    rewrite (G _ _ _ _ N1 R1 (Dx y0)), (G _ _ _ _ N2 R2 (Dy x1)), (G _ _ _ _ N3 R3), (G _ _ _ _ N4 R4) by (rewrite pdist_sym; first [apply Dx|apply Dy]).
    transitivity ((if b then 1 else -1) * RInt (fun x => RInt (fun y => value f x y) y0 y1) x0 x1); [rewrite <- rectangle_flux; unfold sum_list; cbn [fold_right]; ring|]. f_equal. unfold rectangle_integral. apply RInt_ext. intros x _. apply RInt_ext. intros y _. rewrite peval_value. reflexivity.
  - intros (e0 & N0 & Rd & Sd). rewrite N0. unfold shape_X, shape_V. rewrite N0. pose proof Rd as (-> & _ & -> & _). rewrite (round_flux f _ _ _ _ Rd). unfold sum_list. cbn [fold_right]. unfold side. destruct (Z.eqb_spec z (e_pos e0)) as [Q|Q], b; try ring; [apply Sd in Q; discriminate|exfalso; apply Q, Sd; reflexivity].
Qed.
Lemma boundary_app G H z l l' X Y' : boundary_integral G H z (l ++ l') X Y' = boundary_integral G H z l X Y' + boundary_integral G H z l' X Y'.
Proof. unfold boundary_integral. rewrite map_app. apply sum_app. Qed.

(** The integral of a polynomial over a cell bounded by rectangles and circles, the outer boundary or the rims of holes, converges to
    the area integral: the integrals over what the outlines enclose, those of the holes subtracted. *)
Theorem C79_shapes f contains H z ids mesh rtol atol c p (ls : list (bool * outline)) : (2 <= p)%Z -> mk_cell H z ids mesh rtol atol = Ok c ->
  Permutation ids (concat (map (fun l : bool * outline => outline_ids (snd l)) ls)) -> Forall (fun l => bounded_by H z (fst l) (snd l)) ls ->
  forall eps, 0 < eps -> exists K, forall n, (K <= n)%Z -> forall qd w H' c', get_quad_dict (PInt n) p = Ok qd ->
  param_cell contains qd w H c = Ok (H', c') -> exists I, int_poly f H' c' = Ok I /\
    Rabs (I - sum_list (map (fun l : bool * outline => (if fst l then 1 else -1) * outline_integral (peval RS f) (snd l)) ls)) <= eps.
Proof.
  intros Hp M P F.
  assert (EB : boundary_integral (poly_field f) H z ids (shape_X H) (shape_V H) = sum_list (map (fun l : bool * outline => (if fst l then 1 else -1) * outline_integral (peval RS f) (snd l)) ls)).
  { transitivity (boundary_integral (poly_field f) H z (concat (map (fun l : bool * outline => outline_ids (snd l)) ls)) (shape_X H) (shape_V H)). { unfold boundary_integral. apply sum_perm, Permutation_map, P. }
    clear -F. induction F as [|l ls B F IH]; cbn [map concat]; [reflexivity|]. rewrite boundary_app, IH, (bounded_flux _ _ _ _ _ B). reflexivity. }
  rewrite <- EB. apply (polynomial_conv f contains H z ids mesh rtol atol c p (shape_X H) (shape_DX H) (shape_V H) Hp M). intros i e Hi E. apply (Permutation_in _ P), in_concat in Hi. destruct Hi as (l' & Il & Ii). apply in_map_iff in Il. destruct Il as (l & <- & Il). rewrite Forall_forall in F. apply (bounded_smooth _ _ _ _ _ _ (F l Il) Ii E).
Qed.
Print Assumptions C79_shapes.

(** ** The cells of a pegboard *)
Lemma square_straight M N radius s k : (1 <= M)%nat -> (1 <= N)%nat -> (match s with Hole _ _ => False | _ => True end) -> TOL <= spacing M N -> straight (with_idx (edge_of M N radius s) k) (coord (from_of M N s)) (coord (to_of M N s)).
Proof.
  intros HM HN Hs HT. pose proof (made_ok M N radius s) as E. assert (V : veqb (from_of M N s) (VVert (to_of M N s)) = false).
  { pose proof (spacing_pos M N HM HN) as SP. unfold veqb, vnorm, mkvert. cbn [vx vy]. apply Rltb_false. destruct s as [i j|i j|]; [| |destruct Hs]; cbn [from_of to_of grid_vert vx vy]; rewrite S_INR; match goal with |- _ <= sqrt ?a => replace a with (spacing M N * spacing M N) by ring end; rewrite sqrt_square by lra; unfold TOL in HT; lra. }
  unfold straight. destruct s as [i j|i j|]; [| |destruct Hs]; cbn [made_for from_of to_of] in E, V; unfold mk_edge in E; cbn [check_idx bind] in E; unfold check_t_bounds in E; cbn [fst snd] in E;
    (destruct (Rle_dec (2 * PI) 0) as [X|X]; [pose proof PI_RGT_0; lra|]); cbn [bind] in E; unfold set_cells, set_verts in E; rewrite V in E; apply Ok_inj in E; rewrite E; cbn [with_idx e_curve e_tb e_diary e_qtype];
    (split; [reflexivity|]; split; [reflexivity|]; split; [do 2 eexists; split; [reflexivity|split; reflexivity]|right; reflexivity]).
Qed.
Lemma hole_round M N radius i j k : (1 <= M)%nat -> (1 <= N)%nat -> 0 < radius -> round_edge (with_idx (edge_of M N radius (Hole i j)) k) (coord (centre M N i j)) (radius * spacing M N).
Proof.
  intros HM HN Hr. pose proof (spacing_pos M N HM HN) as SP. pose proof (made_ok M N radius (Hole i j)) as E. assert (V : veqb (centre M N i j) (VVert (centre M N i j)) = true).
  { unfold veqb, vnorm, mkvert. cbn [vx vy]. apply Rltb_true. match goal with |- sqrt ?a < _ => replace a with 0 by ring end. rewrite sqrt_0. lra. }
  cbn [made_for] in E. unfold mk_edge in E. cbn [check_idx bind] in E. unfold check_t_bounds in E. cbn [fst snd] in E. destruct (Rle_dec (2 * PI) 0) as [X|X]; [pose proof PI_RGT_0; lra|]. cbn [bind] in E. unfold set_cells, set_verts in E. rewrite V in E. apply Ok_inj in E. rewrite E. unfold round_edge. cbn [with_idx e_curve e_tb e_diary e_qtype e_opts].
  split; [reflexivity|]. split; [reflexivity|]. split; [unfold circle_R; cbn [opt String.eqb Ascii.eqb Bool.eqb]; reflexivity|]. split; [apply Rmult_lt_0_compat; assumption|]. split; [eexists; split; reflexivity|left; reflexivity].
Qed.

(** The integral of a polynomial over a square of the board converges to the integral over the square less, on a board with holes,
    the one over the disc in its middle; over a disc of the board it converges to the integral over the disc. *)
Theorem C79_pegboard f contains M N radius H m i j p : (2 <= p)%Z -> (1 <= M)%nat -> (1 <= N)%nat -> pegboard (Z.of_nat M, Z.of_nat N) radius = Ok (H, m) -> (i < M)%nat -> (j < N)%nat ->
  let h := spacing M N in let disc := disc_integral (peval RS f) (coord (centre M N i j)) (radius * h) in
  let limit z v := forall c, get_cell H m z = Ok c -> forall eps, 0 < eps -> exists K, forall n, (K <= n)%Z -> forall qd w H' c', get_quad_dict (PInt n) p = Ok qd ->
    param_cell contains qd w H c = Ok (H', c') -> exists I, int_poly f H' c' = Ok I /\ Rabs (I - v) <= eps in
  limit (square N i j) (rectangle_integral (peval RS f) (INR j * h) (INR (S j) * h) (INR i * h) (INR (S i) * h) - (if Rltb 0 radius then disc else 0)) /\
  (0 < radius -> limit (Z.of_nat (M * N) + square N i j)%Z disc).
Proof.
  intros Hp HM HN E Hi Hj h disc limit.
  destruct (pegboard_ok M N radius HM HN) as (H0 & m0 & E0 & LH & ME & ND & MK). assert (Q0 : H0 = H /\ m0 = m) by (rewrite E0 in E; apply Ok_inj in E; injection E as <- <-; auto). destruct Q0 as [-> ->].
  destruct (edge_of_fields M N radius (Hole i j)) as (FP & _). cbn [pos_of] in FP. split.
  - intros c G. destruct (Z.le_gt_cases (Z.of_nat (Nat.max M N)) (side_bound (holes_of radius))) as [B|B]; [|rewrite (C46_large_refuted M N radius _ H m i j HM HN (holes_of_spec radius) ltac:(lia) E Hi Hj) in G; discriminate].
    assert (HT : TOL <= h). { unfold h. apply Rle_trans with (1 / IZR (side_bound (holes_of radius))); [unfold TOL; destruct (holes_of radius); cbn; lra|]. apply spacing_far; [exact HM|exact HN|destruct (holes_of radius); reflexivity|exact B]. }
    destruct (square_edges M N radius H m i j HM HN E Hi Hj) as (es & _ & _ & EG & _ & _ & SG). rewrite EG in G. set (z := square N i j) in *.
    pose proof (spacing_pos M N HM HN) as SP. fold h in SP.
    assert (SR : forall i j, (i < M)%nat -> (j < N)%nat -> (0 <= square N i j < Z.of_nat (M * N))%Z) by (intros; unfold square; nia). pose proof (SR i j Hi Hj) as R0.
    set (ed := fun s => with_idx (edge_of M N radius s) (Some (Z.of_nat (place M N s)))).
    assert (POS : forall s, e_pos (ed s) = pos_of M N s) by (intros s; unfold ed; cbn [with_idx e_pos]; apply (edge_of_fields M N radius s)).
    assert (P1 : pos_of M N (Hor i j) = z) by (cbn; unfold above; destruct (Nat.ltb_spec i M); [reflexivity|lia]).
    assert (P3 : pos_of M N (Ver i (S j)) = z) by reflexivity.
    assert (Q2 : pos_of M N (Ver i j) <> z) by (cbn; unfold left_of; destruct j; [lia|]; unfold z, square in *; nia).
    assert (Q4 : pos_of M N (Hor (S i) j) <> z) by (cbn; unfold above; destruct (Nat.ltb_spec (S i) M); [unfold z, square in *; nia|lia]).
    assert (RU : forall s u v, (match s with Hole _ _ => False | _ => True end) -> pos_of M N s = z -> coord (from_of M N s) = u -> coord (to_of M N s) = v -> runs z (ed s) u v).
    { intros s u v Hs Ep <- <-. left. split; [rewrite POS; congruence|]. apply square_straight; assumption. }
    assert (RD : forall s u v, (match s with Hole _ _ => False | _ => True end) -> pos_of M N s <> z -> coord (from_of M N s) = v -> coord (to_of M N s) = u -> runs z (ed s) u v).
    { intros s u v Hs Ep <- <-. right. split; [rewrite POS; congruence|]. apply square_straight; assumption. }
    set (sq := Box (INR j * h) (INR (S j) * h) (INR i * h) (INR (S i) * h) (place M N (Hor i j)) (place M N (Ver i (S j))) (place M N (Hor (S i) j)) (place M N (Ver i j))).
    assert (BS : bounded_by H z true sq).
    { cbn [bounded_by sq]. rewrite !S_INR. split; [nra|]. split; [nra|]. exists (ed (Hor i j)), (ed (Ver i (S j))), (ed (Hor (S i) j)), (ed (Ver i j)). do 4 (split; [apply ND; cbn; lia|]).
      split; [apply RU; [exact I|exact P1|unfold coord; cbn; f_equal; unfold h; ring|unfold coord; cbn -[INR]; rewrite ?S_INR; f_equal; unfold h; ring]|].
      split; [apply RU; [exact I|exact P3|unfold coord; cbn -[INR]; rewrite ?S_INR; f_equal; unfold h; ring|unfold coord; cbn -[INR]; rewrite ?S_INR; f_equal; unfold h; ring]|].
      split; [apply RD; [exact I|exact Q4|unfold coord; cbn -[INR]; rewrite ?S_INR; f_equal; unfold h; ring|unfold coord; cbn -[INR]; rewrite ?S_INR; f_equal; unfold h; ring]|].
      apply RD; [exact I|exact Q2|unfold coord; cbn -[INR]; rewrite ?S_INR; f_equal; unfold h; ring|unfold coord; cbn -[INR]; rewrite ?S_INR; f_equal; unfold h; ring]. }
    assert (HQ : Rltb 0 radius = holes_of radius) by (unfold holes_of; destruct (Rle_dec radius 0); [apply Rltb_false|apply Rltb_true]; lra). rewrite HQ.
    set (hl := if holes_of radius then [(false, Round (coord (centre M N i j)) (radius * h) (place M N (Hole i j)))] else []).
    replace (rectangle_integral (peval RS f) (INR j * h) (INR (S j) * h) (INR i * h) (INR (S i) * h) - (if holes_of radius then disc else 0)) with (sum_list (map (fun l : bool * outline => (if fst l then 1 else -1) * outline_integral (peval RS f) (snd l)) ((true, sq) :: hl))).
    2:{ unfold hl. destruct (holes_of radius); unfold sum_list; cbn [map fold_right fst snd outline_integral sq]; fold disc; ring. }
    eapply (C79_shapes f contains H z); [exact Hp|exact G| |].
    + unfold hl. destruct (holes_of radius); cbn [map app concat outline_ids snd sq].
      * apply perm_skip. etransitivity; [apply perm_swap|]. apply perm_skip. etransitivity; [apply perm_swap|]. reflexivity.
      * apply perm_skip. etransitivity; [apply perm_swap|]. apply perm_skip. apply perm_swap.
    + constructor; [exact BS|]. unfold hl. destruct (holes_of radius) eqn:EH; constructor; [|constructor]. cbn [fst snd bounded_by]. exists (ed (Hole i j)). split; [apply ND; cbn; auto|]. split; [apply hole_round; [exact HM|exact HN|unfold holes_of in EH; destruct (Rle_dec radius 0); [discriminate|lra]]|]. rewrite POS. cbn [pos_of]. split; [unfold z; lia|discriminate].
  - intros Hr c G. set (z := (Z.of_nat (M * N) + square N i j)%Z) in *. assert (HT : holes_of radius = true) by (unfold holes_of; destruct (Rle_dec radius 0); [lra|reflexivity]).
    assert (EG : get_cell H m z = mk_cell H z [place M N (Hole i j)] (33, 33)%Z (5 / 100) (5 / 100)).
    { destruct (C46_mesh M N radius (holes_of radius) HM HN (holes_of_spec radius)) as (H1 & m1 & E1 & ME1 & _ & _ & CI). assert (Q : H1 = H /\ m1 = m) by (rewrite E1 in E; apply Ok_inj in E; injection E as <- <-; auto). destruct Q as [-> ->].
      pose proof (fun k e Ek => C46_cell M N radius (holes_of radius) H m i j HM HN (holes_of_spec radius) E Hi Hj k e Ek) as CC.
      destruct (MeshProps.C45_get_cell H m z) as [_ CG]; [rewrite ME; apply Forall_forall; intros x Ix; apply in_seq in Ix; lia|]. destruct CG as (ids & SS & II & EG & _). { apply CI. rewrite HT. unfold z, square. nia. }
      rewrite EG. f_equal. apply Labels.sorted_eq; [eapply Labels.subseq_sorted; [exact SS|]; rewrite ME; apply Labels.seq_sorted|repeat constructor|]. intros k. rewrite II, ME, in_seq. cbn [In]. split.
      - intros (_ & x & Ek & B). destruct (CC k x Ek) as (_ & _ & C3 & C4). left. destruct B as [B|B]; [apply C3 in B; symmetry; apply B|contradiction].
      - intros [<-|[]]. assert (En : nth_error H (place M N (Hole i j)) = Some (with_idx (edge_of M N radius (Hole i j)) (Some (Z.of_nat (place M N (Hole i j)))))) by (apply ND; cbn; auto). split; [split; [lia|]; apply nth_error_Some; congruence|]. eexists. split; [exact En|left; cbn [with_idx e_pos]; rewrite FP; reflexivity]. }
    rewrite EG in G. replace disc with (sum_list (map (fun l : bool * outline => (if fst l then 1 else -1) * outline_integral (peval RS f) (snd l)) [(true, Round (coord (centre M N i j)) (radius * h) (place M N (Hole i j)))])) by (unfold sum_list; cbn [map fold_right fst snd outline_integral]; fold disc; ring).
    eapply (C79_shapes f contains H z); [exact Hp|exact G|reflexivity|]. constructor; [|constructor]. cbn [fst snd bounded_by]. eexists. split; [apply ND; cbn; auto|]. split; [apply hole_round; assumption|]. cbn [with_idx e_pos]. rewrite FP. split; [reflexivity|intros _; reflexivity].
Qed.
Print Assumptions C79_pegboard.
