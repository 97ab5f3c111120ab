(** The order of convergence (C81): how fast the integrals over edges and cells approach their limits. *)
From Coq Require Import List ZArith Reals Lia Lra Psatz Bool String Permutation.
From Coquelicot Require Import Coquelicot.
From Verif Require Import PyBase PolyModel PolySpec PolyProofs PolyProofs2 PolyProofs4 IntPolyModel IntPolyProofs BaryModel BBoxModel QuadModel QuadSpec QuadProofs QuadProps CurveModel CurveSpec CurveProps VertModel EdgeModel ContourModel CellModel CellSpec EdgeSpec EdgeProofs EdgeProofs2 EdgeProps EdgeProps3 EdgeProps4 CellProofs CellProps ContourProofs ContourProofs3 ContourProofs4 ContourProps CellProps2 CellProps3 Annulus LocalModel LocalSpec LocalProps2 ConvSpec ConvProofs ConvProofs2 ConvProps ConvProps2 RateSpec RateProofs RateProofs2.
From Verif Require Import ConvProofs3 ConvProofs4 ConvProps3 ConvProps4 RateProofs3 RateProofs4.
From Verif Require Import MeshModel Labels PegSpec PegProofs PegProps PegProps2 ConvProofs5 ConvProps5.
Import List ListNotations.
Open Scope R_scope.

(** ** Edges *)

(** The error of the integral over an edge decays like n^-k. On an edge with Kress's rule k may be p - 1, provided the curve and the integrand are that smooth;
    on a closed curve without corners with the trapezoid rule k is as large as the smoothness allows. *)
Theorem C81_edge G e X DX Y' p k : continuous_field G -> smooth_field k G -> smooth_edge e X DX -> velocity e X Y' -> (2 <= p)%Z -> (1 <= k)%nat -> rule_fits k p e (traced X e) Y' ->
  exists C, 0 <= C /\ forall n, (4 <= n)%Z -> exists qd e' I, get_quad_dict (PInt n) p = Ok qd /\ parameterize qd e = Ok e' /\ integrate_over_edge (map (fun s => G (sx s) (sN s)) (e_smp e')) false e' = Ok I /\
    Rabs (I - line_integral G 1 (traced X e) Y' (fst (e_tb e)) (snd (e_tb e))) <= C / IZR n ^ k.
Proof. intros HG HG' HS HV Hp Hk HF. apply (edge_rate G e X DX p Y' k HG HS Hp HV Hk). apply (fits_fast G 1 e X DX); assumption. Qed.
Print Assumptions C81_edge.

(** ** Cells *)

(** The same over the boundary of a cell *)
Theorem C81_boundary contains G H z ids mesh rtol atol c p X DX Y' k : continuous_field G -> smooth_field k G -> (2 <= p)%Z -> (1 <= k)%nat -> mk_cell H z ids mesh rtol atol = Ok c ->
  (forall i e, In i ids -> nth_error H i = Some e -> smooth_edge e (X i) (DX i) /\ velocity e (X i) (Y' i) /\ rule_fits k p e (traced (X i) e) (Y' i)) -> exists C, 0 <= C /\ forall n, (4 <= n)%Z -> forall qd w H' c' ess, get_quad_dict (PInt n) p = Ok qd ->
  param_cell contains qd w H c = Ok (H', c') -> boundary_edges H' c' ess -> exists I, cell_integrate (map (fun s => G (sx s) (sN s)) (cell_smp ess)) H' c' = Ok I /\ Rabs (I - boundary_integral G H z ids X Y') <= C / IZR n ^ k.
Proof.
  intros HG HG' Hp Hk M Sm. apply (boundary_rate contains G H z ids mesh rtol atol c p X DX Y' k HG Hp Hk M). intros i e Hi E. destruct (Sm i e Hi E) as (S & V & F). split; [exact S|]. split; [exact V|]. apply (fits_fast G _ e _ _ p _ k HG' S V F).
Qed.
Print Assumptions C81_boundary.

(** The integral of a polynomial over a cell: the limit is the sum of the cones of [C79_cone]. *)
Theorem C81_cone f contains H z ids mesh rtol atol c p X DX Y' k : (2 <= p)%Z -> (1 <= k)%nat -> mk_cell H z ids mesh rtol atol = Ok c ->
  (forall i e, In i ids -> nth_error H i = Some e -> smooth_edge e (X i) (DX i) /\ velocity e (X i) (Y' i) /\ rule_fits k p e (traced (X i) e) (Y' i)) -> exists C, 0 <= C /\ forall n, (4 <= n)%Z -> forall qd w H' c', get_quad_dict (PInt n) p = Ok qd ->
  param_cell contains qd w H c = Ok (H', c') -> exists I, int_poly f H' c' = Ok I /\ Rabs (I - cones (peval RS f) H z ids X Y') <= C / IZR n ^ k.
Proof.
  intros Hp Hk M Sm. replace (cones (peval RS f) H z ids X Y') with (boundary_integral (poly_field f) H z ids X Y').
  - apply (polynomial_rate f contains H z ids mesh rtol atol c p X DX Y' k Hp Hk M). intros i e Hi E. destruct (Sm i e Hi E) as (S & V & F). split; [exact S|]. split; [exact V|]. apply (fits_fast _ _ e _ _ p _ k (poly_field_smooth k f) S V F).
  - unfold boundary_integral, cones. f_equal. apply map_ext_in. intros i Hi. specialize (Sm i). destruct (nth_error H i) as [e|]; [|reflexivity]. destruct (Sm e Hi eq_refl) as (S & V & _). apply (cone_edge f _ e _ _ _ S V).
Qed.
Print Assumptions C81_cone.

(** The integral of a polynomial over a cell bounded by rectangles and circles: of any order k if all edges are circles with the trapezoid rule, of order p - 1 if Kress's rule
    is used on the sides. *)
Theorem C81_shapes f contains H z ids mesh rtol atol c p k (ls : list (bool * outline)) : (2 <= p)%Z -> (1 <= k)%nat -> mk_cell H z ids mesh rtol atol = Ok c ->
  Permutation ids (concat (map (fun l : bool * outline => outline_ids (snd l)) ls)) -> Forall (fun l => bounded_by H z (fst l) (snd l)) ls ->
  (forall i e, In i ids -> nth_error H i = Some e -> e_qtype e = "kress"%string /\ (Z.of_nat k + 1 <= p)%Z \/ e_curve e = Circle /\ e_qtype e = "trap"%string) ->
  exists C, 0 <= C /\ forall n, (4 <= n)%Z -> forall qd w H' c', get_quad_dict (PInt n) p = Ok qd ->
  param_cell contains qd w H c = Ok (H', c') -> exists I, int_poly f H' c' = Ok I /\
    Rabs (I - sum_list (map (fun l : bool * outline => (if fst l then 1 else -1) * outline_integral (peval RS f) (snd l)) ls)) <= C / IZR n ^ k.
Proof.
  intros Hp Hk M P F Q.
  assert (EB : boundary_integral (poly_field f) H z ids (shape_X H) (shape_V H) = sum_list (map (fun l : bool * outline => (if fst l then 1 else -1) * outline_integral (peval RS f) (snd l)) ls)).
  { transitivity (boundary_integral (poly_field f) H z (concat (map (fun l : bool * outline => outline_ids (snd l)) ls)) (shape_X H) (shape_V H)). { unfold boundary_integral. apply sum_perm, Permutation_map, P. }
    clear -F. induction F as [|l ls B F IH]; cbn [map concat]; [reflexivity|]. rewrite boundary_app, IH, (bounded_flux _ _ _ _ _ B). reflexivity. }
  rewrite <- EB. apply (polynomial_rate f contains H z ids mesh rtol atol c p (shape_X H) (shape_DX H) (shape_V H) k Hp Hk M). intros i e Hi E. pose proof (Q i e Hi E) as Qi. apply (Permutation_in _ P), in_concat in Hi. destruct Hi as (l' & Il & Ii). apply in_map_iff in Il. destruct Il as (l & <- & Il). rewrite Forall_forall in F.
  destruct (bounded_smooth _ _ _ _ _ _ (F l Il) Ii E) as (S & V). split; [exact S|]. split; [exact V|]. apply (fits_fast _ _ e _ _ p _ k (poly_field_smooth k f) S V). apply (bounded_fits k p H z _ _ i e (F l Il) Ii E Qi).
Qed.
Print Assumptions C81_shapes.

(** ** The cells of a pegboard *)
Lemma peg_rule M N radius s k : let e := with_idx (edge_of M N radius s) k in match s with Hole _ _ => e_curve e = Circle /\ e_qtype e = "trap"%string | _ => e_qtype e = "kress"%string end.
Proof.
  pose proof (made_ok M N radius s) as E. destruct s as [i j|i j|i j]; cbn [made_for] in E; unfold mk_edge in E; cbn [check_idx bind] in E; unfold check_t_bounds in E; cbn [fst snd] in E;
    (destruct (Rle_dec (2 * PI) 0) as [X|X]; [pose proof PI_RGT_0; lra|]); cbn [bind] in E; unfold set_cells, set_verts in E; cbv zeta;
    match type of E with context [if ?b then _ else _] => destruct b end; apply Ok_inj in E; rewrite E; cbn [with_idx e_curve e_qtype]; try split; reflexivity.
Qed.
(** Over a square of the board the order is p - 1, over a disc it is any number. *)
Theorem C81_pegboard f contains M N radius H m i j p : (2 <= p)%Z -> (1 <= M)%nat -> (1 <= N)%nat -> pegboard (Z.of_nat M, Z.of_nat N) radius = Ok (H, m) -> (i < M)%nat -> (j < N)%nat ->
  let h := spacing M N in let disc := disc_integral (peval RS f) (coord (centre M N i j)) (radius * h) in
  let rate k z v := forall c, get_cell H m z = Ok c -> exists C, 0 <= C /\ forall n, (4 <= n)%Z -> forall qd w H' c', get_quad_dict (PInt n) p = Ok qd ->
    param_cell contains qd w H c = Ok (H', c') -> exists I, int_poly f H' c' = Ok I /\ Rabs (I - v) <= C / IZR n ^ k in
  (forall k, (1 <= k)%nat -> (Z.of_nat k + 1 <= p)%Z -> rate k (square N i j) (rectangle_integral (peval RS f) (INR j * h) (INR (S j) * h) (INR i * h) (INR (S i) * h) - (if Rltb 0 radius then disc else 0))) /\
  (0 < radius -> forall k, (1 <= k)%nat -> rate k (Z.of_nat (M * N) + square N i j)%Z disc).
Proof.
  intros Hp HM HN E Hi Hj h disc rate.
  destruct (pegboard_ok M N radius HM HN) as (H0 & m0 & E0 & LH & ME & ND & MK). assert (Q0 : H0 = H /\ m0 = m) by (rewrite E0 in E; apply Ok_inj in E; injection E as <- <-; auto). destruct Q0 as [-> ->].
  destruct (edge_of_fields M N radius (Hole i j)) as (FP & _). cbn [pos_of] in FP. split.
  - intros k K1 K0 c G. destruct (Z.le_gt_cases (Z.of_nat (Nat.max M N)) (side_bound (holes_of radius))) as [B|B]; [|rewrite (C46_large_refuted M N radius _ H m i j HM HN (holes_of_spec radius) ltac:(lia) E Hi Hj) in G; discriminate].
    assert (HT : TOL <= h). { unfold h. apply Rle_trans with (1 / IZR (side_bound (holes_of radius))); [unfold TOL; destruct (holes_of radius); cbn; lra|]. apply spacing_far; [exact HM|exact HN|destruct (holes_of radius); reflexivity|exact B]. }
    destruct (square_edges M N radius H m i j HM HN E Hi Hj) as (es & _ & _ & EG & _ & _ & SG). rewrite EG in G. set (z := square N i j) in *.
    pose proof (spacing_pos M N HM HN) as SP. fold h in SP.
    assert (SR : forall i j, (i < M)%nat -> (j < N)%nat -> (0 <= square N i j < Z.of_nat (M * N))%Z) by (intros; unfold square; nia). pose proof (SR i j Hi Hj) as R0.
    set (ed := fun s => with_idx (edge_of M N radius s) (Some (Z.of_nat (place M N s)))).
    assert (POS : forall s, e_pos (ed s) = pos_of M N s) by (intros s; unfold ed; cbn [with_idx e_pos]; apply (edge_of_fields M N radius s)).
    assert (P1 : pos_of M N (Hor i j) = z) by (cbn; unfold above; destruct (Nat.ltb_spec i M); [reflexivity|lia]).
    assert (P3 : pos_of M N (Ver i (S j)) = z) by reflexivity.
    assert (Q2 : pos_of M N (Ver i j) <> z) by (cbn; unfold left_of; destruct j; [lia|]; unfold z, square in *; nia).
    assert (Q4 : pos_of M N (Hor (S i) j) <> z) by (cbn; unfold above; destruct (Nat.ltb_spec (S i) M); [unfold z, square in *; nia|lia]).
    assert (RU : forall s u v, (match s with Hole _ _ => False | _ => True end) -> pos_of M N s = z -> coord (from_of M N s) = u -> coord (to_of M N s) = v -> runs z (ed s) u v).
    { intros s u v Hs Ep <- <-. left. split; [rewrite POS; congruence|]. apply square_straight; assumption. }
    assert (RD : forall s u v, (match s with Hole _ _ => False | _ => True end) -> pos_of M N s <> z -> coord (from_of M N s) = v -> coord (to_of M N s) = u -> runs z (ed s) u v).
    { intros s u v Hs Ep <- <-. right. split; [rewrite POS; congruence|]. apply square_straight; assumption. }
    set (sq := Box (INR j * h) (INR (S j) * h) (INR i * h) (INR (S i) * h) (place M N (Hor i j)) (place M N (Ver i (S j))) (place M N (Hor (S i) j)) (place M N (Ver i j))).
    assert (BS : bounded_by H z true sq).
    { cbn [bounded_by sq]. rewrite !S_INR. split; [nra|]. split; [nra|]. exists (ed (Hor i j)), (ed (Ver i (S j))), (ed (Hor (S i) j)), (ed (Ver i j)). do 4 (split; [apply ND; cbn; lia|]).
      split; [apply RU; [exact I|exact P1|unfold coord; cbn; f_equal; unfold h; ring|unfold coord; cbn -[INR]; rewrite ?S_INR; f_equal; unfold h; ring]|].
      split; [apply RU; [exact I|exact P3|unfold coord; cbn -[INR]; rewrite ?S_INR; f_equal; unfold h; ring|unfold coord; cbn -[INR]; rewrite ?S_INR; f_equal; unfold h; ring]|].
      split; [apply RD; [exact I|exact Q4|unfold coord; cbn -[INR]; rewrite ?S_INR; f_equal; unfold h; ring|unfold coord; cbn -[INR]; rewrite ?S_INR; f_equal; unfold h; ring]|].
      apply RD; [exact I|exact Q2|unfold coord; cbn -[INR]; rewrite ?S_INR; f_equal; unfold h; ring|unfold coord; cbn -[INR]; rewrite ?S_INR; f_equal; unfold h; ring]. }
    assert (HQ : Rltb 0 radius = holes_of radius) by (unfold holes_of; destruct (Rle_dec radius 0); [apply Rltb_false|apply Rltb_true]; lra). rewrite HQ.
    set (hl := if holes_of radius then [(false, Round (coord (centre M N i j)) (radius * h) (place M N (Hole i j)))] else []).
    replace (rectangle_integral (peval RS f) (INR j * h) (INR (S j) * h) (INR i * h) (INR (S i) * h) - (if holes_of radius then disc else 0)) with (sum_list (map (fun l : bool * outline => (if fst l then 1 else -1) * outline_integral (peval RS f) (snd l)) ((true, sq) :: hl))).
    2:{ unfold hl. destruct (holes_of radius); unfold sum_list; cbn [map fold_right fst snd outline_integral sq]; fold disc; ring. }
    eapply (C81_shapes f contains H z); [exact Hp|exact K1|exact G| | |].
    + unfold hl. destruct (holes_of radius); cbn [map app concat outline_ids snd sq].
      * apply perm_skip. etransitivity; [apply perm_swap|]. apply perm_skip. etransitivity; [apply perm_swap|]. reflexivity.
      * apply perm_skip. etransitivity; [apply perm_swap|]. apply perm_skip. apply perm_swap.
    + constructor; [exact BS|]. unfold hl. destruct (holes_of radius) eqn:EH; constructor; [|constructor]. cbn [fst snd bounded_by]. exists (ed (Hole i j)). split; [apply ND; cbn; auto|]. split; [apply hole_round; [exact HM|exact HN|unfold holes_of in EH; destruct (Rle_dec radius 0); [discriminate|lra]]|]. rewrite POS. cbn [pos_of]. split; [unfold z; lia|discriminate].
    + intros i0 e0 I0 En. assert (ST : exists s, present M N (holes_of radius) s /\ i0 = place M N s). { destruct (holes_of radius) eqn:EH; cbn [app In] in I0; repeat (destruct I0 as [I0|I0]; [eexists; split; [|symmetry; exact I0]; cbn; auto; lia|]); destruct I0. }
      destruct ST as (s & Hs & ->). rewrite (ND s Hs) in En. injection En as <-. pose proof (peg_rule M N radius s) as PR. destruct s; [left|left|right]; [split; [apply PR|exact K0]|split; [apply PR|exact K0]|exact (PR _)].
  - intros Hr kk K1 c G. set (z := (Z.of_nat (M * N) + square N i j)%Z) in *. assert (HT : holes_of radius = true) by (unfold holes_of; destruct (Rle_dec radius 0); [lra|reflexivity]).
    assert (EG : get_cell H m z = mk_cell H z [place M N (Hole i j)] (33, 33)%Z (5 / 100) (5 / 100)).
    { destruct (C46_mesh M N radius (holes_of radius) HM HN (holes_of_spec radius)) as (H1 & m1 & E1 & ME1 & _ & _ & CI). assert (Q : H1 = H /\ m1 = m) by (rewrite E1 in E; apply Ok_inj in E; injection E as <- <-; auto). destruct Q as [-> ->].
      pose proof (fun k e Ek => C46_cell M N radius (holes_of radius) H m i j HM HN (holes_of_spec radius) E Hi Hj k e Ek) as CC.
      destruct (MeshProps.C45_get_cell H m z) as [_ CG]; [rewrite ME; apply Forall_forall; intros x Ix; apply in_seq in Ix; lia|]. destruct CG as (ids & SS & II & EG & _). { apply CI. rewrite HT. unfold z, square. nia. }
      rewrite EG. f_equal. apply Labels.sorted_eq; [eapply Labels.subseq_sorted; [exact SS|]; rewrite ME; apply Labels.seq_sorted|repeat constructor|]. intros k. rewrite II, ME, in_seq. cbn [In]. split.
      - intros (_ & x & Ek & B). destruct (CC k x Ek) as (_ & _ & C3 & C4). left. destruct B as [B|B]; [apply C3 in B; symmetry; apply B|contradiction].
      - intros [<-|[]]. assert (En : nth_error H (place M N (Hole i j)) = Some (with_idx (edge_of M N radius (Hole i j)) (Some (Z.of_nat (place M N (Hole i j)))))) by (apply ND; cbn; auto). split; [split; [lia|]; apply nth_error_Some; congruence|]. eexists. split; [exact En|left; cbn [with_idx e_pos]; rewrite FP; reflexivity]. }
    rewrite EG in G. replace disc with (sum_list (map (fun l : bool * outline => (if fst l then 1 else -1) * outline_integral (peval RS f) (snd l)) [(true, Round (coord (centre M N i j)) (radius * h) (place M N (Hole i j)))])) by (unfold sum_list; cbn [map fold_right fst snd outline_integral]; fold disc; ring).
    eapply (C81_shapes f contains H z); [exact Hp|exact K1|exact G|reflexivity| |]; [|intros i0 e0 [<-|[]] En; right; rewrite (ND (Hole i j)) in En by (cbn; auto); injection En as <-; exact (peg_rule M N radius (Hole i j) _)]. constructor; [|constructor]. cbn [fst snd bounded_by]. eexists. split; [apply ND; cbn; auto|]. split; [apply hole_round; assumption|]. cbn [with_idx e_pos]. rewrite FP. split; [reflexivity|intros _; reflexivity].
Qed.
Print Assumptions C81_pegboard.
