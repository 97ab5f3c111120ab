(** Convergence of integrals over cells, continued (C79): areas and products of polynomials *)
From Coq Require Import List ZArith Reals Lia Lra Psatz Bool String Permutation.
From Coquelicot Require Import Coquelicot.
From Verif Require Import PyBase PolyModel PolySpec PolyProofs PolyProofs2 PolyProofs4 PolyProps IntPolyModel IntPolyProofs BaryModel BBoxModel QuadModel QuadSpec QuadProofs QuadProps CurveModel CurveSpec CurveProps VertModel EdgeModel ContourModel CellModel CellSpec EdgeSpec EdgeProofs EdgeProofs2 EdgeProps EdgeProps3 EdgeProps4 CellProofs CellProps ContourProofs ContourProofs3 ContourProofs4 ContourProps CellProps2 CellProps3 Annulus LocalModel LocalSpec LocalProofs2 LocalProps2 LocSpaceModel LocSpaceProps3 ConvSpec ConvProofs ConvProofs2 ConvProps ConvProps2 ConvProofs3 ConvProofs4 ConvProps3.
From Verif Require Import MeshModel Labels PegSpec PegProofs PegProps PegProps2 ConvProps4 ConvProofs5 ConvProps5 ConvProps6.
Import List ListNotations.
Open Scope R_scope.

(** The area of what an outline encloses *)
Definition outline_area (l : outline) : R := match l with Box x0 x1 y0 y1 _ _ _ _ => (x1 - x0) * (y1 - y0) | Round _ r _ => PI * (r * r) end.
(** The integral over a region given by outlines, those of holes subtracted *)
Definition region_integral (f : R -> R -> R) (ls : list (bool * outline)) : R := sum_list (map (fun l : bool * outline => (if fst l then 1 else -1) * outline_integral f (snd l)) ls).
Lemma region_ext f g ls : (forall x y, f x y = g x y) -> region_integral f ls = region_integral g ls.
Proof.
  intros E. unfold region_integral. f_equal. apply map_ext. intros [b l]. cbn [fst snd]. f_equal. destruct l as [x0 x1 y0 y1 i1 i2 i3 i4|c r i]; cbn [outline_integral]; [unfold rectangle_integral|unfold disc_integral]; apply RInt_ext; intros s _; apply RInt_ext; intros t _; rewrite E; reflexivity.
Qed.

Lemma area_one contains H c ess : ready contains H c -> boundary_edges H c ess -> find_area H c = int_poly one_poly H c.
Proof.
  intros Rd B. rewrite (C54_cell_integral contains H c ess one_poly Rd B). destruct (C59_centroid_area contains H c ess Rd B) as (_ & ->). f_equal. rewrite integrate_poly_value. unfold quadrature. set (h := 2 * PI * _ / _). clear.
  induction (contour_smp (concat ess)) as [|s l IH]; cbn [map bsum].
  - unfold sum_list. cbn [fold_right map bsum]. ring.
  - rewrite <- IH. change (sum_list (?x :: ?t)) with (x + sum_list t). unfold xn. cbn [bs_x bs_y bs_nx bs_ny bs_w]. assert (V : value (rdiv one_poly) (fst (sx s)) (snd (sx s)) = 1 / 2) by (unfold one_poly, rdiv; cbn; field). rewrite V. field.
Qed.
Lemma made_ready contains H z ids mesh rtol atol c n p qd w H' c' : mk_cell H z ids mesh rtol atol = Ok c -> get_quad_dict n p = Ok qd -> param_cell contains qd w H c = Ok (H', c') ->
  ready contains H' c' /\ exists ess, boundary_edges H' c' ess.
Proof.
  intros M Eq Pc. split; [exists H, z, ids, mesh, rtol, atol, c, n, p, qd, w, H; auto|].
  destruct (param_cell_ok contains (fun _ _ => True) (fun _ _ _ _ _ _ => I) qd n p w H c H' c' Eq (built_wf _ _ _ _ _ _ _ M) Pc) as (ess0 & ess & Pr). pose proof (p_fresh _ _ _ _ _ _ _ _ _ Pr) as (F & _). exists ess. unfold boundary_edges. clear -F. induction F as [|k es ks ess (R & _) F IH]; constructor; assumption.
Qed.

(** The area a local function space computes for a cell bounded by rectangles and circles converges to the area of the cell. *)
Theorem C79_area contains H z ids mesh rtol atol c p (ls : list (bool * outline)) : (2 <= p)%Z -> mk_cell H z ids mesh rtol atol = Ok c ->
  Permutation ids (concat (map (fun l : bool * outline => outline_ids (snd l)) ls)) -> Forall (fun l => bounded_by H z (fst l) (snd l)) ls ->
  forall eps, 0 < eps -> exists K, forall n, (K <= n)%Z -> forall qd w H' c', get_quad_dict (PInt n) p = Ok qd -> param_cell contains qd w H c = Ok (H', c') ->
  exists A, find_area H' c' = Ok A /\ Rabs (A - sum_list (map (fun l : bool * outline => (if fst l then 1 else -1) * outline_area (snd l)) ls)) <= eps.
Proof.
  intros Hp M P F eps He. destruct (C79_shapes one_poly contains H z ids mesh rtol atol c p ls Hp M P F eps He) as (K & HK). exists K. intros n Hn qd w H' c' Eq Pc. destruct (HK n Hn qd w H' c' Eq Pc) as (I & EI & HI).
  destruct (made_ready contains _ _ _ _ _ _ _ _ _ _ _ _ _ M Eq Pc) as (Rd & ess & B). exists I. split; [rewrite (area_one contains H' c' ess Rd B); exact EI|].
  replace (sum_list (map (fun l : bool * outline => (if fst l then 1 else -1) * outline_area (snd l)) ls)) with (sum_list (map (fun l : bool * outline => (if fst l then 1 else -1) * outline_integral (peval RS one_poly) (snd l)) ls)); [exact HI|].
  f_equal. apply map_ext. intros [b [x0 x1 y0 y1 i1 i2 i3 i4|d r i]]; cbn [fst snd outline_integral outline_area]; f_equal; [apply one_rectangle|apply one_disc].
Qed.
Print Assumptions C79_area.

(** The products of two polynomials as the inner products of local functions compute them converge to the integrals of the product
    and of the product of the gradients over the cell. The coefficients are multiples of [u] and [v], so that no product of two of
    them falls below the cutoff. *)
Theorem C79_products u v a b contains H z ids mesh rtol atol c p ls (ax ay bx by' : R -> R -> R) : (2 <= p)%Z -> mk_cell H z ids mesh rtol atol = Ok c ->
  Permutation ids (concat (map (fun l : bool * outline => outline_ids (snd l)) ls)) -> Forall (fun l => bounded_by H z (fst l) (snd l)) ls ->
  canonical a -> canonical b -> on_grid u a -> on_grid v b -> tol <= u * v -> is_dx (peval RS a) ax -> is_dy (peval RS a) ay -> is_dx (peval RS b) bx -> is_dy (peval RS b) by' ->
  forall eps, 0 < eps -> exists K, forall n, (K <= n)%Z -> forall qd w H' c', get_quad_dict (PInt n) p = Ok qd -> param_cell contains qd w H c = Ok (H', c') ->
  exists A B s t, mk_lpoly a H' c' = Ok A /\ mk_lpoly b H' c' = Ok B /\ l2_gen (GPoly A) (GPoly B) H' c' = Ok s /\ h1_gen (GPoly A) (GPoly B) H' c' = Ok t /\
    Rabs (s - region_integral (fun x y => peval RS a x y * peval RS b x y) ls) <= eps /\
    Rabs (t - region_integral (fun x y => ax x y * bx x y + ay x y * by' x y) ls) <= eps.
Proof.
  intros Hp M P F Ca Cb Ga Gb T Dax Day Dbx Dby eps He.
  destruct (C79_shapes (pmul RS a b) contains H z ids mesh rtol atol c p ls Hp M P F eps He) as (K1 & HK1).
  destruct (C79_shapes (padd RS (pmul RS (pdx RS a) (pdx RS b)) (pmul RS (pdy RS a) (pdy RS b))) contains H z ids mesh rtol atol c p ls Hp M P F eps He) as (K2 & HK2).
  exists (Z.max K1 K2). intros n Hn qd w H' c' Eq Pc. destruct (HK1 n ltac:(lia) qd w H' c' Eq Pc) as (s & Es & Hs). destruct (HK2 n ltac:(lia) qd w H' c' Eq Pc) as (t & Et & Ht).
  destruct (made_ready contains _ _ _ _ _ _ _ _ _ _ _ _ _ M Eq Pc) as (Rd & ess & B). destruct (ready_uniform _ _ _ _ Rd B) as (Fr & NE & N & U).
  destruct (mk_lpoly_ok Fr a Ca) as (A & EA & FA & GA1 & GA2 & _). destruct (mk_lpoly_ok Fr b Cb) as (B' & EB & FB & GB1 & GB2 & _).
  exists A, B', s, t. split; [exact EA|]. split; [exact EB|]. cbn [l2_gen h1_gen]. unfold l2_pp, h1_pp. rewrite FA, FB, GA1, GA2, GB1, GB2. split; [exact Es|]. split; [exact Et|]. fold (region_integral (peval RS (pmul RS a b)) ls) in Hs. fold (region_integral (peval RS (padd RS (pmul RS (pdx RS a) (pdx RS b)) (pmul RS (pdy RS a) (pdy RS b)))) ls) in Ht. split.
  - erewrite <- (region_ext (peval RS (pmul RS a b))); [exact Hs|]. intros x y. apply (C05_value_grid u v); assumption.
  - erewrite <- (region_ext (peval RS (padd RS (pmul RS (pdx RS a) (pdx RS b)) (pmul RS (pdy RS a) (pdy RS b))))); [exact Ht|]. intros x y.
    rewrite (C04_grid (u * v)) by (assumption || apply pmul_canonical || (apply on_grid_pmul; auto using on_grid_pdx, on_grid_pdy)). rewrite !(C05_value_grid u v) by auto using on_grid_pdx, on_grid_pdy, pdx_canonical, pdy_canonical.
    assert (UX : forall q qx, canonical q -> is_dx (peval RS q) qx -> peval RS (pdx RS q) x y = qx x y). { intros q qx Cq D. rewrite peval_value. apply (uniqueness_limite (fun t => peval RS q t y) x); [|apply D]. pose proof (pdx_lim q Cq x y) as L. intros e Hee. destruct (L e Hee) as (d & Hd). exists d. intros h. rewrite !peval_value. apply Hd. }
    assert (UY : forall q qy, canonical q -> is_dy (peval RS q) qy -> peval RS (pdy RS q) x y = qy x y). { intros q qy Cq D. rewrite peval_value. apply (uniqueness_limite (fun t => peval RS q x t) y); [|apply D]. pose proof (pdy_lim q Cq x y) as L. intros e Hee. destruct (L e Hee) as (d & Hd). exists d. intros h. rewrite !peval_value. apply Hd. }
    rewrite (UX a ax), (UX b bx), (UY a ay), (UY b by') by assumption. reflexivity.
Qed.
Print Assumptions C79_products.
