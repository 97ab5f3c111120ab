(** Properties of local function spaces (C59), continued: bubbles, totality, spaces from a mesh. *)
From Coq Require Import List ZArith Reals Lia Lra Bool String Permutation.
From Verif Require Import PyBase PolyModel PolySpec PolyProofs PolyProofs2 PolyProofs3 PolyProps BaryModel BarySpec BaryProofs BaryProps EdgeSpaceSpec QuadModel VertModel EdgeModel EdgeSpec EdgeProofs EdgeProofs2 EdgeProps3 ContourModel CellModel CellSpec CellProofs ContourProofs ContourProofs2 ContourProofs3 ContourProps CellProps3 InteriorProofs ContourProofs4 MeshModel TraceModel TraceSpec TraceProofs LocalModel LocalSpec LocalProofs LocalProofs2 LocalProofs3 LocalProofs5 LocalProps LocalProps3 NystromModel NystromSpec NystromProps2 EdgeSpaceModel EdgeSpaceProps GlobModel ShiftProofs LocSpaceModel LocSpaceSpec LocSpaceProofs LocSpaceProofs2 LocSpaceProofs3 LocSpaceProofs4 LocSpaceProps.
Import List ListNotations.
Open Scope R_scope.

(** ** Centroid and area *)
(** The centroid is the mean of the boundary samples, the area half the boundary sum of x . n. *)
Theorem C59_centroid_area contains H c ess : ready contains H c -> boundary_edges H c ess ->
  let l := contour_smp (concat ess) in let h := 2 * PI * INR (List.length (concat ess)) / IZR (csize (concat ess)) in
  centroid H c = Ok (sum_list (map (fun s => fst (sx s)) l) / INR (List.length l), sum_list (map (fun s => snd (sx s)) l) / INR (List.length l)) /\
  find_area H c = Ok (1 / 2 * (h * sum_list (map (fun s => (fst (sx s) * fst (sN s) + snd (sx s) * snd (sN s)) * sw s) l))).
Proof.
  intros Rd B. destruct (ready_uniform _ _ _ _ Rd B) as (F & NE & N & U). cbv zeta. unfold centroid, find_area. rewrite (points_ok F). cbn [bind]. split.
  - unfold np_mean. rewrite !map_length. reflexivity.
  - change (map (fun s => fst (sx s)) (contour_smp (concat ess))) with (samples_of (concat ess) (fun s => fst (sx s))). change (map (fun s => snd (sx s)) (contour_smp (concat ess))) with (samples_of (concat ess) (fun s => snd (sx s))). unfold dot_with_normal. rewrite (dot_ok F). cbn [bind]. rewrite (int_ok F NE U). reflexivity.
Qed.
Print Assumptions C59_centroid_area.

(** ** Monomials of the bubbles *)
(** The indices 0, 1, ..., d (d - 1) / 2 - 1 are those of the exponents of degree at most d - 2. *)
Theorem C59_monomials d a b : (2 <= d)%Z -> ((Z.of_nat (a + b) <= d - 2)%Z <-> exists k, (Z.of_nat k < d * (d - 1) / 2)%Z /\ mi_of_idx k = MI a b).
Proof.
  intros Hd. assert (T : forall n, (2 * PolyProofs.tri n = n * (n + 1))%nat) by (induction n as [|n IH]; [reflexivity|]; rewrite tri_S; lia).
  assert (Q : (d * (d - 1) / 2)%Z = Z.of_nat (PolyProofs.tri (Z.to_nat (d - 1)))). { symmetry. apply (Z.div_unique_exact _ 2); [lia|]. pose proof (T (Z.to_nat (d - 1))). nia. }
  assert (Mono : forall n m, (n <= m)%nat -> (PolyProofs.tri n <= PolyProofs.tri m)%nat) by (intros n m L; pose proof (T n); pose proof (T m); nia). rewrite Q. split.
  - intros L. exists (midx (MI a b)). split; [|apply midx_inj, mi_of_idx_spec]. rewrite midx_tri. unfold morder. cbn [mx my]. pose proof (Mono (Datatypes.S (a + b)) (Z.to_nat (d - 1)) ltac:(lia)) as M. rewrite tri_S in M. lia.
  - intros (k & L & E). pose proof (mi_of_idx_spec k) as S. rewrite E, midx_tri in S. unfold morder in S. cbn [mx my] in S. destruct (Z.le_gt_cases (Z.of_nat (a + b)) (d - 2)) as [|G]; [assumption|]. pose proof (Mono (Z.to_nat (d - 1)) (a + b)%nat ltac:(lia)). lia.
Qed.
Print Assumptions C59_monomials.
Lemma centered_shifted cen area k : sig (-1 / area ^ 2) -> -1 / area ^ 2 <> 0 -> centered_monomial cen area k = shifted (-1 / area ^ 2) (fst cen) (snd cen) (mx (mi_of_idx k)) (my (mi_of_idx k)).
Proof.
  intros S N. unfold centered_monomial. rewrite single_idx by exact S. destruct (Req_EM_T _ 0) as [E|_]; [contradiction|]. reflexivity.
Qed.
(** Index [k] gives - (x - c_x)^a (y - c_y)^b / area^2, when no product is below the cutoff. *)
Theorem C59_monomial_value cen area k a b : mi_of_idx k = MI a b -> -1 / area ^ 2 <> 0 ->
  (forall i j, (i <= a)%nat -> (j <= b)%nat -> sig (fst cen ^ i * snd cen ^ j) /\ sig (-1 / area ^ 2 * (fst cen ^ i * snd cen ^ j))) ->
  forall x y, peval RS (centered_monomial cen area k) x y = -1 / area ^ 2 * (x - fst cen) ^ a * (y - snd cen) ^ b.
Proof.
  intros Ek Na K x y. assert (S0 : sig (-1 / area ^ 2)) by (destruct (K 0%nat 0%nat ltac:(lia) ltac:(lia)) as [_ S]; cbn [pow] in S; rewrite !Rmult_1_r in S; cbn [pow]; rewrite ?Rmult_1_r; exact S). rewrite centered_shifted by assumption. rewrite Ek. cbn [mx my]. rewrite peval_value. apply shifted_value, K.
Qed.
Print Assumptions C59_monomial_value.

Lemma F2_right {A B} (P : A -> B -> Prop) l l' : Forall2 P l l' -> forall b, In b l' -> exists a, In a l /\ P a b.
Proof. induction 1 as [|x y l l' Q F IH]; intros b I; [destruct I|]. destruct I as [<-|I]; [exists x; split; [left; reflexivity|exact Q]|]. destruct (IH b I) as (a & Ia & Pa). exists a. split; [right; exact Ia|exact Pa]. Qed.

Lemma espace_total low_rank e d : well_sampled e -> (1 <= d)%Z -> e_idx e <> None -> (e_loop e = true \/ exists a z, runs e a z /\ tol <= pdist z a) -> exists b, mk_espace low_rank e (PInt d) = Ok b.
Proof.
  intros We Hd Ix Ru. unfold mk_espace, set_deg. cbn [as_int bind]. destruct (Z.ltb_spec d 1); [lia|]. cbn [bind]. unfold get_sampled_points. destruct We as (P & Ns & Bs & _). rewrite P. cbn [bind].
  assert (T : exists s, mk_edge_space low_rank (view e) d = Ok s). { destruct (e_smp e) as [|s0 sl] eqn:Es; [cbn in Ns; lia|]. apply (C17_total low_rank (view e) d (sx s0) (map sx sl)); [unfold view; cbn [ev_pts]; rewrite Es; reflexivity|exact Hd|]. destruct Ru as [Lo|(a & z & R1 & D)]; [left; exact Lo|right]. destruct (runs_view _ _ _ R1) as (rest & Ep & El). unfold view in Ep |- *. cbn [ev_pts] in *. rewrite Es in *. cbn [map] in Ep. injection Ep as -> _. unfold view in El. cbn [ev_pts] in El. rewrite Es in El. rewrite El. exact D. }
  destruct T as (s & ->). cbn [bind]. assert (V : exists vk, (if e_loop e then Ok [] else map_res vert_key [vidx (e_anchor e); vidx (e_endpnt e)]) = Ok vk) by (destruct (e_loop e); eexists; reflexivity). destruct V as (vk & ->). cbn [bind]. destruct (e_idx e) as [z|]; [|congruence]. destruct (map_res_all (edge_key (Some z)) (seq 0 (List.length (es_edge s)))) as (ek & ->); [intros k _; destruct (edge_key_ok z k) as (key & -> & _); eauto|]. cbn [bind]. eauto.
Qed.

Section Space.
Variable low_rank : nat -> matrix -> matrix.
Variable gmres : (list R -> res (list R)) -> list R -> (list R -> res (list R)) -> res (list R).
Variable set_iter : list Z -> list Z.
Let mk := mk_lspace low_rank gmres set_iter.

(** ** Bubbles *)
(** The [k]-th bubble carries the key [k], is zero at every boundary sample, and its polynomial part
    is the anti-Laplacian of the [k]-th monomial. *)
Theorem C59_bubbles contains H c ess given d i g L : ready contains H c -> boundary_edges H c ess -> mk H c given (PInt d) i g = Ok L ->
  Forall2 (fun k ku => is_bubb_key (key_of ku) k /\ (exists v, get_trace_values (snd ku) = Ok v /\ fitting (concat ess) v /\ Forall (eq 0) v) /\ lp_form (u_poly (snd ku)) = panti_laplacian RS (centered_monomial (l_centroid L) (l_area L) k))
    (seq 0 (Z.to_nat (d * (d - 1) / 2))) (l_bubb L).
Proof.
  intros Rd B E. destruct (lspace_inv _ _ _ _ _ _ _ _ _ _ _ _ Rd B E) as (d' & N & _ & Ed & Hd & _ & _ & _ & _ & Eb & _). injection Ed as <-. apply (bubb_inv _ _ _ _ _ _ _ Hd) in Eb. revert Eb. apply F2_imp. intros k ku (K & Eu). split; [exact K|]. split.
  - destruct (C53_trace _ _ _ _ _ _ _ _ _ _ Rd B Eu) as (v & Gv & Lv & Fv). eauto.
  - destruct (C53_polynomial _ _ _ _ _ _ _ _ _ _ Rd B Eu) as (Q & _). exact Q.
Qed.
(** The Laplacian of the polynomial part is the centered monomial. Missing: centroids off a grid of
    spacing [u]; the cutoff of the coefficients makes the statement false for some (see
    C59_bubble_refuted). The error is bounded for all by C59_bubble_laplacian_error. *)
Theorem C59_bubble_laplacian_partial contains H c ess given d i g L k ku a b u X Y : ready contains H c -> boundary_edges H c ess -> mk H c given (PInt d) i g = Ok L -> nth_error (l_bubb L) k = Some ku -> mi_of_idx k = MI a b ->
  l_centroid L = (u * IZR X, u * IZR Y) -> 0 < u -> -1 / l_area L ^ 2 <> 0 ->
  (forall n, (n <= a + b)%nat -> tol <= u ^ n /\ tol <= Rabs (-1 / l_area L ^ 2) * u ^ n * al_unit (a + b - n)) ->
  is_laplacian (peval RS (lp_form (u_poly (snd ku)))) (fun x y => -1 / l_area L ^ 2 * (x - fst (l_centroid L)) ^ a * (y - snd (l_centroid L)) ^ b).
Proof.
  intros Rd B E Eku Ek Ec Hu Na Ku. destruct (lspace_inv _ _ _ _ _ _ _ _ _ _ _ _ Rd B E) as (d' & N & _ & Ed & Hd & _ & _ & _ & _ & Eb & _). injection Ed as <-. apply (bubb_inv _ _ _ _ _ _ _ Hd) in Eb. destruct (seq_F2 _ _ _ _ Eb) as [_ Q]. destruct (Q k ku Eku) as (_ & Eu). cbn [Nat.add] in Eu.
  pose proof (grid_sig _ u X Y a b Hu Ku) as K. rewrite Ec. cbn [fst snd].
  assert (V : forall x y, peval RS (centered_monomial (l_centroid L) (l_area L) k) x y = -1 / l_area L ^ 2 * (x - u * IZR X) ^ a * (y - u * IZR Y) ^ b) by (rewrite Ec; apply (C59_monomial_value (u * IZR X, u * IZR Y) (l_area L) k a b Ek Na K)).
  assert (S0 : sig (-1 / l_area L ^ 2)) by (destruct (K 0%nat 0%nat ltac:(lia) ltac:(lia)) as [_ S]; cbn [pow] in S; rewrite !Rmult_1_r in S; cbn [pow]; rewrite ?Rmult_1_r; exact S).
  assert (Es : centered_monomial (l_centroid L) (l_area L) k = shifted (-1 / l_area L ^ 2) (u * IZR X) (u * IZR Y) a b) by (rewrite Ec, centered_shifted by assumption; rewrite Ek; reflexivity).
  assert (La : is_laplacian (peval RS (lp_form (u_poly (snd ku)))) (peval RS (centered_monomial (l_centroid L) (l_area L) k))).
  { apply (C53_laplacian_partial contains N H c ess _ (TVal (VScal 0)) i g (snd ku) (fun n => Rabs (-1 / l_area L ^ 2) * u ^ (a + b - n)) Rd B Eu).
    - rewrite Es. apply shifted_canonical.
    - rewrite Es. apply grid_shifted; assumption.
    - rewrite Es. intros m Im. cbv zeta. pose proof (shifted_deg _ u X Y a b Hu Ku m Im) as Dg. destruct (Ku (a + b - (mx (malpha m) + my (malpha m)))%nat ltac:(lia)) as [_ K2]. replace (a + b - (a + b - (mx (malpha m) + my (malpha m))))%nat with (mx (malpha m) + my (malpha m))%nat in K2 by lia. exact K2. }
  destruct La as (fx & fy & fxx & fyy & D1 & D2 & D3 & D4 & Z). exists fx, fy, fxx, fyy. repeat (split; [assumption|]). intros x y. rewrite <- V. apply Z.
Qed.

(** ** Totality *)
(** The space exists for every degree when the solver answers, interior points were computed if they
    are needed, and the edge spaces are labelled; without edge spaces when the edges have an index
    and ends that are not too close. *)
Theorem C59_total contains H c ess xs given d i g : solves_sizes gmres -> ready contains H c -> boundary_edges H c ess -> NoDup (map sx (contour_smp (concat ess))) -> (forall e, In e (concat ess) -> (e_npts e <= 20000001)%Z) -> centers c xs ->
  (1 <= d)%Z -> (i || g = true -> exists ys, c_int c = Some ys) -> (forall l, given = Some l -> Forall2 labelled (concat ess) l) ->
  (given = None -> forall e, In e (concat ess) -> e_idx e <> None /\ (e_loop e = true \/ exists a z, runs e a z /\ tol <= pdist z a)) ->
  exists L, mk H c given (PInt d) i g = Ok L.
Proof.
  intros Gm Rd B Nd Hn Cx Hd Hi G Hg. destruct (ready_uniform _ _ _ _ Rd B) as (F & _). destruct (C59_centroid_area _ _ _ _ Rd B) as (Ec & Ea). unfold mk, mk_lspace, set_deg. cbn [as_int bind]. destruct (Z.ltb_spec d 1); [lia|]. cbn [bind]. rewrite Ec. cbn [bind]. rewrite Ea. cbn [bind].
  assert (S : exists spaces, match given with Some l => Ok l | None => do es <- kedges H c; map_res (fun e => mk_espace low_rank e (PInt d)) es end = Ok spaces /\ Forall2 labelled (concat ess) spaces).
  { destruct given as [l|]; [exists l; split; [reflexivity|apply G; reflexivity]|]. rewrite (kedges_ok F). cbn [bind]. destruct (map_res_all (fun e => mk_espace low_rank e (PInt d)) (concat ess)) as (l & El).
    - intros e Ie. destruct (Hg eq_refl e Ie) as [Ix Ru]. pose proof (all_well F) as W. rewrite Forall_forall in W. exact (espace_total low_rank e d (W e Ie) Hd Ix Ru).
    - exists l. split; [exact El|]. apply map_res_F2 in El. revert El. apply F2_imp. intros e b. apply espace_labelled. }
  destruct S as (spaces & -> & Lb). cbn [bind]. destruct (C58_solver gmres contains H c ess xs "fft" Gm Rd B Nd Hn Cx (or_intror eq_refl)) as (V & -> & T). cbn [bind]. cbv zeta. set (N := to_nyst gmres H c V) in *. destruct (all_labelled Lb) as [Ll Wd].
  assert (Sv : @solves H c ess N i g). { intros f t D. destruct (i || g) eqn:Eig; [destruct (Hi eq_refl) as (ys & Ey); exact (C56_total contains N H c ess f t i g xs ys Rd B T D Cx Ey)|]. apply orb_false_elim in Eig. destruct Eig as [-> ->]. exact (C53_total contains N H c ess f t Rd B T D). }
  destruct (bubb_total F N d (sum_list (map (fun s => fst (sx s)) (contour_smp (concat ess))) / INR (List.length (contour_smp (concat ess))), sum_list (map (fun s => snd (sx s)) (contour_smp (concat ess))) / INR (List.length (contour_smp (concat ess)))) (1 / 2 * (2 * PI * INR (List.length (concat ess)) / IZR (csize (concat ess)) * sum_list (map (fun s => (fst (sx s) * fst (sN s) + snd (sx s) * snd (sN s)) * sw s) (contour_smp (concat ess))))) i g Sv) as (bs & ->). cbn [bind].
  destruct (vert_total F set_iter N spaces i g Sv ltac:(lia) Wd) as (vs & ->). cbn [bind]. destruct (edge_total F N spaces i g Sv) as (fs & ->); [|cbn [bind]; eauto]. apply Forall_forall. intros b Ib. destruct (F2_right _ _ _ Lb b Ib) as (e & Ie & L1). split; [exists e; split; [exact Ie|symmetry; apply L1]|]. destruct L1 as (_ & _ & _ & L1 & _). lia.
Qed.
End Space.
Print Assumptions C59_bubbles.
Print Assumptions C59_bubble_laplacian_partial.
Print Assumptions C59_total.
