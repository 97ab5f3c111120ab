(** Local function spaces (C59) on a triangle: examples and refutations. *)
From Coq Require Import List ZArith Reals Lia Lra Bool String Permutation FinFun.
From Verif Require Import PyBase PolyModel PolySpec PolyProofs PolyProofs2 PolyProofs3 PolyProps BaryModel BarySpec BaryProofs BaryProps EdgeSpaceSpec QuadModel VertModel EdgeModel EdgeSpec EdgeProofs EdgeProofs2 EdgeProps EdgeProps3 EdgeProps4 ContourModel CellModel CellSpec CellProofs ContourProofs ContourProofs2 ContourProofs3 ContourProps CellProps3 InteriorProofs ContourProofs4 MeshModel TraceModel TraceSpec TraceProofs LocalModel LocalSpec LocalProofs LocalProofs2 LocalProofs3 LocalProofs5 LocalProps LocalProps3 NystromModel NystromSpec NystromProps2 EdgeSpaceModel EdgeSpaceProps GlobModel ShiftProofs LocSpaceModel LocSpaceSpec LocSpaceProofs LocSpaceProofs2 LocSpaceProofs3 LocSpaceProofs4 LocSpaceProps LocSpaceProps2 LocSpaceProps3 LocSpaceProps4 TriCell.
Import List ListNotations.
Open Scope R_scope.

(** ** The triangle *)
Lemma NoDup_app' {A} (l l' : list A) : NoDup l -> NoDup l' -> (forall x, In x l -> In x l' -> False) -> NoDup (l ++ l').
Proof.
  intros N N' D. induction N as [|x l I N IH]; [exact N'|]. cbn [app]. constructor; [|apply IH; intros y Iy; apply D; right; exact Iy]. intros J. apply in_app_or in J. destruct J as [J|J]; [exact (I J)|exact (D x (or_introl eq_refl) J)].
Qed.
Section Tri.
Variables (s : R) (i0 i1 i2 : Z).
Hypothesis Hs : 1 <= s.
Let w0 := v0 i0. Let w1 := v1 s i1. Let w2 := v2 s i2.

Lemma corner_nodup : NoDup (corner_list s i0 i1 i2).
Proof.
  assert (J : forall (f : nat -> pt), (forall i j, In i (seq 0 8) -> In j (seq 0 8) -> f i = f j -> i = j) -> NoDup (map f (seq 0 8))).
  { intros f Hf. generalize (seq_NoDup 8 0). revert Hf. generalize (seq 0 8). intros l Hf N. induction N as [|x l I N IH]; cbn [map]; constructor; [|apply IH; intros i j A B; apply Hf; right; assumption]. intros C. apply in_map_iff in C. destruct C as (y & E & Iy). apply Hf in E; [subst; exact (I Iy)|right; exact Iy|left; reflexivity]. }
  assert (K : forall i j : nat, INR i / 8 * s = INR j / 8 * s -> i = j) by (intros i j E; apply INR_eq; apply Rmult_eq_reg_r in E; lra).
  unfold corner_list. apply NoDup_app'; [|apply NoDup_app'|].
  - apply J. intros i j _ _ E. cbn [seg sx v0 v1 vx vy] in E. injection E as E _. apply K. lra.
  - apply J. intros i j _ _ E. cbn [seg sx v2 v1 vx vy] in E. injection E as _ E. apply K. lra.
  - apply J. intros i j _ _ E. cbn [seg sx v0 v2 vx vy] in E. injection E as _ E. apply K. lra.
  - intros p A B. apply in_map_iff in A, B. destruct A as (i & <- & Ii), B as (j & E & Ij). cbn [seg sx v0 v1 v2 vx vy] in E. injection E as E1 E2. pose proof (eighth _ Ii). assert (INR i / 8 * s < 1 * s) by (apply Rmult_lt_compat_r; lra). lra.
  - intros p A B. rewrite in_app_iff, !in_map_iff in B. apply in_map_iff in A. destruct A as (i & <- & Ii). pose proof (eighth _ Ii). assert (INR i / 8 * s < 1 * s) by (apply Rmult_lt_compat_r; lra). destruct B as [(j & E & Ij)|(j & E & Ij)]; cbn [seg sx v0 v1 v2 vx vy] in E; injection E as E1 E2; pose proof (eighth _ Ij); assert (INR j / 8 * s < 1 * s) by (apply Rmult_lt_compat_r; lra); lra.
Qed.

Section Cell.
Variables (H : heap) (c : cell) (e0 e1 e2 : edge).
Hypothesis T : tri_ready s i0 i1 i2 H c e0 e1 e2.
Lemma tri_rd : ready (in_tri s) H c.
Proof. apply T. Qed.
Lemma tri_be : boundary_edges H c [[e0; e2; e1]].
Proof. apply T. Qed.
Lemma tri_points : map sx (contour_smp (concat [[e0; e2; e1]])) = corner_list s i0 i1 i2.
Proof. destruct T as (_ & _ & _ & S0 & S1 & S2). cbn [concat app]. apply tri_path; assumption. Qed.
Lemma tri_edges e : In e (concat [[e0; e2; e1]]) -> e_idx e <> None /\ e_loop e = false /\ e_npts e = 9%Z /\ exists a z, runs e (coord a) (coord z) /\ In a [w0; w1; w2] /\ In z [w0; w1; w2] /\ 1 <= pdist (coord z) (coord a).
Proof.
  destruct T as (_ & _ & _ & (_ & A0 & B0 & I0 & L0 & N0 & _ & S0) & (_ & A1 & B1 & I1 & L1 & N1 & _ & S1) & (_ & A2 & B2 & I2 & L2 & N2 & _ & S2)). cbn [Z.eqb Pos.eqb] in *.
  assert (Ru : forall a b e, e_smp e = map (seg a b) (seq 0 9) -> runs e (coord a) (coord b)) by (intros a b e' E; unfold runs; rewrite E; split; cbn [seq map nth_error option_map List.length Nat.pred seg sx]; unfold coord; do 2 f_equal; cbn [INR]; field).
  pose proof (root2) as Q. assert (Sy : forall a b, pdist a b = pdist b a) by (intros; unfold pdist; f_equal; ring). pose proof (len01 s i0 i1 Hs). pose proof (len02 s i0 i2 Hs). pose proof (len12 s i1 i2 Hs). intros [<-|[<-|[<-|[]]]].
  - split; [congruence|]. split; [exact L0|]. split; [exact N0|]. exists w0, w1. split; [apply Ru, S0|]. split; [cbn; auto|]. split; [cbn; auto|]. rewrite Sy. unfold w0, w1. lra.
  - split; [congruence|]. split; [exact L2|]. split; [exact N2|]. exists w1, w2. split; [apply Ru, S2|]. split; [cbn; auto|]. split; [cbn; auto|]. rewrite Sy. unfold w1, w2. nra.
  - split; [congruence|]. split; [exact L1|]. split; [exact N1|]. exists w2, w0. split; [apply Ru, S1|]. split; [cbn; auto|]. split; [cbn; auto|]. unfold w0, w2. lra.
Qed.
Lemma tri_centers : centers c [].
Proof.
  destruct T as (_ & B & _). unfold centers, boundary_edges in *. inversion B as [|k ? l ? _ Bl]; subst. inversion Bl; subst. cbn [tl]. constructor.
Qed.
Lemma tri_total low_rank gm set_iter given d : solves_sizes gm -> (1 <= d)%Z -> (forall l, given = Some l -> Forall2 labelled [e0; e2; e1] l) -> exists L, mk_lspace low_rank gm set_iter H c given (PInt d) false false = Ok L.
Proof.
  intros G Hd Hg. apply (C59_total low_rank gm set_iter (in_tri s) H c [[e0; e2; e1]] [] given d false false G tri_rd tri_be).
  - rewrite tri_points. apply corner_nodup.
  - intros e Ie. destruct (tri_edges e Ie) as (_ & _ & -> & _). lia.
  - exact tri_centers.
  - exact Hd.
  - discriminate.
  - exact Hg.
  - intros _ e Ie. destruct (tri_edges e Ie) as (X & _ & _ & a & z & Ru & _ & _ & D). split; [exact X|]. right. exists (coord a), (coord z). split; [exact Ru|]. unfold tol. lra.
Qed.
(** Centroid and area are exact. *)
Lemma tri_centroid : centroid H c = Ok (s / 3, s / 3) /\ find_area H c = Ok (s * s / 2).
Proof.
  pose proof PI_RGT_0. destruct (C59_centroid_area _ _ _ _ tri_rd tri_be) as (-> & ->). rewrite <- (map_length sx), <- (map_map sx fst), <- (map_map sx snd), tri_points. split.
  - f_equal. unfold corner_list. cbn [seq map app List.length seg sx v0 v1 v2 vx vy fst snd sum_list fold_right]. cbn [INR]. apply f_equal2; field.
  - f_equal. pose proof (len01 s i0 i1 Hs) as L01. pose proof (len12 s i1 i2 Hs) as L12. assert (L20 : pdist (coord (v2 s i2)) (coord (v0 i0)) = s) by (transitivity (pdist (coord (v0 i0)) (coord (v2 s i2))); [unfold pdist; f_equal; ring|exact (len02 s i0 i2 Hs)]). pose proof (tri_edges e0 ltac:(cbn; auto)) as (_ & _ & N0 & _). pose proof (tri_edges e1 ltac:(cbn; auto)) as (_ & _ & N1 & _). pose proof (tri_edges e2 ltac:(cbn; auto)) as (_ & _ & N2 & _).
    destruct T as (_ & _ & _ & (_ & _ & _ & _ & _ & _ & _ & S0) & (_ & _ & _ & _ & _ & _ & _ & S1) & (_ & _ & _ & _ & _ & _ & _ & S2)). cbn [Z.eqb Pos.eqb] in *. assert (Ec : csize (concat [[e0; e2; e1]]) = 24%Z) by (unfold csize, csize; cbn [concat app map]; unfold open_num; rewrite N0, N1, N2; reflexivity). rewrite Ec.
    assert (El : contour_smp (concat [[e0; e2; e1]]) = map (seg (v0 i0) (v1 s i1)) (seq 0 8) ++ map (seg (v1 s i1) (v2 s i2)) (seq 0 8) ++ map (seg (v2 s i2) (v0 i0)) (seq 0 8)) by (unfold contour_smp; cbn [map concat app]; unfold open_smp; rewrite S0, S1, S2; reflexivity). rewrite El.
    rewrite !map_app, !map_map, !sum_app.
    assert (Cs : forall (f : nat -> R) k, (forall i, In i (seq 0 8) -> f i = k) -> sum_list (map f (seq 0 8)) = 8 * k) by (intros f k Hf; rewrite (map_ext_in _ (fun _ => k) _ Hf); cbn; ring).
    pose proof root2 as Q. assert (Q2 : sqrt 2 * sqrt 2 = 2) by (apply sqrt_sqrt; lra).
    rewrite (Cs _ 0), (Cs _ (s * s / (2 * PI))), (Cs _ 0).
    + cbn [concat app List.length INR]. field. lra.
    + intros i _. unfold seg. rewrite L20. cbn [sx sN sw fst snd v0 v2 vx vy]. field. lra.
    + intros i _. unfold seg. rewrite L12. cbn [sx sN sw fst snd v1 v2 vx vy]. field. repeat split; nra.
    + intros i _. unfold seg. rewrite L01. cbn [sx sN sw fst snd v0 v1 vx vy]. field. lra.
Qed.
End Cell.
End Tri.

(** The functions of a sampled edge that runs from [a] to [z], whatever its anchor is *)
Lemma espace_runs low_rank e deg b a z : mk_espace low_rank e deg = Ok b -> e_loop e = false -> runs e a z -> tol <= pdist z a ->
  exists p q, sp_vert b = [p; q] /\ within (line_err a z) (peval RS p (fst a) (snd a)) 1 /\ within (line_err a z) (peval RS p (fst z) (snd z)) 0 /\ within (line_err a z) (peval RS q (fst a) (snd a)) 0 /\ within (line_err a z) (peval RS q (fst z) (snd z)) 1.
Proof.
  intros E Lo Ru Hl. destruct (espace_inv _ _ _ _ E) as (d & s & Ed & _ & _ & Es & _ & Hv & _). destruct (runs_view _ _ _ Ru) as (rest & Ep & El).
  destruct (C17_conforming_error low_rank (view e) d s a rest Lo Ep) as [(p0 & p1 & Ev & A1 & A2 & A3 & A4) _]; [rewrite El; assumption|exact Es|]. rewrite El in *.
  exists p0, p1. split; [congruence|]. unfold within. fold (at_ p0 a). fold (at_ p0 z). fold (at_ p1 a). fold (at_ p1 z). unfold line_err. assert (M1 := Rmax_l). assert (M2 := Rmax_r). rewrite !Rminus_0_r. repeat split; eauto 6 using Rle_trans.
Qed.
Lemma unit_err a z : 1 <= pdist z a -> Rabs (fst a) <= 1 -> Rabs (snd a) <= 1 -> Rabs (fst z) <= 1 -> Rabs (snd z) <= 1 -> line_err a z <= 1 / 10000000000.
Proof.
  intros D A B C E. eapply Rle_trans; [apply (C59_line_err a z 1); try assumption; lra|]. cbv zeta. set (l := pdist z a) in *. assert (S3 : 1 <= sqrt 3) by (rewrite <- sqrt_1 at 1; apply sqrt_le_1_alt; lra).
  assert (Q : (2 * l + 4 * 1 + 3) / (sqrt 3 / 2 * (l * l)) <= 18).
  { apply Rmult_le_reg_r with (sqrt 3 / 2 * (l * l)); [apply Rmult_lt_0_compat; nra|]. unfold Rdiv at 1. rewrite Rmult_assoc, Rinv_l by (apply Rgt_not_eq, Rmult_lt_0_compat; nra). assert (l <= l * l) by nra. assert (1 / 2 * (l * l) <= sqrt 3 / 2 * (l * l)) by (apply Rmult_le_compat_r; nra). nra. }
  unfold tol. lra.
Qed.

(** ** Spaces whose edge functions come from a mesh *)
Definition the_mesh (d : Z) (low_rank : nat -> matrix -> matrix) (H : heap) (c : cell) (e0 e1 e2 : edge) (spaces : list espace) : Prop :=
  tri_ready 1 0 1 2 H c e0 e1 e2 /\ exists all, mesh_spaces low_rank dict4 (sides 1 0 1 2) (PInt d) = Ok all /\ cell_spaces all [e0; e2; e1] = Ok spaces.
Lemma sides_new s i0 i1 i2 : 1 <= s -> forall e, In e (sides s i0 i1 i2) -> new_edge e.
Proof.
  intros Hs e I. destruct I as [<-|[<-|[<-|[]]]]; do 9 eexists; apply side_mk; try (apply far01; exact Hs); try (apply far02; exact Hs); try (apply far12; exact Hs); lia.
Qed.
Lemma the_mesh_exists low_rank d : (1 <= d)%Z -> exists H c e0 e1 e2 spaces, the_mesh d low_rank H c e0 e1 e2 spaces.
Proof.
  intros Hd. destruct (tri_exists 1 0 1 2 ltac:(lra)) as (H & c & e0 & e1 & e2 & T & _). exists H, c, e0, e1, e2.
  assert (M : forall a b p n k, In (side a b p n k) (sides 1 0 1 2) -> TOL <= pdist (coord a) (coord b) -> exists sp, (do e <- parameterize dict4 (side a b p n k); mk_espace low_rank e (PInt d)) = Ok sp).
  { intros a b p n k I D. destruct (side_param a b p n k D) as (e & E & A & B & Ix & Lo & N & P & Qt & Sm). rewrite E. cbn [bind]. apply espace_total.
    - exact (proj1 (C33_well_sampled _ _ _ _ _ dict4_ok E)).
    - exact Hd.
    - congruence.
    - right. exists (coord a), (coord b). split; [unfold runs; rewrite Sm; split; cbn [seq map nth_error option_map List.length Nat.pred seg sx]; unfold coord; do 2 f_equal; cbn [INR]; field|]. unfold TOL in D. unfold tol. replace (pdist (coord b) (coord a)) with (pdist (coord a) (coord b)) by (unfold pdist; f_equal; ring). lra. }
  destruct (M (v0 0) (v1 1 1) 0 (-1) 0)%Z as (s0 & E0); [left; reflexivity|apply far01; lra|]. destruct (M (v0 0) (v2 1 2) (-1) 0 1)%Z as (s1 & E1); [right; left; reflexivity|apply far02; lra|]. destruct (M (v1 1 1) (v2 1 2) 0 (-1) 2)%Z as (s2 & E2); [right; right; left; reflexivity|apply far12; lra|].
  exists [s0; s2; s1]. split; [exact T|]. exists [s0; s1; s2]. split.
  - unfold mesh_spaces, sides. cbn [map_res]. rewrite E0. cbn [bind]. rewrite E1. cbn [bind]. rewrite E2. reflexivity.
  - destruct T as (_ & _ & _ & (_ & _ & _ & I0 & _) & (_ & _ & _ & I1 & _) & (_ & _ & _ & I2 & _)). unfold cell_spaces. cbn [map_res]. rewrite I0, I1, I2. reflexivity.
Qed.
Lemma the_mesh_ok d low_rank H c e0 e1 e2 spaces : the_mesh d low_rank H c e0 e1 e2 spaces -> Forall2 labelled [e0; e2; e1] spaces /\ Forall2 (nodal (1 / 10000000000)) [e0; e2; e1] spaces.
Proof.
  intros (T & all & Em & Ec). pose proof (len01 1 0 1 ltac:(lra)) as L01. pose proof (len02 1 0 2 ltac:(lra)) as L02. pose proof (len12 1 1 2 ltac:(lra)) as L12. pose proof root2 as Q.
  pose proof T as (_ & _ & _ & (R0 & A0 & B0 & I0 & _) & (R1 & A1 & B1 & I1 & _) & (R2 & A2 & B2 & I2 & _)).
  destruct (C59_mesh low_rank (PInt 4) 7 dict4 (sides 1 0 1 2) (PInt d) all [e0; e2; e1] spaces dict4_ok (sides_new 1 0 1 2 ltac:(lra)) Em Ec) as [Lb N].
  - intros e [<-|[<-|[<-|[]]]]; [exists 0%nat, 1%Z|exists 2%nat, 1%Z|exists 1%nat, (-1)%Z]; eexists; (split; [eassumption|]); (split; [reflexivity|assumption]).
  - split; [exact Lb|]. assert (Sy : forall a b, pdist a b = pdist b a) by (intros; unfold pdist; f_equal; ring). destruct N as [N _].
    + intros e Ie _. unfold tol. destruct Ie as [<-|[<-|[<-|[]]]]; [rewrite A0, B0|rewrite A2, B2|rewrite A1, B1]; rewrite Sy; lra.
    + apply N. intros e Ie. assert (One : Rabs 1 <= 1) by (rewrite Rabs_R1; lra). assert (Zero : Rabs 0 <= 1) by (rewrite Rabs_R0; lra).
      destruct Ie as [<-|[<-|[<-|[]]]]; [rewrite A0, B0|rewrite A2, B2|rewrite A1, B1]; (apply unit_err; [rewrite Sy; lra|..]); assumption.
Qed.

(** The three corners have different indices. *)
Lemma tri_verts H c e0 e1 e2 : tri_ready 1 0 1 2 H c e0 e1 e2 -> forall w, In w (vertices (concat [[e0; e2; e1]])) <-> w = v0 0 \/ w = v1 1 1 \/ w = v2 1 2.
Proof.
  intros (_ & _ & _ & (_ & A0 & B0 & _ & L0 & _) & (_ & A1 & B1 & _ & L1 & _) & (_ & A2 & B2 & _ & L2 & _)) w. unfold vertices. cbn [concat app flat_map]. rewrite L0, L1, L2, A0, A1, A2, B0, B1, B2. cbn [app In]. split.
  - intros [<-|[<-|[<-|[<-|[<-|[<-|[]]]]]]]; auto.
  - intros [->|[->| ->]]; auto 8.
Qed.
Lemma tri_indexed H c e0 e1 e2 : tri_ready 1 0 1 2 H c e0 e1 e2 -> indexed (concat [[e0; e2; e1]]) /\ two_ends (concat [[e0; e2; e1]]) /\ NoDup (map e_idx (concat [[e0; e2; e1]])).
Proof.
  intros T. split; [|split].
  - intros v w Iv Iw. apply (tri_verts _ _ _ _ _ T) in Iv, Iw. unfold coord. destruct Iv as [->|[->| ->]], Iw as [->|[->| ->]]; cbn [v0 v1 v2 vidx vx vy]; split; intros E; try reflexivity; try lia; injection E; intros; lra.
  - pose proof T as (_ & _ & _ & (_ & A0 & B0 & _ & L0 & _) & (_ & A1 & B1 & _ & L1 & _) & (_ & A2 & B2 & _ & L2 & _)). intros e [<-|[<-|[<-|[]]]] _; rewrite ?A0, ?B0, ?A1, ?B1, ?A2, ?B2; cbn; lia.
  - pose proof T as (_ & _ & _ & (_ & _ & _ & I0 & _) & (_ & _ & _ & I1 & _) & (_ & _ & _ & I2 & _)). cbn [concat app map]. rewrite I0, I1, I2. repeat constructor; cbn; intuition discriminate.
Qed.

(** The space of degree 2: one bubble, three vertex functions, different keys; the function of the
    corner (0, 0) is 1 there and 0 at the corner (0, 1), up to 1e-10; the bubble has Laplacian -4. *)
Example C59_example low_rank gm set_iter : solves_sizes gm -> (forall l, Permutation (set_iter l) l) -> exists H c e0 e1 e2 spaces L, the_mesh 2 low_rank H c e0 e1 e2 spaces /\
  mk_lspace low_rank gm set_iter H c (Some spaces) (PInt 2) false false = Ok L /\ List.length (l_bubb L) = 1%nat /\ List.length (l_vert L) = 3%nat /\ NoDup (map key_of (get_basis L)) /\
  (exists ku fs f g, In ku (l_vert L) /\ is_vert_key (key_of ku) 0 /\ pieces [e0; e2; e1] (snd ku) fs /\ nth_error fs 0 = Some f /\ nth_error fs 2 = Some g /\ within (1 / 10000000000) (f 0 0) 1 /\ within (1 / 10000000000) (g 0 0) 1 /\ within (1 / 10000000000) (g 0 1) 0) /\
  exists ku, l_bubb L = [ku] /\ is_laplacian (peval RS (lp_form (u_poly (snd ku)))) (fun _ _ => -4).
Proof.
  intros G Pm. destruct (the_mesh_exists low_rank 2 ltac:(lia)) as (H & c & e0 & e1 & e2 & spaces & M). destruct (the_mesh_ok _ _ _ _ _ _ _ _ M) as [Lb Nd]. pose proof M as (T & _). pose proof (tri_rd 1 0 1 2 H c e0 e1 e2 T) as Rd. pose proof (tri_be 1 0 1 2 H c e0 e1 e2 T) as Be. destruct (tri_indexed _ _ _ _ _ T) as (Ix & Te & Ni).
  destruct (tri_total 1 0 1 2 ltac:(lra) H c e0 e1 e2 T low_rank gm set_iter (Some spaces) 2 G ltac:(lia)) as (L & E); [intros l El; injection El as <-; exact Lb|]. exists H, c, e0, e1, e2, spaces, L. split; [exact M|]. split; [exact E|].
  assert (Hg : forall l, Some spaces = Some l -> Forall2 labelled (concat [[e0; e2; e1]]) l) by (intros l El; injection El as <-; exact Lb).
  destruct (C59_dimension low_rank gm set_iter _ _ _ _ _ _ _ _ _ Pm Rd Be Hg E) as (sp & Sp & Nb & Ne & Nv & _). cbn in Sp. subst sp.
  split; [change (2 * (2 - 1) / 2)%Z with 1%Z in Nb; lia|]. split; [|split; [|split]].
  - destruct (Nv Ix) as (ps & Np & Ip & ->). apply (Permutation_length (l' := [(0, 0); (1, 0); (0, 1)] : list pt)). apply NoDup_Permutation; [exact Np| |].
    + repeat constructor; cbn [In]; intuition; match goal with X : (_, _) = (_, _) |- _ => injection X; intros; lra end.
    + intros q. rewrite Ip. cbn [In]. split.
      * intros (w & Iw & <-). apply (tri_verts _ _ _ _ _ T) in Iw. destruct Iw as [->|[->| ->]]; unfold coord; cbn; auto.
      * intros [<-|[<-|[<-|[]]]]; [exists (v0 0)|exists (v1 1 1)|exists (v2 1 2)]; (split; [apply (tri_verts _ _ _ _ _ T); auto|reflexivity]).
  - exact (C59_keys low_rank gm set_iter _ _ _ _ _ _ _ _ _ Pm Rd Be Hg Ni E).
  - destruct (C59_vertex_keys low_rank gm set_iter _ _ _ _ _ _ _ _ _ Pm Rd Be Hg E) as (_ & _ & Kv). destruct (Kv (v0 0)) as (ku & Iku & Kku); [apply (tri_verts _ _ _ _ _ T); auto|]. cbn [v0 vidx] in Kku.
    destruct (C59_vertices low_rank gm set_iter _ _ _ _ _ _ _ _ _ (1 / 10000000000) Rd Be Hg E) with (ku := ku) (z := 0%Z) as (fs & Pc & V & _); try assumption; [intros d sp _ Sp; cbn in Sp; subst sp; exact Nd|lra|].
    pose proof Pc as (Lf & _). destruct fs as [|f [|f2 [|g [|? ?]]]]; try discriminate Lf. pose proof T as (_ & _ & _ & (_ & A0 & B0 & _ & L0 & _) & (_ & A1 & B1 & _ & L1 & _) & _).
    exists ku, [f; f2; g], f, g. split; [exact Iku|]. split; [exact Kku|]. split; [exact Pc|]. split; [reflexivity|]. split; [reflexivity|]. split; [|split].
    + exact (proj2 (proj2 (V 0%nat e0 f eq_refl eq_refl)) (v0 0) (conj L0 (or_introl (eq_sym A0)))).
    + exact (proj2 (proj2 (V 2%nat e1 g eq_refl eq_refl)) (v0 0) (conj L1 (or_introl (eq_sym A1)))).
    + exact (proj2 (proj2 (V 2%nat e1 g eq_refl eq_refl)) (v2 1 2) (conj L1 (or_intror (eq_sym B1)))).
  - change (2 * (2 - 1) / 2)%Z with 1%Z in Nb. destruct (l_bubb L) as [|ku [|? ?]] eqn:Eb; try (cbn in Nb; lia). exists ku. split; [reflexivity|].
    destruct (lspace_inv low_rank gm set_iter _ _ _ _ _ _ _ _ _ Rd Be E) as (d' & N & _ & _ & _ & _ & _ & Ec & Ea & _). destruct (tri_centroid 1 0 1 2 ltac:(lra) H c e0 e1 e2 T) as [Ec' Ea']. assert (Qc : l_centroid L = (1 / 3, 1 / 3)) by congruence. assert (Qa : l_area L = 1 * 1 / 2) by congruence.
    pose proof (C59_bubble_laplacian_partial low_rank gm set_iter _ _ _ _ _ _ _ _ _ 0 ku 0 0 (1 / 3) 1 1 Rd Be E) as P. rewrite Eb in P. specialize (P eq_refl eq_refl). rewrite Qc, Qa in P. destruct P as (fx & fy & fxx & fyy & D1 & D2 & D3 & D4 & Z).
    + apply f_equal2; field.
    + lra.
    + lra.
    + intros n Hn. assert (n = 0%nat) by lia. subst n. cbn [pow Nat.add Nat.sub]. assert (Rabs (-1 / (1 * 1 / 2 * (1 * 1 / 2 * 1))) = 4) by (rewrite Rabs_left; lra). destruct (al_unit_le 0) as [U _]. unfold al_unit in *. cbn in *. split; [unfold tol; lra|]. unfold tol. lra.
    + exists fx, fy, fxx, fyy. repeat (split; [assumption|]). intros x y. rewrite <- Z. cbn [pow]. field.
Qed.

(** ** Spaces that make their own edge functions *)
(** Without edge spaces from a mesh the space makes them from the edges of the cell, whose samples
    are reversed where the cell runs against the edge. The functions then belong to the reversed
    ends but are labelled by the anchor and the end point: on the edge from (0, 0) to (0, 1) the
    function of the vertex (0, 0) is about 0 there and about 1 at the other end, and on the
    edge from (0, 0) to (1, 0) it is about 1 at (0, 0). The function is not continuous. *)
Theorem C59_default_refuted low_rank gm set_iter d : solves_sizes gm -> (forall l, Permutation (set_iter l) l) -> (1 <= d)%Z -> exists H c e0 e1 e2 L, tri_ready 1 0 1 2 H c e0 e1 e2 /\
  mk_lspace low_rank gm set_iter H c None (PInt d) false false = Ok L /\
  exists ku fs f g, In ku (l_vert L) /\ is_vert_key (key_of ku) 0 /\ is_end (v0 0) e0 /\ is_end (v0 0) e1 /\ pieces [e0; e2; e1] (snd ku) fs /\ nth_error fs 0 = Some f /\ nth_error fs 2 = Some g /\
    within (1 / 10000000000) (f 0 0) 1 /\ within (1 / 10000000000) (g 0 0) 0 /\ within (1 / 10000000000) (g 0 1) 1.
Proof.
  intros G Pm Hd. destruct (tri_exists 1 0 1 2 ltac:(lra)) as (H & c & e0 & e1 & e2 & T & _). pose proof (tri_rd 1 0 1 2 H c e0 e1 e2 T) as Rd. pose proof (tri_be 1 0 1 2 H c e0 e1 e2 T) as Be.
  destruct (tri_total 1 0 1 2 ltac:(lra) H c e0 e1 e2 T low_rank gm set_iter None d G ltac:(lia)) as (L & E); [intros l El; discriminate El|]. exists H, c, e0, e1, e2, L. split; [exact T|]. split; [exact E|].
  destruct (lspace_inv _ _ _ _ _ _ _ _ _ _ _ _ Rd Be E) as (d' & N & spaces & Ed & _ & _ & Sp & _ & _ & _ & Ev & _). injection Ed as <-. cbn [concat app spaces_of] in Sp.
  inversion Sp as [|? b0 ? ? E0 Sp1]; subst. inversion Sp1 as [|? b2 ? ? E2 Sp2]; subst. inversion Sp2 as [|? b1 ? ? E1 Sp3]; subst. inversion Sp3; subst. clear Sp Sp1 Sp2 Sp3.
  assert (Lb : Forall2 labelled (concat [[e0; e2; e1]]) [b0; b2; b1]) by (cbn [concat app]; repeat constructor; eapply espace_labelled; eassumption).
  destruct (ready_uniform _ _ _ _ Rd Be) as (F & _). destruct (all_labelled Lb) as [Ll Wd]. apply (vert_inv F) in Ev; [|lia|exact Wd].
  assert (I0 : In 0%Z (set_iter (vert_indices (concat [[e0; e2; e1]])))).
  { apply (Permutation_in _ (Permutation_sym (Pm _))), vert_indices_In. exists (v0 0). split; [apply (tri_verts _ _ _ _ _ T); auto|reflexivity]. }
  assert (X : exists ku, In ku (l_vert L) /\ @vert_fun [[e0; e2; e1]] [b0; b2; b1] 0 ku). { clear -Ev I0. induction Ev as [|z k l l' Hk Fl IH]; [destruct I0|]. destruct I0 as [->|I]; [exists k; split; [left; reflexivity|exact Hk]|]. destruct (IH I) as (ku & ? & ?). exists ku. split; [right; assumption|assumption]. }
  destruct X as (ku & Iku & K & fs & Pc & Tf & _). destruct (Tf 0%nat b0 eq_refl) as (f & Ef & Tf0). destruct (Tf 2%nat b1 eq_refl) as (g & Eg & Tg).
  pose proof T as (_ & _ & _ & (_ & A0 & B0 & _ & L0 & _ & _ & S0) & (_ & A1 & B1 & _ & L1 & _ & _ & S1) & _). cbn [Z.eqb Pos.eqb] in S0, S1.
  assert (Ru : forall a b e, e_smp e = map (seg a b) (seq 0 9) -> runs e (coord a) (coord b)) by (intros a b e' Es; unfold runs; rewrite Es; split; cbn [seq map nth_error option_map List.length Nat.pred seg sx]; unfold coord; do 2 f_equal; cbn [INR]; field).
  assert (Sy : forall a b, pdist a b = pdist b a) by (intros; unfold pdist; f_equal; ring). pose proof (len01 1 0 1 ltac:(lra)) as D01. pose proof (len02 1 0 2 ltac:(lra)) as D02.
  assert (One : Rabs 1 <= 1) by (rewrite Rabs_R1; lra). assert (Zero : Rabs 0 <= 1) by (rewrite Rabs_R0; lra).
  assert (Tr : forall b e w (h : R -> R -> R) p q, labelled e b -> e_loop e = false -> e_anchor e = v0 0 -> e_endpnt e = w -> vidx w <> 0%Z -> sp_vert b = [p; q] -> trace_for b 0 h -> h = peval RS p).
  { intros b e w h p q (_ & Vk & _) Lo Aa Bb Nw Ev' Th. rewrite Lo, Aa, Bb in Vk. cbn [map v0 vidx] in Vk. inversion Vk as [|k0 ? l1 ? K0 Vk1 Ek]; subst. inversion Vk1 as [|k1 ? l2 ? K1 Vk2]; subst. inversion Vk2; subst.
    destruct Th as [(k & p' & key & Ep & Ekk & Gk & -> & _)|(_ & Nk)].
    - rewrite Ev' in Ep. rewrite <- Ek in Ekk. destruct k as [|[|[|k]]]; cbn in Ep, Ekk; try discriminate; injection Ep as <-; injection Ekk as <-; [reflexivity|]. exfalso. destruct K1 as (_ & K1 & _). lia.
    - exfalso. apply (Nk 0%nat k0); [rewrite Ev'; cbn; lia|rewrite <- Ek; reflexivity|]. apply K0. }
  destruct (espace_runs _ _ _ _ (coord (v0 0)) (coord (v1 1 1)) E0 L0) as (p & q & Ep & P1 & _); [apply Ru, S0|unfold tol; rewrite Sy; lra|].
  destruct (espace_runs _ _ _ _ (coord (v2 1 2)) (coord (v0 0)) E1 L1) as (p' & q' & Ep' & P1' & P2' & _); [apply Ru, S1|unfold tol; lra|].
  assert (f = peval RS p) by (eapply (Tr b0 e0 (v1 1 1)); try eassumption; [eapply espace_labelled; eassumption|cbn; lia]). assert (g = peval RS p') by (eapply (Tr b1 e1 (v2 1 2)); try eassumption; [eapply espace_labelled; eassumption|cbn; lia]). subst f g.
  exists ku, fs, (peval RS p), (peval RS p'). split; [exact Iku|]. split; [exact K|]. split; [split; [exact L0|left; symmetry; exact A0]|]. split; [split; [exact L1|left; symmetry; exact A1]|]. split; [exact Pc|]. split; [exact Ef|]. split; [exact Eg|].
  assert (U1 : line_err (coord (v0 0)) (coord (v1 1 1)) <= 1 / 10000000000) by (apply unit_err; [rewrite Sy; lra|..]; assumption). assert (U2 : line_err (coord (v2 1 2)) (coord (v0 0)) <= 1 / 10000000000) by (apply unit_err; [lra|..]; assumption).
  unfold within in *. cbn [coord v0 v1 v2 vx vy fst snd] in *. split; [eapply Rle_trans; [exact P1|exact U1]|]. split; [eapply Rle_trans; [exact P2'|exact U2]|eapply Rle_trans; [exact P1'|exact U2]].
Qed.

(** Vertices whose index was never set, as those of a cell that does not come from a mesh, share
    the index -1: one function for the three corners. *)
Theorem C59_default_vertices_refuted low_rank gm set_iter d : solves_sizes gm -> (forall l, Permutation (set_iter l) l) -> (1 <= d)%Z -> exists H c e0 e1 e2 L, tri_ready 1 (-1) (-1) (-1) H c e0 e1 e2 /\
  mk_lspace low_rank gm set_iter H c None (PInt d) false false = Ok L /\ List.length (l_vert L) = 1%nat /\ NoDup (map coord [e_anchor e0; e_endpnt e0; e_endpnt e2]).
Proof.
  intros G Pm Hd. destruct (tri_exists 1 (-1) (-1) (-1) ltac:(lra)) as (H & c & e0 & e1 & e2 & T & _). pose proof (tri_rd 1 (-1) (-1) (-1) H c e0 e1 e2 T) as Rd. pose proof (tri_be 1 (-1) (-1) (-1) H c e0 e1 e2 T) as Be.
  destruct (tri_total 1 (-1) (-1) (-1) ltac:(lra) H c e0 e1 e2 T low_rank gm set_iter None d G ltac:(lia)) as (L & E); [intros l El; discriminate El|]. exists H, c, e0, e1, e2, L. split; [exact T|]. split; [exact E|].
  destruct (lspace_inv _ _ _ _ _ _ _ _ _ _ _ _ Rd Be E) as (d' & N & spaces & _ & _ & _ & Sp & _ & _ & _ & Ev & _). destruct (ready_uniform _ _ _ _ Rd Be) as (F & _). assert (Lb : Forall2 labelled (concat [[e0; e2; e1]]) spaces) by (eapply own_labelled; [|exact Sp]; intros l El; discriminate El). destruct (all_labelled Lb) as [Ll Wd]. apply (vert_inv F) in Ev; [|lia|exact Wd].
  pose proof T as (_ & _ & _ & (_ & A0 & B0 & _ & L0 & _) & (_ & A1 & B1 & _ & L1 & _) & (_ & A2 & B2 & _ & L2 & _)). split.
  - rewrite <- (F2_len _ _ _ Ev), (Permutation_length (Pm _)). unfold vert_indices. cbn [concat app flat_map]. rewrite L0, L1, L2, A0, A1, A2, B0, B1, B2. reflexivity.
  - rewrite A0, B0, B2. unfold coord. cbn [map v0 v1 v2 vx vy]. repeat constructor; cbn [In]; intuition; match goal with X : (_, _) = (_, _) |- _ => injection X; intros; lra end.
Qed.

(** ** Large cells *)
(** The factor -1 / area^2 falls below the cutoff of the coefficients for areas above 10^6: the
    bubbles are zero functions. *)
Theorem C59_bubble_refuted low_rank gm set_iter d : solves_sizes gm -> (2 <= d)%Z -> exists H c e0 e1 e2 L, tri_ready 2000 0 1 2 H c e0 e1 e2 /\
  mk_lspace low_rank gm set_iter H c None (PInt d) false false = Ok L /\ l_area L = 2000000 /\ l_bubb L <> [] /\
  forall ku, In ku (l_bubb L) -> lp_form (u_poly (snd ku)) = [] /\ exists v, get_trace_values (snd ku) = Ok v /\ Forall (eq 0) v.
Proof.
  intros G Hd. destruct (tri_exists 2000 0 1 2 ltac:(lra)) as (H & c & e0 & e1 & e2 & T & _). pose proof (tri_rd 2000 0 1 2 H c e0 e1 e2 T) as Rd. pose proof (tri_be 2000 0 1 2 H c e0 e1 e2 T) as Be.
  destruct (tri_total 2000 0 1 2 ltac:(lra) H c e0 e1 e2 T low_rank gm set_iter None d G ltac:(lia)) as (L & E); [intros l El; discriminate El|]. exists H, c, e0, e1, e2, L. split; [exact T|]. split; [exact E|].
  destruct (lspace_inv _ _ _ _ _ _ _ _ _ _ _ _ Rd Be E) as (d' & N & _ & _ & _ & _ & _ & _ & Ea & _). destruct (tri_centroid 2000 0 1 2 ltac:(lra) H c e0 e1 e2 T) as [_ Ea']. assert (Qa : l_area L = 2000000) by (pose proof (eq_trans (eq_sym Ea) Ea') as Q; apply Ok_inj in Q; lra). split; [exact Qa|].
  pose proof (C59_bubbles low_rank gm set_iter _ _ _ _ _ _ _ _ _ Rd Be E) as Bs. split.
  - intros En. rewrite En in Bs. apply F2_len in Bs. rewrite seq_length in Bs. cbn in Bs. assert (1 <= d * (d - 1) / 2)%Z by (apply Z.div_le_lower_bound; nia). lia.
  - intros ku I. assert (X : exists k, lp_form (u_poly (snd ku)) = panti_laplacian RS (centered_monomial (l_centroid L) (l_area L) k) /\ exists v, get_trace_values (snd ku) = Ok v /\ Forall (eq 0) v).
    { clear -Bs I. induction Bs as [|k ku' ks l (_ & (v & Ev & _ & Fv) & Q) Bs IH]; [destruct I|]. destruct I as [->|I]; [exists k; eauto|]. apply IH, I. }
    destruct X as (k & -> & Ev). split; [|exact Ev]. rewrite Qa. unfold centered_monomial. replace (add_monomial_with_idx RS [] (-1 / 2000000 ^ 2) k) with ([] : poly RS); [reflexivity|]. symmetry. apply canonical_ext; [apply consolidate_canonical|constructor|].
    intros a b. rewrite coef_add_with_idx by constructor. cbn [coef]. rewrite Rplus_0_l. assert (Z0 : cutoff (-1 / 2000000 ^ 2) = 0) by (unfold cutoff; destruct (Rlt_dec _ _) as [|Nl]; [reflexivity|exfalso; apply Nl; rewrite Rabs_left by lra; unfold tol; lra]). rewrite Z0. destruct (_ && _)%bool; apply cutoff_zero.
Qed.
Print Assumptions C59_default_refuted.
Print Assumptions C59_default_vertices_refuted.
Print Assumptions C59_bubble_refuted.
