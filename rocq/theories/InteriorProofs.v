(** Lemmas on distances and interior points. *)
From Coq Require Import List ZArith Reals Lia Lra Bool Permutation String.
From Verif Require Import PyBase PolyModel BaryModel BBoxModel QuadModel VertModel EdgeModel EdgeSpec ContourModel CellModel CellSpec CellProofs CellProps ContourProofs ContourProofs2 ContourProofs3 EdgeProps4.
Import List ListNotations.
Open Scope R_scope.

(** ** Distances *)

(** [d] is the least distance of [p] from the samples [l] *)
Definition least_distance (l : list sample) (p : pt) (d : R) : Prop :=
  (forall s, In s l -> d <= pdist (sx s) p) /\ exists s, In s l /\ d = pdist (sx s) p.
Definition sq (p : pt) (s : sample) : R := (fst (sx s) - fst p) ^ 2 + (snd (sx s) - snd p) ^ 2.
Lemma sq_pdist p s : sqrt (sq p s) = pdist (sx s) p.
Proof. unfold sq, pdist. f_equal. ring. Qed.
Lemma least_unique l p d d' : least_distance l p d -> least_distance l p d' -> d = d'.
Proof. intros (A & s & I & E) (A' & s' & I' & E'). specialize (A s' I'). specialize (A' s I). lra. Qed.
Lemma least_nonneg l p d : least_distance l p d -> 0 <= d.
Proof. intros (_ & s & _ & ->). unfold pdist. apply sqrt_pos. Qed.

Lemma contour_distance_ok H k es p : refs H (k_edges k) es -> Forall well_sampled es -> es <> [] -> exists d, contour_distance H k p = Ok (Some d) /\ least_distance (concat (map e_smp es)) p d.
Proof.
  intros R W NE. unfold contour_distance, guard. rewrite (refs_guard H k es R W). cbn [bind].
  assert (G : forall ids ls o l0, Forall2 (fun i e => nth_error H i = Some e) ids ls -> Forall well_sampled ls ->
    (match o with None => l0 = [] | Some x => (forall s, In s l0 -> x <= sq p s) /\ exists s, In s l0 /\ x = sq p s end) ->
    exists o', fold_res (fun d i => do e <- deref H i; match map (fun s => (fst (sx s) - fst p) ^ 2 + (snd (sx s) - snd p) ^ 2) (e_smp e) with [] => Err ValueError | x :: l => Ok (omin d (Some (lmin x l))) end) ids o = Ok o' /\
      (match o' with None => l0 ++ concat (map e_smp ls) = [] | Some x => (forall s, In s (l0 ++ concat (map e_smp ls)) -> x <= sq p s) /\ exists s, In s (l0 ++ concat (map e_smp ls)) /\ x = sq p s end)).
  { intros ids ls o l0 F. revert o l0. induction F as [|i e ids ls Hi F IH]; intros o l0 WF I.
    - exists o. split; [reflexivity|]. cbn [map concat]. rewrite app_nil_r. exact I.
    - inversion WF as [|? ? We WF']; subst. cbn [fold_res]. unfold deref at 1. rewrite Hi. cbn [bind]. destruct We as (_ & L & N & _). destruct (e_smp e) as [|s0 sl] eqn:Es; [cbn in L; lia|]. cbn [map bind].
      change (fun s => (fst (sx s) - fst p) ^ 2 + (snd (sx s) - snd p) ^ 2) with (sq p). change ((fst (sx s0) - fst p) ^ 2 + (snd (sx s0) - snd p) ^ 2) with (sq p s0).
      destruct (lmin_le (map (sq p) sl) (sq p s0)) as [A1 A2]. pose proof (lmin_In (map (sq p) sl) (sq p s0)) as A3. set (m := lmin (sq p s0) (map (sq p) sl)) in *.
      assert (Mle : forall s, In s (s0 :: sl) -> m <= sq p s). { intros s [<-|Is]; [exact A1|]. rewrite Forall_forall in A2. apply A2. apply in_map, Is. }
      assert (Mex : exists s, In s (s0 :: sl) /\ m = sq p s). { destruct A3 as [E|I3]; [exists s0; split; [left; reflexivity|auto]|]. apply in_map_iff in I3. destruct I3 as (s & E & Is). exists s. split; [right; exact Is|auto]. }
      destruct (IH (omin o (Some m)) (l0 ++ s0 :: sl) WF') as (o' & E & I').
      + destruct o as [x|]; cbn [omin].
        * destruct I as (I1 & s & I2 & I3). split.
          -- intros t Ht. apply in_app_or in Ht. destruct Ht as [Ht|Ht]; [apply Rle_trans with x; [apply Rmin_l|auto]|apply Rle_trans with m; [apply Rmin_r|auto]].
          -- destruct (Rle_dec x m); [rewrite Rmin_left by lra; exists s; split; [apply in_or_app; left; exact I2|exact I3]|]. rewrite Rmin_right by lra. destruct Mex as (t & It & Et). exists t. split; [apply in_or_app; right; exact It|exact Et].
        * subst l0. cbn [app]. split; [exact Mle|exact Mex].
      + exists o'. split; [exact E|]. cbn [map concat]. rewrite Es. rewrite <- app_assoc in I'. exact I'. }
  destruct (G (k_edges k) es None [] R W eq_refl) as (o' & E & I). rewrite E. cbn [bind app] in *. destruct o' as [x|].
  - destruct I as (I1 & s & I2 & I3). exists (sqrt x). split; [reflexivity|]. split.
    + intros t Ht. rewrite <- sq_pdist. apply sqrt_le_1_alt. auto.
    + exists s. split; [exact I2|]. rewrite I3. apply sq_pdist.
  - exfalso. destruct es as [|e es]; [congruence|]. inversion W as [|? ? (_ & L & N & _)]; subst. cbn in I. apply app_eq_nil in I. destruct I as [I _]. rewrite I in L. cbn in L. lia.
Qed.

(** ** The grid search *)

Lemma argmax_from_ok l : forall best bi i, (bi < i)%nat -> exists x, (argmax_from best bi i l = bi /\ x = best \/ (i <= argmax_from best bi i l)%nat /\ nth_error l (argmax_from best bi i l - i) = Some x) /\ best <= x /\ Forall (fun y => y <= x) l.
Proof.
  induction l as [|y l IH]; intros best bi i L; [exists best; split; [left; auto|split; [lra|constructor]]|]. cbn [argmax_from]. destruct (Rlt_dec best y) as [B|B].
  - destruct (IH y i (S i) ltac:(lia)) as (x & C & X1 & X2). exists x. split; [|split; [lra|constructor; assumption]]. right. destruct C as [[-> ->]|[C1 C2]]; [split; [lia|]; rewrite Nat.sub_diag; reflexivity|]. split; [lia|]. replace (argmax_from y i (S i) l - i)%nat with (S (argmax_from y i (S i) l - S i)) by lia. exact C2.
  - destruct (IH best bi (S i) ltac:(lia)) as (x & C & X1 & X2). exists x. split; [|split; [lra|constructor; [lra|assumption]]]. destruct C as [C|[C1 C2]]; [left; exact C|right]. split; [lia|]. replace (argmax_from best bi (S i) l - i)%nat with (S (argmax_from best bi (S i) l - S i)) by lia. exact C2.
Qed.
Lemma argmax_ok l : l <> [] -> exists k x, argmax l = Ok k /\ nth_error l k = Some x /\ Forall (fun y => y <= x) l.
Proof.
  destruct l as [|y l]; [congruence|]. intros _. destruct (argmax_from_ok l y 0 1 ltac:(lia)) as (x & C & X1 & X2). exists (argmax_from y 0 1 l), x. split; [reflexivity|]. split; [|constructor; assumption]. destruct C as [[-> ->]|[C1 C2]]; [reflexivity|]. replace (argmax_from y 0 1 l) with (S (argmax_from y 0 1 l - 1)) by lia. exact C2.
Qed.

Lemma matrix_pos {A} (M : nat) (g : list (list A)) : Forall (fun r => List.length r = M) g -> forall k x, nth_error (concat g) k = Some x -> exists r, nth_error g (k / M) = Some r /\ nth_error r (k mod M) = Some x.
Proof.
  induction 1 as [|r g Hr F IH]; intros k x E; [destruct k; discriminate|]. cbn [concat] in E. destruct (Nat.eq_dec M 0) as [Z0|NZ].
  - exfalso. subst M. destruct r; [|discriminate]. cbn in E. assert (X : concat g = []). { clear -F. induction F as [|r g Hr F IH]; [reflexivity|]. destruct r; [exact IH|discriminate]. } rewrite X in E. destruct k; discriminate.
  - destruct (Nat.lt_ge_cases k M) as [L|L].
    + rewrite nth_error_app1 in E by lia. exists r. rewrite Nat.div_small, Nat.mod_small by lia. auto.
    + rewrite nth_error_app2 in E by lia. rewrite Hr in E. destruct (IH _ _ E) as (r' & A1 & A2). exists r'. assert (K : k = (k - M + 1 * M)%nat) by lia. rewrite K, Nat.div_add, Nat.mod_add by lia. rewrite Nat.add_1_r. auto.
Qed.

(** The grid of [M] by [M] points in a box *)
Definition grid (box : R * R * R * R) (m : nat) : list pt := let '(x0, x1, y0, y1) := box in concat (meshgrid (linspace x0 x1 m) (linspace y0 y1 m)).
Lemma linspace_length a b m : List.length (linspace a b m) = S m.
Proof. unfold linspace. rewrite map_length, seq_length. reflexivity. Qed.

Section Inside.
Variable contains : R -> list pt -> pt -> bool.
Variables (H : heap) (k : contour) (es : list edge).
Hypothesis F : fresh H k es.
Hypothesis NE : es <> [].
Notation path := (map sx (contour_smp es)).
Notation all := (concat (map e_smp es)).

(** The value the search assigns to a grid point *)
Definition score (p : pt) (v : R) : Prop := if contains 0 path p then least_distance all p v else v = 0.
Lemma score_unique p v v' : score p v -> score p v' -> v = v'.
Proof. unfold score. destruct (contains 0 path p); [apply least_unique|congruence]. Qed.

Lemma inside2_ok g : inside2 contains H k g = Ok (map (map (contains 0 path)) g).
Proof. unfold inside2. rewrite (contour_points_ok _ _ _ F). cbn [bind]. rewrite combine_points. reflexivity. Qed.

Lemma scores_ok g : exists dist, map_res (fun rb => map_res (fun pb : pt * bool => if snd pb then do d <- contour_distance H k (fst pb); match d with Some d => Ok d | None => Err OverflowError end else Ok 0) (combine (fst rb) (snd rb))) (combine g (map (map (contains 0 path)) g)) = Ok dist /\ Forall2 (Forall2 score) g dist.
Proof.
  assert (Row : forall r, exists d, map_res (fun pb : pt * bool => if snd pb then do d <- contour_distance H k (fst pb); match d with Some d => Ok d | None => Err OverflowError end else Ok 0) (combine r (map (contains 0 path) r)) = Ok d /\ Forall2 score r d).
  { induction r as [|p r (d & E & S)]; [exists []; split; [reflexivity|constructor]|]. cbn [map combine map_res fst snd]. destruct (contains 0 path p) eqn:C.
    - destruct F as (R & W & _). destruct (contour_distance_ok H k es p R W NE) as (x & Ex & Lx). rewrite Ex. cbn [bind]. rewrite E. cbn [bind]. exists (x :: d). split; [reflexivity|]. constructor; [unfold score; rewrite C; exact Lx|exact S].
    - cbn [bind]. rewrite E. cbn [bind]. exists (0 :: d). split; [reflexivity|]. constructor; [unfold score; rewrite C; reflexivity|exact S]. }
  induction g as [|r g (dist & E & S)]; [exists []; split; [reflexivity|constructor]|]. cbn [map combine map_res fst snd]. destruct (Row r) as (d & Ed & Sd). rewrite Ed. cbn [bind]. rewrite E. cbn [bind]. exists (d :: dist). split; [reflexivity|]. constructor; assumption.
Qed.

Lemma loop_step fuel box tol m d cur : (1 <= m)%nat -> exists v p, In p (grid box m) /\ score p v /\ (forall q w, In q (grid box m) -> score q w -> w <= v) /\
  interior_loop contains (S fuel) H k box tol (Z.of_nat (S m)) d cur =
    if Rlt_dec d tol then
      let M := (4 * (Z.of_nat (S m) / 2) + 1)%Z in
      if Z.ltb 1000000 (M * M) then Err InteriorPointError else interior_loop contains fuel H k box tol M v (Some (mkvert (fst p) (snd p)))
    else Ok cur.
Proof.
  intros Hm. destruct box as [[[x0 x1] y0] y1]. cbn [interior_loop grid].
  assert (LS : forall a b, np_linspace a b (Z.of_nat (S m)) = Ok (linspace a b m)).
  { intros a b. unfold np_linspace. destruct (Z.ltb_spec (Z.of_nat (S m)) 0); [lia|]. rewrite Nat2Z.id. destruct m; [lia|reflexivity]. }
  set (g := meshgrid (linspace x0 x1 m) (linspace y0 y1 m)). destruct (scores_ok g) as (dist & Ed & Sd).
  assert (Rg : Forall (fun r => List.length r = S m) g). { apply Forall_map, Forall_forall. intros y _. rewrite map_length. apply linspace_length. }
  assert (Rd : Forall (fun r => List.length r = S m) dist). { clear -Sd Rg. induction Sd as [|r d g dist X Y IH]; constructor; inversion Rg; subst; [rewrite <- (Forall2_len _ _ _ X); assumption|auto]. }
  assert (Sc : Forall2 score (concat g) (concat dist)). { clear -Sd. induction Sd as [|r d g dist X Y IH]; [constructor|]. cbn. apply Forall2_app; assumption. }
  assert (Ned : concat dist <> []).
  { intros X. rewrite X in Sc. inversion Sc. }
  destruct (argmax_ok _ Ned) as (kk & v & Ek & Ev & Mx). destruct (matrix_pos (S m) dist Rd _ _ Ev) as (row & D1 & D2).
  assert (Lk : (kk < List.length (concat g))%nat) by (rewrite (Forall2_len _ _ _ Sc); apply nth_error_Some; congruence). destruct (nth_error (concat g) kk) as [p|] eqn:Ep; [|apply nth_error_None in Ep; lia]. destruct (matrix_pos (S m) g Rg _ _ Ep) as (rowp & G1 & G2).
  exists v, p. split; [eapply nth_error_In, Ep|]. split; [exact (Forall2_nth _ _ _ Sc _ _ _ Ep Ev)|]. split.
  - intros q w Iq Sq. apply In_nth_error in Iq. destruct Iq as (i & Ei). assert (Li : (i < List.length (concat dist))%nat) by (rewrite <- (Forall2_len _ _ _ Sc); apply nth_error_Some; congruence). destruct (nth_error (concat dist) i) as [w'|] eqn:Ew; [|apply nth_error_None in Ew; lia]. pose proof (Forall2_nth _ _ _ Sc _ _ _ Ei Ew) as Sw. rewrite (score_unique _ _ _ Sq Sw). rewrite Forall_forall in Mx. apply Mx. eapply nth_error_In, Ew.
  - destruct (Rlt_dec d tol); [|reflexivity]. rewrite !LS. cbn [bind]. rewrite inside2_ok. cbn [bind]. fold g. rewrite Ed. cbn [bind]. rewrite Ek. cbn [bind]. rewrite Nat2Z.id. unfold geti. rewrite D1. cbn [bind]. rewrite D2. cbn [bind]. rewrite G1. cbn [bind]. rewrite G2. cbn [bind]. reflexivity.
Qed.

(** Grid sizes that can succeed *)
Definition usable : list nat := [8; 16; 32; 64; 128; 256]%nat.
(** A grid point that the search accepts *)
Definition acceptable (tol : R) (p : pt) : Prop := contains 0 path p = true /\ forall s, In s all -> tol <= pdist (sx s) p.

Lemma score_exists p : exists v, score p v.
Proof. unfold score. destruct (contains 0 path p); [|eexists; reflexivity]. destruct F as (R & W & _). destruct (contour_distance_ok H k es p R W NE) as (x & _ & L). eauto. Qed.
Lemma score_accept tol p v : 0 < tol -> score p v -> (tol <= v <-> acceptable tol p).
Proof.
  intros T S. unfold score in S. unfold acceptable. destruct (contains 0 path p) eqn:C.
  - destruct S as (S1 & s & Is & Es). split; [intros L; split; [reflexivity|]; intros t It; specialize (S1 t It); lra|]. intros [_ A]. rewrite Es. auto.
  - split; [lra|]. intros [X _]. discriminate.
Qed.

Lemma loop_search box tol : 0 < tol -> forall ms fuel m d cur, (List.length ms < fuel)%nat -> (1 <= m)%nat ->
  (* the sizes still to come, up to the one that is searched in vain *)
  (forall i, (i < List.length ms)%nat -> nth_error (m :: ms) (S i) = option_map (fun a => (2 * a)%nat) (nth_error (m :: ms) i)) ->
  (forall i a, (i < List.length ms)%nat -> nth_error (m :: ms) i = Some a -> (a <= 256)%nat) -> nth_error (m :: ms) (List.length ms) = Some 512%nat -> (forall a, In a (m :: ms) -> Nat.Even a) ->
  d < tol ->
  (exists p, interior_loop contains fuel H k box tol (Z.of_nat (S m)) d cur = Ok (Some (mkvert (fst p) (snd p))) /\ acceptable tol p /\ exists a, In a (m :: ms) /\ a <> 512%nat /\ In p (grid box a)) \/
  (interior_loop contains fuel H k box tol (Z.of_nat (S m)) d cur = Err InteriorPointError /\ forall a p, In a (m :: ms) -> a <> 512%nat -> In p (grid box a) -> ~ acceptable tol p).
Proof.
  intros T. induction ms as [|m' ms IH]; intros fuel m d cur HF Hm Dbl Bnd Last Ev Hd.
  - destruct fuel as [|fuel]; [cbn in HF; lia|]. cbn in Last. injection Last as ->. destruct (loop_step fuel box tol 512 d cur ltac:(lia)) as (v & p & _ & _ & _ & ->). destruct (Rlt_dec d tol); [|lra]. right. split; [reflexivity|]. intros a q [<-|[]] X. exfalso. apply X. reflexivity.
  - destruct fuel as [|fuel]; [cbn in HF; lia|]. destruct (loop_step fuel box tol m d cur Hm) as (v & p & Ip & Sp & Mp & ->). destruct (Rlt_dec d tol); [|lra]. cbv zeta.
    assert (Em' : m' = (2 * m)%nat). { specialize (Dbl O ltac:(cbn; lia)). cbn in Dbl. injection Dbl as Dbl. lia. } assert (Bm : (m <= 256)%nat) by (apply (Bnd O m); [cbn; lia|reflexivity]).
    assert (EM : (4 * (Z.of_nat (S m) / 2) + 1)%Z = Z.of_nat (S m')). { destruct (Ev m (or_introl eq_refl)) as (h & Eh). rewrite Em', Eh. replace (Z.of_nat (S (2 * h))) with (1 + Z.of_nat h * 2)%Z by lia. rewrite Z.div_add by lia. change (1 / 2)%Z with 0%Z. lia. }
    rewrite EM. destruct (Z.ltb_spec 1000000 (Z.of_nat (S m') * Z.of_nat (S m'))) as [L|L]; [exfalso; nia|].
    assert (M512 : m <> 512%nat) by lia.
    destruct (Rlt_dec v tol) as [V|V].
    + destruct (IH fuel m' v (Some (mkvert (fst p) (snd p)))) as [(q & A & B & a & C & D)|[A B]].
      * cbn in HF. lia.
      * lia.
      * intros i Hi. exact (Dbl (S i) ltac:(cbn; lia)).
      * intros i a Hi Ha. exact (Bnd (S i) a ltac:(cbn; lia) Ha).
      * exact Last.
      * intros a Ha. apply Ev. right. exact Ha.
      * exact V.
      * left. exists q. split; [exact A|]. split; [exact B|]. exists a. split; [right; exact C|exact D].
      * right. split; [exact A|]. intros a q [<-|Ia] Na Iq Aq; [|exact (B a q Ia Na Iq Aq)]. destruct (score_exists q) as (w & Sw). specialize (Mp q w Iq Sw). apply (score_accept tol q w T Sw) in Aq. lra.
    + left. exists p. split; [destruct fuel as [|f]; [cbn in HF; lia|]; cbn [interior_loop]; destruct (Rlt_dec v tol); [lra|reflexivity]|]. split; [apply (score_accept tol p v T Sp); lra|]. exists m. split; [left; reflexivity|]. split; [exact M512|exact Ip].
Qed.

Lemma loop_result box tol cur : 0 < tol ->
  (exists p, interior_loop contains 8 H k box tol 9 0 cur = Ok (Some (mkvert (fst p) (snd p))) /\ acceptable tol p /\ exists a, In a usable /\ In p (grid box a)) \/
  (interior_loop contains 8 H k box tol 9 0 cur = Err InteriorPointError /\ forall a p, In a usable -> In p (grid box a) -> ~ acceptable tol p).
Proof.
  intros T. change 9%Z with (Z.of_nat 9). destruct (loop_search box tol T [16; 32; 64; 128; 256; 512]%nat 8 8%nat 0 cur) as [(p & A & B & a & C & D & E)|[A B]].
  - cbn. lia.
  - lia.
  - intros i Hi. cbn in Hi. do 6 (destruct i as [|i]; [reflexivity|]). lia.
  - intros i a Hi Ha. cbn in Hi. do 6 (destruct i as [|i]; [cbn in Ha; injection Ha as <-; lia|]). lia.
  - reflexivity.
  - intros a Ha. cbn in Ha. assert (X : Nat.even a = true) by (repeat destruct Ha as [<-|Ha]; try reflexivity; destruct Ha). apply Nat.even_spec, X.
  - exact T.
  - left. exists p. split; [exact A|]. split; [exact B|]. exists a. split; [|exact E]. cbn in C |- *. repeat destruct C as [<-|C]; tauto || congruence.
  - right. split; [exact A|]. intros a p Ia Ip. apply (B a p); [cbn in Ia |- *; tauto| |exact Ip]. cbn in Ia. repeat destruct Ia as [<-|Ia]; try lia; destruct Ia.
Qed.
End Inside.

(** ** The interior point of a contour *)

Definition xs_of (l : list sample) : list R := map (fun s => fst (sx s)) l.
Definition ys_of (l : list sample) : list R := map (fun s => snd (sx s)) l.
Definition clearance (box : R * R * R * R) : R := let '(x0, x1, y0, y1) := box in 1 / 100 * Rmin (x1 - x0) (y1 - y0).
(** What is known about the interior point of a contour with edges [es] *)
Definition interior_ok (contains : R -> list pt -> pt -> bool) (k : contour) (es : list edge) : Prop :=
  forall box, bounding_box TOL (xs_of (contour_smp es)) (ys_of (contour_smp es)) = Ok box -> 0 < clearance box ->
    exists p, k_int k = Some (mkvert (fst p) (snd p)) /\ acceptable contains es (clearance box) p /\ exists a, In a usable /\ In p (grid box a).

Lemma find_interior_form contains H k es : fresh H k es -> es <> [] -> exists box, bounding_box TOL (xs_of (contour_smp es)) (ys_of (contour_smp es)) = Ok box /\
  find_interior_point contains H k = (do p <- interior_loop contains 8 H k box (clearance box) 9 0 (k_int k); Ok (Contour (k_cell k) (k_edges k) (k_orients k) (k_npts k) (k_vidx k) (k_closest k) p)).
Proof.
  intros F NE. unfold find_interior_point, guard. rewrite (fresh_guard _ _ _ F). cbn [bind]. rewrite (contour_points_ok _ _ _ F). cbn [bind]. fold (xs_of (contour_smp es)) (ys_of (contour_smp es)). change (1 / 1000000000000) with TOL.
  pose proof F as (_ & W & _). destruct es as [|e es]; [congruence|]. inversion W as [|? ? We W']; subst. pose proof (open_pos e We) as [A B]. assert (X : exists s l, contour_smp (e :: es) = s :: l). { unfold contour_smp. cbn [map concat]. destruct (open_smp e) as [|s l]; [cbn in B; lia|]. cbn. eauto. }
  destruct X as (s & l & ->). cbn [xs_of ys_of map bounding_box]. cbv zeta. set (dx := lmax _ _ - _). set (dy := lmax (snd _) _ - _).
  destruct (Rlt_dec (Rmax dx dy) TOL); [eexists; split; reflexivity|]. destruct (Rlt_dec dx TOL), (Rlt_dec dy TOL); eexists; split; reflexivity.
Qed.

Lemma find_interior_ok contains H k es k' : fresh H k es -> find_interior_point contains H k = Ok k' -> interior_ok contains k' es.
Proof.
  intros F E box B C. assert (NE : es <> []) by (intros ->; discriminate B). destruct (find_interior_form contains H k es F NE) as (box' & B' & E'). assert (box' = box) by congruence. subst box'. rewrite E' in E.
  destruct (loop_result contains H k es F NE box (clearance box) (k_int k) C) as [(p & Ep & Ap & Gp)|[Ep _]]; rewrite Ep in E; [|discriminate]. cbn [bind] in E. apply Ok_inj in E. subst k'. exists p. auto.
Qed.
Lemma find_interior_total contains H k es : fresh H k es -> es <> [] -> exists box, bounding_box TOL (xs_of (contour_smp es)) (ys_of (contour_smp es)) = Ok box /\
  (0 < clearance box ->
    ((exists a p, In a usable /\ In p (grid box a) /\ acceptable contains es (clearance box) p) -> exists k', find_interior_point contains H k = Ok k') /\
    (~ (exists a p, In a usable /\ In p (grid box a) /\ acceptable contains es (clearance box) p) -> find_interior_point contains H k = Err InteriorPointError)) /\
  (clearance box <= 0 -> exists k', find_interior_point contains H k = Ok k' /\ k_int k' = k_int k).
Proof.
  intros F NE. destruct (find_interior_form contains H k es F NE) as (box & B & E). exists box. split; [exact B|]. split.
  - intros C. destruct (loop_result contains H k es F NE box (clearance box) (k_int k) C) as [(p & Ep & Ap & a & Ga & Gp)|[Ep Np]]; rewrite E, Ep; cbn [bind].
    + split; [intros _; eexists; reflexivity|]. intros N. exfalso. apply N. exists a, p. auto.
    + split; [|reflexivity]. intros (a & p & Ia & Ip & Ap). exfalso. exact (Np a p Ia Ip Ap).
  - intros C. rewrite E. cbn [interior_loop]. destruct (Rlt_dec 0 (clearance box)); [lra|]. cbn [bind]. eexists. split; reflexivity.
Qed.

(** ** Points inside a cell *)

Definition path_of (es : list edge) : list pt := map sx (contour_smp es).
Definition inside_cell (contains : R -> list pt -> pt -> bool) (ess : list (list edge)) (p : pt) : bool :=
  match ess with [] => false | o :: hs => contains 0 (path_of o) p && forallb (fun h => negb (contains 0 (path_of h) p)) hs end.
Definition all_smp (ess : list (list edge)) : list sample := concat (map (fun es => concat (map e_smp es)) ess).

Section Cell.
Variable contains : R -> list pt -> pt -> bool.
Variables (H : heap) (c : cell) (ess : list (list edge)).
Hypothesis F : cell_fresh H c ess.
Hypothesis NE : Forall (fun es => es <> []) ess.
Hypothesis NC : ess <> [].

Lemma cell_inside_ok g : cell_inside contains H c g = Ok (map (map (inside_cell contains ess)) g).
Proof.
  unfold cell_inside. rewrite (comps_guard _ _ _ (proj1 F)). cbn [bind]. pose proof F as (FK & EH & _ & _). rewrite (comp_range_ok c EH). destruct ess as [|o hs]; [congruence|]. inversion FK as [|k0 o' ks hs' F0 FH E0]; subst. cbn [geti nth_error bind]. rewrite (inside2_ok contains H k0 o F0). cbn [bind List.length seq tl].
  assert (G : forall done ks hs pre, Forall2 (fresh H) ks hs -> List.length pre = done -> c_comps c = pre ++ ks -> forall f, fold_res (fun ins i => do k <- geti (c_comps c) i; do h <- inside2 contains H k g; Ok (map (fun r => map (fun b => andb (fst b) (negb (snd b))) (combine (fst r) (snd r))) (combine ins h))) (seq done (List.length ks)) (map (map f) g) = Ok (map (map (fun p => f p && forallb (fun h => negb (contains 0 (path_of h) p)) hs)) g)).
  { clear. intros done ks hs pre FF. revert done pre. induction FF as [|k es ks hs Fk FF IH]; intros done pre L E f.
    - cbn. f_equal. apply map_ext. intros r. apply map_ext. intros p. rewrite andb_true_r. reflexivity.
    - cbn [List.length seq fold_res]. unfold geti at 1. rewrite E, nth_error_app2, L, Nat.sub_diag by lia. cbn [nth_error bind]. rewrite (inside2_ok contains H k es Fk). cbn [bind]. fold (path_of es).
      assert (X : map (fun r => map (fun b => andb (fst b) (negb (snd b))) (combine (fst r) (snd r))) (combine (map (map f) g) (map (map (contains 0 (path_of es))) g)) = map (map (fun p => f p && negb (contains 0 (path_of es) p))) g).
      { clear. induction g as [|r g IHg]; [reflexivity|]. cbn [map combine]. rewrite IHg. f_equal. cbn [fst snd]. clear. induction r as [|p r IHr]; [reflexivity|]. cbn [map combine fst snd]. rewrite IHr. reflexivity. }
      rewrite X. rewrite <- E. rewrite (IH (S done) (pre ++ [k])); [|rewrite app_length; cbn; lia|rewrite <- app_assoc; exact E]. f_equal. apply map_ext. intros r. apply map_ext. intros p. cbn [forallb]. rewrite andb_assoc. reflexivity. }
  pose proof (G 1%nat ks hs [k0] FH eq_refl (eq_sym E0) (contains 0 (map sx (contour_smp o)))) as X. rewrite <- E0 in X. rewrite X. reflexivity.
Qed.

Lemma cell_distance_ok p : exists d, cell_distance H c p = Ok (Some d) /\ least_distance (all_smp ess) p d.
Proof.
  unfold cell_distance. rewrite (comps_guard _ _ _ (proj1 F)). cbn [bind]. pose proof F as (FK & EH & _ & _). rewrite (comp_range_ok c EH).
  assert (G : forall done ks es0 pre o l0, Forall2 (fresh H) ks es0 -> Forall (fun es => es <> []) es0 -> List.length pre = done -> c_comps c = pre ++ ks ->
    (match o with None => l0 = [] | Some x => least_distance l0 p x end) -> exists o', fold_res (fun d i => do k <- geti (c_comps c) i; do d' <- contour_distance H k p; Ok (omin d d')) (seq done (List.length ks)) o = Ok o' /\
      (match o' with None => l0 ++ all_smp es0 = [] | Some x => least_distance (l0 ++ all_smp es0) p x end)).
  { clear. intros done ks es0 pre o l0 FF. revert done pre o l0. induction FF as [|k es ks es0 Fk FF IH]; intros done pre o l0 NE' L E I.
    - exists o. split; [reflexivity|]. cbn. rewrite app_nil_r. exact I.
    - inversion NE' as [|? ? N1 N2]; subst. cbn [List.length seq fold_res]. unfold geti at 1. rewrite E, nth_error_app2, Nat.sub_diag by lia. cbn [nth_error bind]. destruct Fk as (R & W & _). destruct (contour_distance_ok H k es p R W N1) as (d & Ed & Ld). rewrite Ed. cbn [bind]. rewrite <- E.
      destruct (IH (S (List.length pre)) (pre ++ [k]) (omin o (Some d)) (l0 ++ concat (map e_smp es)) N2) as (o' & A & B).
      + rewrite app_length; cbn; lia.
      + rewrite <- app_assoc. exact E.
      + destruct o as [x|]; cbn [omin].
        * destruct I as (I1 & s & I2 & I3). destruct Ld as (L1 & t & L2 & L3). split.
          -- intros u Hu. apply in_app_or in Hu. destruct Hu as [Hu|Hu]; [apply Rle_trans with x; [apply Rmin_l|auto]|apply Rle_trans with d; [apply Rmin_r|auto]].
          -- destruct (Rle_dec x d); [rewrite Rmin_left by lra; exists s; split; [apply in_or_app; left; exact I2|exact I3]|]. rewrite Rmin_right by lra. exists t. split; [apply in_or_app; right; exact L2|exact L3].
        * subst l0. exact Ld.
      + exists o'. split; [exact A|]. unfold all_smp in *. cbn [map concat]. rewrite <- app_assoc in B. exact B. }
  destruct (G O (c_comps c) ess [] None [] FK NE eq_refl eq_refl eq_refl) as (o' & A & B). rewrite A. cbn [app] in B. destruct o' as [d|]; [exists d; auto|]. exfalso. destruct (fresh_all _ _ _ FK) as [|es ess0 W _]; [congruence|]. inversion NE as [|? ? N1 _]; subst. destruct es as [|e es]; [congruence|]. inversion W as [|? ? (_ & L & N & _)]; subst. unfold all_smp in B. cbn in B. apply app_eq_nil in B. destruct B as [B _]. apply app_eq_nil in B. destruct B as [B _]. rewrite B in L. cbn in L. lia.
Qed.

(** Removing the points that are too close *)
Lemma prune_ok (D : pt -> res (option R)) (far : pt -> bool) (mind : R) : (forall p, exists d, D p = Ok d /\ olt d mind = negb (far p)) ->
  forall n g ins, List.length g = n -> Forall (fun r => List.length r = n) g ->
  Forall2 (fun r b => List.length r = List.length b) g ins ->
  fold_res (fun ins i => fold_res (fun ins j =>
      do row <- geti ins i; do b <- geti row j;
      if b : bool then do prow <- geti g i; do p <- geti prow j; do d <- D p; if olt d mind then Ok (hset ins i (hset row j false)) else Ok ins
      else Ok ins) (seq 0 n) ins) (seq 0 n) ins = Ok (map (fun rb => map (fun pb => snd pb && far (fst pb)) (combine (fst rb) (snd rb))) (combine g ins)).
Proof.
  intros HD n g ins Lg Fg F2. set (new := map _ (combine g ins)).
  assert (Row : forall i prow row P Q, nth_error g i = Some prow -> List.length prow = List.length row -> List.length P = i -> forall k done rest prest, List.length rest = k -> row = done ++ rest -> prest = skipn (List.length done) prow ->
    forall done', List.length done' = List.length done ->
    fold_res (fun ins j => do row <- geti ins i; do b <- geti row j; if b : bool then do prow <- geti g i; do p <- geti prow j; do d <- D p; if olt d mind then Ok (hset ins i (hset row j false)) else Ok ins else Ok ins) (seq (List.length done) k) (P ++ (done' ++ rest) :: Q) = Ok (P ++ (done' ++ map (fun pb => snd pb && far (fst pb)) (combine prest rest)) :: Q)).
  { intros i prow row P Q Eg Lr LP. induction k as [|k IH]; intros done rest prest Lk Er Ep done' Ld.
    - destruct rest; [|discriminate]. cbn [seq fold_res]. rewrite combine_nil. reflexivity.
    - destruct rest as [|b rest]; [discriminate|]. cbn [seq fold_res]. unfold geti at 1. rewrite nth_error_app2 by lia. rewrite LP, Nat.sub_diag. cbn [nth_error bind]. unfold geti at 1. rewrite nth_error_app2 by lia. rewrite Ld, Nat.sub_diag. cbn [nth_error bind].
      assert (Lp : (List.length done < List.length prow)%nat) by (rewrite Lr, Er, app_length; cbn; lia). destruct (nth_error prow (List.length done)) as [p|] eqn:E; [|apply nth_error_None in E; lia].
      assert (Ep' : prest = p :: skipn (List.length (done ++ [b])) prow) by (rewrite Ep, app_length, Nat.add_1_r; apply ContourProofs.skipn_cons, E). rewrite Ep'. cbn [combine map fst snd].
      assert (Next : forall v, fold_res (fun ins j => do row <- geti ins i; do b <- geti row j; if b : bool then do prow <- geti g i; do p <- geti prow j; do d <- D p; if olt d mind then Ok (hset ins i (hset row j false)) else Ok ins else Ok ins) (seq (S (List.length done)) k) (P ++ (done' ++ v :: rest) :: Q) = Ok (P ++ (done' ++ v :: map (fun pb => snd pb && far (fst pb)) (combine (skipn (List.length (done ++ [b])) prow) rest)) :: Q)).
      { intros v. specialize (IH (done ++ [b]) rest _ ltac:(injection Lk; auto) ltac:(rewrite Er, <- app_assoc; reflexivity) eq_refl (done' ++ [v]) ltac:(rewrite !app_length; cbn; lia)). rewrite app_length, Nat.add_1_r in IH. rewrite <- !app_assoc in IH. rewrite app_length, Nat.add_1_r. exact IH. }
      destruct b; [|exact (Next false)]. unfold geti at 1. rewrite Eg. cbn [bind]. unfold geti at 1. rewrite E. cbn [bind]. destruct (HD p) as (d & -> & O). cbn [bind]. rewrite O. destruct (far p); cbn [negb andb bind]; [exact (Next true)|].
      assert (HS : hset (P ++ (done' ++ true :: rest) :: Q) i (hset (done' ++ true :: rest) (List.length done) false) = P ++ (done' ++ false :: rest) :: Q).
      { unfold hset. rewrite <- LP, <- Ld. rewrite !firstn_app, !Nat.sub_diag, !firstn_all, !firstn_O, !app_nil_r. rewrite !skipn_app, (skipn_all2 P), (skipn_all2 done') by lia. rewrite !Nat.sub_succ_l, !Nat.sub_diag by lia. reflexivity. }
      rewrite HS. exact (Next false). }
  assert (Outer : forall k, (k <= n)%nat -> fold_res (fun ins i => fold_res (fun ins j => do row <- geti ins i; do b <- geti row j; if b : bool then do prow <- geti g i; do p <- geti prow j; do d <- D p; if olt d mind then Ok (hset ins i (hset row j false)) else Ok ins else Ok ins) (seq 0 n) ins) (seq (n - k) k) (firstn (n - k) new ++ skipn (n - k) ins) = Ok new).
  { pose proof (Forall2_len _ _ _ F2) as L2. assert (Ln : List.length new = n) by (unfold new; rewrite map_length, combine_length; lia).
    induction k as [|k IH]; intros Hk; [cbn [seq fold_res]; rewrite Nat.sub_0_r, firstn_all2, skipn_all2 by lia; rewrite app_nil_r; reflexivity|].
    set (i := (n - S k)%nat) in *. cbn [seq fold_res]. destruct (nth_error g i) as [prow|] eqn:Eg; [|apply nth_error_None in Eg; lia]. destruct (nth_error ins i) as [row|] eqn:Ei; [|apply nth_error_None in Ei; lia].
    assert (Lp : List.length prow = n) by (rewrite Forall_forall in Fg; apply Fg; eapply nth_error_In, Eg). pose proof (Forall2_nth _ _ _ F2 _ _ _ Eg Ei) as Lr. cbn in Lr. rewrite (ContourProofs.skipn_cons ins i row Ei).
    pose proof (Row i prow row (firstn i new) (skipn (S i) ins) Eg Lr ltac:(rewrite firstn_length; lia) n [] row prow ltac:(lia) eq_refl eq_refl [] eq_refl) as X. cbn [app List.length] in X. rewrite X. cbn [bind]. clear X.
    assert (En : nth_error new i = Some (map (fun pb => snd pb && far (fst pb)) (combine prow row))) by (unfold new; rewrite nth_error_map, nth_error_combine, Eg, Ei; reflexivity).
    replace (n - k)%nat with (S i) in IH by lia. rewrite (firstn_snoc new i _ En) in IH. rewrite <- app_assoc in IH. apply IH. lia. }
  specialize (Outer n (le_n _)). rewrite Nat.sub_diag in Outer. exact Outer.
Qed.

Definition cell_bounds (box : R * R * R * R) : Prop := cell_box H c = Ok box.
Lemma cell_box_ok : exists x0 x1 y0 y1, cell_box H c = Ok (x0, x1, y0, y1) /\
  (forall s, In s (cell_smp ess) -> x0 <= fst (sx s) <= x1 /\ y0 <= snd (sx s) <= y1) /\
  (exists s0 s1 s2 s3, In s0 (cell_smp ess) /\ In s1 (cell_smp ess) /\ In s2 (cell_smp ess) /\ In s3 (cell_smp ess) /\ fst (sx s0) = x0 /\ fst (sx s1) = x1 /\ snd (sx s2) = y0 /\ snd (sx s3) = y1).
Proof.
  unfold cell_box. rewrite (comps_guard _ _ _ (proj1 F)). cbn [bind]. rewrite (boundary_points_ok _ _ _ F). cbn [bind].
  assert (X : cell_smp ess <> []).
  { pose proof (fresh_all _ _ _ (proj1 F)) as W. destruct ess as [|es ess']; [congruence|]. inversion NE as [|? ? N1 _]; subst. inversion W as [|? ? We _]; subst. destruct es as [|e es]; [congruence|]. inversion We as [|? ? We0 _]; subst. pose proof (open_pos e We0) as [A B]. unfold cell_smp, contour_smp. cbn. destruct (open_smp e); [cbn in B; lia|discriminate]. }
  destruct (cell_smp ess) as [|s l]; [congruence|]. cbn [map pymin pymax bind]. set (f := fun s => fst (sx s)). set (g := fun s => snd (sx s)). change (fst (sx s)) with (f s). change (snd (sx s)) with (g s).
  destruct (lmin_le (map f l) (f s)) as [A1 A2]. destruct (lmax_ge (map f l) (f s)) as [B1 B2]. destruct (lmin_le (map g l) (g s)) as [C1 C2]. destruct (lmax_ge (map g l) (g s)) as [D1 D2].
  pose proof (lmin_In (map f l) (f s)) as I1. pose proof (lmax_In (map f l) (f s)) as I2. pose proof (lmin_In (map g l) (g s)) as I3. pose proof (lmax_In (map g l) (g s)) as I4.
  do 4 eexists. split; [reflexivity|]. rewrite Forall_forall in *. split.
  - intros t [<-|It]; [fold (f s) (g s); lra|]. fold (f t) (g t). specialize (A2 (f t) (in_map f l t It)). specialize (B2 (f t) (in_map f l t It)). specialize (C2 (g t) (in_map g l t It)). specialize (D2 (g t) (in_map g l t It)). lra.
  - assert (P : forall (h : sample -> R) v, In v (h s :: map h l) -> exists t, In t (s :: l) /\ h t = v).
    { intros h v Iv. change (h s :: map h l) with (map h (s :: l)) in Iv. apply in_map_iff in Iv. destruct Iv as (t & E & It). exists t. auto. }
    destruct (P f _ I1) as (s0 & J0 & E0). destruct (P f _ I2) as (s1 & J1 & E1). destruct (P g _ I3) as (s2 & J2 & E2). destruct (P g _ I4) as (s3 & J3 & E3). exists s0, s1, s2, s3. auto 10.
Qed.
End Cell.

Lemma np_linspace_length a b m l : np_linspace a b m = Ok l -> Z.of_nat (List.length l) = m.
Proof.
  unfold np_linspace. destruct (Z.ltb_spec m 0); [discriminate|]. destruct (Z.to_nat m) as [|[|m']] eqn:E; intros X; apply Ok_inj in X; subst l; [cbn; lia|cbn; lia|]. rewrite linspace_length. lia.
Qed.
Lemma np_linspace_total a b m : (0 <= m)%Z -> exists l, np_linspace a b m = Ok l.
Proof. intros L. unfold np_linspace. destruct (Z.ltb_spec m 0); [lia|]. destruct (Z.to_nat m) as [|[|?]]; eexists; reflexivity. Qed.
Lemma filter_pairs {A} (f : A -> bool) (l : list A) : map fst (filter snd (combine l (map f l))) = filter f l.
Proof. induction l as [|a l IH]; [reflexivity|]. cbn. destruct (f a); cbn; rewrite IH; reflexivity. Qed.
