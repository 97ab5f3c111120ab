(** Triangulation masks (C42). *)
From Coq Require Import List ZArith Reals Lia Lra Bool.
From Verif Require Import PyBase PolyModel BaryModel ContourModel CellModel.
Import List ListNotations.
Open Scope R_scope.

(** The three corners and the three sides of a triangle *)
Definition corner (pts : list pt) (t : tri) (p : pt) : Prop := let '(i, j, k) := t in exists n, In n [i; j; k] /\ p = nth n pts (0, 0).
Definition side (pts : list pt) (t : tri) (p q : pt) : Prop :=
  let '(i, j, k) := t in let P n := nth n pts (0, 0) in (p = P i /\ q = P j) \/ (p = P j /\ q = P k) \/ (p = P k /\ q = P i).
(** A sample of the outer boundary or of a hole *)
Definition sampled (outer : list pt) (holes : list (list pt)) (p : pt) : Prop := exists path, (path = outer \/ In path holes) /\ In p path.
(** Consecutive samples of one closed path, in this order *)
Definition consecutive (outer : list pt) (holes : list (list pt)) (p q : pt) : Prop :=
  exists path i, (path = outer \/ In path holes) /\ nth_error path i = Some p /\ nth_error path (if Nat.eqb (S i) (List.length path) then 0%nat else S i) = Some q.
Definition middle (p q : pt) : pt := (1 / 2 * (fst p + fst q), 1 / 2 * (snd p + snd q)).
(** Inside the outer path and outside all holes, with the radius of cell.py:786 *)
Definition in_domain (contains : R -> list pt -> pt -> bool) (outer : list pt) (holes : list (list pt)) (radius : R) (p : pt) : Prop :=
  contains radius outer p = true /\ forall h, In h holes -> contains radius h p = false.

Lemma reqb_true x y : reqb x y = true <-> x = y.
Proof. unfold reqb. destruct (Req_EM_T x y); intuition congruence. Qed.
Lemma simple_spec p path : on_boundary_simple p path = true <-> exists q r, In q path /\ In r path /\ fst q = fst p /\ snd r = snd p.
Proof.
  unfold on_boundary_simple. rewrite andb_true_iff, !existsb_exists. split.
  - intros [(x & Ix & X) (y & Iy & Y)]. apply reqb_true in X, Y. apply in_map_iff in Ix. destruct Ix as (q & <- & Iq). apply in_map_iff in Iy. destruct Iy as (r & <- & Ir). eauto 10.
  - intros (q & r & Iq & Ir & X & Y). split; [exists (fst q)|exists (snd r)]; (split; [apply in_map; assumption|apply reqb_true; congruence]).
Qed.
Lemma path_in outer holes (path : list pt) : In path (outer :: holes) <-> path = outer \/ In path holes.
Proof. cbn. intuition congruence. Qed.
Lemma boundary_spec pts ts outer holes m t : nth_error ts m = Some t -> exists b, nth_error (boundary_mask pts ts outer holes) m = Some b /\
  (b = true <-> exists p path q r, corner pts t p /\ (path = outer \/ In path holes) /\ In q path /\ In r path /\ fst q = fst p /\ snd r = snd p).
Proof.
  intros E. unfold boundary_mask. unfold tri in *. rewrite nth_error_map, E. cbn [option_map]. destruct t as [[i j] k]. eexists. split; [reflexivity|]. rewrite existsb_exists. unfold on_boundary. split.
  - intros (n & In_ & B). apply existsb_exists in B. destruct B as (path & Ip & S). apply simple_spec in S. destruct S as (q & r & Iq & Ir & X & Y). exists (nth n pts (0, 0)), path, q, r. split; [exists n; auto|]. split; [apply path_in, Ip|auto].
  - intros (p & path & q & r & (n & In_ & ->) & Ip & Iq & Ir & X & Y). exists n. split; [exact In_|]. apply existsb_exists. exists path. split; [apply path_in, Ip|]. apply simple_spec. eauto 10.
Qed.

(** Every triangle with a corner on the boundary is hidden. *)
Theorem C42_boundary_hidden pts ts outer holes m t p : nth_error ts m = Some t -> corner pts t p -> sampled outer holes p -> nth_error (boundary_mask pts ts outer holes) m = Some true.
Proof.
  intros E C (path & Ip & I). destruct (boundary_spec pts ts outer holes m t E) as (b & Eb & B). rewrite Eb. f_equal. apply B. exists p, path, p, p. auto 10.
Qed.
Print Assumptions C42_boundary_hidden.

(** The mask is exact when no corner takes its two coordinates from different samples of a path.
    Full statement: without that hypothesis; refuted below. *)
Theorem C42_boundary_exact_partial pts ts outer holes m t : nth_error ts m = Some t ->
  (forall p path q r, corner pts t p -> path = outer \/ In path holes -> In q path -> In r path -> fst q = fst p -> snd r = snd p -> sampled outer holes p) ->
  exists b, nth_error (boundary_mask pts ts outer holes) m = Some b /\ (b = true <-> exists p, corner pts t p /\ sampled outer holes p).
Proof.
  intros E D. destruct (boundary_spec pts ts outer holes m t E) as (b & Eb & B). exists b. split; [exact Eb|]. rewrite B. split.
  - intros (p & path & q & r & C & Ip & Iq & Ir & X & Y). exists p. eauto.
  - intros (p & C & path & Ip & I). exists p, path, p, p. auto 10.
Qed.
Print Assumptions C42_boundary_exact_partial.

(** What it does without that hypothesis *)
Theorem C42_boundary_coordinates pts ts outer holes m t : nth_error ts m = Some t -> exists b, nth_error (boundary_mask pts ts outer holes) m = Some b /\
  (b = true <-> exists p path q r, corner pts t p /\ (path = outer \/ In path holes) /\ In q path /\ In r path /\ fst q = fst p /\ snd r = snd p).
Proof. apply boundary_spec. Qed.
Print Assumptions C42_boundary_coordinates.

(** A square with samples at its corners and at the middle of its sides. The triangle has no corner
    on the boundary, but its first corner is the centre of the square. *)
Definition square_path : list pt := [(0, 0); (1, 0); (2, 0); (2, 1); (2, 2); (1, 2); (0, 2); (0, 1)].
Definition square_points : list pt := [(1, 1); (3 / 2, 3 / 2); (1 / 2, 3 / 2)].
Theorem C42_boundary_refuted : boundary_mask square_points [(0, 1, 2)%nat] square_path [] = [true] /\
  forall p, corner square_points (0, 1, 2)%nat p -> ~ sampled square_path [] p.
Proof.
  split.
  - destruct (boundary_spec square_points [(0, 1, 2)%nat] square_path [] 0 (0, 1, 2)%nat eq_refl) as (b & Eb & B). assert (b = true). { apply B. exists (1, 1), square_path, (1, 0), (2, 1). split; [exists O; cbn; auto|]. cbn. intuition lra. } subst b. destruct (boundary_mask _ _ _ _) as [|x [|y l]] eqn:E; [discriminate| |]; [cbn in Eb; congruence|]. exfalso. assert (L : List.length (boundary_mask square_points [(0, 1, 2)%nat] square_path []) = 1%nat) by (unfold boundary_mask; apply map_length). rewrite E in L. discriminate.
  - intros p (n & I & ->) (path & [-> |[]] & Ip). cbn in I. destruct I as [<-|[<-|[<-|[]]]]; cbn in Ip; repeat (destruct Ip as [Ip|Ip]; [injection Ip; intros; lra|]); contradiction.
Qed.
Print Assumptions C42_boundary_refuted.

(** ** The hole mask *)

Lemma segments_spec (path : list pt) a b : In (a, b) (segments path) <-> exists i, nth_error path i = Some a /\ nth_error path (if Nat.eqb (S i) (List.length path) then 0%nat else S i) = Some b.
Proof.
  unfold segments. assert (L : List.length (tl path ++ firstn 1 path) = List.length path) by (destruct path; [reflexivity|]; cbn [tl firstn]; rewrite app_length; cbn; lia).
  assert (N : forall i, (i < List.length path)%nat -> nth_error (tl path ++ firstn 1 path) i = nth_error path (if Nat.eqb (S i) (List.length path) then 0%nat else S i)).
  { intros i Li. destruct path as [|x l]; [cbn in Li; lia|]. cbn [tl firstn List.length] in *. destruct (Nat.eqb_spec (S i) (S (List.length l))) as [E|E].
    - rewrite nth_error_app2 by lia. replace (i - List.length l)%nat with 0%nat by lia. reflexivity.
    - rewrite nth_error_app1 by lia. reflexivity. }
  assert (C : forall (l1 l2 : list pt) i, nth_error (combine l1 l2) i = match nth_error l1 i, nth_error l2 i with Some x, Some y => Some (x, y) | _, _ => None end).
  { induction l1 as [|x l1 IH]; intros [|y l2] [|i]; cbn; try reflexivity; [destruct (nth_error l1 i); reflexivity|apply IH]. }
  split.
  - intros I. apply In_nth_error in I. destruct I as (i & E). rewrite C in E. destruct (nth_error path i) as [x|] eqn:Ex; [|discriminate]. assert (Li : (i < List.length path)%nat) by (apply nth_error_Some; congruence). rewrite (N i Li) in E. match type of E with match ?z with _ => _ end = _ => destruct z as [y|] eqn:Ey end; [|discriminate]. injection E as -> ->. eauto.
  - intros (i & Ea & Eb). assert (Li : (i < List.length path)%nat) by (apply nth_error_Some; congruence). apply (nth_error_In _ i). rewrite C, Ea, (N i Li), Eb. reflexivity.
Qed.
(** The vector from [p] to [q] is, up to sign and [radius], that between two consecutive samples. *)
Definition parallel (outer : list pt) (holes : list (list pt)) (radius : R) (p q : pt) : Prop :=
  exists a b, consecutive outer holes a b /\
    (pdist (fst b - fst a, snd b - snd a) (fst q - fst p, snd q - snd p) < radius \/ pdist (fst b - fst a, snd b - snd a) (fst p - fst q, snd p - snd q) < radius).
Lemma edge_spec p q outer holes radius : edge_on_boundary p q outer holes radius = true <-> parallel outer holes radius p q.
Proof.
  unfold edge_on_boundary, parallel, consecutive. rewrite existsb_exists. assert (S : forall a b : pt, on_segment p q a b radius = true <-> (pdist (fst b - fst a, snd b - snd a) (fst q - fst p, snd q - snd p) < radius \/ pdist (fst b - fst a, snd b - snd a) (fst p - fst q, snd p - snd q) < radius)).
  { intros a b. unfold on_segment. cbn [fst snd]. rewrite orb_true_iff. assert (RT : forall x y, Rltb x y = true <-> x < y) by (intros x y; unfold Rltb; destruct (Rlt_dec x y); intuition congruence). rewrite !RT. unfold pdist. cbn [fst snd].
    replace ((fst b - fst a - (fst q - fst p)) ^ 2 + (snd b - snd a - (snd q - snd p)) ^ 2) with ((fst b - fst a - (fst q - fst p)) * (fst b - fst a - (fst q - fst p)) + (snd b - snd a - (snd q - snd p)) * (snd b - snd a - (snd q - snd p))) by ring.
    replace ((fst b - fst a + (fst q - fst p)) ^ 2 + (snd b - snd a + (snd q - snd p)) ^ 2) with ((fst b - fst a - (fst p - fst q)) * (fst b - fst a - (fst p - fst q)) + (snd b - snd a - (snd p - snd q)) * (snd b - snd a - (snd p - snd q))) by ring. reflexivity. }
  split.
  - intros (path & Ip & O). unfold on_path in O. apply existsb_exists in O. destruct O as ([a b] & Is & Os). apply S in Os. apply segments_spec in Is. destruct Is as (i & Ea & Eb). exists a, b. split; [exists path, i; split; [apply path_in, Ip|auto]|exact Os].
  - intros (a & b & (path & i & Ip & Ea & Eb) & Os). exists path. split; [apply path_in, Ip|]. apply existsb_exists. exists (a, b). split; [apply segments_spec; eauto|apply S, Os].
Qed.

(** The hole mask keeps a triangle exactly when each side has its middle in the domain or has the
    same vector as a boundary segment. *)
Theorem C42_hole_exact contains pts ts outer holes radius m t : nth_error ts m = Some t -> exists b, nth_error (hole_mask contains pts ts outer holes radius) m = Some b /\
  (b = false <-> forall p q, side pts t p q -> parallel outer holes radius p q \/ in_domain contains outer holes radius (middle p q)).
Proof.
  intros E. unfold hole_mask. rewrite nth_error_map, E. cbn [option_map]. destruct t as [[i j] k]. eexists. split; [reflexivity|]. unfold hole_masked.
  assert (D : forall p, point_is_inside contains p outer holes radius = true <-> in_domain contains outer holes radius p).
  { intros p. unfold point_is_inside, in_domain. rewrite andb_true_iff, forallb_forall. apply and_iff_compat_l. split; intros A h Ih; specialize (A h Ih); [apply negb_true_iff, A|rewrite A; reflexivity]. }
  assert (O : forall p q, (if edge_on_boundary p q outer holes radius then false else negb (point_is_inside contains (1 / 2 * (fst p + fst q), 1 / 2 * (snd p + snd q)) outer holes radius)) = false <-> parallel outer holes radius p q \/ in_domain contains outer holes radius (middle p q)).
  { intros p q. rewrite <- edge_spec, <- D. fold (middle p q). destruct (edge_on_boundary p q outer holes radius), (point_is_inside contains (middle p q) outer holes radius); cbn; intuition congruence. }
  cbn [existsb fst snd]. rewrite !orb_false_iff, !O. unfold side. split.
  - intros (A & B & C & _) p q [[-> ->]|[[-> ->]|[-> ->]]]; assumption.
  - intros A. repeat split; apply A; auto.
Qed.
Print Assumptions C42_hole_exact.

(** A triangle that is kept although the middle of a side is outside has a side with the vector of a
    boundary segment. Full statement: that side is a boundary segment; refuted below. *)
Theorem C42_hole_kept_partial contains pts ts outer holes radius m t p q : nth_error ts m = Some t -> nth_error (hole_mask contains pts ts outer holes radius) m = Some false -> side pts t p q ->
  ~ in_domain contains outer holes radius (middle p q) -> parallel outer holes radius p q.
Proof. intros E K S N. destruct (C42_hole_exact contains pts ts outer holes radius m t E) as (b & Eb & B). assert (b = false) by congruence. destruct (proj1 B H p q S); [assumption|contradiction]. Qed.
Print Assumptions C42_hole_kept_partial.

(** Sides that join consecutive samples, in either direction, never hide a triangle. *)
Theorem C42_hole_segments contains pts ts outer holes radius m t : 0 < radius -> nth_error ts m = Some t ->
  (forall p q, side pts t p q -> consecutive outer holes p q \/ consecutive outer holes q p \/ in_domain contains outer holes radius (middle p q)) -> nth_error (hole_mask contains pts ts outer holes radius) m = Some false.
Proof.
  intros R0 E A. destruct (C42_hole_exact contains pts ts outer holes radius m t E) as (b & Eb & B). rewrite Eb. f_equal. apply B. intros p q S. assert (Z : forall u, pdist u u < radius) by (intros u; unfold pdist; replace (_ + _) with 0 by ring; rewrite sqrt_0; exact R0). destruct (A p q S) as [C|[C|C]]; [left|left|right; exact C].
  - exists p, q. split; [exact C|left; apply Z].
  - exists q, p. split; [exact C|right; apply Z].
Qed.
Print Assumptions C42_hole_segments.

(** A region with a notch above [(1, 1) - (2, 1)] and a cut corner from [(0, 1)] to [(1, 0)]. The
    triangle in the notch is kept whatever the point-in-polygon test says: its long side runs across
    the notch and has the vector of the cut corner. *)
Definition notch_path : list pt := [(0, 1); (1, 0); (2, 0); (3, 0); (3, 1); (3, 2); (2, 2); (2, 1); (1, 1); (1, 2); (0, 2)].
Definition notch_tri : tri := (8, 7, 9)%nat.
Theorem C42_hole_refuted : side notch_path notch_tri (2, 1) (1, 2) /\ ~ consecutive notch_path [] (2, 1) (1, 2) /\ ~ consecutive notch_path [] (1, 2) (2, 1) /\
  forall contains radius, 0 < radius -> hole_mask contains notch_path [notch_tri] notch_path [] radius = [false].
Proof.
  assert (NC : forall p q, consecutive notch_path [] p q -> ~ (p = (2, 1) /\ q = (1, 2)) /\ ~ (p = (1, 2) /\ q = (2, 1))).
  { intros p q (path & i & [-> |[]] & Ep & Eq). do 11 (destruct i as [|i]; [cbn in Ep, Eq; injection Ep as <-; injection Eq as <-; split; intros [A B]; pose proof (f_equal fst A); pose proof (f_equal snd A); pose proof (f_equal fst B); pose proof (f_equal snd B); cbn [fst snd] in *; lra|]). destruct i; discriminate. }
  split; [right; left; split; reflexivity|]. split; [intros C; apply (proj1 (NC _ _ C)); split; reflexivity|]. split; [intros C; apply (proj2 (NC _ _ C)); split; reflexivity|]. intros contains radius R0.
  destruct (C42_hole_exact contains notch_path [notch_tri] notch_path [] radius 0 notch_tri eq_refl) as (b & Eb & B). assert (b = false).
  { apply B. assert (Z : forall u v, fst u = fst v -> snd u = snd v -> pdist u v < radius) by (intros u v E1 E2; unfold pdist; rewrite E1, E2; replace (_ + _) with 0 by ring; rewrite sqrt_0; exact R0). intros p q S. left. unfold side, notch_tri in S. cbn [notch_path nth] in S. destruct S as [[-> ->]|[[-> ->]|[-> ->]]].
    - exists (2, 1), (1, 1). split; [exists notch_path, 7%nat; auto|]. right. apply Z; cbn [fst snd]; ring.
    - exists (0, 1), (1, 0). split; [exists notch_path, 0%nat; auto|]. right. apply Z; cbn [fst snd]; ring.
    - exists (1, 1), (1, 2). split; [exists notch_path, 8%nat; auto|]. right. apply Z; cbn [fst snd]; ring. }
  subst b. unfold hole_mask in *. cbn [map nth_error] in *. congruence.
Qed.
Print Assumptions C42_hole_refuted.

(** Examples for the exact statements: the hypothesis of the boundary mask holds for a triangle at
    general points, and its mask is false; with a corner of the square as third point it is true. *)
Definition general_points : list pt := [(1 / 3, 1 / 4); (3 / 2, 3 / 2); (1 / 2, 3 / 2); (2, 2)].
Example C42_example : (exists b, nth_error (boundary_mask general_points [(0, 1, 2)%nat; (0, 1, 3)%nat] square_path []) 0 = Some b /\ b = false) /\
  nth_error (boundary_mask general_points [(0, 1, 2)%nat; (0, 1, 3)%nat] square_path []) 1 = Some true.
Proof.
  split.
  - destruct (C42_boundary_exact_partial general_points [(0, 1, 2)%nat; (0, 1, 3)%nat] square_path [] 0 (0, 1, 2)%nat eq_refl) as (b & Eb & B).
    + intros p path q r (n & I & ->) [-> |[]] Iq _ X _. exfalso. cbn in I. assert (Q : fst q = 0 \/ fst q = 1 \/ fst q = 2) by (cbn in Iq; repeat (destruct Iq as [<-|Iq]; [cbn; auto|]); contradiction). destruct I as [<-|[<-|[<-|[]]]]; cbn in X; lra.
    + exists b. split; [exact Eb|]. destruct b; [|reflexivity]. destruct (proj1 B eq_refl) as (p & (n & I & ->) & path & [-> |[]] & Ip). exfalso. cbn in I. destruct I as [<-|[<-|[<-|[]]]]; cbn in Ip; repeat (destruct Ip as [Ip|Ip]; [injection Ip; intros; lra|]); contradiction.
  - apply (C42_boundary_hidden _ _ _ _ _ (0, 1, 3)%nat (2, 2)); [reflexivity| |]; [exists 3%nat; cbn; auto|]. exists square_path. split; [auto|]. cbn. auto 10.
Qed.
