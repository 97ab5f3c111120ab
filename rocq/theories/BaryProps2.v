(** C16: the products of barycentric coordinates along an edge. *)
From Coq Require Import List ZArith Reals Lra Lia.
From Verif Require Import PyBase PolyModel PolySpec PolyProofs BaryModel BarySpec BaryProofs BaryProps.
Import ListNotations.
Open Scope R_scope.

(** The values of the products at one point, from the values of the three coordinates: the
    coordinates; from degree 2 on the edge bubbles 4 ab; for degree 3 also the bubble 27 abc and the
    squared edge bubbles. *)
Definition product_values (deg : nat) (a b c : R) : list R :=
  match deg with
  | O | 1%nat => [a; b; c]
  | 2%nat => [a; b; c; 4 * a * b; 4 * a * c; 4 * b * c]
  | _ => [a; b; c; 4 * a * b; 4 * a * c; 4 * b * c; 27 * a * b * c; sqrt 3 / 2 * (a * b) ^ 2; sqrt 3 / 2 * (a * c) ^ 2; sqrt 3 / 2 * (b * c) ^ 2]
  end.

Lemma nth_vmul a b k x y : nth_error a k = Some x -> nth_error b k = Some y -> nth_error (vmul a b) k = Some (x * y).
Proof. revert b k. induction a as [|u a IH]; intros [|v b] [|k] A B; cbn in *; try discriminate; [congruence|]. apply IH; assumption. Qed.
Lemma nth_vscale c a k x : nth_error a k = Some x -> nth_error (vscale c a) k = Some (c * x).
Proof. intros A. unfold vscale. rewrite nth_error_map, A. reflexivity. Qed.
Lemma vmul_len a b : length a = length b -> length (vmul a b) = length b.
Proof. intros L. unfold vmul. rewrite map_length, combine_length. lia. Qed.
Lemma vscale_len c a : length (vscale c a) = length a.
Proof. apply map_length. Qed.

Lemma nth_ext0 {A} (l : list A) : forall l', (forall i, nth_error l i = nth_error l' i) -> l = l'.
Proof. induction l as [|a l IH]; intros [|b l'] E; [reflexivity|discriminate (E 0%nat)|discriminate (E 0%nat)|]. pose proof (E 0%nat) as E0. injection E0 as ->. f_equal. apply IH. intros i. exact (E (S i)). Qed.
Lemma nth_last {A} (d : A) zs : forall z, nth_error (z :: zs) (length zs) = Some (last (z :: zs) d).
Proof. induction zs as [|y ys IH]; intros z; [reflexivity|]. cbn [length nth_error]. exact (IH y). Qed.
Definition rows_ok (zs : list pt) (deg : nat) (l0 l1 l2 : poly RS) (rows : list (list R)) : Prop :=
  length rows = length (product_values deg 0 0 0) /\
  forall i r, nth_error rows i = Some r -> length r = length zs /\ forall k w, nth_error zs k = Some w -> nth_error r k = nth_error (product_values deg (at_ l0 w) (at_ l1 w) (at_ l2 w)) i.
Lemma rows_ok_unique zs deg l0 l1 l2 rows rows' : rows_ok zs deg l0 l1 l2 rows -> rows_ok zs deg l0 l1 l2 rows' -> rows = rows'.
Proof.
  intros [L F] [L' F']. apply nth_ext0. intros i. destruct (nth_error rows i) as [r|] eqn:E, (nth_error rows' i) as [r'|] eqn:E'.
  - f_equal. destruct (F i r E) as [Lr G], (F' i r' E') as [Lr' G']. apply nth_ext0. intros k. destruct (nth_error zs k) as [w|] eqn:Ez; [rewrite (G k w Ez), (G' k w Ez); reflexivity|]. apply nth_error_None in Ez. rewrite (proj2 (nth_error_None r k)), (proj2 (nth_error_None r' k)) by lia. reflexivity.
  - apply nth_error_None in E'. assert (X : (i < length rows)%nat) by (apply nth_error_Some; congruence). lia.
  - apply nth_error_None in E. assert (X : (i < length rows')%nat) by (apply nth_error_Some; congruence). lia.
  - reflexivity.
Qed.

(** Every row has one entry for each sample; entry k of row i is the product i at sample k. *)
Theorem C16_products z zs deg rows : barycentric_products (z :: zs) deg = Ok rows <->
  (deg <= 3)%nat /\ exists l0 l1 l2, barycentric_coordinates_edge z (last (z :: zs) z) = Ok (l0, l1, l2) /\
    length rows = length (product_values deg 0 0 0) /\
    forall i r, nth_error rows i = Some r -> length r = length (z :: zs) /\ forall k w, nth_error (z :: zs) k = Some w -> nth_error r k = nth_error (product_values deg (at_ l0 w) (at_ l1 w) (at_ l2 w)) i.
Proof.
  unfold barycentric_products. destruct (Nat.ltb_spec 3 deg) as [Hd|Hd]; [split; [discriminate|intros (X & _); lia]|]. destruct (barycentric_coordinates_edge z (last (z :: zs) z)) as [[[l0 l1] l2]|x]; [|split; [discriminate|intros (_ & ? & ? & ? & X & _); discriminate]]. cbn [bind]. cbv zeta.
  set (ws := z :: zs). set (t0 := map (fun z : pt => peval RS l0 (fst z) (snd z)) ws). set (t1 := map (fun z : pt => peval RS l1 (fst z) (snd z)) ws). set (t2 := map (fun z : pt => peval RS l2 (fst z) (snd z)) ws).
  match goal with |- Ok ?x = _ <-> _ => assert (G : rows_ok ws deg l0 l1 l2 x) end.
  { assert (N0 : forall k w, nth_error ws k = Some w -> nth_error t0 k = Some (at_ l0 w)) by (intros k w E; unfold t0; rewrite nth_error_map, E; reflexivity). assert (N1 : forall k w, nth_error ws k = Some w -> nth_error t1 k = Some (at_ l1 w)) by (intros k w E; unfold t1; rewrite nth_error_map, E; reflexivity). assert (N2 : forall k w, nth_error ws k = Some w -> nth_error t2 k = Some (at_ l2 w)) by (intros k w E; unfold t2; rewrite nth_error_map, E; reflexivity).
    assert (L0 : length t0 = length ws) by apply map_length. assert (L1 : length t1 = length ws) by apply map_length. assert (L2 : length t2 = length ws) by apply map_length. clearbody t0 t1 t2.
    assert (M : forall a b f g, length a = length ws /\ (forall k w, nth_error ws k = Some w -> nth_error a k = Some (f w)) -> length b = length ws /\ (forall k w, nth_error ws k = Some w -> nth_error b k = Some (g w)) -> length (vmul a b) = length ws /\ forall k w, nth_error ws k = Some w -> nth_error (vmul a b) k = Some (f w * g w)).
    { intros a b f g [La A] [Lb B]. split; [rewrite vmul_len by lia; exact Lb|]. intros k w E. apply nth_vmul; auto. }
    assert (Sc : forall c a f, length a = length ws /\ (forall k w, nth_error ws k = Some w -> nth_error a k = Some (f w)) -> length (vscale c a) = length ws /\ forall k w, nth_error ws k = Some w -> nth_error (vscale c a) k = Some (c * f w)).
    { intros c a f [La A]. split; [rewrite vscale_len; exact La|]. intros k w E. apply nth_vscale; auto. }
    pose proof (conj L0 N0) as T0. pose proof (conj L1 N1) as T1. pose proof (conj L2 N2) as T2. clear L0 L1 L2 N0 N1 N2.
    assert (Row : forall a f (g : pt -> R), (length a = length ws /\ forall k w, nth_error ws k = Some w -> nth_error a k = Some (f w)) -> (forall w, f w = g w) -> length a = length ws /\ forall k w, nth_error ws k = Some w -> nth_error a k = Some (g w)) by (intros a f g [La A] E; split; [exact La|]; intros k w Ek; rewrite <- E; auto).
    assert (Q4 : forall a b (f g : pt -> R), (length a = length ws /\ forall k w, nth_error ws k = Some w -> nth_error a k = Some (f w)) -> (length b = length ws /\ forall k w, nth_error ws k = Some w -> nth_error b k = Some (g w)) -> length (vmul (vscale 4 a) b) = length ws /\ forall k w, nth_error ws k = Some w -> nth_error (vmul (vscale 4 a) b) k = Some (4 * f w * g w)) by (intros a b f g A B; exact (M _ _ _ _ (Sc 4 _ _ A) B)).
    assert (Qs : forall a b (f g : pt -> R), (length a = length ws /\ forall k w, nth_error ws k = Some w -> nth_error a k = Some (f w)) -> (length b = length ws /\ forall k w, nth_error ws k = Some w -> nth_error b k = Some (g w)) -> length (vmul (vmul (vscale (sqrt 3 / 2) a) b) (vmul a b)) = length ws /\ forall k w, nth_error ws k = Some w -> nth_error (vmul (vmul (vscale (sqrt 3 / 2) a) b) (vmul a b)) k = Some (sqrt 3 / 2 * (f w * g w) ^ 2)).
    { intros a b f g A B. eapply Row; [exact (M _ _ _ _ (M _ _ _ _ (Sc (sqrt 3 / 2) _ _ A) B) (M _ _ _ _ A B))|]. intros w. cbv beta. ring. }
    pose proof (M _ _ _ _ (M _ _ _ _ (Sc 27 _ _ T0) T1) T2) as T27.
    destruct deg as [|[|[|[|deg]]]]; [| | | |lia]; (split; [reflexivity|]); cbn [Nat.ltb Nat.leb map app fst snd product_values];
      intros i r E; do 10 try (destruct i as [|i]; cbn [nth_error] in E |- *; [injection E as <-; first [exact T0|exact T1|exact T2|exact T27|apply Q4; assumption|apply Qs; assumption]|]); destruct i; discriminate. }
  split.
  - intros E. apply Ok_inj in E. subst rows. split; [exact Hd|]. exists l0, l1, l2. split; [reflexivity|exact G].
  - intros (_ & m0 & m1 & m2 & E & X). injection E as <- <- <-. f_equal. eapply rows_ok_unique; [exact G|exact X].
Qed.
Print Assumptions C16_products.

(** What is refused *)
Theorem C16_products_refused zs deg : ((3 < deg)%nat -> barycentric_products zs deg = Err NotImplementedError) /\ ((deg <= 3)%nat -> barycentric_products [] deg = Err IndexError) /\
  (forall z, (deg <= 3)%nat -> hd_error zs = Some z -> pdist (last zs z) z < tol -> barycentric_products zs deg = Err DegenerateTriangleError).
Proof.
  unfold barycentric_products. destruct (Nat.ltb_spec 3 deg) as [Hd|Hd]; (split; [intros X; try lia; reflexivity|]); (split; [intros X; try lia; reflexivity|]); [intros z X; lia|]. intros z _ E D. destruct zs as [|z' zs]; [discriminate|]. injection E as ->. unfold barycentric_coordinates_edge. rewrite C16_degenerate; [reflexivity|]. auto.
Qed.
Print Assumptions C16_products_refused.

(** Beyond the coordinates themselves every product vanishes at both ends of the edge, when the
    coefficients are kept. *)
Theorem C16_products_ends z zs deg rows i r : let z1 := last (z :: zs) z in let z2 := edge_apex z z1 in let h := cross3 z z1 z2 in
  tol <= pdist z1 z -> bary_sig h z2 z z1 -> bary_sig h z z1 z2 -> bary_sig h z1 z2 z ->
  barycentric_products (z :: zs) deg = Ok rows -> nth_error rows i = Some r -> (3 <= i)%nat -> hd_error r = Some 0 /\ last r 1 = 0.
Proof.
  intros z1 z2 h D S0 S1 S2 E Er Hi. apply C16_products in E. destruct E as (Hd & l0 & l1 & l2 & E & L & F). destruct (C16_edge z z1 D S0 S1 S2) as (m0 & m1 & m2 & E' & A00 & A01 & A10 & A11 & A20 & A21). fold z1 in E. rewrite E in E'. injection E' as <- <- <-.
  destruct (F i r Er) as [Lr G]. assert (Z : forall a b, (a = 1 /\ b = 0 \/ a = 0 /\ b = 1) -> forall x, nth_error (product_values deg a b 0) i = Some x -> x = 0).
  { intros a b AB x Ex. destruct deg as [|[|[|[|deg]]]]; [| | | |lia]; do 10 try (destruct i as [|i]; cbn [product_values nth_error] in Ex; [try lia; injection Ex as <-; destruct AB as [[-> ->]|[-> ->]]; ring|]); destruct i; discriminate. }
  assert (Li : forall a b c, nth_error (product_values deg a b c) i <> None). { intros a b c. apply nth_error_Some. replace (length (product_values deg a b c)) with (length (product_values deg 0 0 0)) by (destruct deg as [|[|[|deg]]]; reflexivity). rewrite <- L. apply nth_error_Some. congruence. }
  split.
  - specialize (G 0%nat z eq_refl). rewrite A00, A10, A20 in G. destruct r as [|x r]; [discriminate|]. cbn in G |- *. f_equal. apply (Z 1 0); [left; auto|congruence].
  - assert (Ez : nth_error (z :: zs) (length zs) = Some z1) by apply nth_last.
    specialize (G _ _ Ez). rewrite A01, A11, A21 in G. destruct (nth_error (product_values deg 0 1 0) i) as [x|] eqn:Ex; [|destruct (Li 0 1 0 Ex)]. rewrite (Z 0 1 (or_intror (conj eq_refl eq_refl)) x Ex) in G. cbn [length] in Lr. clear - G Lr. revert zs Lr G. induction r as [|y r IH]; intros zs Lr G; [discriminate|]. destruct r as [|y' r]; [destruct zs; [|discriminate]; cbn in *; congruence|]. destruct zs as [|w zs]; [discriminate|]. change (last (y :: y' :: r) 1) with (last (y' :: r) 1). apply (IH zs); [cbn in *; lia|exact G].
Qed.
Print Assumptions C16_products_ends.

(** Three points of a bent edge from (0, 0) to (4, 0), degree 3: ten rows of three values. *)
Example C16_products_example : exists rows r, barycentric_products [(0, 0); (2, 1); (4, 0)] 3 = Ok rows /\ length rows = 10%nat /\ nth_error rows 9 = Some r /\ length r = 3%nat.
Proof.
  destruct (C16_edge_error (0, 0) (4, 0)) as (l0 & l1 & l2 & E & _); [apply tol_dist; cbn; lra|].
  assert (X : exists rows, barycentric_products [(0, 0); (2, 1); (4, 0)] 3 = Ok rows) by (unfold barycentric_products; cbn [Nat.ltb Nat.leb last]; rewrite E; eexists; reflexivity).
  destruct X as (rows & X). pose proof X as Y. apply C16_products in Y. destruct Y as (_ & ? & ? & ? & _ & L & F). cbn in L. destruct (nth_error rows 9) as [r|] eqn:Er; [|apply nth_error_None in Er; lia]. exists rows, r. destruct (F _ _ Er) as [Lr _]. auto.
Qed.
(** The same edge meets the conditions of the theorem on the ends. *)
Example C16_ends_example : exists rows r, barycentric_products [(0, 0); (2, 1); (4, 0)] 2 = Ok rows /\ nth_error rows 4 = Some r /\ hd_error r = Some 0 /\ last r 1 = 0.
Proof.
  assert (S0 : 0 <= sqrt 3) by apply sqrt_pos. assert (S4 : sqrt 3 * sqrt 3 = 3) by (apply sqrt_sqrt; lra). assert (S1 : 17 / 10 <= sqrt 3 <= 18 / 10) by (split; nra).
  destruct (C16_edge_error (0, 0) (4, 0)) as (l0 & l1 & l2 & E & _); [apply tol_dist; cbn; lra|].
  assert (X : exists rows, barycentric_products [(0, 0); (2, 1); (4, 0)] 2 = Ok rows) by (unfold barycentric_products; cbn [Nat.ltb Nat.leb last]; rewrite E; eexists; reflexivity).
  destruct X as (rows & X). pose proof X as Y. apply C16_products in Y. destruct Y as (_ & ? & ? & ? & _ & L & F). cbn in L. destruct (nth_error rows 4) as [r|] eqn:Er; [|apply nth_error_None in Er; lia]. exists rows, r. split; [exact X|]. split; [exact Er|].
  assert (Q : forall a, a / cross3 (0, 0) (4, 0) (edge_apex (0, 0) (4, 0)) = a * sqrt 3 / 24). { intros a. replace (cross3 (0, 0) (4, 0) (edge_apex (0, 0) (4, 0))) with (8 * sqrt 3) by (unfold cross3, edge_apex; cbn [fst snd]; field). replace (a * sqrt 3 / 24) with (a * (sqrt 3 * sqrt 3) / (24 * sqrt 3)) by (field; lra). rewrite S4. field. lra. }
  apply (C16_products_ends (0, 0) [(2, 1); (4, 0)] 2 rows 4 r); try exact X; try exact Er; try lia; cbn [last]; try (apply tol_dist; cbn; lra);
  unfold bary_sig; rewrite !Q; unfold edge_apex; cbn [fst snd]; repeat split;
    (solve [left; nra | right; apply Rle_trans with (1 / 100); [unfold tol; lra|]; first [rewrite Rabs_right by nra; nra|rewrite Rabs_left by nra; nra]]).
Qed.
