(** C46: the pegboard. *)
From Coq Require Import List ZArith Reals Lia Lra Bool String Sorted Permutation.
From Verif Require Import PyBase PolyModel BaryModel QuadModel CurveModel VertModel EdgeModel ContourModel CellModel CellSpec CellProofs CellProps MeshModel MeshSpec MeshProofs MeshProps PegSpec PegProofs.
Import List ListNotations.
Open Scope R_scope.

Lemma holes_of_spec radius : holes_of radius = true <-> 0 < radius.
Proof. unfold holes_of. destruct (Rle_dec radius 0); split; intros; try discriminate; try lra; reflexivity. Qed.
Lemma holes_eq radius b : (b = true <-> 0 < radius) -> holes_of radius = b.
Proof. intros E. pose proof (holes_of_spec radius) as S. destruct b, (holes_of radius); try reflexivity; [apply S, E; reflexivity|symmetry; apply E, S; reflexivity]. Qed.
Lemma filter_id {A} (f : A -> bool) l : (forall x, In x l -> f x = true) -> filter f l = l.
Proof. induction l as [|x l IH]; intros F; [reflexivity|]. cbn. rewrite (F x (or_introl eq_refl)). f_equal. apply IH. intros; apply F; right; assumption. Qed.
Lemma firsts_id l : NoDup l -> firsts l = l.
Proof. induction 1 as [|x l NI ND IH]; [reflexivity|]. cbn. rewrite IH. f_equal. apply filter_id. intros y I. apply negb_true_iff, Nat.eqb_neq. intros ->. contradiction. Qed.

Definition pos_of (M N : nat) (s : item) : Z := match s with Hor i j => above M N i j | Ver i j => left_of N i j | Hole i j => Z.of_nat (M * N) + square N i j end.
Definition neg_of (M N : nat) (s : item) : Z := match s with Hor i j => below N i j | Ver i j => right_of N i j | Hole i j => square N i j end.
Definition from_of (M N : nat) (s : item) : vert := match s with Hor i j => grid_vert M N i j | Ver i j => grid_vert M N i j | Hole i j => centre M N i j end.
Definition to_of (M N : nat) (s : item) : vert := match s with Hor i j => grid_vert M N i (S j) | Ver i j => grid_vert M N (S i) j | Hole i j => centre M N i j end.
Lemma edge_of_fields M N radius s : e_pos (edge_of M N radius s) = pos_of M N s /\ e_neg (edge_of M N radius s) = neg_of M N s /\ e_anchor (edge_of M N radius s) = from_of M N s /\ e_endpnt (edge_of M N radius s) = to_of M N s /\ e_loop (edge_of M N radius s) = veqb (from_of M N s) (VVert (to_of M N s)).
Proof.
  pose proof (made_ok M N radius s) as E. destruct s; cbn [made_for] in E; unfold mk_edge in E; cbn [check_idx bind] in E; unfold check_t_bounds in E; cbn [fst snd] in E;
    destruct (Rle_dec (2 * PI) 0) as [X|X]; try (pose proof PI_RGT_0; lra); cbn [bind] in E;
    repeat match type of E with context [if ?c then _ else _] => lazymatch c with veqb _ _ => destruct c eqn:? | _ => fail end end; apply Ok_inj in E; rewrite E; cbn; auto.
Qed.

Lemma sides_in_range M N b s : (1 <= M)%nat -> (1 <= N)%nat -> present M N b s -> (-1 <= pos_of M N s < Z.of_nat (M * N * (if b then 2 else 1)) /\ -1 <= neg_of M N s < Z.of_nat (M * N * (if b then 2 else 1)))%Z /\ (0 <= pos_of M N s \/ 0 <= neg_of M N s)%Z.
Proof.
  intros HM HN P. assert (B2 : (1 <= (if b then 2 else 1))%nat) by (destruct b; lia). set (q := if b then 2%nat else 1%nat) in *.
  assert (SQ : forall i j, (i < M)%nat -> (j < N)%nat -> (0 <= square N i j < Z.of_nat (M * N))%Z) by (intros i j Hi Hj; unfold square; nia).
  assert (MQ : (Z.of_nat (M * N) <= Z.of_nat (M * N * q))%Z) by nia.
  destruct s as [i j|i j|i j]; cbn [present pos_of neg_of] in *.
  - unfold above, below. destruct P as [P1 P2]. destruct (Nat.ltb_spec i M) as [L|L]; destruct i as [|i]; try lia; try (pose proof (SQ _ _ L P2)); try (assert (Li : (i < M)%nat) by lia; pose proof (SQ _ _ Li P2)); try (pose proof (SQ 0%nat j ltac:(lia) P2)); lia.
  - unfold left_of, right_of. destruct P as [P1 P2]. destruct (Nat.ltb_spec j N) as [L|L]; destruct j as [|j]; try lia; try (pose proof (SQ _ _ P1 L)); try (assert (Lj : (j < N)%nat) by lia; pose proof (SQ _ _ P1 Lj)); lia.
  - destruct P as [[P1 P2] ->]. pose proof (SQ _ _ P1 P2). subst q. lia.
Qed.

Lemma pegboard_ok M N radius : (1 <= M)%nat -> (1 <= N)%nat -> exists H m, pegboard (Z.of_nat M, Z.of_nat N) radius = Ok (H, m) /\
  List.length H = List.length (peg_list M N radius) /\ m_edges m = seq 0 (List.length H) /\
  (forall s, present M N (holes_of radius) s -> nth_error H (place M N s) = Some (with_idx (edge_of M N radius s) (Some (Z.of_nat (place M N s))))) /\
  mk_mesh (peg_list M N radius) (seq 0 (List.length (peg_list M N radius))) = Ok (H, m).
Proof.
  intros HM HN. unfold pegboard. destruct (peg_verts_ok M N radius HM HN) as (vs & E & G & C). rewrite E. cbn [bind]. rewrite (peg_edges_ok M N radius _ HM HN G C). cbn [bind]. set (L := peg_list M N radius).
  assert (EM : Forall (fun i => exists e, nth_error L i = Some e /\ embedded e) (seq 0 (List.length L))).
  { apply Forall_forall. intros k I. apply in_seq in I. unfold L in I. rewrite peg_list_length in I. destruct (place_cover M N (holes_of radius) k HN) as (s & P & <-); [lia|]. exists (edge_of M N radius s). split; [apply peg_list_nth, P|]. unfold embedded. destruct (edge_of_fields M N radius s) as (-> & -> & _). apply (sides_in_range M N (holes_of radius) s HM HN P). }
  destruct (mk_mesh_ok L _ EM) as (H' & es & E' & LH & _ & IX & _). exists H'. eexists. rewrite E'. split; [reflexivity|]. split; [exact LH|]. rewrite (firsts_id _ (seq_NoDup _ _)). cbn [m_edges]. split; [rewrite LH; reflexivity|]. split.
  - intros s P. apply IX; [|apply peg_list_nth, P]. rewrite (firsts_id _ (seq_NoDup _ _)). apply nth_error_seq. unfold L. rewrite peg_list_length. apply place_bound; assumption.
  - reflexivity.
Qed.

(** For every size the construction succeeds, and the edges of the mesh are, without repetition,
    the sides and holes of the board, numbered by position. *)
Theorem C46_mesh M N radius holes : (1 <= M)%nat -> (1 <= N)%nat -> (holes = true <-> 0 < radius) -> exists H m, pegboard (Z.of_nat M, Z.of_nat N) radius = Ok (H, m) /\
  m_edges m = seq 0 (List.length H) /\
  (forall s, present M N holes s -> exists e, made_for M N radius s = Ok e /\ nth_error H (place M N s) = Some (with_idx e (Some (Z.of_nat (place M N s))))) /\
  (forall k, (k < List.length H)%nat -> exists! s, present M N holes s /\ place M N s = k) /\
  (forall z, In z (m_cells m) <-> (0 <= z < Z.of_nat (M * N * (if holes then 2 else 1)))%Z).
Proof.
  intros HM HN HO. apply holes_eq in HO. subst holes. destruct (pegboard_ok M N radius HM HN) as (H & m & E & LH & ME & ND & MK). exists H, m. split; [exact E|]. split; [exact ME|]. split; [|split].
  - intros s P. exists (edge_of M N radius s). split; [apply made_ok|apply ND, P].
  - intros k Hk. rewrite LH, peg_list_length in Hk. destruct (place_cover M N (holes_of radius) k HN Hk) as (s & P & Es). exists s. split; [auto|]. intros t [Pt Et]. apply (place_inj M N (holes_of radius)); congruence || assumption.
  - intros z. destruct (C44_tables _ _ _ _ MK) as (_ & _ & _ & _ & _ & _ & _ & CI & _). rewrite CI. clear CI. split.
    + intros (Hz & k & e & I & Ek & B). split; [exact Hz|]. apply in_seq in I. rewrite peg_list_length in I. destruct (place_cover M N (holes_of radius) k HN) as (s & P & <-); [lia|]. rewrite (peg_list_nth _ _ _ _ P) in Ek. injection Ek as <-. unfold borders in B. destruct (edge_of_fields M N radius s) as (F1 & F2 & _). rewrite F1, F2 in B. pose proof (sides_in_range M N _ s HM HN P). lia.
    + intros [Hz Lz]. split; [exact Hz|]. assert (SQ : exists i j, (i < M)%nat /\ (j < N)%nat /\ (z = square N i j \/ holes_of radius = true /\ z = (Z.of_nat (M * N) + square N i j)%Z)).
      { destruct (Z_lt_ge_dec z (Z.of_nat (M * N))) as [A|A].
        - exists (Z.to_nat z / N)%nat, (Z.to_nat z mod N)%nat. pose proof (Nat.div_mod (Z.to_nat z) N ltac:(lia)). pose proof (Nat.mod_upper_bound (Z.to_nat z) N ltac:(lia)). split; [apply Nat.div_lt_upper_bound; lia|]. split; [assumption|]. left. unfold square. lia.
        - destruct (holes_of radius); [|lia]. set (r := Z.to_nat (z - Z.of_nat (M * N))). exists (r / N)%nat, (r mod N)%nat. pose proof (Nat.div_mod r N ltac:(lia)). pose proof (Nat.mod_upper_bound r N ltac:(lia)). assert (r < M * N)%nat by (unfold r; lia). split; [apply Nat.div_lt_upper_bound; lia|]. split; [assumption|]. right. split; [reflexivity|]. unfold square, r in *. lia. }
      destruct SQ as (i & j & Hi & Hj & [->|[HT ->]]).
      * assert (P : present M N (holes_of radius) (Hor i j)) by (cbn; lia). exists (place M N (Hor i j)), (edge_of M N radius (Hor i j)). split; [apply in_seq; rewrite peg_list_length; pose proof (place_bound _ _ _ _ HN P); lia|]. split; [apply peg_list_nth, P|]. left. destruct (edge_of_fields M N radius (Hor i j)) as (-> & _). cbn [pos_of]. unfold above. destruct (Nat.ltb_spec i M); [reflexivity|lia].
      * assert (P : present M N (holes_of radius) (Hole i j)) by (cbn; auto). exists (place M N (Hole i j)), (edge_of M N radius (Hole i j)). split; [apply in_seq; rewrite peg_list_length; pose proof (place_bound _ _ _ _ HN P); lia|]. split; [apply peg_list_nth, P|]. left. destruct (edge_of_fields M N radius (Hole i j)) as (-> & _). reflexivity.
Qed.
Print Assumptions C46_mesh.

Lemma square_inj N i j i' j' : (j < N)%nat -> (j' < N)%nat -> square N i j = square N i' j' -> i = i' /\ j = j'.
Proof. unfold square. intros H1 H2 E. assert (i = i') by nia. subst. lia. Qed.

(** The sides of a square are its bottom and right sides, travelled forwards, its top and left
    sides, travelled backwards, and its hole, travelled backwards. A disc has its circle. *)
Theorem C46_cell M N radius holes H m i j : (1 <= M)%nat -> (1 <= N)%nat -> (holes = true <-> 0 < radius) -> pegboard (Z.of_nat M, Z.of_nat N) radius = Ok (H, m) ->
  (i < M)%nat -> (j < N)%nat -> forall k e, nth_error H k = Some e ->
  (e_pos e = square N i j <-> k = place M N (Hor i j) \/ k = place M N (Ver i (S j))) /\
  (e_neg e = square N i j <-> k = place M N (Hor (S i) j) \/ k = place M N (Ver i j) \/ holes = true /\ k = place M N (Hole i j)) /\
  (e_pos e = Z.of_nat (M * N) + square N i j <-> holes = true /\ k = place M N (Hole i j))%Z /\
  e_neg e <> (Z.of_nat (M * N) + square N i j)%Z.
Proof.
  intros HM HN HO E Hi Hj k e Ek. apply holes_eq in HO. subst holes. destruct (pegboard_ok M N radius HM HN) as (H' & m' & E' & LH & ME & ND & MK). rewrite E' in E. apply Ok_inj in E. injection E as -> ->. clear E' MK.
  destruct (place_cover M N (holes_of radius) k HN) as (s & P & Es); [rewrite <- peg_list_length, <- LH; apply nth_error_Some; congruence|]. subst k. rewrite (ND s P) in Ek. injection Ek as <-. cbn [with_idx e_pos e_neg]. destruct (edge_of_fields M N radius s) as (-> & -> & _).
  assert (PI : forall t, present M N (holes_of radius) t -> (place M N s = place M N t <-> s = t)) by (intros t Pt; split; [apply (place_inj M N (holes_of radius)); assumption|intros ->; reflexivity]).
  rewrite (PI (Hor i j)) by (cbn; lia). rewrite (PI (Ver i (S j))) by (cbn; lia). rewrite (PI (Hor (S i) j)) by (cbn; lia). rewrite (PI (Ver i j)) by (cbn; lia).
  assert (PH : holes_of radius = true /\ place M N s = place M N (Hole i j) <-> s = Hole i j).
  { split; [intros [A B]; apply PI; [cbn; auto|exact B]|]. intros ->. destruct P as [_ P]. auto. }
  rewrite PH. clear PI PH ND.
  assert (SR : forall i j, (i < M)%nat -> (j < N)%nat -> (0 <= square N i j < Z.of_nat (M * N))%Z) by (intros; unfold square; nia). pose proof (SR i j Hi Hj) as R0.
  assert (ST : forall a b, (a < M)%nat -> (b < N)%nat -> forall P : Prop, (a = i /\ b = j -> P) -> (P -> a = i /\ b = j) -> (square N a b = square N i j <-> P)).
  { intros a b Ha Hb P0 F G. split; [intros X; apply F, (square_inj N); assumption|intros X; destruct (G X) as [-> ->]; reflexivity]. }
  destruct s as [a b|a b|a b]; cbn [present pos_of neg_of] in *.
  - destruct P as [P1 P2]. unfold above, below. split; [|split; [|split]].
    + destruct (Nat.ltb_spec a M).
      * apply ST; auto; [intros [-> ->]; auto|intros [X|X]; [injection X as -> ->; auto|discriminate]].
      * split; [lia|intros [X|X]; [injection X as -> ->; lia|discriminate]].
    + destruct a as [|a].
      * split; [lia|intros [X|[X|X]]; discriminate].
      * apply ST; [lia|lia|intros [-> ->]; auto|intros [X|[X|X]]; [injection X as -> ->; auto|discriminate|discriminate]].
    + destruct (Nat.ltb_spec a M) as [L|L]; [pose proof (SR _ _ L P2)|]; (split; [lia|discriminate]).
    + destruct a as [|a]; [lia|]. assert (La : (a < M)%nat) by lia. pose proof (SR _ _ La P2). lia.
  - destruct P as [P1 P2]. unfold left_of, right_of. split; [|split; [|split]].
    + destruct b as [|b].
      * split; [lia|intros [X|X]; discriminate].
      * apply ST; [lia|lia|intros [-> ->]; auto|intros [X|X]; [discriminate|injection X as -> ->; auto]].
    + destruct (Nat.ltb_spec b N).
      * apply ST; auto; [intros [-> ->]; auto|intros [X|[X|X]]; [discriminate|injection X as -> ->; auto|discriminate]].
      * split; [lia|intros [X|[X|X]]; [discriminate|injection X as -> ->; lia|discriminate]].
    + destruct b as [|b]; [split; [lia|discriminate]|]. assert (Lb : (b < N)%nat) by lia. pose proof (SR _ _ P1 Lb). split; [lia|discriminate].
    + destruct (Nat.ltb_spec b N) as [L|L]; [pose proof (SR _ _ P1 L)|]; lia.
  - destruct P as [[P1 P2] P3]. pose proof (SR _ _ P1 P2). split; [|split; [|split]].
    + split; [lia|intros [X|X]; discriminate].
    + apply ST; auto; [intros [-> ->]; auto|intros [X|[X|X]]; [discriminate|discriminate|injection X as -> ->; auto]].
    + split; [intros X; assert (Y : square N a b = square N i j) by lia; apply square_inj in Y; [destruct Y as [-> ->]; reflexivity|assumption|assumption]|intros X; injection X as -> ->; reflexivity].
    + lia.
Qed.
Print Assumptions C46_cell.

(** Interior sides are shared by exactly two squares, the sides of the rectangle belong to one,
    and each circle separates a square from a disc. *)
Theorem C46_sides M N radius holes H m s e : (1 <= M)%nat -> (1 <= N)%nat -> (holes = true <-> 0 < radius) -> pegboard (Z.of_nat M, Z.of_nat N) radius = Ok (H, m) ->
  present M N holes s -> nth_error H (place M N s) = Some e ->
  let outer := match s with Hor i _ => i = O \/ i = M | Ver _ j => j = O \/ j = N | Hole _ _ => False end in
  (outer -> (0 <= e_pos e /\ e_neg e = -1 \/ e_pos e = -1 /\ 0 <= e_neg e)%Z) /\
  (~ outer -> (0 <= e_pos e /\ 0 <= e_neg e /\ e_pos e <> e_neg e)%Z /\ In (e_pos e) (m_cells m) /\ In (e_neg e) (m_cells m)).
Proof.
  intros HM HN HO E P Ek outer. destruct (C46_mesh M N radius holes HM HN HO) as (H0 & m0 & E0 & _ & _ & _ & CI). rewrite E0 in E. apply Ok_inj in E. injection E as -> ->. rewrite !CI. clear CI. rename E0 into E. apply holes_eq in HO. subst holes. destruct (pegboard_ok M N radius HM HN) as (H' & m' & E' & LH & ME & ND & MK). rewrite E' in E. apply Ok_inj in E. injection E as -> ->. rewrite (ND s P) in Ek. injection Ek as <-. cbn [with_idx e_pos e_neg]. destruct (edge_of_fields M N radius s) as (-> & -> & _).
  pose proof (sides_in_range M N _ s HM HN P) as [RG EB].
  assert (K : (outer -> (0 <= pos_of M N s /\ neg_of M N s = -1 \/ pos_of M N s = -1 /\ 0 <= neg_of M N s)%Z) /\ (~ outer -> (0 <= pos_of M N s /\ 0 <= neg_of M N s /\ pos_of M N s <> neg_of M N s)%Z)).
  { clear RG EB. destruct s as [i j|i j|i j]; cbn [present pos_of neg_of] in *; subst outer; cbn beta iota.
    - unfold above, below, square. destruct (Nat.ltb_spec i M); destruct i as [|i]; split; intros; try lia; nia.
    - unfold left_of, right_of, square. destruct (Nat.ltb_spec j N); destruct j as [|j]; split; intros; try lia; nia.
    - unfold square. split; [tauto|]. intros _. destruct P as [[P1 P2] _]. nia. }
  destruct K as [K1 K2]. split; [exact K1|]. intros NO. specialize (K2 NO). split; [exact K2|lia].
Qed.
Print Assumptions C46_sides.
