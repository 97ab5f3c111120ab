(** C46, continued: the boundary of a square, the cells of the mesh and the role of the size. *)
From Coq Require Import List ZArith Reals Lia Lra Bool String Sorted Permutation.
From Verif Require Import PyBase PolyModel BaryModel QuadModel CurveModel VertModel EdgeModel EdgeProofs EdgeProps3 ContourModel CellModel CellSpec CellProofs CellProps MeshModel MeshSpec MeshProofs MeshProps PegSpec PegProofs PegProps Labels.
Import List ListNotations.
Open Scope R_scope.

Lemma spacing_pos M N : (1 <= M)%nat -> (1 <= N)%nat -> 0 < spacing M N.
Proof. intros HM HN. pose proof (INR_max_pos M N HM HN). unfold spacing. apply Rdiv_lt_0_compat; lra. Qed.

Definition corner_label (M N i j k : nat) : vert :=
  match k with O => grid_vert M N i j | 1%nat => grid_vert M N i (S j) | 2%nat => grid_vert M N (S i) j | 3%nat => grid_vert M N (S i) (S j) | _ => centre M N i j end.

Lemma apart v w d : 1 / 1000000 <= d -> d * d <= (vx v - vx w) ^ 2 + (vy v - vy w) ^ 2 -> ~ near v w.
Proof.
  intros D H. unfold near, pdist, coord. cbn [fst snd]. apply Rle_not_lt. apply Rle_trans with d; [exact D|]. rewrite <- (sqrt_square d) by lra. apply sqrt_le_1_alt. lra.
Qed.
(** Squares per side that the tolerance allows: sides of a square stay 10^-6 apart up to a million,
    its centre and its corners up to 707106. *)
Definition side_bound (holes : bool) : Z := if holes then 707106%Z else 1000000%Z.
Lemma spacing_far M N b : (1 <= M)%nat -> (1 <= N)%nat -> (0 < b)%Z -> (Z.of_nat (Nat.max M N) <= b)%Z -> 1 / IZR b <= spacing M N.
Proof.
  intros HM HN HB HX. unfold spacing, Rdiv. apply Rmult_le_compat_l; [lra|]. apply Rinv_le_contravar; [pose proof (INR_max_pos M N HM HN); lra|]. rewrite INR_IZR_INZ. apply IZR_le. lia.
Qed.
Lemma labels_far M N i j holes : (1 <= M)%nat -> (1 <= N)%nat -> (Z.of_nat (Nat.max M N) <= side_bound holes)%Z -> let n := (if holes then 5 else 4)%nat in forall a b, (a < n)%nat -> (b < n)%nat -> near (corner_label M N i j a) (corner_label M N i j b) -> a = b.
Proof.
  intros HM HN HX n. assert (H1 : 1 / IZR (side_bound holes) <= spacing M N) by (apply spacing_far; try assumption; destruct holes; reflexivity).
  set (h := spacing M N) in *. assert (HH : (if holes then 2 else 1) / 1000000000000 <= h * h) by (destruct holes; cbn in H1; nra). assert (H2 : 1 / 1000000000000 <= h * h) by (destruct holes; lra).
  intros a b Ha Hb Nr. destruct (Nat.eq_dec a b) as [E|E]; [exact E|exfalso]. revert Nr. apply (apart _ _ (1 / 1000000)); [lra|]. unfold n in *. clear n. destruct holes.
  - destruct a as [|[|[|[|[|a]]]]], b as [|[|[|[|[|b]]]]]; try lia; cbn [corner_label grid_vert centre vx vy]; fold h; rewrite ?S_INR;
      match goal with |- _ <= ?X => first [replace X with (h * h) by field | replace X with (h * h + h * h) by field | replace X with (h * h / 2) by field] end; lra.
  - destruct a as [|[|[|[|a]]]], b as [|[|[|[|b]]]]; try lia; cbn [corner_label grid_vert centre vx vy]; fold h; rewrite ?S_INR;
      match goal with |- _ <= ?X => first [replace X with (h * h) by field | replace X with (h * h + h * h) by field] end; lra.
Qed.

Lemma square_z N i j : (0 <= square N i j)%Z. Proof. unfold square. lia. Qed.
(** The edges of square (i, j) in mesh order, with their ends seen from the square *)
Lemma square_edges M N radius H m i j : (1 <= M)%nat -> (1 <= N)%nat -> pegboard (Z.of_nat M, Z.of_nat N) radius = Ok (H, m) -> (i < M)%nat -> (j < N)%nat ->
  let z := square N i j in let items := [Hor i j; Ver i j; Ver i (S j); Hor (S i) j] ++ (if holes_of radius then [Hole i j] else []) in
  exists es, refs H (map (place M N) items) es /\ Forall (belongs z) es /\ get_cell H m z = mk_cell H z (map (place M N) items) (33, 33)%Z (5 / 100) (5 / 100) /\
    map (start_pt z) es = map (corner_label M N i j) ([0; 2; 1; 3] ++ (if holes_of radius then [4] else []))%nat /\
    map (stop_pt z) es = map (corner_label M N i j) ([1; 0; 3; 2] ++ (if holes_of radius then [4] else []))%nat /\
    signs z es = ([1; -1; 1; -1] ++ (if holes_of radius then [-1] else []))%Z.
Proof.
  intros HM HN E Hi Hj z items. pose proof E as E0. destruct (pegboard_ok M N radius HM HN) as (H' & m' & E' & LH & ME & ND & MK). rewrite E' in E0. apply Ok_inj in E0. injection E0 as <- <-.
  assert (PR : forall s, In s items -> present M N (holes_of radius) s).
  { intros s I. unfold items in I. apply in_app_or in I. destruct I as [[<-|[<-|[<-|[<-|[]]]]]|I]; cbn; try lia. destruct (holes_of radius); [|destruct I]. destruct I as [<-|[]]. cbn. auto. }
  set (ed := fun s => with_idx (edge_of M N radius s) (Some (Z.of_nat (place M N s)))). exists (map ed items).
  assert (SR : forall i j, (i < M)%nat -> (j < N)%nat -> (0 <= square N i j < Z.of_nat (M * N))%Z) by (intros; unfold square; nia). pose proof (SR i j Hi Hj) as R0.
  assert (RF : refs H (map (place M N) items) (map ed items)). { clear -ND PR. unfold refs. induction items as [|s l IH]; [constructor|]. cbn. constructor; [apply ND, PR; left; reflexivity|apply IH; intros; apply PR; right; assumption]. }
  assert (POS : forall s, In s items -> e_pos (ed s) = pos_of M N s /\ e_neg (ed s) = neg_of M N s /\ e_anchor (ed s) = from_of M N s /\ e_endpnt (ed s) = to_of M N s).
  { intros s _. unfold ed. cbn [with_idx e_pos e_neg e_anchor e_endpnt]. destruct (edge_of_fields M N radius s) as (-> & -> & -> & -> & _). auto. }
  assert (P1 : pos_of M N (Hor i j) = z) by (cbn; unfold above; destruct (Nat.ltb_spec i M); [reflexivity|lia]).
  assert (P2 : neg_of M N (Ver i j) = z) by (cbn; unfold right_of; destruct (Nat.ltb_spec j N); [reflexivity|lia]).
  assert (P3 : pos_of M N (Ver i (S j)) = z) by reflexivity.
  assert (P4 : neg_of M N (Hor (S i) j) = z) by reflexivity.
  assert (P5 : neg_of M N (Hole i j) = z) by reflexivity.
  assert (Q2 : pos_of M N (Ver i j) <> z) by (cbn; unfold left_of; destruct j; [lia|]; unfold z, square in *; nia).
  assert (Q4 : pos_of M N (Hor (S i) j) <> z) by (cbn; unfold above; destruct (Nat.ltb_spec (S i) M); [unfold z, square in *; nia|lia]).
  assert (Q5 : pos_of M N (Hole i j) <> z) by (cbn; unfold z; lia).
  assert (PP : forall s, In s items -> pos_of M N s = z \/ (pos_of M N s <> z /\ neg_of M N s = z)).
  { intros s I. unfold items in I. apply in_app_or in I. destruct I as [[<-|[<-|[<-|[<-|[]]]]]|I]; [left|right|left|right|right]; auto. destruct (holes_of radius); [|destruct I]. destruct I as [<-|[]]. auto. }
  split; [exact RF|]. split; [|split].
  - apply Forall_forall. intros e I. apply in_map_iff in I. destruct I as (s & <- & I). unfold belongs. destruct (POS s I) as (-> & -> & _). destruct (PP s I) as [->|[_ ->]]; auto.
  - destruct (C45_get_cell H m z) as [_ CG]; [rewrite ME; apply Forall_forall; intros x I; apply in_seq in I; lia|]. destruct CG as (ids & SS & II & EG & _).
    { destruct (C46_mesh M N radius (holes_of radius) HM HN (holes_of_spec radius)) as (H0 & m0 & E0 & _ & _ & _ & CI). rewrite E0 in E. apply Ok_inj in E. injection E as <- <-. apply CI. unfold z. destruct (holes_of radius); nia. }
    rewrite EG. f_equal. apply sorted_eq.
    + eapply subseq_sorted; [exact SS|]. rewrite ME. apply seq_sorted.
    + assert (HL : (place M N (Hor (S i) j) > place M N (Ver i (S j)))%nat) by (cbn [place]; destruct (Nat.ltb_spec (S i) M), (Nat.ltb_spec (S j) N); nia).
      assert (HR : (place M N (Ver i (S j)) > place M N (Ver i j))%nat) by (cbn [place]; destruct (Nat.ltb_spec (S j) N), (Nat.ltb_spec j N); nia).
      assert (HB : (place M N (Ver i j) > place M N (Hor i j))%nat) by (cbn [place]; destruct (Nat.ltb_spec i M), (Nat.ltb_spec j N); nia).
      assert (HQ : (place M N (Hole i j) > place M N (Hor (S i) j))%nat) by (cbn [place]; destruct (Nat.ltb_spec (S i) M); nia).
      unfold items. destruct (holes_of radius); cbn [app map]; repeat (constructor; [|repeat (apply Forall_cons; [lia|]); apply Forall_nil]); constructor.
    + intros k. rewrite II, ME, in_seq. split.
      * intros (Lk & e & Ek & B). destruct (C46_cell M N radius (holes_of radius) H m i j HM HN (holes_of_spec radius) E Hi Hj k e Ek) as (C1 & C2 & _). fold z in C1, C2. unfold items. rewrite map_app, in_app_iff. cbn [map In]. destruct B as [B|B]; [apply C1 in B|apply C2 in B]; [intuition auto|]. destruct B as [->|[->|[HT ->]]]; [auto 8|auto 8|]. rewrite HT. right. left. reflexivity.
      * intros I. apply in_map_iff in I. destruct I as (s & <- & I). pose proof (PR s I) as P. split; [rewrite LH, peg_list_length; pose proof (place_bound M N _ s HN P); lia|]. exists (ed s). split; [apply ND, P|]. unfold borders. destruct (POS s I) as (-> & -> & _). destruct (PP s I) as [->|[_ ->]]; auto.
  - assert (ST : forall s, In s items -> start_pt z (ed s) = (if Z.eqb z (pos_of M N s) then from_of M N s else to_of M N s) /\ stop_pt z (ed s) = (if Z.eqb z (pos_of M N s) then to_of M N s else from_of M N s)).
    { intros s I. unfold start_pt, stop_pt. destruct (POS s I) as (-> & _ & -> & ->). auto. }
    rewrite !map_map. assert (X1 : Z.eqb z (pos_of M N (Hor i j)) = true) by (apply Z.eqb_eq; congruence). assert (X2 : Z.eqb z (pos_of M N (Ver i j)) = false) by (apply Z.eqb_neq; congruence). assert (X3 : Z.eqb z (pos_of M N (Ver i (S j))) = true) by (apply Z.eqb_eq; congruence). assert (X4 : Z.eqb z (pos_of M N (Hor (S i) j)) = false) by (apply Z.eqb_neq; congruence). assert (X5 : Z.eqb z (pos_of M N (Hole i j)) = false) by (apply Z.eqb_neq; congruence).
    assert (S3 : map (fun x => start_pt z (ed x)) items = map (fun s => if Z.eqb z (pos_of M N s) then from_of M N s else to_of M N s) items) by (apply map_ext_in; intros s I; apply ST, I).
    assert (S4 : map (fun x => stop_pt z (ed x)) items = map (fun s => if Z.eqb z (pos_of M N s) then to_of M N s else from_of M N s) items) by (apply map_ext_in; intros s I; apply ST, I).
    assert (S5 : signs z (map ed items) = map (fun s => if Z.eqb z (pos_of M N s) then 1 else -1)%Z items) by (unfold signs; rewrite map_map; apply map_ext_in; intros s I; destruct (POS s I) as (-> & _); reflexivity).
    rewrite S3, S4, S5. unfold items. destruct (holes_of radius); cbn [app map]; rewrite X1, X2, X3, X4, ?X5; repeat split.
Qed.

(** Seen from the square, its edges form a closed polygon through the four corners, taken
    counterclockwise, and the hole is a circle of the given radius about the centre. *)
Definition shoelace (l : list pt) : R := match l with [] => 0 | p :: l' => (fix go l a := match l with [] => 0 | b :: t => fst a * snd b - fst b * snd a + go t b end) (l' ++ [p]) p / 2 end.
Theorem C46_boundary M N radius holes H m i j : (1 <= M)%nat -> (1 <= N)%nat -> (holes = true <-> 0 < radius) -> pegboard (Z.of_nat M, Z.of_nat N) radius = Ok (H, m) -> (i < M)%nat -> (j < N)%nat ->
  let z := square N i j in let corners := [grid_vert M N i j; grid_vert M N i (S j); grid_vert M N (S i) (S j); grid_vert M N (S i) j] in
  (forall k s v w, nth_error [Hor i j; Ver i (S j); Hor (S i) j; Ver i j] k = Some s -> nth_error corners k = Some v -> nth_error corners (S k mod 4) = Some w ->
    exists e, nth_error H (place M N s) = Some e /\ e_curve e = Line /\ start_pt z e = v /\ stop_pt z e = w) /\
  0 < shoelace (map coord corners) /\ shoelace (map coord corners) = spacing M N * spacing M N /\
  (holes = true -> exists e, nth_error H (place M N (Hole i j)) = Some e /\ e_curve e = Circle /\ e_opts e = [("radius"%string, radius * spacing M N)] /\ e_neg e = z /\ e_pos e <> z /\
     e_anchor e = centre M N i j /\ e_endpnt e = centre M N i j /\ e_tb e = (0, 2 * PI)).
Proof.
  intros HM HN HO E Hi Hj z corners. apply holes_eq in HO. subst holes. pose proof (spacing_pos M N HM HN) as SP. assert (SH : shoelace (map coord corners) = spacing M N * spacing M N) by (unfold corners, coord, grid_vert, shoelace; cbn [map app vx vy fst snd]; rewrite ?S_INR; field).
  destruct (square_edges M N radius H m i j HM HN E Hi Hj) as (es & RF & FB & _ & ST & SO & SG). fold z in FB, ST, SO, SG.
  destruct (C46_mesh M N radius (holes_of radius) HM HN (holes_of_spec radius)) as (H0 & m0 & E0 & _ & MD & _). rewrite E0 in E. apply Ok_inj in E. injection E as <- <-.
  split; [|split; [rewrite SH; nra|split; [exact SH|]]].
  - assert (G : forall k s a b, nth_error [Hor i j; Ver i j; Ver i (S j); Hor (S i) j] k = Some s -> nth_error [0; 2; 1; 3]%nat k = Some a -> nth_error [1; 0; 3; 2]%nat k = Some b -> exists e, nth_error H (place M N s) = Some e /\ e_curve e = Line /\ start_pt z e = corner_label M N i j a /\ stop_pt z e = corner_label M N i j b).
    { intros k s a b Es Ea Eb. assert (P : present M N (holes_of radius) s) by (destruct k as [|[|[|[|k]]]]; cbn in Es; try (injection Es as <-; cbn; lia); destruct k; discriminate). destruct (MD s P) as (e & Em & En). eexists. split; [exact En|]. assert (LK : (k < 4)%nat) by (change 4%nat with (List.length [Hor i j; Ver i j; Ver i (S j); Hor (S i) j]); apply nth_error_Some; congruence).
      assert (IN : nth_error (map (place M N) ([Hor i j; Ver i j; Ver i (S j); Hor (S i) j] ++ if holes_of radius then [Hole i j] else [])) k = Some (place M N s)) by (rewrite map_app, nth_error_app1 by exact LK; rewrite nth_error_map, Es; reflexivity).
      destruct (nth_error es k) as [x|] eqn:Ex; [|apply nth_error_None in Ex; rewrite <- (Forall2_len _ _ _ RF), map_length, app_length in Ex; cbn [List.length] in Ex; lia]. pose proof (Forall2_nth _ _ _ RF _ _ _ IN Ex) as Q. cbn beta in Q. rewrite En in Q. injection Q as <-.
      split; [|split].
      - destruct k as [|[|[|[|k]]]]; cbn in Es; try (destruct k; discriminate); injection Es as <-; unfold made_for, mk_edge in Em; cbn [check_idx bind] in Em; unfold check_t_bounds in Em; cbn [fst snd] in Em; (destruct (Rle_dec (2 * PI) 0) as [Q|Q]; [pose proof PI_RGT_0; lra|]); cbn [bind] in Em; apply Ok_inj in Em; subst e; reflexivity.
      - pose proof (f_equal (fun l => nth_error l k) ST) as T. cbn beta in T. rewrite !nth_error_map, Ex, nth_error_app1, Ea in T by exact LK. injection T as T. exact T.
      - pose proof (f_equal (fun l => nth_error l k) SO) as T. cbn beta in T. rewrite !nth_error_map, Ex, nth_error_app1, Eb in T by exact LK. injection T as T. exact T. }
    intros k s v w Es Ev Ew. destruct k as [|[|[|[|k]]]]; cbn in Es, Ev, Ew; try (destruct k; discriminate); injection Es as <-; injection Ev as <-; injection Ew as <-; [exact (G 0%nat _ _ _ eq_refl eq_refl eq_refl)|exact (G 2%nat _ _ _ eq_refl eq_refl eq_refl)|exact (G 3%nat _ _ _ eq_refl eq_refl eq_refl)|exact (G 1%nat _ _ _ eq_refl eq_refl eq_refl)].
  - intros HT. destruct (MD (Hole i j)) as (e & Em & En); [cbn; auto|]. eexists. split; [exact En|]. unfold made_for, mk_edge in Em. cbn [check_idx bind] in Em. unfold check_t_bounds in Em. cbn [fst snd] in Em. destruct (Rle_dec (2 * PI) 0) as [Q|Q]; [pose proof PI_RGT_0; lra|]. cbn [bind] in Em. apply Ok_inj in Em. subst e. cbn [set_cells set_verts with_idx e_curve e_opts e_neg e_pos e_anchor e_endpnt e_tb]. repeat (split; [reflexivity|]). split; [unfold z, square; nia|]. repeat split.
Qed.
Print Assumptions C46_boundary.

(** The cells of the mesh can be built and have these contours, as long as the squares are not
    too small for the tolerance of the cell. The discs are built for every size. *)
Theorem C46_get_cell_partial M N radius holes H m i j : (1 <= M)%nat -> (1 <= N)%nat -> (holes = true <-> 0 < radius) -> pegboard (Z.of_nat M, Z.of_nat N) radius = Ok (H, m) -> (i < M)%nat -> (j < N)%nat ->
  ((Z.of_nat (Nat.max M N) <= side_bound holes)%Z -> exists c, get_cell H m (square N i j) = Ok c /\ c_idx c = square N i j /\ c_holes c = (if holes then 1 else 0)%Z /\
    map k_edges (c_comps c) = map (map (place M N)) ([Hor i j; Ver i (S j); Hor (S i) j; Ver i j] :: if holes then [[Hole i j]] else []) /\
    map k_orients (c_comps c) = ([1; 1; -1; -1] :: if holes then [[-1]] else [])%Z) /\
  (holes = true -> exists c, get_cell H m (Z.of_nat (M * N) + square N i j) = Ok c /\ c_holes c = 0%Z /\ map k_edges (c_comps c) = [[place M N (Hole i j)]] /\ map k_orients (c_comps c) = [[1]]%Z).
Proof.
  intros HM HN HO E Hi Hj. apply holes_eq in HO. subst holes. split.
  - intros HX. destruct (square_edges M N radius H m i j HM HN E Hi Hj) as (es & RF & FB & EG & ST & SO & SG). rewrite EG. clear EG. set (z := square N i j) in *. pose proof (Forall2_len _ _ _ RF) as LL. rewrite map_length in LL. destruct (holes_of radius).
    + cbn [app List.length] in LL. match type of RF with refs _ ?l _ => destruct (labelled H z l es (corner_label M N i j) [1; 0; 3; 2; 4]%nat [0; 2; 1; 3; 4]%nat [2; 0; 3; 1; 4]%nat [[0; 2; 3; 1]; [4]]%nat (33, 33)%Z (5 / 100) (5 / 100)) as (c & Ec & Ic & Ke & Ko & Kh) end.
      all: try assumption; try lra; try (apply square_z); try (rewrite <- LL; reflexivity).
      * repeat constructor; cbn; intuition discriminate.
      * repeat constructor; cbn; intuition discriminate.
      * intros a b Ia Ib. apply (labels_far M N i j true HM HN HX); [cbn in Ia|cbn in Ib]; intuition lia.
      * intros [|[|[|[|[|k]]]]] a Ea; cbn in Ea; try (injection Ea as <-); try (destruct k; discriminate); eexists; (split; [reflexivity|reflexivity]).
      * intros x. cbn. tauto.
      * repeat constructor; cbn; intuition discriminate.
      * rewrite <- LL. repeat constructor.
      * exists c. split; [exact Ec|]. split; [exact Ic|]. split; [exact Kh|]. rewrite SG in Ko. split; [exact Ke|exact Ko].
    + cbn [app List.length] in LL. match type of RF with refs _ ?l _ => destruct (labelled H z l es (corner_label M N i j) [1; 0; 3; 2]%nat [0; 2; 1; 3]%nat [2; 0; 3; 1]%nat [[0; 2; 3; 1]]%nat (33, 33)%Z (5 / 100) (5 / 100)) as (c & Ec & Ic & Ke & Ko & Kh) end.
      all: try assumption; try lra; try (apply square_z); try (rewrite <- LL; reflexivity).
      * repeat constructor; cbn; intuition discriminate.
      * repeat constructor; cbn; intuition discriminate.
      * intros a b Ia Ib. apply (labels_far M N i j false HM HN HX); [cbn in Ia|cbn in Ib]; intuition lia.
      * intros [|[|[|[|k]]]] a Ea; cbn in Ea; try (injection Ea as <-); try (destruct k; discriminate); eexists; (split; [reflexivity|reflexivity]).
      * intros x. cbn. tauto.
      * repeat constructor; cbn; intuition discriminate.
      * rewrite <- LL. repeat constructor.
      * exists c. split; [exact Ec|]. split; [exact Ic|]. split; [exact Kh|]. rewrite SG in Ko. split; [exact Ke|exact Ko].
  - intros HT. set (z := (Z.of_nat (M * N) + square N i j)%Z). destruct (C46_boundary M N radius (holes_of radius) H m i j HM HN (holes_of_spec radius) E Hi Hj) as (_ & _ & _ & HB). destruct (HB HT) as (e & En & _ & _ & _ & _ & EA & EE & _). clear HB.
    destruct (C46_mesh M N radius (holes_of radius) HM HN (holes_of_spec radius)) as (H0 & m0 & E0 & ME & _ & _ & CI). assert (Q : H0 = H /\ m0 = m) by (rewrite E0 in E; apply Ok_inj in E; injection E as <- <-; auto). destruct Q as [-> ->].
    pose proof (fun k e Ek => C46_cell M N radius (holes_of radius) H m i j HM HN (holes_of_spec radius) E Hi Hj k e Ek) as CC.
    assert (PZ : e_pos e = z) by (destruct (CC _ _ En) as (_ & _ & C3 & _); apply C3; auto).
    destruct (C45_get_cell H m z) as [_ CG]; [rewrite ME; apply Forall_forall; intros x I; apply in_seq in I; lia|]. destruct CG as (ids & SS & II & EG & _). { apply CI. rewrite HT. unfold z, square. nia. }
    assert (EI : ids = [place M N (Hole i j)]).
    { apply sorted_eq; [eapply subseq_sorted; [exact SS|]; rewrite ME; apply seq_sorted|repeat constructor|]. intros k. rewrite II, ME, in_seq. cbn [In]. split.
      - intros (_ & x & Ek & B). destruct (CC k x Ek) as (_ & _ & C3 & C4). left. destruct B as [B|B]; [apply C3 in B; symmetry; apply B|contradiction].
      - intros [<-|[]]. split; [split; [lia|]; apply nth_error_Some; congruence|]. exists e. split; [exact En|left; exact PZ]. }
    rewrite EG, EI. assert (ZE : Z.eqb z (e_pos e) = true) by (apply Z.eqb_eq; congruence).
    destruct (labelled H z [place M N (Hole i j)] [e] (corner_label M N i j) [4]%nat [4]%nat [0]%nat [[0]]%nat (33, 33)%Z (5 / 100) (5 / 100)) as (c & Ec & Ic & Ke & Ko & Kh).
    all: try lra; try reflexivity.
    + unfold z, square. lia.
    + repeat constructor. exact En.
    + constructor; [left; congruence|constructor].
    + cbn [map]. unfold stop_pt. rewrite ZE, EE. reflexivity.
    + cbn [map]. unfold start_pt. rewrite ZE, EA. reflexivity.
    + repeat constructor; cbn; intuition discriminate.
    + repeat constructor; cbn; intuition discriminate.
    + intros a b [<-|[]] [<-|[]] _. reflexivity.
    + intros [|[|k]] a Ea; cbn in Ea; try discriminate. exists 0%nat. auto.
    + intros x Ix. exact Ix.
    + repeat constructor; cbn; intuition discriminate.
    + repeat constructor.
    + exists c. split; [exact Ec|]. split; [exact Kh|]. split; [exact Ke|]. cbn [signs map nth] in Ko. rewrite ZE in Ko. exact Ko.
Qed.
Print Assumptions C46_get_cell_partial.

(** Beyond that bound no square can be built: two corners, or a corner and the centre, are closer
    together than the tolerance. *)
Theorem C46_large_refuted M N radius holes H m i j : (1 <= M)%nat -> (1 <= N)%nat -> (holes = true <-> 0 < radius) -> (side_bound holes < Z.of_nat (Nat.max M N))%Z -> pegboard (Z.of_nat M, Z.of_nat N) radius = Ok (H, m) -> (i < M)%nat -> (j < N)%nat ->
  get_cell H m (square N i j) = Err EmbeddingError.
Proof.
  intros HM HN HO HX E Hi Hj. apply holes_eq in HO. subst holes. destruct (square_edges M N radius H m i j HM HN E Hi Hj) as (es & RF & FB & EG & ST & SO & SG). rewrite EG. apply (C36_error H _ _ es); [apply square_z|lra|lra|exact RF|]. intros [_ [MT _]]. clear EG SG FB RF.
  pose proof (spacing_pos M N HM HN) as SP. assert (SB : IZR (side_bound (holes_of radius)) * spacing M N < 1).
  { assert (L : IZR (side_bound (holes_of radius)) < INR (Nat.max M N)) by (rewrite INR_IZR_INZ; apply IZR_lt, HX). pose proof (INR_max_pos M N HM HN). unfold spacing in *. apply Rmult_lt_reg_r with (INR (Nat.max M N)); [lra|]. field_simplify; [|lra]. exact L. }
  destruct (holes_of radius); cbn [side_bound app map] in *.
  - destruct es as [|e0 [|e1 [|e2 [|e3 [|e4 es]]]]]; cbn [map] in ST; try discriminate. cbn [map] in SO. injection ST as A0 A1 A2 A3 A4 _. injection SO as B0 B1 B2 B3 B4 _.
    destruct (MT e0 (or_introl eq_refl)) as (k & _ & U).
    assert (k = 2%nat). { apply U. exists e2. split; [reflexivity|]. unfold follows. rewrite B0, A2. apply near_refl. }
    assert (k = 4%nat); [|lia]. apply U. exists e4. split; [reflexivity|]. unfold follows. rewrite A4, B0. cbn [corner_label]. unfold near, pdist, coord, grid_vert, centre. cbn [vx vy fst snd]. rewrite S_INR.
    match goal with |- sqrt ?a < _ => replace a with (spacing M N * spacing M N / 2) by field end.
    rewrite <- (sqrt_square (1 / 1000000)) by lra. apply sqrt_lt_1_alt. set (h := spacing M N) in *. assert (707107 * h <= 1 + 0). { apply Rmult_le_reg_r with (/ h); [apply Rinv_0_lt_compat, SP|]. unfold h, spacing. pose proof (INR_max_pos M N HM HN). field_simplify; [|lra|lra]. rewrite INR_IZR_INZ. apply IZR_le. lia. } nra.
  - destruct es as [|e0 [|e1 [|e2 es]]]; cbn [map] in ST; try discriminate. cbn [map] in SO. injection ST as A0 A1 A2 _. injection SO as B0 B1 B2 _.
    destruct (MT e0 (or_introl eq_refl)) as (k & _ & U).
    assert (k = 2%nat). { apply U. exists e2. split; [reflexivity|]. unfold follows. rewrite B0, A2. apply near_refl. }
    assert (k = 0%nat); [|lia]. apply U. exists e0. split; [reflexivity|]. unfold follows. rewrite A0, B0. cbn [corner_label]. unfold near, pdist, coord, grid_vert. cbn [vx vy fst snd]. rewrite S_INR.
    match goal with |- sqrt ?a < _ => replace a with (spacing M N * spacing M N) by ring end. rewrite sqrt_square by lra. lra.
Qed.
Print Assumptions C46_large_refuted.

(** The documentation says that size[0] is the number of cells in x. It is the number in y: the
    board is size[1] squares wide and size[0] squares high. *)
Theorem C46_size_refuted M N radius : (1 <= M)%nat -> (1 <= N)%nat -> exists H m, pegboard (Z.of_nat M, Z.of_nat N) radius = Ok (H, m) /\
  (forall k e v, nth_error H k = Some e -> v = e_anchor e \/ v = e_endpnt e -> 0 <= vx v <= INR N * spacing M N /\ 0 <= vy v <= INR M * spacing M N) /\
  (exists k e, nth_error H k = Some e /\ vx (e_endpnt e) = INR N * spacing M N) /\ (exists k e, nth_error H k = Some e /\ vy (e_endpnt e) = INR M * spacing M N) /\
  (forall i j, (i < M)%nat -> (j < N)%nat -> In (square N i j) (m_cells m)).
Proof.
  intros HM HN. destruct (C46_mesh M N radius (holes_of radius) HM HN (holes_of_spec radius)) as (H & m & E & ME & MD & UN & CI). exists H, m. split; [exact E|]. destruct (pegboard_ok M N radius HM HN) as (H' & m' & E' & LH & _ & ND & _). rewrite E' in E. apply Ok_inj in E. injection E as <- <-. pose proof (spacing_pos M N HM HN) as SP.
  split; [|split; [|split]].
  - intros k e v Ek V. destruct (UN k) as (s & [P <-] & _); [apply nth_error_Some; congruence|]. rewrite (ND s P) in Ek. injection Ek as <-. cbn [with_idx e_anchor e_endpnt] in V. destruct (edge_of_fields M N radius s) as (_ & _ & FA & FE & _). rewrite FA, FE in V. clear FA FE.
    assert (G : forall x n, 0 <= x <= INR n -> 0 <= spacing M N * x <= INR n * spacing M N) by (intros; nra). assert (I1 : forall i n, (i <= n)%nat -> 0 <= INR i <= INR n) by (intros a n L; split; [apply pos_INR|apply le_INR, L]). assert (I2 : forall i n, (i < n)%nat -> 0 <= INR i + 1 / 2 <= INR n) by (intros a n L; pose proof (pos_INR a); pose proof (le_INR (S a) n L) as X; rewrite S_INR in X; lra).
    destruct s as [i j|i j|i j]; cbn [present from_of to_of] in *; destruct V as [-> | ->]; cbn [grid_vert centre vx vy]; split; apply G; (apply I1 + apply I2); lia.
  - exists (place M N (Hor 0 (N - 1))). eexists. split; [apply ND; cbn; lia|]. cbn [with_idx e_endpnt]. destruct (edge_of_fields M N radius (Hor 0 (N - 1))) as (_ & _ & _ & -> & _). cbn [to_of grid_vert vx]. replace (S (N - 1)) with N by lia. ring.
  - exists (place M N (Ver (M - 1) 0)). eexists. split; [apply ND; cbn; lia|]. cbn [with_idx e_endpnt]. destruct (edge_of_fields M N radius (Ver (M - 1) 0)) as (_ & _ & _ & -> & _). cbn [to_of grid_vert vy]. replace (S (M - 1)) with M by lia. ring.
  - intros i j Hi Hj. apply CI. unfold square. destruct (holes_of radius); nia.
Qed.
Print Assumptions C46_size_refuted.
(** pegboard((2, 1)) is half as wide as high. *)
Example C46_size_example : exists H m e, pegboard (2, 1)%Z (1 / 4) = Ok (H, m) /\ nth_error H (place 2 1 (Hor 0 0)) = Some e /\ coord (e_anchor e) = (0, 0) /\ coord (e_endpnt e) = (1 / 2, 0) /\ e_pos e = 0%Z /\ e_neg e = (-1)%Z.
Proof.
  destruct (pegboard_ok 2 1 (1 / 4)) as (H & m & E & _ & _ & ND & _); [lia|lia|]. exists H, m. eexists. split; [exact E|]. split; [apply ND; cbn; lia|]. cbn [with_idx e_anchor e_endpnt e_pos e_neg]. destruct (edge_of_fields 2 1 (1 / 4) (Hor 0 0)) as (-> & -> & -> & -> & _). cbn [from_of to_of pos_of neg_of grid_vert above below]. unfold coord, grid_vert, spacing. change (Nat.max 2 1) with 2%nat. cbn [vx vy]. replace (INR 2) with 2 by (cbn; ring). change (INR 0) with 0. change (INR 1) with 1. split; [apply f_equal2; lra|]. split; [apply f_equal2; lra|]. split; reflexivity.
Qed.

(** Sizes with a zero are rejected, with three different exceptions. *)
Lemma zrange_cons z : (1 <= z)%Z -> exists l, zrange z = 0%Z :: l.
Proof. intros Hz. unfold zrange. destruct (Z.to_nat z) as [|k] eqn:K; [lia|]. cbn. eauto. Qed.
Lemma zrange_cons2 z : (2 <= z)%Z -> exists l, zrange z = 0%Z :: 1%Z :: l.
Proof. intros Hz. unfold zrange. destruct (Z.to_nat z) as [|[|k]] eqn:K; [lia|lia|]. cbn. eauto. Qed.
Theorem C46_degenerate n radius : (1 <= n)%Z -> pegboard (0, 0)%Z radius = Err ZeroDivisionError /\ pegboard (n, 0)%Z radius = Err UnboundLocalError /\ pegboard (0, n)%Z radius = Err ValueError.
Proof.
  intros Hn. split; [reflexivity|]. split.
  - unfold pegboard, peg_verts, peg_edges. cbn [fst snd]. unfold peg_h. replace (Z.max (n + 1 - 1) (0 + 1 - 1)) with n by lia. destruct (Z.eqb_spec n 0); [lia|]. cbn [bind]. change (0 + 1 - 1)%Z with 0%Z. change (0 + 1)%Z with 1%Z. change (0 <? 0)%Z with false. cbn iota.
    destruct (zrange_cons2 (n + 1)) as (l & E2); [lia|]. destruct (zrange_cons (n + 1 - 1)) as (l' & E1); [lia|]. rewrite E1, E2.
    assert (G : forall (v w : vert) vs, peg_line (number_verts (v :: w :: vs)) (0 * 1 + 1 - 1) ((0 + 1) * 1 + 1 - 1) (Err UnboundLocalError) (-1) = Err UnboundLocalError).
    { intros v w vs. unfold peg_line. change (0 * 1 + 1 - 1)%Z with (Z.of_nat 0). rewrite (pyget_nat _ 0 (Vert (vx v) (vy v) 0)) by reflexivity. cbn [bind]. change ((0 + 1) * 1 + 1 - 1)%Z with (Z.of_nat 1). rewrite (pyget_nat _ 1 (Vert (vx w) (vy w) 1)) by reflexivity. reflexivity. }
    change (zrange 1) with [0%Z]. change (zrange 0) with (@nil Z). cbn [map concat app]. destruct (Rle_dec radius 0); cbn [bind map_res]; rewrite G; reflexivity.
  - unfold pegboard, peg_verts, peg_edges. cbn [fst snd]. unfold peg_h. replace (Z.max (0 + 1 - 1) (n + 1 - 1)) with n by lia. destruct (Z.eqb_spec n 0); [lia|]. cbn [bind]. change (0 + 1 - 1)%Z with 0%Z. change (0 + 1)%Z with 1%Z.
    assert (X : forall g (rest : list vert), exists es, map_res (fun j => peg_line (number_verts (concat (map (fun i => map (fun j => g i j) (zrange (n + 1))) (zrange 1)) ++ rest)) (0 * (n + 1) + j) (0 * (n + 1) + j + 1) (Ok (-1)%Z) ((1 - 2) * (n + 1 - 1) + j)) (zrange (n + 1 - 1)) = Ok es /\ (1 <= List.length es)%nat /\ Forall (fun e => e_pos e = (-1)%Z /\ e_neg e < 0)%Z es).
    { intros g rest. change (zrange 1) with [0%Z]. cbn [map concat]. rewrite app_nil_r. set (vs := map (fun j => g 0%Z j) (zrange (n + 1)) ++ rest). assert (LV : (Z.to_nat n + 1 <= List.length vs)%nat) by (unfold vs; rewrite app_length, map_length; unfold zrange; rewrite map_length, seq_length; lia).
      assert (LZ : forall j, In j (zrange (n + 1 - 1)) -> (0 <= j < n)%Z) by (intros j I; unfold zrange in I; apply in_map_iff in I; destruct I as (k & <- & I); apply in_seq in I; lia).
      assert (F : forall j, (0 <= j < n)%Z -> exists e, peg_line (number_verts vs) (0 * (n + 1) + j) (0 * (n + 1) + j + 1) (Ok (-1)%Z) ((1 - 2) * (n + 1 - 1) + j) = Ok e /\ e_pos e = (-1)%Z /\ (e_neg e < 0)%Z).
      { intros j Hj. unfold peg_line. replace (0 * (n + 1) + j)%Z with (Z.of_nat (Z.to_nat j)) by lia. destruct (nth_error vs (Z.to_nat j)) as [v|] eqn:Ev; [|apply nth_error_None in Ev; lia]. rewrite (pyget_nat _ _ _ (number_verts_nth _ _ _ Ev)). cbn [bind]. replace (Z.of_nat (Z.to_nat j) + 1)%Z with (Z.of_nat (S (Z.to_nat j))) by lia. destruct (nth_error vs (S (Z.to_nat j))) as [w|] eqn:Ew; [|apply nth_error_None in Ew; lia]. rewrite (pyget_nat _ _ _ (number_verts_nth _ _ _ Ew)). cbn [bind].
        unfold mk_edge. cbn [check_idx bind]. unfold check_t_bounds. cbn [fst snd]. destruct (Rle_dec (2 * PI) 0) as [Q|Q]; [pose proof PI_RGT_0; lra|]. cbn [bind]. eexists. split; [reflexivity|]. cbn [set_cells set_verts e_pos e_neg]. split; [reflexivity|lia]. }
      destruct (zrange_cons (n + 1 - 1)) as (l & EL); [lia|]. assert (K : (1 <= List.length (zrange (n + 1 - 1)))%nat) by (rewrite EL; cbn; lia). revert K LZ. clear EL l. generalize (zrange (n + 1 - 1)) as l. intros l K LZ.
      assert (G : exists es, map_res (fun j => peg_line (number_verts vs) (0 * (n + 1) + j) (0 * (n + 1) + j + 1) (Ok (-1)%Z) ((1 - 2) * (n + 1 - 1) + j)) l = Ok es /\ List.length es = List.length l /\ Forall (fun e => e_pos e = (-1)%Z /\ e_neg e < 0)%Z es).
      { clear K. induction l as [|j l IH]; [exists []; cbn; auto|]. destruct IH as (es & E1 & E2 & E3); [intros; apply LZ; right; assumption|]. destruct (F j) as (e & Ee & Fe); [apply LZ; left; reflexivity|]. exists (e :: es). cbn [map_res]. rewrite Ee. cbn [bind]. rewrite E1. cbn [bind List.length]. auto. }
      destruct G as (es & E1 & E2 & E3). exists es. split; [exact E1|]. split; [lia|exact E3]. }
    assert (Y : forall es, (1 <= List.length es)%nat -> Forall (fun e => e_pos e = (-1)%Z /\ e_neg e < 0)%Z es -> mk_mesh es (seq 0 (List.length es)) = Err ValueError).
    { intros [|e es] L F; [cbn in L; lia|]. inversion F as [|? ? [F1 F2] _]; subst. destruct (C44_rejected (e :: es) (seq 0 (List.length (e :: es)))) as [_ R]. cbn [List.length seq] in *. destruct (R [] 0%nat (seq 1 (List.length es)) eq_refl (Forall_nil _)) as [_ R2]. apply (R2 e eq_refl). unfold embedded. lia. }
    destruct (Rle_dec radius 0) as [RR|RR]; cbn [bind]; change (zrange 0) with (@nil Z); cbn [map_res bind concat app].
    + change (1 - 1)%Z with 0%Z. destruct (X (fun i j => mkvert (1 / IZR n * IZR j) (1 / IZR n * IZR i)) []) as (es & E & L & F). rewrite app_nil_r in E. rewrite E. cbn [bind]. apply Y; assumption.
    + change (1 - 1)%Z with 0%Z. destruct (X (fun i j => mkvert (1 / IZR n * IZR j) (1 / IZR n * IZR i)) []) as (es & E & L & F). cbn [map concat]. rewrite E. cbn [bind]. rewrite app_nil_r. apply Y; assumption.
Qed.
Print Assumptions C46_degenerate.

(** The samples of a hole lie on the circle of the given radius about the centre of the square;
    it is inside the square exactly when the radius is less than one half. *)
Definition in_square (M N i j : nat) (p : pt) : Prop := spacing M N * INR j < fst p < spacing M N * INR (S j) /\ spacing M N * INR i < snd p < spacing M N * INR (S i).
Definition on_circle (M N i j : nat) (radius t : R) : pt := (spacing M N * (INR j + 1 / 2) + radius * spacing M N * cos t, spacing M N * (INR i + 1 / 2) + radius * spacing M N * sin t).
Theorem C46_hole M N radius i j e qd e' : made_for M N radius (Hole i j) = Ok e -> parameterize qd e = Ok e' ->
  map sx (e_smp e') = map (fun tw : R * R => on_circle M N i j radius (fst tw)) (combine (q_t (fst qd)) (q_wgt (fst qd))).
Proof.
  intros Em Ep. unfold made_for, mk_edge in Em. cbn [check_idx bind] in Em. unfold check_t_bounds in Em. cbn [fst snd] in Em. pose proof PI_RGT_0 as HP. destruct (Rle_dec (2 * PI) 0) as [Q|Q]; [lra|]. cbn [bind] in Em. apply Ok_inj in Em.
  assert (V : veqb (centre M N i j) (VVert (centre M N i j)) = true). { unfold veqb, vnorm. apply Rltb_true. cbn [centre vx vy]. rewrite !Rminus_diag_eq by reflexivity. cbn [mkvert vx vy]. replace (0 ^ 2 + 0 ^ 2) with 0 by ring. rewrite sqrt_0. lra. }
  unfold set_verts in Em. rewrite V in Em. subst e. unfold parameterize in Ep. cbn [set_cells e_qtype e_tb e_curve e_opts String.eqb Ascii.eqb Bool.eqb bind cX cDX cDDX] in Ep. apply Ok_inj in Ep. subst e'. unfold translate, on_smp, log. ecbn. rewrite !map_map. apply map_ext. intros [t w]. cbn [fst snd raw_sample sx centre vx vy]. unfold on_circle, circle_R. cbn [opt String.eqb Ascii.eqb Bool.eqb].
  replace (1 / 2 * (2 * PI - 0) / PI * t + 0) with t by (field; lra). apply f_equal2; ring.
Qed.
Print Assumptions C46_hole.
Theorem C46_hole_inside M N radius i j : (1 <= M)%nat -> (1 <= N)%nat -> 0 < radius -> ((forall t, in_square M N i j (on_circle M N i j radius t)) <-> radius < 1 / 2).
Proof.
  intros HM HN HR. pose proof (spacing_pos M N HM HN) as SP. unfold in_square, on_circle. cbn [fst snd]. rewrite !S_INR. set (h := spacing M N) in *. split.
  - intros F. destruct (F 0) as [[_ F1] _]. rewrite cos_0 in F1. nra.
  - intros L t. pose proof (COS_bound t). pose proof (SIN_bound t). assert (A : forall c, -1 <= c <= 1 -> - (h / 2) < radius * h * c < h / 2) by (intros c Hc; assert (U : 0 < radius * h < h / 2) by (split; [apply Rmult_lt_0_compat; lra|]; apply Rle_lt_trans with (h * radius); [lra|]; assert (h * radius < h * (1 / 2)) by (apply Rmult_lt_compat_l; lra); lra); set (u := radius * h) in *; split; nra). pose proof (A _ H). pose proof (A _ H0). split; split; lra.
Qed.
Print Assumptions C46_hole_inside.
(** The constructor does not look at this bound. *)
Theorem C46_radius_refuted : is_ok (pegboard (1, 1)%Z 1) = true /\ ~ in_square 1 1 0 0 (on_circle 1 1 0 0 1 0).
Proof.
  split.
  - destruct (pegboard_ok 1 1 1) as (H & m & E & _); [lia|lia|]. change (Z.of_nat 1) with 1%Z in E. rewrite E. reflexivity.
  - unfold in_square, on_circle, spacing. cbn [fst snd]. change (Nat.max 1 1) with 1%nat. change (INR 1) with 1. change (INR 0) with 0. rewrite cos_0. lra.
Qed.
Print Assumptions C46_radius_refuted.
