(** Lemmas about the pegboard. *)
From Coq Require Import List ZArith Reals Lia Lra Bool String Sorted Permutation.
From Verif Require Import PyBase PolyModel BaryModel QuadModel CurveModel VertModel EdgeModel ContourModel CellModel CellProofs MeshModel MeshSpec MeshProofs PegSpec.
Import List ListNotations.
Open Scope R_scope.

Lemma map_zrange {A} (f : Z -> A) (z : Z) n : z = Z.of_nat n -> map f (zrange z) = map (fun i => f (Z.of_nat i)) (seq 0 n).
Proof. intros ->. unfold zrange. rewrite Nat2Z.id, map_map. reflexivity. Qed.
Lemma map_res_ok {A B} (f : A -> res B) (g : A -> B) l : (forall a, In a l -> f a = Ok (g a)) -> map_res f l = Ok (map g l).
Proof. induction l as [|a l IH]; intros E; [reflexivity|]. cbn. rewrite (E a (or_introl eq_refl)). cbn. rewrite IH by (intros; apply E; right; assumption). reflexivity. Qed.
Lemma map_res_zrange {A} (f : Z -> res A) (g : nat -> A) z n : z = Z.of_nat n -> (forall i, (i < n)%nat -> f (Z.of_nat i) = Ok (g i)) -> map_res f (zrange z) = Ok (map g (seq 0 n)).
Proof.
  intros -> E. unfold zrange. rewrite Nat2Z.id. assert (G : forall l, (forall i, In i l -> (i < n)%nat) -> map_res f (map Z.of_nat l) = Ok (map g l)).
  { induction l as [|a l IH]; intros B; [reflexivity|]. cbn. rewrite E by (apply B; left; reflexivity). cbn. rewrite IH by (intros; apply B; right; assumption). reflexivity. }
  apply G. intros i I. apply in_seq in I. lia.
Qed.
Lemma nth_blocks {A} (f : nat -> list A) L m : (forall i, (i < m)%nat -> List.length (f i) = L) -> List.length (concat (map f (seq 0 m))) = (m * L)%nat /\ forall i r, (i < m)%nat -> (r < L)%nat -> nth_error (concat (map f (seq 0 m))) (i * L + r) = nth_error (f i) r.
Proof.
  intros E. induction m as [|m IH]; [split; [reflexivity|lia]|]. destruct IH as [IL IN]; [intros; apply E; lia|]. rewrite seq_S, map_app, concat_app. cbn [map concat]. rewrite app_nil_r, app_length, IL, E by lia. split; [lia|]. intros i r Hi Hr. destruct (Nat.eq_dec i m) as [->|N].
  - rewrite nth_error_app2 by lia. f_equal. lia.
  - rewrite nth_error_app1 by (rewrite IL; nia). apply IN; lia.
Qed.
Lemma nth_error_seq n k : (k < n)%nat -> nth_error (seq 0 n) k = Some k.
Proof. intros L. rewrite (nth_error_nth' _ 0%nat) by (rewrite seq_length; lia). rewrite seq_nth by lia. reflexivity. Qed.
Lemma nth_error_tab {A} (f : nat -> A) n k : (k < n)%nat -> nth_error (map f (seq 0 n)) k = Some (f k).
Proof. intros L. rewrite nth_error_map, nth_error_seq by exact L. reflexivity. Qed.

Lemma number_verts_nth l k v : nth_error l k = Some v -> nth_error (number_verts l) k = Some (Vert (vx v) (vy v) (Z.of_nat k)).
Proof.
  intros E. unfold number_verts. rewrite nth_error_map. assert (Lk : (k < List.length l)%nat) by (apply nth_error_Some; congruence). assert (G : forall (l : list vert) s k, nth_error (combine (seq s (List.length l)) l) k = match nth_error l k with Some v => Some ((s + k)%nat, v) | None => None end).
  { clear. induction l as [|x l IH]; intros s [|k]; cbn; try reflexivity; [rewrite Nat.add_0_r; reflexivity|]. rewrite IH. destruct (nth_error l k); [|reflexivity]. do 2 f_equal. lia. }
  rewrite G, E. reflexivity.
Qed.

Lemma INR_max_pos M N : (1 <= M)%nat -> (1 <= N)%nat -> 1 <= INR (Nat.max M N).
Proof. intros. change 1 with (INR 1). apply le_INR. lia. Qed.
Lemma peg_h_ok M N : (1 <= M)%nat -> (1 <= N)%nat -> peg_h (Z.of_nat M + 1) (Z.of_nat N + 1) = Ok (spacing M N).
Proof.
  intros HM HN. unfold peg_h, spacing. replace (Z.max (Z.of_nat M + 1 - 1) (Z.of_nat N + 1 - 1)) with (Z.of_nat (Nat.max M N)) by lia. destruct (Z.eqb_spec (Z.of_nat (Nat.max M N)) 0); [lia|]. rewrite INR_IZR_INZ. reflexivity.
Qed.

Definition holes_of (radius : R) : bool := if Rle_dec radius 0 then false else true.
Lemma peg_verts_ok M N radius : (1 <= M)%nat -> (1 <= N)%nat -> exists vs, peg_verts (Z.of_nat M, Z.of_nat N) radius = Ok vs /\
  (forall i j, (i <= M)%nat -> (j <= N)%nat -> nth_error (number_verts vs) (i * S N + j) = Some (grid_vert M N i j)) /\
  (holes_of radius = true -> forall i j, (i < M)%nat -> (j < N)%nat -> nth_error (number_verts vs) (S M * S N + i * N + j) = Some (centre M N i j)).
Proof.
  intros HM HN. unfold peg_verts. cbn [fst snd]. rewrite (peg_h_ok M N HM HN). cbn [bind]. set (h := spacing M N).
  rewrite (map_zrange _ (Z.of_nat M + 1) (S M)) by lia. set (g := fun i : nat => map (fun j => mkvert (h * IZR j) (h * IZR (Z.of_nat i))) (zrange (Z.of_nat N + 1))).
  assert (Gi : forall i, g i = map (fun j => mkvert (h * INR j) (h * INR i)) (seq 0 (S N))) by (intros i; unfold g; rewrite (map_zrange _ _ (S N)) by lia; apply map_ext; intros j; rewrite !INR_IZR_INZ; reflexivity).
  destruct (nth_blocks g (S N) (S M)) as [L1 N1]; [intros i _; rewrite Gi, map_length, seq_length; reflexivity|].
  assert (V1 : forall rest i j, (i <= M)%nat -> (j <= N)%nat -> nth_error (number_verts (concat (map g (seq 0 (S M))) ++ rest)) (i * S N + j) = Some (grid_vert M N i j)).
  { intros rest i j Hi Hj. erewrite number_verts_nth; [|rewrite nth_error_app1 by (rewrite L1; nia); rewrite N1 by lia; rewrite Gi, nth_error_tab by lia; reflexivity]. reflexivity. }
  unfold holes_of. destruct (Rle_dec radius 0) as [R0|R0].
  - eexists. split; [reflexivity|]. split; [|discriminate]. intros i j Hi Hj. rewrite <- (app_nil_r (concat _)). apply V1; assumption.
  - eexists. split; [reflexivity|]. split; [intros; apply V1; assumption|]. intros _ i j Hi Hj.
    rewrite (map_zrange _ (Z.of_nat M + 1 - 1) M) by lia. set (g' := fun i : nat => map (fun j => mkvert (h * (IZR j + 1 / 2)) (h * (IZR (Z.of_nat i) + 1 / 2))) (zrange (Z.of_nat N + 1 - 1))).
    assert (Gi' : forall i, g' i = map (fun j => mkvert (h * (INR j + 1 / 2)) (h * (INR i + 1 / 2))) (seq 0 N)) by (intros k; unfold g'; rewrite (map_zrange _ _ N) by lia; apply map_ext; intros l; rewrite !INR_IZR_INZ; reflexivity).
    destruct (nth_blocks g' N M) as [L2 N2]; [intros k _; rewrite Gi', map_length, seq_length; reflexivity|].
    erewrite number_verts_nth; [|rewrite nth_error_app2 by (rewrite L1; lia); rewrite L1; replace (S M * S N + i * N + j - S M * S N)%nat with (i * N + j)%nat by lia; rewrite N2 by lia; rewrite Gi', nth_error_tab by lia; reflexivity]. reflexivity.
Qed.

Definition edge_of (M N : nat) (radius : R) (s : item) : edge := match made_for M N radius s with Ok e => e | Err _ => Edge (mkvert 0 0) (mkvert 0 0) 0 0 Line [] "" None false false false 0 [] (0, 0) [] end.
Lemma made_ok M N radius s : made_for M N radius s = Ok (edge_of M N radius s).
Proof. unfold edge_of. destruct s; unfold made_for, mk_edge; cbn [check_idx bind]; unfold check_t_bounds; cbn [fst snd]; destruct (Rle_dec (2 * PI) 0) as [X|X]; try reflexivity; pose proof PI_RGT_0; lra. Qed.

Lemma pyget_nat {A} (l : list A) k a : nth_error l k = Some a -> pyget l (Z.of_nat k) = Ok a.
Proof. intros E. unfold pyget. destruct (Z.ltb_spec (Z.of_nat k) 0); [lia|]. destruct (Z.ltb_spec (Z.of_nat k) 0); [lia|]. rewrite Nat2Z.id. unfold geti. rewrite E. reflexivity. Qed.

Definition peg_list (M N : nat) (radius : R) : list edge :=
  let e := edge_of M N radius in
  concat (map (fun i => concat (map (fun j => [e (Hor i j); e (Ver i j)]) (seq 0 N)) ++ [e (Ver i N)]) (seq 0 M)) ++
  map (fun j => e (Hor M j)) (seq 0 N) ++
  (if holes_of radius then concat (map (fun i => map (fun j => e (Hole i j)) (seq 0 N)) (seq 0 M)) else []).

Lemma peg_edges_ok M N radius vs : (1 <= M)%nat -> (1 <= N)%nat ->
  (forall i j, (i <= M)%nat -> (j <= N)%nat -> nth_error vs (i * S N + j) = Some (grid_vert M N i j)) ->
  (holes_of radius = true -> forall i j, (i < M)%nat -> (j < N)%nat -> nth_error vs (S M * S N + i * N + j) = Some (centre M N i j)) ->
  peg_edges vs (Z.of_nat M, Z.of_nat N) radius = Ok (peg_list M N radius).
Proof.
  intros HM HN G C. unfold peg_edges. cbn [fst snd]. rewrite (peg_h_ok M N HM HN). cbn [bind].
  assert (GV : forall z i j, (i <= M)%nat -> (j <= N)%nat -> z = Z.of_nat (i * S N + j) -> pyget vs z = Ok (grid_vert M N i j)) by (intros z i j Hi Hj ->; apply pyget_nat, G; assumption).
  rewrite (map_res_zrange _ (fun i => concat (map (fun j => [edge_of M N radius (Hor i j); edge_of M N radius (Ver i j)]) (seq 0 N)) ++ [edge_of M N radius (Ver i N)]) _ M); [|lia|].
  - cbn [bind]. rewrite (map_res_zrange _ (fun j => edge_of M N radius (Hor M j)) _ N); [|lia|].
    + cbn [bind]. unfold peg_list, holes_of in *. destruct (Rle_dec radius 0) as [R0|R0]; [rewrite app_nil_r; reflexivity|]. specialize (C eq_refl). rewrite (map_res_zrange _ (fun i => map (fun j => edge_of M N radius (Hole i j)) (seq 0 N)) _ M); [reflexivity|lia|]. intros i Hi. apply map_res_zrange; [lia|]. intros j Hj. rewrite <- made_ok. unfold peg_circle.
      assert (CV : pyget vs ((Z.of_nat M + 1) * (Z.of_nat N + 1) + Z.of_nat i * (Z.of_nat N + 1 - 1) + Z.of_nat j) = Ok (centre M N i j)) by (replace ((Z.of_nat M + 1) * (Z.of_nat N + 1) + Z.of_nat i * (Z.of_nat N + 1 - 1) + Z.of_nat j)%Z with (Z.of_nat (S M * S N + i * N + j)) by nia; apply pyget_nat, C; assumption).
      rewrite CV. cbn [bind made_for]. unfold square. f_equal; nia.
    + intros j Hj. rewrite <- made_ok. unfold peg_line. rewrite (GV _ M j) by nia. cbn [bind]. rewrite (GV _ M (S j)) by nia. cbn [bind made_for]. unfold above, below, square. rewrite Nat.ltb_irrefl. destruct M as [|M']; [lia|]. f_equal; nia.
  - intros i Hi. rewrite (map_res_zrange _ (fun j => [edge_of M N radius (Hor i j); edge_of M N radius (Ver i j)]) _ N); [|lia|].
    + cbn [bind]. unfold peg_line. rewrite (GV _ i N) by nia. cbn [bind]. rewrite (GV _ (S i) N) by nia. cbn [bind]. destruct (Z.ltb_spec 0 (Z.of_nat N + 1 - 1)); [|lia]. cbn [bind]. pose proof (made_ok M N radius (Ver i N)) as E. cbn [made_for] in E. assert (A1 : left_of N i N = (Z.of_nat i * (Z.of_nat N + 1 - 1) + (Z.of_nat N + 1 - 2))%Z) by (unfold left_of, square; destruct N; [lia|nia]). assert (A2 : right_of N i N = (-1)%Z) by (unfold right_of; rewrite Nat.ltb_irrefl; reflexivity). rewrite A1, A2 in E. rewrite E. reflexivity.
    + intros j Hj. unfold peg_line. rewrite (GV _ i j) by nia. cbn [bind]. rewrite (GV _ i (S j)) by nia. cbn [bind]. rewrite (GV _ (S i) j) by nia. cbn [bind].
      pose proof (made_ok M N radius (Hor i j)) as E1. cbn [made_for] in E1. pose proof (made_ok M N radius (Ver i j)) as E2. cbn [made_for] in E2.
      assert (B1 : above M N i j = (Z.of_nat i * (Z.of_nat N + 1 - 1) + Z.of_nat j)%Z) by (unfold above, square; destruct (Nat.ltb_spec i M); [nia|lia]).
      assert (B2 : below N i j = (if Z.eqb (Z.of_nat i) 0 then -1 else Z.of_nat i * (Z.of_nat N + 1 - 1) + Z.of_nat j - (Z.of_nat N + 1 - 1))%Z) by (unfold below, square; destruct i; [reflexivity|]; destruct (Z.eqb_spec (Z.of_nat (S i)) 0); [lia|nia]).
      assert (B3 : left_of N i j = (if Z.eqb (Z.of_nat j) 0 then -1 else Z.of_nat i * (Z.of_nat N + 1 - 1) + Z.of_nat j - 1)%Z) by (unfold left_of, square; destruct j; [reflexivity|]; destruct (Z.eqb_spec (Z.of_nat (S j)) 0); [lia|nia]).
      assert (B4 : right_of N i j = (Z.of_nat i * (Z.of_nat N + 1 - 1) + Z.of_nat j)%Z) by (unfold right_of, square; destruct (Nat.ltb_spec j N); [nia|lia]).
      rewrite B1, B2 in E1. rewrite B3, B4 in E2. rewrite E1. cbn [bind]. rewrite E2. reflexivity.
Qed.

(** Positions *)
Lemma row_nth (f g : nat -> edge) x N : let row := concat (map (fun j => [f j; g j]) (seq 0 N)) ++ [x] in
  List.length row = S (2 * N) /\ (forall j, (j < N)%nat -> nth_error row (2 * j) = Some (f j) /\ nth_error row (2 * j + 1) = Some (g j)) /\ nth_error row (2 * N) = Some x.
Proof.
  cbv zeta. destruct (nth_blocks (fun j => [f j; g j]) 2 N (fun _ _ => eq_refl)) as [L B]. rewrite app_length, L. cbn [List.length]. split; [lia|]. split.
  - intros j Hj. rewrite !nth_error_app1 by lia. split; [replace (2 * j)%nat with (j * 2 + 0)%nat by lia|replace (2 * j + 1)%nat with (j * 2 + 1)%nat by lia]; rewrite B by lia; reflexivity.
  - rewrite nth_error_app2 by lia. rewrite L. replace (2 * N - N * 2)%nat with 0%nat by lia. reflexivity.
Qed.
Lemma peg_list_nth M N radius s : present M N (holes_of radius) s -> nth_error (peg_list M N radius) (place M N s) = Some (edge_of M N radius s).
Proof.
  intros P. unfold peg_list. set (e := edge_of M N radius). set (row := fun i : nat => concat (map (fun j => [e (Hor i j); e (Ver i j)]) (seq 0 N)) ++ [e (Ver i N)]).
  assert (RL : forall i, List.length (row i) = S (2 * N)) by (intros i; apply (row_nth (fun j => e (Hor i j)) (fun j => e (Ver i j)))). destruct (nth_blocks row (S (2 * N)) M (fun i _ => RL i)) as [L B]. cbv zeta. fold row.
  assert (LT : List.length (map (fun j => e (Hor M j)) (seq 0 N)) = N) by (rewrite map_length, seq_length; reflexivity).
  destruct s as [i j|i j|i j]; cbn [present place] in *.
  - destruct (Nat.ltb_spec i M).
    + rewrite nth_error_app1 by (rewrite L; nia). rewrite B by lia. apply (row_nth (fun j => e (Hor i j)) (fun j => e (Ver i j))). lia.
    + assert (i = M) by lia. subst i. rewrite nth_error_app2 by (rewrite L; lia). rewrite L. replace (M * S (2 * N) + j - M * S (2 * N))%nat with j by lia. rewrite nth_error_app1 by lia. apply (nth_error_tab (fun j => e (Hor M j))). lia.
  - destruct P as [P1 P2]. rewrite nth_error_app1 by (rewrite L; destruct (Nat.ltb_spec j N); nia). rewrite B by (destruct (Nat.ltb_spec j N); lia). destruct (row_nth (fun j => e (Hor i j)) (fun j => e (Ver i j)) (e (Ver i N)) N) as (_ & R1 & R2). destruct (Nat.ltb_spec j N).
    + apply R1. assumption.
    + assert (j = N) by lia. subst j. exact R2.
  - destruct P as [[P1 P2] ->]. rewrite nth_error_app2 by (rewrite L; lia). rewrite L. rewrite nth_error_app2 by lia. rewrite LT. replace (M * S (2 * N) + N + i * N + j - M * S (2 * N) - N)%nat with (i * N + j)%nat by lia.
    destruct (nth_blocks (fun i => map (fun j => e (Hole i j)) (seq 0 N)) N M) as [L2 B2]; [intros; rewrite map_length, seq_length; reflexivity|]. rewrite B2 by lia. apply (nth_error_tab (fun j => e (Hole i j))). lia.
Qed.
Lemma peg_list_length M N radius : List.length (peg_list M N radius) = (M * S (2 * N) + N + if holes_of radius then M * N else 0)%nat.
Proof.
  unfold peg_list. set (e := edge_of M N radius). set (row := fun i : nat => concat (map (fun j => [e (Hor i j); e (Ver i j)]) (seq 0 N)) ++ [e (Ver i N)]).
  assert (RL : forall i, List.length (row i) = S (2 * N)) by (intros i; apply (row_nth (fun j => e (Hor i j)) (fun j => e (Ver i j)))). destruct (nth_blocks row (S (2 * N)) M (fun i _ => RL i)) as [L B]. cbv zeta. fold row. rewrite !app_length, L, map_length, seq_length. destruct (holes_of radius); [|cbn; lia].
  destruct (nth_blocks (fun i => map (fun j => e (Hole i j)) (seq 0 N)) N M) as [L2 B2]; [intros; rewrite map_length, seq_length; reflexivity|]. rewrite L2. lia.
Qed.
Lemma place_cover M N (b : bool) k : (1 <= N)%nat -> (k < M * S (2 * N) + N + if b then M * N else 0)%nat -> exists s, present M N b s /\ place M N s = k.
Proof.
  intros HN Hk. destruct (Nat.lt_ge_cases k (M * S (2 * N))) as [A|A].
  - pose proof (Nat.div_mod k (S (2 * N)) ltac:(lia)) as D. pose proof (Nat.mod_upper_bound k (S (2 * N)) ltac:(lia)) as U. set (i := (k / S (2 * N))%nat) in *. set (r := (k mod S (2 * N))%nat) in *. assert (Hi : (i < M)%nat) by nia.
    destruct (Nat.eq_dec r (2 * N)) as [E|E].
    + exists (Ver i N). cbn [present place]. rewrite Nat.ltb_irrefl. split; [lia|lia].
    + pose proof (Nat.div_mod r 2 ltac:(lia)) as D2. pose proof (Nat.mod_upper_bound r 2 ltac:(lia)) as U2. set (j := (r / 2)%nat) in *. assert (Hj : (j < N)%nat) by lia. destruct (Nat.eq_dec (r mod 2) 0) as [Z|Z].
      * exists (Hor i j). cbn [present place]. destruct (Nat.ltb_spec i M); [|lia]. split; [lia|nia].
      * exists (Ver i j). cbn [present place]. destruct (Nat.ltb_spec j N); [|lia]. split; [lia|nia].
  - destruct (Nat.lt_ge_cases k (M * S (2 * N) + N)) as [B|B].
    + exists (Hor M (k - M * S (2 * N))). cbn [present place]. rewrite Nat.ltb_irrefl. split; lia.
    + destruct b; [|lia]. set (q := (k - (M * S (2 * N) + N))%nat). pose proof (Nat.div_mod q N ltac:(lia)) as D. pose proof (Nat.mod_upper_bound q N ltac:(lia)) as U. exists (Hole (q / N) (q mod N)). cbn [present place]. assert (q < M * N)%nat by (unfold q; lia). split; [split; [split; [nia|lia]|reflexivity]|]. unfold q in *. nia.
Qed.
Lemma place_inj M N b s t : (1 <= N)%nat -> present M N b s -> present M N b t -> place M N s = place M N t -> s = t.
Proof.
  intros HN P Q E. assert (DM : forall a b c d n, (b < n)%nat -> (d < n)%nat -> (a * n + b = c * n + d)%nat -> a = c /\ b = d) by (intros a x c d n H1 H2 H3; assert (a = c) by nia; subst; lia).
  destruct s as [i j|i j|i j], t as [i' j'|i' j'|i' j']; cbn [present place] in *;
    repeat match goal with |- _ => match goal with H : context [Nat.ltb ?a ?b] |- _ => destruct (Nat.ltb_spec a b) end end; try (exfalso; nia);
    try (apply DM in E; [destruct E; f_equal; lia|lia|lia]); try (f_equal; lia).
  all: try (destruct P as [[P1 P2] P3]; destruct Q as [[Q1 Q2] Q3]; destruct (DM i j i' j' N); [lia|lia|lia|subst; reflexivity]).
  all: try (exfalso; apply DM in E; lia).
Qed.
Lemma place_bound M N (b : bool) s : (1 <= N)%nat -> present M N b s -> (place M N s < M * S (2 * N) + N + if b then M * N else 0)%nat.
Proof.
  intros HN P. destruct s as [i j|i j|i j]; cbn [present place] in *.
  - destruct (Nat.ltb_spec i M); nia.
  - destruct (Nat.ltb_spec j N); nia.
  - destruct P as [[P1 P2] ->]. nia.
Qed.
