(** The tables of the library describe plane figures. *)
From Coq Require Import List ZArith Reals Lra Lia.
From Verif Require Import BaryModel EdgeSpec LibSpec LibProofs3.
Import List ListNotations.
Open Scope R_scope.

Lemma closes_pairs shapes l c : l <> [] -> Forall (fun ab => exists p, ring_stop shapes (fst ab) = Some p /\ ring_start shapes (snd ab) = Some p) (combine l (tl l ++ firstn 1 l)) -> closes shapes (Ring l c).
Proof.
  intros N F. split; [exact N|]. cbn [r_edges]. intros i a b Ea Eb. rewrite Forall_forall in F. apply (F (a, b)).
  assert (Li : (i < List.length l)%nat) by (apply nth_error_Some; rewrite Ea; discriminate).
  assert (Q : nth_error (tl l ++ firstn 1 l) i = Some b).
  { destruct l as [|x l]; [contradiction|]. cbn [tl firstn List.length] in *. destruct (Nat.eq_dec (S i) (S (List.length l))) as [Q|Q].
    - rewrite Q, Nat.mod_same in Eb by lia. cbn in Eb. rewrite nth_error_app2 by lia. replace (i - List.length l)%nat with 0%nat by lia. exact Eb.
    - rewrite Nat.mod_small in Eb by lia. cbn in Eb. rewrite nth_error_app1 by lia. exact Eb. }
  clear - Ea Q. revert Q. generalize (tl l ++ firstn 1 l) as l'. intros l' Q. revert l' i Ea Q. induction l as [|x l IH]; intros [|y l'] [|i] Ea Eb; cbn in *; try discriminate.
  - injection Ea as ->. injection Eb as ->. left. reflexivity.
  - right. apply (IH l' i); assumption.
Qed.

Lemma segment_turn a b c u : cross (pt_sub (point (Segment a b) u) c) (speed (Segment a b) u) = (fst a - fst c) * (snd b - snd a) - (snd a - snd c) * (fst b - fst a).
Proof. unfold cross, pt_sub. cbn [point speed fst snd]. ring. Qed.
Lemma one_trig t : cos t * cos t + sin t * sin t = 1.
Proof. pose proof (sin2_cos2 t) as T. unfold Rsqr in T. lra. Qed.
Lemma oval_turn c a b u : 0 < a -> 0 < b -> 0 < cross (pt_sub (point (Oval c a b) u) c) (speed (Oval c a b) u).
Proof.
  intros A B. unfold cross, pt_sub. cbn [point speed fst snd]. pose proof PI_RGT_0. pose proof (one_trig (2 * PI * u)) as T. set (x := cos (2 * PI * u)) in *. set (y := sin (2 * PI * u)) in *.
  match goal with |- 0 < ?g => replace g with (2 * PI * (a * b) * (x * x + y * y)) by ring end. rewrite T. assert (0 < a * b) by (apply Rmult_lt_0_compat; assumption). nra.
Qed.
Lemma arc_turn c c' r f w u : 0 < r -> 0 < w -> (fst c - fst c') * (fst c - fst c') + (snd c - snd c') * (snd c - snd c') < r * r -> 0 < cross (pt_sub (point (Arc c r f w) u) c') (speed (Arc c r f w) u).
Proof.
  intros P W D. unfold cross, pt_sub. cbn [point speed fst snd]. pose proof (one_trig (f + w * u)) as T. set (x := cos (f + w * u)) in *. set (y := sin (f + w * u)) in *. set (p := fst c - fst c') in *. set (q := snd c - snd c') in *.
  replace ((fst c + r * x - fst c') * (r * w * x) - (snd c + r * y - snd c') * - (r * w * y)) with (r * w * (p * x + q * y + r * (x * x + y * y))) by (unfold p, q; ring). rewrite T.
  apply Rmult_lt_0_compat; [apply Rmult_lt_0_compat; assumption|]. rewrite Rmult_1_r.
  assert ((p * x + q * y) * (p * x + q * y) < r * r). { pose proof (Rle_0_sqr (p * y - q * x)) as S. unfold Rsqr in S. replace ((p * x + q * y) * (p * x + q * y)) with ((p * p + q * q) * (x * x + y * y) - (p * y - q * x) * (p * y - q * x)) by ring. rewrite T. lra. }
  nra.
Qed.
Lemma oval_near c a b u : 0 < a -> 0 < b -> fst c - a <= fst (point (Oval c a b) u) <= fst c + a /\ snd c - b <= snd (point (Oval c a b) u) <= snd c + b.
Proof. intros A B. cbn [point fst snd]. pose proof (COS_bound (2 * PI * u)). pose proof (SIN_bound (2 * PI * u)). split; nra. Qed.
Lemma arc_near c r f w u : 0 < r -> fst c - r <= fst (point (Arc c r f w) u) <= fst c + r /\ snd c - r <= snd (point (Arc c r f w) u) <= snd c + r.
Proof. intros A. cbn [point fst snd]. pose proof (COS_bound (f + w * u)). pose proof (SIN_bound (f + w * u)). split; nra. Qed.
Lemma segment_near a b u : 0 <= u <= 1 -> let p := point (Segment a b) u in (fst a <= fst p <= fst b \/ fst b <= fst p <= fst a) /\ (snd a <= snd p <= snd b \/ snd b <= snd p <= snd a).
Proof. intros U. cbn [point fst snd]. split; [destruct (Rle_lt_dec (fst a) (fst b)); [left|right]|destruct (Rle_lt_dec (snd a) (snd b)); [left|right]]; split; nra. Qed.
Lemma oval_out c a b u : 0 < a -> 0 < b -> ~ oval c a b (point (Oval c a b) u).
Proof.
  intros A B Q. unfold oval in Q. cbn [point fst snd] in Q. pose proof (one_trig (2 * PI * u)). replace ((fst c + a * cos (2 * PI * u) - fst c) / a) with (cos (2 * PI * u)) in Q by (field; lra). replace ((snd c + b * sin (2 * PI * u) - snd c) / b) with (sin (2 * PI * u)) in Q by (field; lra). nra.
Qed.
Lemma arc_out c r f w u : 0 < r -> ~ oval c r r (point (Arc c r f w) u).
Proof.
  intros A Q. unfold oval in Q. cbn [point fst snd] in Q. pose proof (one_trig (f + w * u)). replace ((fst c + r * cos (f + w * u) - fst c) / r) with (cos (f + w * u)) in Q by (field; lra). replace ((snd c + r * sin (f + w * u) - snd c) / r) with (sin (f + w * u)) in Q by (field; lra). nra.
Qed.

(** Case analysis over the edges of a contour *)
Ltac tables := cbn [nth_error pacman_shapes subdiv_shapes frame_shapes figure_shapes square_shapes app] in *.
Ltac each I := cbn [In r_edges] in I; repeat (destruct I as [I|I]; [injection I as <- <-|]); [..|contradiction].
Ltac turning := let k := fresh in let o := fresh in let s := fresh "s" in let u := fresh "u" in let I := fresh in let E := fresh "E" in let U := fresh "U" in
  intros k o s u I E U; each I; tables; injection E as <-.
Ltac onring := let k := fresh in let o := fresh in let s := fresh "s" in let u := fresh "u" in let I := fresh in let E := fresh "E" in let U := fresh "U" in
  intros p (k & o & s & u & I & E & U & ->); each I; tables; injection E as <-.

Lemma wave_turn u : 0 <= u <= 1 -> 0 < cross (pt_sub (point (Wave (32 / 10, 14 / 100) (6 / 10) (6 / 100) 6) u) (7 / 2, 9 / 10)) (speed (Wave (32 / 10, 14 / 100) (6 / 10) (6 / 100) 6) u).
Proof.
  intros U. unfold cross, pt_sub. cbn [point speed fst snd]. pose proof (COS_bound (6 * PI * u)) as C. pose proof (SIN_bound (6 * PI * u)) as D. pose proof PI_4 as P4. pose proof PI_RGT_0.
  set (x := cos (6 * PI * u)) in *. set (y := sin (6 * PI * u)) in *.
  assert (PB : PI <= 35 / 10). { destruct (PI_ineq 1) as [_ B]. change (2 * 1)%nat with 2%nat in B. unfold tg_alt, PI_tg in B. cbn [sum_f_R0 INR pow Nat.mul Nat.add] in B. lra. }
  assert (Q : - (105 / 100) <= (32 / 10 + 6 / 10 * u - 7 / 2) * (PI * x) <= 105 / 100).
  { assert (-(35/10) <= PI * x <= 35/10) by nra. set (z := PI * x) in *. nra. }
  nra.
Qed.
Ltac plain := match goal with |- 0 < 1 * (1 * ?g) => replace (1 * (1 * g)) with g by ring | |- 0 < -1 * (-1 * ?g) => replace (-1 * (-1 * g)) with g by ring end.
Ltac turn1 := turning; cbn [r_about];
  first [ solve [rewrite segment_turn; cbn [fst snd]; pose proof root3; unfold lips; lra]
        | solve [plain; apply oval_turn; lra]
        | solve [plain; apply arc_turn; [lra|pose proof PI_RGT_0; lra|cbn [fst snd]; lra]]
        | solve [plain; apply wave_turn; assumption] ].
Lemma arc_ends : point (Arc (1 / 2, 1 / 2) (2 / 5) (PI / 6) (5 * PI / 3)) 0 = (lips, 7 / 10) /\ point (Arc (1 / 2, 1 / 2) (2 / 5) (PI / 6) (5 * PI / 3)) 1 = (lips, 3 / 10).
Proof.
  cbn [point fst snd]. rewrite Rmult_0_r, Rplus_0_r, Rmult_1_r. replace (PI / 6 + 5 * PI / 3) with (- (PI / 6) + 2 * INR 1 * PI) by (cbn [INR]; field). rewrite cos_period, sin_period, cos_neg, sin_neg, cos_PI6, sin_PI6. unfold lips. split; f_equal; field.
Qed.
Lemma dome_ends : point (Arc (35 / 10, 62 / 100) (3 / 10) 0 PI) 0 = (38 / 10, 62 / 100) /\ point (Arc (35 / 10, 62 / 100) (3 / 10) 0 PI) 1 = (32 / 10, 62 / 100).
Proof. cbn [point fst snd]. rewrite Rmult_0_r, Rplus_0_r, Rmult_1_r, Rplus_0_l, cos_0, sin_0, cos_PI, sin_PI. split; f_equal; field. Qed.
Lemma wave_ends : point (Wave (32 / 10, 14 / 100) (6 / 10) (6 / 100) 6) 0 = (32 / 10, 14 / 100) /\ point (Wave (32 / 10, 14 / 100) (6 / 10) (6 / 100) 6) 1 = (38 / 10, 14 / 100).
Proof.
  cbn [point fst snd]. rewrite !Rmult_0_r, !Rmult_1_r, sin_0. replace (6 * PI) with (0 + 2 * INR 3 * PI) by (cbn [INR]; ring). rewrite sin_period, sin_0. split; f_equal; field.
Qed.
Lemma oval_ends c a b : point (Oval c a b) 1 = point (Oval c a b) 0.
Proof. cbn [point]. replace (2 * PI * 1) with (2 * PI) by ring. rewrite Rmult_0_r, cos_2PI, sin_2PI, cos_0, sin_0. reflexivity. Qed.
Lemma segment_ends a b : point (Segment a b) 0 = a /\ point (Segment a b) 1 = b.
Proof. destruct a, b. cbn [point fst snd]. split; f_equal; ring. Qed.
Ltac ends := rewrite ?(proj1 arc_ends), ?(proj2 arc_ends), ?(proj1 dome_ends), ?(proj2 dome_ends), ?(proj1 wave_ends), ?(proj2 wave_ends), ?oval_ends, ?(proj1 (segment_ends _ _)), ?(proj2 (segment_ends _ _)).
Ltac closing := apply closes_pairs; [discriminate|]; cbn [combine tl firstn app]; repeat (apply Forall_cons; [unfold ring_stop, ring_start; cbn [fst snd Z.eqb Pos.eqb]; tables; cbn [option_map]; eexists; split; [reflexivity|]; ends; f_equal; try reflexivity; f_equal; lra|]); apply Forall_nil.

Ltac near := match goal with
  | U : 0 <= ?u <= 1 |- context [point (Segment ?a ?b) ?u] => pose proof (segment_near a b u U); set (p := point (Segment a b) u) in *
  | |- context [point (Oval ?c ?a ?b) ?u] => pose proof (oval_near c a b u ltac:(lra) ltac:(lra)); set (p := point (Oval c a b) u) in *
  | |- context [point (Arc ?c ?r ?f ?w) ?u] => pose proof (arc_near c r f w u ltac:(lra)); set (p := point (Arc c r f w) u) in *
  end; cbn [fst snd] in *.
Ltac in_box := onring; unfold box; pose proof root3; unfold lips in *; near; lra.
Ltac out_box := onring; unfold box; pose proof root3; unfold lips in *; near; intros Q; lra.
Ltac out_oval := onring; apply oval_out; lra.
Ltac oval_in := unfold oval; cbn [r_about fst snd]; lra.
Ltac disc := unfold well_laid; split; [oval_in|]; split; [out_oval|]; split; [turn1|]; split; [closing|]; split; apply Forall_nil || apply FOP_nil.

Lemma square_laid i rs region : nth_error square_cells i = Some rs -> nth_error square_regions i = Some region -> well_laid square_shapes region rs.
Proof.
  intros E F. destruct i as [|[|[|i]]]; cbn [nth_error square_cells square_regions fore back map] in E, F; try discriminate; injection E as <-; injection F as <-.
  - unfold well_laid. split; [unfold box; cbn [r_about fst snd]; lra|]. split; [out_box|]. split; [turn1|]. split; [closing|]. split; [|repeat constructor].
    apply Forall_cons; [|apply Forall_nil]. split; [in_box|]. split; [turn1|closing].
  - disc.
Qed.

Lemma lip_out u : 0 <= u <= 1 -> ~ pac_region (point (Segment (1 / 2, 1 / 2) (lips, 7 / 10)) u) /\ ~ pac_region (point (Segment (lips, 3 / 10) (1 / 2, 1 / 2)) u).
Proof.
  intros U. pose proof root3. pose proof (sqrt_sqrt 3 ltac:(lra)). unfold pac_region, lips. cbn [point fst snd]. split; intros [_ Q].
  - rewrite Rabs_right in Q by nra. nra.
  - rewrite Rabs_left1 in Q by nra. nra.
Qed.
Lemma eye_in u : pac_region (point (Oval (46 / 100, 7 / 10) (1 / 10) (1 / 10)) u).
Proof.
  pose proof root3. unfold pac_region, oval. cbn [point fst snd]. pose proof (one_trig (2 * PI * u)) as T. pose proof (COS_bound (2 * PI * u)). pose proof (SIN_bound (2 * PI * u)). set (x := cos (2 * PI * u)) in *. set (y := sin (2 * PI * u)) in *. split.
  - replace (((46 / 100 + 1 / 10 * x - 1 / 2) / (2 / 5)) ^ 2 + ((7 / 10 + 1 / 10 * y - 1 / 2) / (2 / 5)) ^ 2) with (25 / 4 * (1 / 100 * (x * x + y * y) + 416 / 10000 + - (8 / 1000) * x + 4 / 100 * y)) by field. rewrite T. nra.
  - rewrite Rabs_right by nra. nra.
Qed.
Lemma wave_out u : 0 <= u <= 1 -> ~ ghost_region (point (Wave (32 / 10, 14 / 100) (6 / 10) (6 / 100) 6) u).
Proof. intros U (_ & Q & _). cbn [point fst snd] in Q. replace (10 * PI * (32 / 10 + 6 / 10 * u - 32 / 10)) with (6 * PI * u) in Q by field. lra. Qed.
Lemma wall_out y y' u : ~ ghost_region (point (Segment (38 / 10, y) (38 / 10, y')) u) /\ ~ ghost_region (point (Segment (32 / 10, y) (32 / 10, y')) u).
Proof. split; intros (Q & _); cbn [point fst snd] in Q; lra. Qed.
Lemma dome_out u : 0 <= u <= 1 -> ~ ghost_region (point (Arc (35 / 10, 62 / 100) (3 / 10) 0 PI) u).
Proof.
  intros U (Q & _ & [D|D]); [|revert D; apply arc_out; lra]. cbn [point fst snd] in Q, D. pose proof PI_RGT_0. rewrite Rplus_0_l in Q, D. assert (S : sin (PI * u) <= 0) by lra. pose proof (one_trig (PI * u)) as T. pose proof (sin_ge_0 (PI * u) ltac:(nra) ltac:(nra)). assert (Z : sin (PI * u) = 0) by lra. rewrite Z in T. nra.
Qed.
Lemma eyes_in c u : c = 335 / 100 \/ c = 365 / 100 -> ghost_region (point (Oval (c, 56 / 100) (9 / 100) (12 / 100)) u).
Proof.
  intros C. pose proof (oval_near (c, 56 / 100) (9 / 100) (12 / 100) u ltac:(lra) ltac:(lra)) as [X Y]. set (p := point _ _) in *. cbn [fst snd] in X, Y. unfold ghost_region. split; [lra|]. pose proof (SIN_bound (10 * PI * (fst p - 32 / 10))). split; [lra|].
  destruct (Rle_lt_dec (snd p) (62 / 100)) as [D|D]; [left; exact D|right]. unfold oval. cbn [fst snd].
  replace (((fst p - 35 / 10) / (3 / 10)) ^ 2 + ((snd p - 62 / 100) / (3 / 10)) ^ 2) with (100 / 9 * ((fst p - 35 / 10) * (fst p - 35 / 10) + (snd p - 62 / 100) * (snd p - 62 / 100))) by field.
  assert (- (24 / 100) <= fst p - 35 / 10 <= 24 / 100) by lra. assert (0 < snd p - 62 / 100 <= 6 / 100) by lra. nra.
Qed.
Lemma wave_box u : 0 <= u <= 1 -> box 3 4 0 1 (point (Wave (32 / 10, 14 / 100) (6 / 10) (6 / 100) 6) u).
Proof. intros U. unfold box. cbn [point fst snd]. pose proof (SIN_bound (6 * PI * u)). lra. Qed.
Lemma oval_gap c a b c' a' b' u u' : 0 < a -> 0 < b -> 0 < a' -> 0 < b' -> fst c + a + 1 / 10 <= fst c' - a' -> 1 / 10 <= pdist (point (Oval c a b) u) (point (Oval c' a' b') u').
Proof. intros A B A' B' G. apply pdist_x. pose proof (oval_near c a b u A B). pose proof (oval_near c' a' b' u' A' B'). lra. Qed.
Ltac gap := let p := fresh in let q := fresh in let k := fresh in let o := fresh in let s := fresh in let u := fresh in let I := fresh in let E := fresh in let U := fresh in
  let k' := fresh in let o' := fresh in let s' := fresh in let u' := fresh in let I' := fresh in let E' := fresh in let U' := fresh in
  intros p q (k & o & s & u & I & E & U & ->) (k' & o' & s' & u' & I' & E' & U' & ->); each I; each I'; tables; injection E as <-; injection E' as <-; apply oval_gap; cbn [fst snd]; lra.
Ltac gaps := repeat first [apply FOP_nil | apply FOP_cons; [repeat first [apply Forall_nil | apply Forall_cons; [gap|]]|]].
Ltac in_tac := onring; first [solve [unfold box; pose proof root3; unfold lips in *; near; lra] | solve [apply eye_in] | solve [apply wave_box; assumption] | solve [apply eyes_in; first [left; reflexivity | right; reflexivity]]].
Ltac out_tac := onring; first [solve [apply lip_out; assumption] | solve [intros [Q _]; revert Q; apply arc_out; lra] | solve [apply wave_out; assumption] | solve [apply wall_out] | solve [apply dome_out; assumption] | solve [apply oval_out; lra] | solve [unfold box; near; intros Q; lra]].
Ltac laid_tac := unfold well_laid; split; [|split; [out_tac|]; split; [turn1|]; split; [closing|]; split; [repeat first [apply Forall_nil | apply Forall_cons; [split; [in_tac|split; [turn1|closing]]|]]|gaps]].
Lemma about_pac : pac_region (45 / 100, 1 / 2).
Proof. pose proof root3. unfold pac_region, oval. cbn [fst snd]. rewrite Rminus_eq_0, Rabs_R0. lra. Qed.
Lemma about_ghost : ghost_region (7 / 2, 9 / 10).
Proof. unfold ghost_region, oval. cbn [fst snd]. split; [lra|]. pose proof (SIN_bound (10 * PI * (7 / 2 - 32 / 10))). split; [lra|right; lra]. Qed.
Ltac about_tac := cbn [r_about]; first [exact about_pac | exact about_ghost | unfold box, oval; cbn [fst snd]; lra].
Lemma pacman_laid i rs region : nth_error pacman_cells i = Some rs -> nth_error game_regions i = Some region -> well_laid pacman_shapes region rs.
Proof.
  intros E F. do 11 (destruct i as [|i]; [cbn [nth_error pacman_cells game_cells game_regions fore back map app rev Nat.add] in E, F; injection E as <-; injection F as <-; laid_tac; about_tac|]).
  cbn in E. destruct i; discriminate.
Qed.
Lemma subdiv_laid i rs region : nth_error subdiv_cells i = Some rs -> nth_error game_regions i = Some region -> well_laid subdiv_shapes region rs.
Proof.
  intros E F. do 11 (destruct i as [|i]; [cbn [nth_error subdiv_cells game_cells game_regions fore back map app rev Nat.add] in E, F; injection E as <-; injection F as <-; laid_tac; about_tac|]).
  cbn in E. destruct i; discriminate.
Qed.
