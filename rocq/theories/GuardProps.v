(** Construction of contours (C37), the boundary mark of keys (C47), functions of traces set on one edge (C51),
    differences of the parts of local functions (C53), the strategies of the boundary solver (C58), and unsampled edges in plots
    of traces (C67). *)
From Coq Require Import List ZArith Reals Lia Lra Bool String.
From Verif Require Import PyBase PolyModel BaryModel QuadModel VertModel CurveModel EdgeModel ContourModel CellModel CellSpec CellProofs ContourProofs ContourProps CellProps CellProps3 TraceModel TraceSpec TraceProofs LocalModel LocalSpec LocalProofs LocalProofs2 LocalProofs3 Annulus DiscCell LocalProps AntilapModel MeshModel LocSpaceModel GlobModel TracePlotModel EdgeProps NystromModel.
Import List ListNotations.
Open Scope R_scope.

(** ** Contours *)
(** The pairs whose edge does not come earlier in the list *)
Definition is_first (l : list (nat * Z)) (p : nat * Z) : Prop := exists l1 l2, l = l1 ++ p :: l2 /\ ~ In (fst p) (map fst l1).
(** [m] keeps the order of [l]. *)
Fixpoint sublist {A} (m l : list A) : Prop := match l with [] => m = [] | x :: l => sublist m l \/ exists m', m = x :: m' /\ sublist m' l end.
Lemma sublist_nil {A} (l : list A) : sublist [] l.
Proof. induction l; cbn; auto. Qed.
Definition unused (seen : list nat) (l : list (nat * Z)) (p : nat * Z) : Prop := is_first l p /\ ~ In (fst p) seen.
Lemma first_cons a l p : is_first (a :: l) p <-> p = a \/ (fst p <> fst a /\ is_first l p).
Proof.
  split.
  - intros ([|b l1] & l2 & E & N); cbn [app] in E; injection E as -> E; [left; reflexivity|]. right. cbn [map In] in N. split; [intros X; apply N; left; congruence|]. exists l1, l2. split; [exact E|tauto].
  - intros [->|(D & l1 & l2 & -> & N)]; [exists [], l; split; [reflexivity|intros []]|]. exists (a :: l1), l2. split; [reflexivity|]. cbn [map In]. intros [X|X]; [congruence|contradiction].
Qed.
Definition signs (os : list Z) : Prop := Forall (fun o => o = 1 \/ o = -1)%Z os.
Lemma sign_dec o : (Z.eqb o 1 || Z.eqb o (-1))%bool = true <-> (o = 1 \/ o = -1)%Z.
Proof. rewrite orb_true_iff, !Z.eqb_eq. reflexivity. Qed.
Lemma add_all l : forall c, NoDup (k_edges c) -> List.length (k_edges c) = List.length (k_orients c) ->
  (signs (map snd l) -> exists m, fold_res (fun c io => add_edge c (fst io) (snd io)) l c = Ok (Contour (k_cell c) (k_edges c ++ map fst m) (k_orients c ++ map snd m) (k_npts c) (k_vidx c) (k_closest c) (k_int c)) /\ NoDup (k_edges c ++ map fst m) /\ sublist m l /\ forall p, In p m <-> unused (k_edges c) l p) /\
  (~ signs (map snd l) -> fold_res (fun c io => add_edge c (fst io) (snd io)) l c = Err ValueError).
Proof.
  induction l as [|[i o] l IH]; intros c ND L; cbn [fold_res map fst snd].
  - split; [|intros N; exfalso; apply N; constructor]. intros _. exists []. cbn [map]. rewrite !app_nil_r. split; [destruct c; reflexivity|]. split; [exact ND|]. split; [reflexivity|]. intros p. split; [intros []|]. intros ((l1 & l2 & E & _) & _). destruct l1; discriminate.
  - unfold add_edge at 1 3. destruct (Z.eqb o 1 || Z.eqb o (-1))%bool eqn:So.
    + assert (Ho : (o = 1 \/ o = -1)%Z) by (apply sign_dec; exact So). assert (SS : signs (o :: map snd l) <-> signs (map snd l)) by (split; [intros X; inversion X; assumption|intros X; constructor; assumption]). destruct (existsb (Nat.eqb i) (k_edges c)) eqn:Sn.
      * assert (Ii : In i (k_edges c)) by (apply existsb_exists in Sn; destruct Sn as (j & J & E); apply Nat.eqb_eq in E; subst; exact J). cbn [bind]. destruct (IH c ND L) as [G B]. split; [|intros N; apply B; tauto]. intros S. destruct (G (proj1 SS S)) as (m & E & ND' & SL & M). exists m. split; [exact E|]. split; [exact ND'|]. split; [left; exact SL|]. intros p. rewrite M. unfold unused. rewrite first_cons. split; [intros (X & Y); split; [right; split; [intros Z; cbn in Z; rewrite Z in Y; contradiction|exact X]|exact Y]|]. intros ([->|(_ & X)] & Y); [cbn in Y; contradiction|auto].
      * assert (Ni : ~ In i (k_edges c)) by (intros J; assert (existsb (Nat.eqb i) (k_edges c) = true) by (apply existsb_exists; exists i; split; [exact J|apply Nat.eqb_refl]); congruence). cbn [bind].
        set (c' := Contour (k_cell c) (k_edges c ++ [i]) (k_orients c ++ [o]) (k_npts c) (k_vidx c) (k_closest c) (k_int c)). assert (ND2 : NoDup (k_edges c')) by (cbn; apply (NoDup_Add (a := i) (l := k_edges c)); [rewrite <- (app_nil_r (k_edges c)) at 1; apply Add_app|split; assumption]).
        destruct (IH c' ND2 ltac:(cbn; rewrite !app_length; cbn; lia)) as [G B]. split; [|intros N; apply B; tauto]. intros S. destruct (G (proj1 SS S)) as (m & E & ND' & SL & M). exists ((i, o) :: m). cbn [k_cell k_edges k_orients k_npts k_vidx k_closest k_int c'] in *. rewrite <- !app_assoc in E. rewrite <- app_assoc in ND'. split; [exact E|]. split; [exact ND'|]. split; [right; exists m; auto|].
        intros p. cbn [In]. rewrite M. unfold unused. rewrite first_cons, in_app_iff. cbn [In fst]. split.
        -- intros [<-|(X & Y)]; [cbn [fst]; tauto|]. split; [|tauto]. right. split; [intros Z; apply Y; right; left; congruence|exact X].
        -- intros ([->|(X & Y)] & Z); [left; reflexivity|]. right. split; [exact Y|]. intros [W|[W|[]]]; [contradiction|congruence].
    + assert (Ho : ~ (o = 1 \/ o = -1)%Z) by (intros X; apply sign_dec in X; congruence). split; [intros S; inversion S; contradiction|]. intros _. reflexivity.
Qed.
(** A contour is made exactly when the number of the cell is not negative, every edge has an orientation and all of them are 1 or
    -1; otherwise a ValueError is raised. It has every edge once, where it comes first and with the orientation it has there. *)
Theorem C37_construct z is os : let good := (0 <= z)%Z /\ List.length is = List.length os /\ signs os in
  (good -> exists k m, mk_contour z is os = Ok k /\ k_cell k = z /\ k_edges k = map fst m /\ k_orients k = map snd m /\ NoDup (k_edges k) /\ sublist m (combine is os) /\ (forall p, In p m <-> is_first (combine is os) p) /\ k_npts k = None /\ k_vidx k = [] /\ k_int k = None) /\
  (~ good -> mk_contour z is os = Err ValueError).
Proof.
  cbv zeta. unfold mk_contour, set_mesh_id, add_edges.
  destruct (Z.ltb_spec z 0) as [Hz|Hz]; [split; [intros (X & _); lia|intros _; reflexivity]|]. cbn [bind]. destruct (Nat.eqb_spec (List.length is) (List.length os)) as [L|L]; [|split; [intros (_ & X & _); contradiction|intros _; reflexivity]].
  assert (Es : map snd (combine is os) = os) by (revert os L; clear; induction is as [|i is IH]; intros [|o os] L; try discriminate; [reflexivity|]; cbn in *; rewrite IH by lia; reflexivity).
  destruct (add_all (combine is os) (Contour z [] [] None [] None None) ltac:(constructor) eq_refl) as [G B]. rewrite Es in G, B. split.
  - intros (_ & _ & S). destruct (G S) as (m & E & ND & SL & M). rewrite E. cbn [k_cell k_edges k_orients k_npts k_vidx k_closest k_int app] in *. eexists _, m. split; [reflexivity|]. cbn. split; [reflexivity|]. split; [reflexivity|]. split; [reflexivity|]. split; [exact ND|]. split; [exact SL|]. split; [|auto]. intros p. rewrite M. unfold unused. cbn [In]. tauto.
  - intros N. apply B. intros S. apply N. auto.
Qed.
Print Assumptions C37_construct.
Example C37_construct_example : mk_contour 0 [3; 5; 3]%nat [1; -1; -1]%Z = Ok (Contour 0 [3; 5]%nat [1; -1]%Z None [] None None) /\ mk_contour 0 [3]%nat [2]%Z = Err ValueError /\ mk_contour 0 [3; 4]%nat [1]%Z = Err ValueError /\ mk_contour (-1) [] [] = Err ValueError.
Proof. repeat split; reflexivity. Qed.

(** ** Keys *)
(** A function of a cell is not on the boundary; a kind that does not exist is refused. *)
Theorem C47_boundary_kinds H p k : (g_type k = "bubb"%string -> fun_is_on_boundary H p k = Ok false) /\ (~ In (g_type k) ["vert"; "edge"; "bubb"]%string -> fun_is_on_boundary H p k = Err ValueError).
Proof.
  unfold fun_is_on_boundary. split; [intros ->; reflexivity|]. intros N. rewrite !(proj2 (String.eqb_neq _ _)) by (intros X; apply N; rewrite X; cbn; auto). reflexivity.
Qed.
Print Assumptions C47_boundary_kinds.
Example C47_boundary_example H p : fun_is_on_boundary H p (Key "cell" 0 0 0 0 None None) = Err ValueError.
Proof. apply C47_boundary_kinds. cbn. intuition discriminate. Qed.

(** ** Functions on one edge *)
(** The function of the k-th edge is replaced, the others stay; the values stay as well unless they
    are computed again. *)
Theorem C51_func_on_edge t fs k f poly compute : tr_funcs t = Some fs -> List.length fs = List.length (tr_edges t) -> (k < List.length fs)%nat -> andb poly (andb compute (edges_param (tr_edges t))) = false ->
  exists t', set_func_on_edge t (PInt (Z.of_nat k)) f poly compute = Ok t' /\ tr_edges t' = tr_edges t /\ tr_vals t' = tr_vals t /\ tr_wnd t' = tr_wnd t /\ tr_wtd t' = tr_wtd t /\
  exists fs', tr_funcs t' = Some fs' /\ List.length fs' = List.length fs /\ nth_error fs' k = Some f /\ forall j, j <> k -> nth_error fs' j = nth_error fs j.
Proof.
  intros E L K B. unfold set_func_on_edge. rewrite (proj2 (Z.ltb_ge _ _)) by lia. rewrite (proj2 (Z.leb_gt _ _)) by lia. cbn [orb]. rewrite E. cbn [attr bind]. rewrite Nat2Z.id. rewrite (proj2 (Nat.ltb_lt _ _) K). cbn [tr_edges with_funcs]. rewrite B. eexists. split; [reflexivity|]. cbn [with_funcs tr_edges tr_vals tr_wnd tr_wtd tr_funcs]. split; [reflexivity|]. split; [reflexivity|]. split; [reflexivity|]. split; [reflexivity|]. eexists. split; [reflexivity|].
  assert (Lf : List.length (firstn k fs) = k) by (rewrite firstn_length; lia). split; [rewrite app_length, Lf; cbn [List.length]; rewrite skipn_length; lia|]. split; [rewrite nth_error_app2, Lf, Nat.sub_diag by lia; reflexivity|].
  intros j D. destruct (Nat.lt_ge_cases j k) as [J|J].
  - rewrite nth_error_app1 by lia. rewrite <- (firstn_skipn k fs) at 2. rewrite nth_error_app1 by lia. reflexivity.
  - rewrite nth_error_app2, Lf by lia. destruct (j - k)%nat as [|d] eqn:X; [lia|]. cbn [nth_error]. rewrite <- (firstn_skipn (S k) fs) at 2. rewrite nth_error_app2 by (rewrite firstn_length; lia). rewrite firstn_length. f_equal. lia.
Qed.
Print Assumptions C51_func_on_edge.
(** What is no index of an edge is a ValueError; a trace without functions has no attribute funcs; a list of functions that is too short
    gives an IndexError. *)
Theorem C51_func_refused t k f poly compute : set_func_on_edge t PNotInt f poly compute = Err ValueError /\
  ((k < 0 \/ Z.of_nat (List.length (tr_edges t)) <= k)%Z -> set_func_on_edge t (PInt k) f poly compute = Err ValueError) /\
  ((0 <= k < Z.of_nat (List.length (tr_edges t)))%Z -> (tr_funcs t = None -> set_func_on_edge t (PInt k) f poly compute = Err AttributeError) /\ forall fs, tr_funcs t = Some fs -> (Z.of_nat (List.length fs) <= k)%Z -> set_func_on_edge t (PInt k) f poly compute = Err IndexError).
Proof.
  unfold set_func_on_edge. split; [reflexivity|]. split; [intros B; replace (Z.ltb k 0 || Z.leb (Z.of_nat (List.length (tr_edges t))) k)%bool with true; [reflexivity|]; symmetry; apply orb_true_iff; rewrite Z.ltb_lt, Z.leb_le; exact B|].
  intros B. rewrite (proj2 (Z.ltb_ge _ _)) by lia. rewrite (proj2 (Z.leb_gt _ _)) by lia. cbn [orb]. split; [intros ->; reflexivity|]. intros fs -> L. cbn [attr bind]. rewrite (proj2 (Nat.ltb_ge _ _)) by lia. reflexivity.
Qed.
Print Assumptions C51_func_refused.
(** Positions along the boundary need sampled edges. *)
Theorem C51_unsampled_refused t : edges_param (tr_edges t) = false -> find_edge_sampled_indices t = Err ValueError.
Proof. intros E. unfold find_edge_sampled_indices. rewrite E. reflexivity. Qed.
Print Assumptions C51_unsampled_refused.
(** Values on one edge: what is no index, an array of another size or something else is a ValueError; a trace without values has
    no attribute. *)
Theorem C51_edge_refused t k v : ((k < 0 \/ Z.of_nat (List.length (tr_edges t)) <= k)%Z -> set_trace_values_on_edge t k v = Err ValueError) /\
  (forall e, (0 <= k)%Z -> nth_error (tr_edges t) (Z.to_nat k) = Some e ->
    (match v with VScal _ => False | VArr l => Z.of_nat (List.length l) <> (e_npts e - 1)%Z | VOther => True end -> set_trace_values_on_edge t k v = Err ValueError) /\
    (match v with VScal _ => True | VArr l => Z.of_nat (List.length l) = (e_npts e - 1)%Z | VOther => False end -> tr_idx t = None \/ tr_vals t = None -> set_trace_values_on_edge t k v = Err AttributeError)).
Proof.
  unfold set_trace_values_on_edge. split; [intros B; replace (Z.ltb k 0 || Z.leb (Z.of_nat (List.length (tr_edges t))) k)%bool with true; [reflexivity|]; symmetry; apply orb_true_iff; rewrite Z.ltb_lt, Z.leb_le; exact B|].
  intros e K E. assert (Lk : (Z.to_nat k < List.length (tr_edges t))%nat) by (apply nth_error_Some; congruence). rewrite (proj2 (Z.ltb_ge _ _)) by lia. rewrite (proj2 (Z.leb_gt _ _)) by lia. cbn [orb]. unfold geti. rewrite E. cbn [bind]. split.
  - intros W. destruct v as [c|l|]; [contradiction| |reflexivity]. cbn [validate_on_edge]. rewrite (proj2 (Z.eqb_neq _ _) W). reflexivity.
  - intros W A. destruct v as [c|l|]; [| |contradiction]; cbn [validate_on_edge]; [|rewrite (proj2 (Z.eqb_eq _ _) W)]; cbn [bind]; (destruct (tr_idx t) as [i|]; [|reflexivity]); cbn [attr bind]; (destruct A as [A|A]; [discriminate|]); rewrite A; reflexivity.
Qed.
Print Assumptions C51_edge_refused.
Example C51_edge_refused_example e : set_trace_values_on_edge (Trace [e] None None None None None None) 1 (VScal 1) = Err ValueError /\ set_trace_values_on_edge (Trace [e] None None None None None None) 0 (VScal 1) = Err AttributeError.
Proof. split; reflexivity. Qed.
Example C51_func_example e f g : let t := Trace [e; e] None None None None None (Some [f; f]) in (exists t' fs, set_func_on_edge t (PInt 1) g false true = Ok t' /\ tr_funcs t' = Some fs /\ nth_error fs 0 = Some f /\ nth_error fs 1 = Some g) /\
  set_func_on_edge t (PInt 2) g false true = Err ValueError /\ set_func_on_edge (Trace [e; e] None None None None None (Some [f])) (PInt 1) g false true = Err IndexError.
Proof.
  cbv zeta. split; [|split; reflexivity]. destruct (C51_func_on_edge (Trace [e; e] None None None None None (Some [f; f])) [f; f] 1 g false true eq_refl eq_refl ltac:(cbn; lia) eq_refl) as (t' & E & _ & _ & _ & _ & fs & F1 & _ & F3 & F4). exists t', fs. split; [exact E|]. split; [exact F1|]. split; [rewrite F4 by lia; reflexivity|exact F3].
Qed.

(** ** Differences of parts *)
Theorem C53_parts_differ contains S H c ess u v : ready contains H c -> boundary_edges H c ess -> locfun S H c u -> locfun S H c v ->
  exists p h, lp_sub (u_poly u) (u_poly v) = Ok p /\ poly2 Rminus (u_poly u) (u_poly v) p /\ lh_sub (u_harm u) (u_harm v) = Ok h /\ harm2 Rminus (u_harm u) (u_harm v) h.
Proof.
  intros Rd B A A'. destruct (ready_uniform _ _ _ _ Rd B) as (F & _). apply (locfun_good F) in A. apply (locfun_good F) in A'. destruct A as ((v0 & n & w & q & m & A1) & (hv & hn & hw & hp & hq & hb & hd & A2) & _). destruct A' as ((v1 & n1 & w1 & q1 & m1 & B1) & (hv1 & hn1 & hw1 & hp1 & hq1 & hb1 & hd1 & B2) & _).
  destruct (lp_sub_good F _ _ _ _ _ _ _ _ _ _ _ _ A1 B1) as (p & Ep & _ & Xp). destruct (lh_mul_good F _ (-1) _ _ _ _ _ _ _ B2) as (k & Ek & Gk & Xk). destruct (lh_add_good F _ _ _ _ _ _ _ _ _ _ _ _ _ _ _ _ A2 Gk) as (h & Eh & _ & Xh). exists p, h. split; [exact Ep|]. split; [exact Xp|]. split; [unfold lh_sub; rewrite Ek; exact Eh|].
  assert (C2 : forall a b d r, combines (fun x => x * -1) b d -> combines2 Rplus a d r -> combines2 Rminus a b r).
  { assert (EN : forall b d, entrywise (fun x => x * -1) b d -> forall a r, entrywise2 Rplus a d r -> entrywise2 Rminus a b r).
    { intros b d (L1 & P1) a r (L2 & L3 & P2). split; [congruence|]. split; [congruence|]. intros i x y Ex Ey. rewrite (P2 i x (y * -1) Ex (P1 i y Ey)). f_equal. ring. }
    intros a b d r ((b0 & d0 & E1 & E2 & N1) & K1 & K2) ((a0 & d0' & r0 & E3 & E4 & E5 & N2) & K3 & K4). rewrite E2 in E4. injection E4 as <-. split; [exists a0, b0, r0; repeat split; try assumption; apply (EN b0 d0 N1 a0 r0 N2)|].
    assert (KK : forall x y z q0, kept (fun x => x * -1) y z -> kept2 Rplus x z q0 -> kept2 Rminus x y q0).
    { intros [x|] [y|] [z|] [q0|] K K'; cbn in *; try contradiction; try exact K'; try discriminate; try exact Logic.I; try tauto. exact (EN _ _ K _ _ K'). }
    split; [exact (KK _ _ _ _ K1 K3)|exact (KK _ _ _ _ K2 K4)]. }
  destruct Xk as (K1 & K2 & K3 & K4 & K5). destruct Xh as (Y1 & Y2 & Y3 & Y4 & Y5). split; [exact (C2 _ _ _ _ K1 Y1)|]. split; [exact (C2 _ _ _ _ K2 Y2)|]. split; [exact (C2 _ _ _ _ K3 Y3)|]. split; [exact (C2 _ _ _ _ K4 Y4)|].
  intros j x. rewrite Y5. destruct K5 as (L & P). split.
  - intros (a & b & Ea & Eb & ->). destruct (nth_error (lh_log (u_harm v)) j) as [y|] eqn:Ey; [|apply nth_error_None in Ey; assert (nth_error (lh_log k) j = None) by (apply nth_error_None; lia); congruence]. rewrite (P j y Ey) in Eb. injection Eb as <-. exists a, y. repeat split; try assumption. ring.
  - intros (a & y & Ea & Ey & ->). exists a, (y * -1). split; [exact Ea|]. split; [exact (P j y Ey)|]. ring.
Qed.
Print Assumptions C53_parts_differ.
Example C53_parts_differ_example : exists H c e u h, unit_disc H c e /\ mk_lpois still H c [] (TVal (VScal 1)) false false = Ok u /\ lh_sub (u_harm u) (u_harm u) = Ok h.
Proof.
  destruct unit_disc_exists as (H & c & e & D). pose proof D as (Rd & B & _). destruct (C53_total Annulus.disc still H c [[e]] [] (TVal (VScal 1)) Rd B (disc_tame _ _ _ D) (disc_const _ _ _ 1 D)) as (u & E).
  destruct (C53_parts_differ Annulus.disc still H c [[e]] u u Rd B ltac:(eapply lf_new; exact E) ltac:(eapply lf_new; exact E)) as (p & h & _ & _ & Eh & _). exists H, c, e, u, h. auto.
Qed.

(** ** Strategies of the boundary solver *)
Theorem C58_strategies s : (s = "direct"%string -> set_strategy s = Ok Direct) /\ (s = "fft"%string -> set_strategy s = Ok ByFft) /\ (s <> "direct"%string -> s <> "fft"%string -> set_strategy s = Err ValueError).
Proof. unfold set_strategy. split; [intros ->; reflexivity|]. split; [intros ->; reflexivity|]. intros A B. apply String.eqb_neq in A, B. rewrite A, B. reflexivity. Qed.
Print Assumptions C58_strategies.
Example C58_strategies_example : set_strategy "FFT" = Err ValueError.
Proof. apply C58_strategies; discriminate. Qed.

(** The matrix of a cell with another number of points is refused. *)
Theorem C58_matrix_refused contains H c L u r M : ready contains H c -> c_npts c = Some (Z.of_nat (List.length u)) -> ly_single L = r :: M -> List.length r <> List.length u -> single_layer c L u = Err ValueError.
Proof.
  intros Rd N E D. unfold single_layer, lin_call. rewrite N. cbn [attr bind]. rewrite Z.eqb_refl, E. unfold mat_vec. cbn [map_res]. rewrite (proj2 (Nat.eqb_neq _ _) D). reflexivity.
Qed.
Print Assumptions C58_matrix_refused.
Example C58_matrix_example : exists H c e, unit_disc H c e /\ single_layer c (Layers [[1]] [] []) (repeat 0 8) = Err ValueError.
Proof.
  destruct unit_disc_exists as (H & c & e & D). pose proof D as (Rd & B & N & _). exists H, c, e. split; [exact D|]. apply (C58_matrix_refused Annulus.disc H c _ _ [1] []); [exact Rd| |reflexivity|discriminate]. destruct (ready_uniform _ _ _ _ Rd B) as (F & _). rewrite (npts_cell F). cbn [concat app]. rewrite (disc_size e N). reflexivity.
Qed.

(** ** Plots of traces *)
(** An edge whose samples have been deleted has -1 points, and the slice for it ends two places before the end of the
    array. A quadrature with one interval less fits into it: no exception is raised, and two parameters stay zero. *)
Theorem C67_deleted_refuted H c qd e q : kedges H c = Ok [e] -> e_npts e = (-1)%Z -> quad_of qd e = Ok q -> c_npts c = Some (Z.of_nat (List.length (removelast (q_t q))) + 2)%Z ->
  find_t H c qd = Ok (removelast (q_t q) ++ [0; 0]).
Proof.
  intros K Ne Q N. unfold find_t. rewrite N. cbn [attr bind]. rewrite K. cbn [bind fold_res]. rewrite Q. cbn [bind]. rewrite Ne. set (l := removelast (q_t q)). unfold put. cbv zeta. rewrite repeat_length, map_length.
  replace (Z.to_nat (Z.of_nat (List.length l) + 2)) with (List.length l + 2)%nat by lia. unfold TracePlotModel.pyidx. change (0 + -1 - 1)%Z with (-2)%Z. cbn [Z.ltb Z.compare]. rewrite Z.min_l by lia. rewrite Z.max_r by lia. rewrite (proj2 (Z.eqb_eq _ _)) by lia. cbn [bind Z.to_nat Nat.add firstn app]. f_equal. f_equal; [|].
  - rewrite <- (map_id l) at 2. apply map_ext. intros x. ring.
  - rewrite repeat_app, skipn_app, skipn_all2 by (rewrite repeat_length; lia). rewrite repeat_length, Nat.sub_diag. reflexivity.
Qed.
Print Assumptions C67_deleted_refuted.
(** With the quadrature of the samples a deleted edge is refused. *)
Theorem C67_deleted_refused H c qd e q : kedges H c = Ok [e] -> e_npts e = (-1)%Z -> quad_of qd e = Ok q -> c_npts c = Some (Z.of_nat (List.length (removelast (q_t q)))) -> removelast (q_t q) <> [] -> find_t H c qd = Err BroadcastError.
Proof.
  intros K Ne Q N D. unfold find_t. rewrite N. cbn [attr bind]. rewrite K. cbn [bind fold_res]. rewrite Q. cbn [bind]. rewrite Ne. set (l := removelast (q_t q)) in *. assert (List.length l <> 0)%nat by (destruct l; [congruence|discriminate]). unfold put. cbv zeta. rewrite repeat_length, map_length, Nat2Z.id. unfold TracePlotModel.pyidx. change (0 + -1 - 1)%Z with (-2)%Z. cbn [Z.ltb Z.compare]. rewrite Z.min_l by lia. rewrite (proj2 (Z.eqb_neq _ _)) by lia. reflexivity.
Qed.
Print Assumptions C67_deleted_refused.
(** A disc sampled on ten intervals, its edge deleted, plotted with quadratures of eight intervals *)
Example C67_deleted_example : let e := deparameterize (Annulus.ring 1 1 2 1) in let c := Cell 2 [Contour 2 [0%nat] [1%Z] (Some 10%Z) [] None None] 0 1 [1%Z] (5, 5)%Z 1 1 (Some 10%Z) (Some [0; 10]%Z) None None in
  find_t [e] c dict4 = Ok (removelast (q_t (fst dict4)) ++ [0; 0]) /\ List.length (removelast (q_t (fst dict4))) = 8%nat.
Proof. split; [|reflexivity]. apply (C67_deleted_refuted _ _ _ (deparameterize (Annulus.ring 1 1 2 1))); reflexivity. Qed.
