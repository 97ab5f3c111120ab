(** Which exception is raised when arguments are refused (C25, C33, C36, C53, C58, C66, C67), the
    attributes of a new edge (C25), and broadcasting of arrays (C33). *)
From Coq Require Import List ZArith Reals Lia Lra Bool String.
From Verif Require Import PyBase PolyModel BaryModel QuadModel VertModel CurveModel EdgeModel ContourModel CellModel CellSpec CellProofs ContourProofs ContourProps CellProps CellProps3 TraceModel TraceSpec TraceProofs LocalModel LocalSpec LocalProofs LocalProofs2 LocalProofs3 Annulus DiscCell LocalProps NystromModel NystromProofs PlotModel TracePlotModel.
Import List ListNotations.
Open Scope R_scope.

(** ** Edges *)
Definition index_ok (i : option pyint) (j : option Z) : Prop := i = None /\ j = None \/ exists z, (0 <= z)%Z /\ i = Some (PInt z) /\ j = Some z.
(** An edge can be made exactly when its number is absent or a nonnegative int and its interval is not
    empty. It then has the attributes given, no samples, is on the boundary exactly when a cell number
    is negative, is a loop exactly when its ends are equal, and has one transformation to replay. *)
Theorem C25_new_edge a b p n c q i tb o e : mk_edge a b p n c q i tb o = Ok e <->
  index_ok i (e_idx e) /\ fst tb < snd tb /\ e_anchor e = a /\ e_endpnt e = b /\ e_pos e = p /\ e_neg e = n /\ e_curve e = c /\ e_opts e = o /\ e_qtype e = q /\ e_tb e = tb /\
  e_param e = false /\ e_npts e = (-1)%Z /\ e_smp e = [] /\ (e_bdry e = true <-> (p < 0 \/ n < 0)%Z) /\ e_loop e = veqb a (VVert b) /\ e_diary e = (if veqb a (VVert b) then [STranslate a] else [SJoin a b]).
Proof.
  unfold mk_edge, check_t_bounds. split.
  - intros E. destruct (check_idx i) as [j|] eqn:Ei; [|discriminate]. cbn [bind] in E. destruct (Rle_dec (snd tb) (fst tb)) as [T|T]; [discriminate|]. cbn [bind] in E. apply Ok_inj in E. subst e. cbn [set_cells set_verts e_idx e_anchor e_endpnt e_pos e_neg e_curve e_opts e_qtype e_tb e_param e_npts e_smp e_bdry e_loop e_diary].
    split. { unfold check_idx in Ei. destruct i as [[z|]|]; try discriminate; [|apply Ok_inj in Ei; left; auto]. destruct (Z.ltb_spec z 0); [discriminate|]. apply Ok_inj in Ei. subst. right. exists z. auto. }
    split; [lra|]. repeat (split; [reflexivity|]). split; [|split; reflexivity]. rewrite orb_true_iff, !Z.ltb_lt. reflexivity.
  - intros (I & T & E1 & E2 & E3 & E4 & E5 & E6 & E7 & E8 & E9 & E10 & E11 & E12 & E13 & E14). destruct e as [a' b' p' n' c' o' q' j bd lo pa np sm tb' di]. cbn in *. subst. assert (Ei : check_idx i = Ok j) by (destruct I as [[-> ->]|(z & Hz & -> & ->)]; [reflexivity|]; cbn; destruct (Z.ltb_spec z 0); [lia|reflexivity]). rewrite Ei. cbn [bind]. destruct (Rle_dec (snd tb) (fst tb)); [lra|]. cbn [bind]. unfold set_cells, set_verts. cbn. f_equal. f_equal.
    destruct bd; destruct (Z.ltb_spec p 0), (Z.ltb_spec n 0); cbn; try reflexivity; exfalso; destruct E12 as [U V]; try (destruct (U eq_refl); lia); discriminate V; auto.
Qed.
Print Assumptions C25_new_edge.
Theorem C25_edge_refused a b p n c q i tb o : (i = Some PNotInt -> mk_edge a b p n c q i tb o = Err TypeError) /\ (forall z, (z < 0)%Z -> i = Some (PInt z) -> mk_edge a b p n c q i tb o = Err ValueError) /\
  (forall j, index_ok i j -> snd tb <= fst tb -> mk_edge a b p n c q i tb o = Err ValueError).
Proof.
  unfold mk_edge, check_t_bounds. split; [intros ->; reflexivity|]. split; [intros z Hz ->; cbn; destruct (Z.ltb_spec z 0); [reflexivity|lia]|]. intros j I T. assert (Ei : check_idx i = Ok j) by (destruct I as [[-> ->]|(z & Hz & -> & ->)]; [reflexivity|]; cbn; destruct (Z.ltb_spec z 0); [lia|reflexivity]). rewrite Ei. cbn [bind]. destruct (Rle_dec (snd tb) (fst tb)); [reflexivity|lra].
Qed.
Print Assumptions C25_edge_refused.
Example C25_new_example : exists e, mk_edge (mkvert 0 0) (mkvert 1 0) 3 (-1) Line "kress" (Some (PInt 7)) (0, 1) [] = Ok e /\ e_bdry e = true /\ e_idx e = Some 7%Z.
Proof.
  destruct (mk_edge (mkvert 0 0) (mkvert 1 0) 3 (-1) Line "kress" (Some (PInt 7)) (0, 1) []) as [e|x] eqn:E.
  - exists e. split; [reflexivity|]. apply C25_new_edge in E. destruct E as (I & _ & _ & _ & _ & _ & _ & _ & _ & _ & _ & _ & _ & Bd & _). split; [apply Bd; lia|]. destruct I as [[X _]|(z & _ & X & Y)]; [discriminate|congruence].
  - exfalso. unfold mk_edge, check_t_bounds in E. cbn [check_idx Z.ltb Z.compare bind fst snd] in E. destruct (Rle_dec 1 0); [lra|discriminate].
Qed.

(** ** Arrays *)
(** One-dimensional arrays can be combined when the lengths agree or one of them is 1; entry i then
    comes from entry i of each array, or from its only entry. *)
Definition stretched (u : list R) (i : nat) : option R := nth_error u (if Nat.eqb (List.length u) 1 then 0 else i).
Definition broadcasts (f : R -> R -> R) (u v y : list R) : Prop :=
  let m := List.length u in let n := List.length v in
  (m = n \/ m = 1%nat \/ n = 1%nat) /\ List.length y = (if Nat.eqb m 1 then n else m) /\
  forall i, (i < List.length y)%nat -> exists a b, stretched u i = Some a /\ stretched v i = Some b /\ nth_error y i = Some (f a b).
Lemma broadcasts_unique f u v y z : broadcasts f u v y -> broadcasts f u v z -> y = z.
Proof.
  intros (_ & L & F) (_ & L' & F'). apply nth_ext with 0 0; [congruence|]. intros i Hi. destruct (F i Hi) as (a & b & A & B & E). destruct (F' i ltac:(lia)) as (a' & b' & A' & B' & E'). assert (a' = a) by congruence. assert (b' = b) by congruence. subst. rewrite (nth_error_nth _ _ 0 E), (nth_error_nth _ _ 0 E'). reflexivity.
Qed.
Lemma np_broadcasts (op : list R -> list R -> res (list R)) (f : R -> R -> R) u v :
  (forall u v, op u v = if Nat.eqb (List.length u) (List.length v) then Ok (map (fun p => f (fst p) (snd p)) (combine u v)) else match u, v with [c], _ => Ok (map (fun x => f c x) v) | _, [c] => Ok (map (fun x => f x c) u) | _, _ => Err BroadcastError end) ->
  (forall y, op u v = Ok y <-> broadcasts f u v y) /\ ((forall y, ~ broadcasts f u v y) -> op u v = Err BroadcastError).
Proof.
  intros Op. assert (X : (exists y, op u v = Ok y /\ broadcasts f u v y) \/ op u v = Err BroadcastError /\ List.length u <> List.length v /\ List.length u <> 1%nat /\ List.length v <> 1%nat).
  { rewrite Op. destruct (Nat.eqb_spec (List.length u) (List.length v)) as [L|L].
    - left. eexists. split; [reflexivity|]. assert (Lc : List.length (map (fun p : R * R => f (fst p) (snd p)) (combine u v)) = List.length u) by (rewrite map_length, combine_length; lia). split; [auto|]. split; [rewrite Lc; destruct (Nat.eqb_spec (List.length u) 1); lia|]. rewrite Lc. intros i Hi. unfold stretched. rewrite <- L.
      assert (St : forall w : list R, List.length w = List.length u -> nth_error w (if Nat.eqb (List.length u) 1 then 0%nat else i) = nth_error w i) by (intros w Lw; destruct (Nat.eqb_spec (List.length u) 1) as [Q|Q]; [f_equal; lia|reflexivity]). rewrite !St by congruence.
      destruct (nth_error u i) as [a|] eqn:Ea; [|apply nth_error_None in Ea; lia]. destruct (nth_error v i) as [b|] eqn:Eb; [|apply nth_error_None in Eb; lia]. exists a, b. split; [reflexivity|]. split; [reflexivity|]. rewrite nth_error_map. rewrite nth_error_combine, Ea, Eb. reflexivity.
    - destruct u as [|c [|c' u]].
      + destruct v as [|d [|d' v]]; cbn in L; [lia| |right; cbn; split; [reflexivity|lia]]. left. exists []. split; [reflexivity|]. split; [cbn; auto|]. split; [reflexivity|]. cbn. lia.
      + left. eexists. split; [reflexivity|]. split; [cbn; auto|]. split; [cbn [List.length Nat.eqb]; apply map_length|]. rewrite map_length. intros i Hi. unfold stretched. cbn [List.length] in L |- *. cbn [Nat.eqb nth_error]. destruct (Nat.eqb_spec (List.length v) 1); [lia|]. destruct (nth_error v i) as [b|] eqn:Eb; [|apply nth_error_None in Eb; lia]. exists c, b. split; [reflexivity|]. split; [reflexivity|]. rewrite nth_error_map, Eb. reflexivity.
      + destruct v as [|d [|d' v]]; [right; cbn; split; [reflexivity|lia]| |right; cbn in *; split; [reflexivity|lia]]. left. eexists. split; [reflexivity|]. split; [cbn; auto|]. split; [apply map_length|]. rewrite map_length. intros i Hi. unfold stretched. change (Nat.eqb (List.length (c :: c' :: u)) 1) with false. change (Nat.eqb (List.length [d]) 1) with true. cbv iota. destruct (nth_error (c :: c' :: u) i) as [a|] eqn:Ea; [|apply nth_error_None in Ea; lia]. exists a, d. split; [reflexivity|]. split; [reflexivity|]. rewrite nth_error_map, Ea. reflexivity. }
  destruct X as [(y & E & B)|(E & N)]; rewrite E.
  - split; [|intros N; destruct (N y B)]. intros z. split; [intros Q; apply Ok_inj in Q; subst; exact B|intros Z; f_equal; eapply broadcasts_unique; eassumption].
  - split; [|reflexivity]. intros y. split; [discriminate|]. intros ([?|[?|?]] & _); lia.
Qed.
Theorem C33_broadcast u v : ((forall y, np_mul u v = Ok y <-> broadcasts Rmult u v y) /\ ((forall y, ~ broadcasts Rmult u v y) -> np_mul u v = Err BroadcastError)) /\
  ((forall y, np_add u v = Ok y <-> broadcasts Rplus u v y) /\ ((forall y, ~ broadcasts Rplus u v y) -> np_add u v = Err BroadcastError)).
Proof. split; apply np_broadcasts; reflexivity. Qed.
Print Assumptions C33_broadcast.
Example C33_broadcast_example : np_mul [1; 2; 3] [2] = Ok [1 * 2; 2 * 2; 3 * 2] /\ broadcasts Rmult [1; 2; 3] [2] [1 * 2; 2 * 2; 3 * 2].
Proof. split; [reflexivity|]. apply (C33_broadcast [1; 2; 3] [2]). reflexivity. Qed.

(** ** Cells *)
(** Edges that make a cell are refused with a TypeError when a tolerance is not positive. *)
Theorem C36_tolerance_refused H z ids es mesh rtol atol : (0 <= z)%Z -> refs H ids es -> Forall (belongs z) es /\ matched z es -> rtol <= 0 \/ atol <= 0 -> mk_cell H z ids mesh rtol atol = Err TypeError.
Proof.
  intros Hz R M T. destruct (C36_error H z ids es mesh 1 1 Hz ltac:(lra) ltac:(lra) R) as [G _]. destruct (G M) as (c & E). unfold mk_cell in *. destruct (cell_idx z); [|discriminate]. cbn [bind] in *. destruct (map_res _ _); [|discriminate]. cbn [bind] in *. destruct (orientations _ _); [|discriminate]. cbn [bind] in *. destruct (boundary_components _ _ _ _); [|discriminate]. cbn [bind]. destruct (Rle_dec atol 0); [reflexivity|]. destruct (Rle_dec rtol 0); [reflexivity|lra].
Qed.
Print Assumptions C36_tolerance_refused.
Example C36_tolerance_example : mk_cell triangle 0 [0; 1; 2]%nat (33, 33)%Z 0 (1 / 20) = Err TypeError.
Proof. apply (C36_tolerance_refused _ _ _ triangle); [lia|repeat constructor| |left; lra]. split; [repeat constructor; unfold belongs; cbn; tauto|exact triangle_matched]. Qed.

(** ** Parts of local functions *)
Theorem C53_parts_scale contains S H c ess u k : ready contains H c -> boundary_edges H c ess -> locfun S H c u ->
  (exists p h, lp_mul (u_poly u) (SNum k) = Ok p /\ poly1 (fun x => x * k) (u_poly u) p /\ lh_mul (u_harm u) (SNum k) = Ok h /\ harm1 (fun x => x * k) (u_harm u) h) /\
  (k <> 0 -> exists p h, lp_div (u_poly u) (SNum k) = Ok p /\ poly1 (fun x => x / k) (u_poly u) p /\ lh_div (u_harm u) (SNum k) = Ok h /\ harm1 (fun x => x / k) (u_harm u) h).
Proof.
  intros Rd B A. destruct (ready_uniform _ _ _ _ Rd B) as (F & _). apply (locfun_good F) in A. destruct A as ((v & n & w & q & m & A1) & (hv & hn & hw & hp & hq & hb & hd & A2) & _). split.
  - destruct (lp_mul_good F _ k _ _ _ _ _ A1) as (p & E & _ & X). destruct (lh_mul_good F _ k _ _ _ _ _ _ _ A2) as (h & E' & _ & X'). eauto 8.
  - intros K. destruct (lp_div_good F _ k _ _ _ _ _ K A1) as (p & E & _ & X). destruct (lh_div_good F _ k _ _ _ _ _ _ _ K A2) as (h & E' & _ & X'). eauto 8.
Qed.
Print Assumptions C53_parts_scale.
(** What is no number is refused with a TypeError, except by the product with a harmonic function,
    where the trace raises a ValueError; so does every division by zero. *)
Theorem C53_parts_refused p h : lp_mul p SBad = Err TypeError /\ lp_div p SBad = Err TypeError /\ lp_div p (SNum 0) = Err ValueError /\ lh_mul h SBad = Err ValueError /\ lh_div h SBad = Err TypeError /\ lh_div h (SNum 0) = Err ValueError.
Proof. unfold lp_div, lh_div. destruct (Req_EM_T 0 0); [|contradiction]. repeat split. Qed.
Print Assumptions C53_parts_refused.
Example C53_parts_example : exists H c e u p, unit_disc H c e /\ mk_lpois still H c [] (TVal (VScal 1)) false false = Ok u /\ lp_div (u_poly u) (SNum 2) = Ok p.
Proof.
  destruct unit_disc_exists as (H & c & e & D). pose proof D as (Rd & B & _). destruct (C53_total Annulus.disc still H c [[e]] [] (TVal (VScal 1)) Rd B (disc_tame _ _ _ D) (disc_const _ _ _ 1 D)) as (u & E).
  destruct (C53_parts_scale Annulus.disc still H c [[e]] u 2 Rd B) as (_ & X); [eapply lf_new; exact E|]. destruct (X ltac:(lra)) as (p & h & Ep & _). exists H, c, e, u, p. auto.
Qed.

(** ** Operators of the boundary solver *)
(** An array of another size than the boundary is refused with a ValueError. *)
Theorem C58_sizes_refused contains H c L u : ready contains H c -> c_npts c <> Some (Z.of_nat (List.length u)) ->
  single_layer c L u = Err ValueError /\ double_layer c L u = Err ValueError /\ neumann_op H c L u = Err ValueError.
Proof.
  intros Rd N. destruct (C37_partition _ _ _ Rd) as (n & En & _). unfold single_layer, double_layer, neumann_op, lin_call. rewrite En. unfold attr. cbn [bind]. destruct (Z.eqb_spec (Z.of_nat (List.length u)) n) as [Q|_]; [congruence|]. repeat split.
Qed.
Print Assumptions C58_sizes_refused.
Example C58_sizes_example : exists H c e L, unit_disc H c e /\ single_layer c L [1; 2; 3] = Err ValueError.
Proof.
  destruct unit_disc_exists as (H & c & e & D). pose proof D as (Rd & B & _). exists H, c, e, (Layers [] [] []). split; [exact D|]. apply (C58_sizes_refused _ H c _ _ Rd). destruct D as (_ & _ & N & _). destruct (ready_uniform _ _ _ _ Rd B) as (F & _). rewrite (npts_cell F). cbn [concat app]. rewrite (disc_size e N). discriminate.
Qed.

(** ** Plots *)
Theorem C66_kind_refused st s : s <> "values"%string -> s <> "grad_x1"%string -> s <> "grad_x2"%string -> s <> "grad_norm"%string -> color_range st s = Err ValueError.
Proof. intros A B C D. unfold color_range. apply String.eqb_neq in A, B, C, D. rewrite A, B, C, D. reflexivity. Qed.
Print Assumptions C66_kind_refused.
Example C66_kind_example st : color_range st "laplacian" = Err ValueError.
Proof. apply C66_kind_refused; discriminate. Qed.
(** A wrong number of formats or legend entries is a ValueError, anything that is no list a TypeError. *)
Theorem C67_setters_refused ts : (forall l, List.length l <> List.length ts -> set_format ts (FList l) = Err ValueError) /\ set_format ts FBad = Err TypeError /\
  (forall l, l <> [] -> List.length l <> List.length ts -> set_legend ts (LTuple l) = Err ValueError) /\ set_legend ts LBad = Err TypeError.
Proof.
  split; [intros l N; cbn [set_format]; destruct (Nat.eqb_spec (List.length l) (List.length ts)); [contradiction|reflexivity]|]. split; [reflexivity|]. split; [|reflexivity]. intros l N L. destruct l as [|x l]; [contradiction|]. cbn [set_legend]. destruct (Nat.eqb_spec (List.length (x :: l)) (List.length ts)); [contradiction|reflexivity].
Qed.
Print Assumptions C67_setters_refused.
Example C67_refused_example : set_legend [[1]; [2]] (LTuple ["a"%string]) = Err ValueError.
Proof. apply (C67_setters_refused [[1]; [2]]); discriminate. Qed.
