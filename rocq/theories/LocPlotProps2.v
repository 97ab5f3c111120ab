(** C68: where plots of local functions go wrong. *)
From Coq Require Import List ZArith Reals Lia Lra Bool String QArith Qreals Permutation.
From Verif Require Import PyBase PolyModel PolySpec PolyProofs PolyProofs2 PolyProofs3 PolyProofs4 PolyTransfer PolyProps BaryModel VertModel EdgeModel EdgeSpec EdgeProps EdgeProps2 EdgeProps4 ContourModel CellModel CellSpec CellProofs CellProps CellProps2 ContourProofs ContourProofs2 ContourProofs3 ContourProofs4 ContourProps CellProps3 TraceModel TraceSpec TraceProofs IntPolyModel LocalModel LocalSpec LocalProofs LocalProofs2 LocalProofs3 LocalProofs4 LocalProofs5 LocalProps LocalProps3 Annulus DiscCell PlotModel PlotSpec PlotProps LocPlotModel LocPlotSpec LocPlotProofs LocPlotProps.
Import List ListNotations.
Open Scope R_scope.
Local Open Scope string_scope.

(** ** Without boundary values *)
(** The triangulation of a cell has the boundary points as corners, and without use_interp there are
    no values for them: every plot raises an IndexError. *)
Lemma masks_short vals T : (exists t i, In t (tg_tris T) /\ corner_of t i /\ (List.length vals <= i)%nat) -> apply_masks false vals T = Err IndexError.
Proof.
  intros (t & i & It & Ci & Li). unfold apply_masks. assert (X : map_res (bad_tri vals) (tg_tris T) = Err IndexError); [|rewrite X; reflexivity].
  assert (Y : forall t, bad_tri vals t = Err IndexError \/ exists b, bad_tri vals t = Ok b).
  { intros [[a b] d]. unfold bad_tri, bad_at, geti. destruct (nth_error vals a); cbn [bind]; [|auto]. destruct (nth_error vals b); cbn [bind]; [|auto]. destruct (nth_error vals d); cbn [bind]; eauto. }
  assert (Z : bad_tri vals t = Err IndexError).
  { destruct (Y t) as [E|(b & E)]; [exact E|exfalso]. destruct t as [[x y] z]. unfold bad_tri, bad_at, geti in E. apply nth_error_None in Li. cbn [corner_of] in Ci. destruct (nth_error vals x) eqn:E1; [|discriminate]. cbn [bind] in E. destruct (nth_error vals y) eqn:E2; [|discriminate]. cbn [bind] in E. destruct (nth_error vals z) eqn:E3; [|discriminate]. destruct Ci as [-> | [-> | ->]]; congruence. }
  revert It. generalize (tg_tris T) as ts. induction ts as [|t' ts IH]; intros It; [destruct It|]. destruct It as [E|I]; cbn [map_res].
  - subst t'. rewrite Z. reflexivity.
  - destruct (Y t') as [->|(b & ->)]; [reflexivity|]. cbn [bind]. rewrite (IH I). reflexivity.
Qed.
Theorem C68_no_interp_refuted u H c T log kind a b : In kind ["values"; "grad_x1"; "grad_x2"; "grad_norm"] -> (do es <- kedges H c; get_axis_limits es (1 / 10)) = Ok b ->
  (kind = "values" -> u_vals u = Some a) -> (kind = "grad_x1" -> u_g1 u = Some a) -> (kind = "grad_x2" -> u_g2 u = Some a) -> (kind = "grad_norm" -> exists x y, u_g1 u = Some x /\ u_g2 u = Some y /\ List.length x = List.length y /\ List.length x = List.length a) ->
  (exists t i, In t (tg_tris T) /\ corner_of t i /\ (List.length a <= i)%nat) -> snd (draw false log kind u H c T) = Err IndexError.
Proof.
  intros K W E1 E2 E3 E4 Sh.
  assert (D : forall l, List.length l = List.length a -> snd (draw_generic false log (Some l) None T) = Err IndexError).
  { intros l Ll. unfold draw_generic. cbn [snd]. apply masks_short. destruct Sh as (t & i & A & B & C). exists t, i. split; [exact A|]. split; [exact B|]. destruct log; rewrite ?map_length, app_length, map_length; cbn [List.length]; lia. }
  unfold draw. cbv zeta. destruct K as [<-|[<-|[<-|[<-|[]]]]]; cbn [String.eqb Ascii.eqb Bool.eqb boundary_array]; rewrite W.
  - rewrite (E1 eq_refl). specialize (D a eq_refl). destruct (draw_generic false log (Some a) None T) as [l r]. exact D.
  - rewrite (E2 eq_refl). specialize (D a eq_refl). destruct (draw_generic false log (Some a) None T) as [l r]. exact D.
  - rewrite (E3 eq_refl). specialize (D a eq_refl). destruct (draw_generic false log (Some a) None T) as [l r]. exact D.
  - destruct (E4 eq_refl) as (x & y & -> & -> & L1 & L2). rewrite L1, Nat.eqb_refl. cbn [snd]. apply D. unfold grad_norms. rewrite map_length, combine_length. lia.
Qed.
Print Assumptions C68_no_interp_refuted.
(** On a logarithmic scale such a plot also overwrites the values of the function itself. *)
Theorem C68_log_refuted u H c T a b : (do es <- kedges H c; get_axis_limits es (1 / 10)) = Ok b -> u_vals u = Some a ->
  u_vals (fst (draw false true "values" u H c T)) = Some (map (fun x => Rmax x (/ 10 ^ 16)) a).
Proof.
  intros W E. unfold draw. cbv zeta. cbn [String.eqb Ascii.eqb Bool.eqb boundary_array]. rewrite W, E. cbn [draw_generic fst u_vals]. f_equal. apply map_ext. intros x. apply floor_max.
Qed.
Print Assumptions C68_log_refuted.
(** Nothing else changes the function: any plot with boundary values, any plot on the usual scale,
    and the plot of the norm leave it as it was. *)
Theorem C68_function_kept interp log kind u H c T : interp = true \/ log = false \/ kind = "grad_norm" -> fst (draw interp log kind u H c T) = u.
Proof.
  intros K. assert (D : forall i b, interp = true /\ b <> None \/ log = false -> fst (draw_generic interp log i b T) = i).
  { intros [l|] b X; [|reflexivity]. unfold draw_generic. cbn [fst]. destruct X as [(-> & Nb)| ->]; [destruct b; [reflexivity|congruence]|]. destruct b as [b|]; [|reflexivity]. destruct interp; reflexivity. }
  unfold draw. cbv zeta. destruct (String.eqb_spec kind "values") as [->|N1]; [|destruct (String.eqb_spec kind "grad_x1") as [->|N2]; [|destruct (String.eqb_spec kind "grad_x2") as [->|N3]; [|destruct (String.eqb kind "grad_norm"); [|reflexivity]]]].
  4: { destruct (u_g1 u), (u_g2 u); try reflexivity. destruct (boundary_array _ _); [|reflexivity]. destruct (Nat.eqb _ _); reflexivity. }
  all: match goal with |- context [boundary_array ?t ?r] => destruct (boundary_array t r) as [o|] eqn:Eo end; try (destruct u; reflexivity).
  all: match goal with |- context [do es <- ?k; @?f es] => destruct (do es <- k; f es) as [w|]; [|destruct u; reflexivity] end.
  all: assert (X : interp = true /\ o <> None \/ log = false) by (destruct K as [->|[->|K]]; [left; split; [reflexivity|]; unfold boundary_array in Eo; match type of Eo with (do b <- ?r; _) = _ => destruct r; [|discriminate] end; cbn [bind] in Eo; apply Ok_inj in Eo; subst o; discriminate|right; reflexivity|discriminate]).
  all: match goal with D : _, X : _ |- context [draw_generic ?p ?q ?i ?o ?T] => pose proof (D i o X) as Y; destruct (draw_generic p q i o T) as [l r]; cbn [fst] in Y; subst l; destruct u; reflexivity end.
Qed.
Print Assumptions C68_function_kept.

(** ** Witnesses on the disc *)
Lemma round_dx k : In k [4; 4000; -4000]%Z -> forall x y, peval RS (pdx RS (panti_laplacian RS [rmon (IZR k) 0 0])) x y = IZR k / 2 * x.
Proof.
  intros K x y. assert (E : forall z : Z, [rmon (IZR z) 0 0] = hp [Mono (S:=QS) (MI 0 0) (z # 1)%Q]) by (intros z; cbn; unfold hm, rmon, Q2R; cbn; repeat f_equal; field). rewrite (E k), t_panti_laplacian, t_pdx.
  destruct K as [<-|[<-|[<-|[]]]]; rewrite peval_value.
  all: match goal with |- value (hp ?q) _ _ = _ => let q' := eval vm_compute in q in replace q with q' by (vm_compute; reflexivity) end.
  all: cbn; unfold Q2R; cbn; field.
Qed.
Lemma still_rests : rests still 0.
Proof. split; intros k; [exists []; split; [|reflexivity]|]; cbn; repeat f_equal; induction k as [|k IH]; cbn; f_equal; auto. Qed.
Lemma disc_samples e : e_smp e = map (fun i => disc_smp (angle i)) (seq 0 9) -> contour_smp (concat [[e]]) = map (fun i => disc_smp (angle i)) (seq 0 8).
Proof. intros E. unfold contour_smp. cbn [concat app map]. rewrite app_nil_r. unfold open_smp. rewrite E. reflexivity. Qed.
Lemma disc_framed t : framed (disc_smp t).
Proof. unfold framed, disc_smp. cbn [sT sN fst snd]. split; [pose proof (sin2_cos2 t) as X; unfold Rsqr in X; lra|]. f_equal. lra. Qed.
(** The function with constant Laplacian [k] and the trace of its polynomial part *)
Lemma round_fun H c e k : unit_disc H c e -> exists u, mk_lpois still H c [rmon k 0 0] (TVal (VArr (samples_of (concat [[e]]) (at_smp (peval RS (panti_laplacian RS [rmon k 0 0])))))) false false = Ok u.
Proof.
  intros D. pose proof D as (Rd & B & N & _). destruct (ready_uniform _ _ _ _ Rd B) as (F & _). apply (C53_total disc still H c [[e]] [rmon k 0 0] _ Rd B (disc_tame _ _ _ D)). eexists. split; [apply (samples_fit F)|]. reflexivity.
Qed.
Lemma angle0 : disc_smp (angle 0) = Smp (2, 0) (0, 1) (1, 0) 1 (-1).
Proof. unfold disc_smp, angle. cbn [INR]. rewrite Rmult_0_l, cos_0, sin_0. f_equal; apply f_equal2; lra. Qed.
Lemma angle8 : reverse_sample (disc_smp (angle 8)) = Smp (2, 0) (0, -1) (-1, 0) 1 1.
Proof. unfold reverse_sample, disc_smp, angle. cbn [sx sT sN sw sk fst snd]. replace (INR 8 * (PI / 4)) with (2 * PI) by (cbn; field). rewrite cos_2PI, sin_2PI. f_equal; try (apply f_equal2; lra). lra. Qed.
(** Its first derivative at the first sample *)
Lemma round_first H c e k u : unit_disc H c e -> In k [4; 4000; -4000]%Z -> mk_lpois still H c [rmon (IZR k) 0 0] (TVal (VArr (samples_of (concat [[e]]) (at_smp (peval RS (panti_laplacian RS [rmon (IZR k) 0 0])))))) false false = Ok u ->
  exists g o, grad_component u H c 1 = Ok g /\ nth_error g 0 = Some o /\ shown 1 (IZR k) o.
Proof.
  intros D K E. pose proof D as (Rd & B & N & S & _). destruct (ready_uniform _ _ _ _ Rd B) as (F & _). destruct (C68_field disc still H c [[e]] u _ 1 fst Rd B (lf_new _ _ _ _ _ _ _ _ E) (poly_gradient F still 0 _ _ _ _ still_rests E) comp1) as (g & Eg & _ & P).
  destruct (P O (disc_smp (angle 0))) as (o & Eo & Sh); [rewrite (disc_samples e S); reflexivity|apply disc_framed|]. exists g, o. split; [exact Eg|]. split; [exact Eo|]. rewrite angle0 in Sh. cbn [fst snd sw] in Sh. unfold at_smp in Sh. rewrite (round_dx k K) in Sh. cbn [sx fst] in Sh. replace (IZR k / 2 * 2) with (IZR k) in Sh by field. exact Sh.
Qed.
(** Blow-ups are masked in one direction only: of two opposite functions whose derivatives exceed
    the bound 1000 in size, the positive one is masked and the negative one is drawn. *)
Theorem C68_bound_refuted : exists H c e u v g h, unit_disc H c e /\ locfun still H c u /\ locfun still H c v /\ grad_component u H c 1 = Ok g /\ grad_component v H c 1 = Ok h /\ nth_error g 0 = Some None /\ nth_error h 0 = Some (Some (-4000)).
Proof.
  destruct unit_disc_exists as (H & c & e & D). destruct (round_fun H c e 4000 D) as (u & Eu). destruct (round_fun H c e (-4000) D) as (v & Ev). destruct (round_first H c e 4000 u D ltac:(cbn; auto) Eu) as (g & o & Eg & Eo & _ & Sh). destruct (round_first H c e (-4000) v D ltac:(cbn; auto) Ev) as (h & o' & Eh & Eo' & _ & Sh').
  assert (T : / 10 ^ 8 <= 1) by lra. destruct (Sh T) as (_ & S2). destruct (Sh' T) as (S1 & _). rewrite S2 in Eo by lra. rewrite S1 in Eo' by lra. exists H, c, e, u, v, g, h. split; [exact D|]. split; [eapply lf_new; exact Eu|]. split; [eapply lf_new; exact Ev|]. auto.
Qed.
Print Assumptions C68_bound_refuted.

(** The disc of the two rings, sampled first *)
Lemma disc_first c H' c' : mk_cell rings 2 [0]%nat (5, 5)%Z 1 1 = Ok c -> circles c -> param_cell disc dict4 false rings c = Ok (H', c') -> exists e, unit_disc H' c' e /\ parameterize dict4 (ring 1 1 2 1) = Ok e /\ nth_error H' 0 = Some e /\ nth_error H' 1 = nth_error rings 1 /\
  exists k, c_comps c' = [k] /\ k_edges k = [0]%nat.
Proof.
  intros B Ci P. pose proof (disc_cell (5, 5)%Z 1 ltac:(lra)) as B'. rewrite B in B'. apply Ok_inj in B'. symmetry in B'. set (c0 := made _ _ _ _ _) in B'. subst c.
  assert (Rd : ContourProps.ready disc H' c') by (exists rings, 2%Z, [0]%nat, (5, 5)%Z, 1, 1, c0, (PInt 4), 7%Z, dict4, false, rings; split; [exact B|]; split; [exact dict4_ok|exact P]).
  destruct (ready_fresh _ _ _ Rd) as (ess & F & _). pose proof (circles_wf _ Ci) as W. destruct (param_edge _ _ _ _ _ _ _ _ _ (unset 2 0 1) O O 1%Z dict4_ok W P (or_introl eq_refl) eq_refl eq_refl) as (a0 & e0 & A0 & E0 & R0). cbn [rings nth_error] in A0. injection A0 as <-.
  destruct R0 as (e1 & E & E'). cbn [Z.eqb Pos.eqb] in E'. subst e0. destruct (unit_ring _ _ _ E) as (_ & N & S).
  destruct (param_cell_ok disc (fun _ _ => True) (fun _ _ _ _ _ _ => I) dict4 _ _ _ _ _ _ _ dict4_ok W P) as (ess0 & ess' & Pr). pose proof (Permutation_map fst (p_edges _ _ _ _ _ _ _ _ _ Pr)) as PE. rewrite !map_map in PE. cbn [fst] in PE. change (map (fun x => k_edges x) (c_comps c0)) with [[0%nat]] in PE. apply Permutation_sym, Permutation_length_1_inv in PE.
  destruct F as (_ & Hh & _). assert (X : exists k, c_comps c' = [k] /\ k_edges k = [0%nat]) by (destruct (c_comps c') as [|k [|? ?]]; try discriminate; exists k; split; [reflexivity|]; cbn [map] in PE; congruence). destruct X as (k & Ek & Ke).
  exists e1. split; [|split; [exact E|split; [exact E0|split; [|exists k; auto]]]].
  - split; [exact Rd|]. split; [|split; [exact N|split; [exact S|]]].
    + unfold boundary_edges. rewrite Ek. constructor; [|constructor]. rewrite Ke. unfold refs. constructor; [exact E0|constructor].
    + rewrite Hh, Ek. reflexivity.
  - apply (p_frame _ _ _ _ _ _ _ _ _ Pr). intros [Z|[]]. discriminate.
Qed.
(** A function is built on the disc and plotted rightly. After its neighbour, the annulus around it,
    is sampled as well, the same plot shows the opposite gradient. *)
Theorem C68_stale_refuted : exists cd ca H1 cd' H2 ca' e u g1 g2, mk_cell rings 2 [0]%nat (5, 5)%Z 1 1 = Ok cd /\ mk_cell rings 1 [0; 1]%nat (5, 5)%Z 1 1 = Ok ca /\
  param_cell disc dict4 false rings cd = Ok (H1, cd') /\ unit_disc H1 cd' e /\ locfun still H1 cd' u /\ param_cell disc dict4 false H1 ca = Ok (H2, ca') /\
  grad_component u H1 cd' 1 = Ok g1 /\ nth_error g1 0 = Some (Some 4) /\ grad_component u H2 cd' 1 = Ok g2 /\ nth_error g2 0 = Some (Some (-4)).
Proof.
  pose proof (ring_cell_inner (5, 5)%Z 1 ltac:(lra)) as B1. pose proof (disc_cell (5, 5)%Z 1 ltac:(lra)) as B2. set (ca := made 1 _ _ _ _) in B1. set (cd := made 2 _ _ _ _) in B2.
  assert (C1 : circles ca) by (exists 1%Z, [-1; 1]%Z, (5, 5)%Z, 1; left; reflexivity). assert (C2 : circles cd) by (exists 2%Z, [1]%Z, (5, 5)%Z, 1; right; right; reflexivity).
  destruct (circles_param rings cd rings_like C2) as (H1 & cd' & P2). destruct (disc_first cd H1 cd' B2 C2 P2) as (e & D & Pe & E0 & E1 & k & Ek & Ke). destruct (ring_again _ _ _ _ _ Pe) as (Ag & Ar).
  assert (L : like_rings H1) by (exists e, (ring 0 4 1 (-1)); split; [exact E0|]; split; [rewrite E1; reflexivity|]; split; [unfold like; congruence|reflexivity]).
  destruct (circles_param H1 ca L C1) as (H2 & ca' & P1). pose proof (circles_wf _ C1) as W1.
  destruct (param_edge _ _ _ _ _ _ _ _ _ (unset 1 0 (-1)) O O (-1)%Z dict4_ok W1 P1 (or_introl eq_refl) eq_refl eq_refl) as (b0 & f0 & G0 & F0 & y & Y & Y'). assert (b0 = e) by congruence. subst b0. assert (y = e) by congruence. subst y. cbn [Z.eqb Pos.eqb] in Y'.
  destruct (round_fun H1 cd' e 4 D) as (u & Eu). assert (Lf : locfun still H1 cd' u) by (eapply lf_new; exact Eu). destruct (round_first H1 cd' e 4 u D ltac:(cbn; auto) Eu) as (g & o & Eg & Eo & _ & Sh). assert (T : / 10 ^ 8 <= 1) by lra. destruct (Sh T) as (S1 & _). rewrite S1 in Eo by lra.
  pose proof D as (Rd & B & N & S & _). destruct (unit_ring _ _ _ Pe) as (Pp & _ & _). destruct (C33_well_sampled _ _ _ _ _ dict4_ok Pe) as (We & We' & _).
  assert (B' : boundary_edges H2 cd' [[f0]]) by (unfold boundary_edges; rewrite Ek; constructor; [|constructor]; rewrite Ke; constructor; [exact F0|constructor]).
  assert (Rz : resized [[e]] [[f0]]) by (constructor; [|constructor]; constructor; [|constructor]; subst f0; split; [exact We'|unfold reverse_orientation; rewrite Pp; reflexivity]).
  destruct (C68_gradient disc still H1 cd' [[e]] u H2 [[f0]] 1 fst Rd B Lf B' Rz comp1) as (g2 & Eg2 & _ & Q).
  destruct (ready_uniform _ _ _ _ Rd B) as (F & _). pose proof (poly_gradient F still 0 _ _ _ _ still_rests Eu) as HG.
  destruct (HG O (disc_smp (angle 0))) as (a & b & d & f & A1 & A2 & Q1 & A3 & A4 & Q2); [rewrite (disc_samples e S); reflexivity|]. rewrite angle0 in Q1, Q2. cbn [fst snd sN sT sw] in Q1, Q2. unfold at_smp in Q1. rewrite (round_dx 4) in Q1 by (cbn; auto). cbn [sx fst] in Q1.
  destruct (Q O (reverse_sample (disc_smp (angle 8)))) as (a' & b' & d' & f' & o' & A1' & A2' & A3' & A4' & Eo' & Sh').
  { subst f0. unfold contour_smp. cbn [concat app map]. rewrite app_nil_r. unfold open_smp, reverse_orientation. rewrite Pp. cbn [with_smp e_smp]. rewrite S. reflexivity. }
  assert (a' = a) by congruence. assert (b' = b) by congruence. assert (d' = d) by congruence. assert (f' = f) by congruence. subst a' b' d' f'. rewrite angle8 in Sh'. cbn [fst snd sN sT sw] in Sh'. destruct Sh' as (_ & Sh'). destruct (Sh' T) as (S1' & _). rewrite S1' in Eo' by lra. replace ((-1 * (a + b) + 0 * (d + f)) / 1) with (-4) in Eo' by lra.
  exists cd, ca, H1, cd', H2, ca', e, u, g, g2. repeat (split; [assumption|]). exact Eo'.
Qed.
Print Assumptions C68_stale_refuted.

(** ** Example *)
(** On the disc: a function with values and gradients at the interior points, with a triangle from an
    interior point to the first two boundary points, once more masked as part of a hole. Values and
    first derivative are drawn. *)
Example C68_example : exists H c e u ys b g T p q, unit_disc H c e /\ c_int c = Some ys /\ In (1, 0) ys /\ locfun still H c u /\ plotted u H c "values" b (map Some g) /\ List.length b = List.length ys /\ List.length g = 8%nat /\
  let n := List.length ys in tg_tris T = [(0, n, n + 1); (0, n, n + 1)]%nat /\ tg_hole T = [false; true] /\ triangles (tg_tris T) (tg_hole T) (tg_bdry T) (n + 8) /\
  draw true false "values" u H c T = (u, Ok p) /\ pic_vals p = map Some (b ++ g) /\ pic_mask p = [false; true] /\
  draw true false "grad_x1" u H c T = (u, Ok q) /\ nth_error (pic_vals q) n = Some (Some 4) /\ nth_error (pic_mask q) 1 = Some true.
Proof.
  destruct unit_disc_int as (H & c & e & ys & D & Ey & Iy). pose proof D as (Rd & B & N & S & Hh). assert (Cx : centers c []). { pose proof (ready_uniform _ _ _ _ Rd B) as ((_ & X & _) & _). rewrite Hh in X. unfold centers. destruct (c_comps c) as [|k [|k' ks]]; cbn [tl List.length] in *; [constructor|constructor|exfalso; lia]. }
  destruct (ready_uniform _ _ _ _ Rd B) as (F & _). assert (BD : exists v, boundary_data (concat [[e]]) (TVal (VArr (samples_of (concat [[e]]) (at_smp (peval RS (panti_laplacian RS [rmon 4 0 0])))))) v) by (eexists; split; [apply (samples_fit F)|reflexivity]).
  destruct (C56_total disc still H c [[e]] [rmon 4 0 0] _ true true [] ys Rd B (disc_tame _ _ _ D) BD Cx Ey) as (u & E). destruct (C56_values _ _ _ _ _ _ _ _ _ _ _ Rd B E Ey eq_refl) as (xs & vals & g1 & g2 & _ & V & V1 & _ & _ & Fv & X & _). destruct (X eq_refl) as (Fg & _). clear X. pose proof (Forall2_len _ _ _ Fv) as Lv. pose proof (Forall2_len _ _ _ Fg) as Lg.
  pose proof (lf_new _ _ _ _ _ _ _ _ E) as L. pose proof (locfun_good F still u L) as Gd. destruct (good_trace F u Gd) as (z & Ez & Lz & _). unfold fitting in Lz.
  pose proof (disc_samples e S) as SS. assert (NE : concat [[e]] <> []) by discriminate.
  assert (L8 : List.length (contour_smp (concat [[e]])) = 8%nat) by (rewrite SS; reflexivity). assert (Lz8 : List.length z = 8%nat). { pose proof (smp_len F) as SL. lia. }
  set (n := List.length ys). set (T := Tgl [(0, n, n + 1); (0, n, n + 1)]%nat [false; true] [true; true]).
  assert (Tr : triangles (tg_tris T) (tg_hole T) (tg_bdry T) (n + 8)). { split; [|split; reflexivity]. intros t i [<-|[<-|[]]]; cbn [corner_of]; lia. }
  destruct (C68_values disc still H c [[e]] u T false vals z Rd B NE L V Ez) as (p & Ep & Vp & Mp). { rewrite <- Lv, Lz8. exact Tr. }
  destruct (C68_field disc still H c [[e]] u _ 1 fst Rd B L (poly_gradient F still 0 _ _ _ _ still_rests E) comp1) as (g & Eg & Lgg & P).
  destruct (P O (disc_smp (angle 0))) as (o & Eo & Sh); [rewrite SS; reflexivity|apply disc_framed|]. rewrite angle0 in Sh. cbn [fst snd sw] in Sh. unfold at_smp in Sh. rewrite (round_dx 4) in Sh by (cbn; auto). cbn [sx fst] in Sh. destruct Sh as (_ & Sh). destruct (Sh ltac:(lra)) as (Sh1 & _). rewrite Sh1 in Eo by lra.
  destruct (C68_drawn disc still H c [[e]] u T false "grad_x1" g1 g Rd B NE L (pl_grad1 _ _ _ _ _ V1 Eg)) as (q & Eq & Vq & Lq & Q). { rewrite <- Lg, Lgg, L8. exact Tr. }
  exists H, c, e, u, ys, vals, z, T, p, q. split; [exact D|]. split; [exact Ey|]. split; [exact Iy|]. split; [exact L|]. split; [exact (pl_values _ _ _ _ _ V Ez)|]. split; [exact (eq_sym Lv)|]. split; [exact Lz8|]. cbv zeta. split; [reflexivity|]. split; [reflexivity|]. split; [exact Tr|]. split; [exact Ep|]. split; [rewrite Vp; apply map_ext; reflexivity|]. split; [exact Mp|]. split; [exact Eq|]. split.
  - rewrite Vq, nth_error_map, nth_error_app2 by (rewrite map_length; fold n in Lg; lia). rewrite map_length, <- Lg. fold n. rewrite Nat.sub_diag, Eo. cbn. do 2 f_equal. lra.
  - specialize (Q 1%nat _ eq_refl). destruct (nth_error (pic_mask q) 1) as [[|]|] eqn:E1; [reflexivity| |]; exfalso.
    + destruct Q as (Q & _). destruct (Q eq_refl) as (X & _). discriminate.
    + apply nth_error_None in E1. cbn in Lq. lia.
Qed.
