(** C77, C13 and C47: what printing a solver does to its form; which commands on polynomials are refused; keys without a type. *)
From Coq Require Import List String ZArith Reals Lia Permutation QArith.
From Verif Require Import PyBase PolyModel PolySpec PolyProofs PolyAliasModel GlobModel AsmModel PrintModel PrintProps SummaryModel.
Import List ListNotations.
Open Scope nat_scope.

(** Printing a solver reorders the terms of its right-hand side, nothing else; a second time the text is the same. *)
Theorem C77_solver_state show p B num : let (B', t) := solver_str show p B num in
  bf_diffusion B' = bf_diffusion B /\ bf_reaction B' = bf_reaction B /\ Permutation (bf_rhs B) (bf_rhs B') /\ (forall x y, value (bf_rhs B') x y = value (bf_rhs B) x y) /\ (canonical (bf_rhs B) -> B' = B) /\ solver_str show p B' num = (B', t).
Proof.
  unfold solver_str, form_str. pose proof (C71_effect show (bf_rhs B)) as E. destruct (poly_str RS show (bf_rhs B)) as [f t]. destruct E as (P & _ & V & T & C). cbn [bf_diffusion bf_reaction bf_rhs]. rewrite T.
  split; [reflexivity|]. split; [reflexivity|]. split; [exact P|]. split; [exact V|]. split; [|reflexivity]. intros K. rewrite (C K). destruct B. reflexivity.
Qed.
Print Assumptions C77_solver_state.

(** The objects a command names *)
Definition named {S} (c : pcmd S) : list nat :=
  match c with
  | CCopy o | CNeg o | CDx o | CDy o | CLap o | CScale o _ | CPow o _ | CSetCoef o _ _ => [o]
  | CAdd a b | CSub a b | CMul a b | CIadd a b => [a; b]
  | CCompose a b d => [a; b; d]
  end.
(** A command is refused exactly when it names an object that does not exist, or a term beyond the last; p += p does not end. *)
Theorem C13_refused S (st : pstate S) c x : exec S st c = Err x <->
  (exists o, In o (named c) /\ length (ps_objs S st) <= o) /\ x = KeyError \/
  (forall o, In o (named c) -> o < length (ps_objs S st)) /\
    match c with
    | CIadd a b => a = b /\ x = OutOfFuel
    | CSetCoef o i _ => (exists p, nth_error (ps_objs S st) o = Some p /\ length p <= i) /\ x = IndexError
    | _ => False
    end.
Proof.
  assert (L : forall o, (exists p, look S st o = Ok p /\ nth_error (ps_objs S st) o = Some p /\ o < length (ps_objs S st)) \/ (look S st o = Err KeyError /\ length (ps_objs S st) <= o)).
  { intros o. unfold look. destruct (nth_error (ps_objs S st) o) as [p|] eqn:N; [left; exists p; split; [reflexivity|]; split; [reflexivity|]; apply nth_error_Some; congruence|right; split; [reflexivity|apply nth_error_None, N]]. }
  assert (Bad : forall (r : res (pstate S)) (T : Prop), r = Err KeyError -> (exists o, In o (named c) /\ length (ps_objs S st) <= o) -> (r = Err x <-> (exists o, In o (named c) /\ length (ps_objs S st) <= o) /\ x = KeyError \/ (forall o, In o (named c) -> o < length (ps_objs S st)) /\ T)).
  { intros r T -> O. split; [intros X; left; split; [exact O|congruence]|]. intros [[_ ->]|[F _]]; [reflexivity|]. destruct O as (o & I & G). specialize (F o I). lia. }
  assert (Good : forall (s : pstate S), (forall o, In o (named c) -> o < length (ps_objs S st)) -> (@Ok (pstate S) s = Err x <-> (exists o, In o (named c) /\ length (ps_objs S st) <= o) /\ x = KeyError \/ (forall o, In o (named c) -> o < length (ps_objs S st)) /\ False)).
  { intros s F. split; [discriminate|]. intros [[(o & I & G) _]|[_ []]]. specialize (F o I). lia. }
  destruct c; cbn [exec named In] in *; cbv zeta;
    repeat match goal with |- context [look S st ?o] => destruct (L o) as [(? & -> & ? & ?)|[-> ?]]; cbn [bind] end;
    try (apply Bad; [reflexivity|eauto 8]; fail); try (apply Good; intros ? Hi; repeat destruct Hi as [<-|Hi]; try assumption; destruct Hi; fail).
  - destruct (Nat.eqb_spec o1 o2) as [->|N].
    + split; [intros X; right; split; [intros ? Hi; repeat destruct Hi as [<-|Hi]; try assumption; destruct Hi|split; [reflexivity|congruence]]|]. intros [[(o & I & G) _]|[_ [_ ->]]]; [exfalso; repeat destruct I as [<-|I]; try lia; destruct I|reflexivity].
    + destruct (h_piadd _ _ _ _). split; [discriminate|]. intros [[(o & I & G) _]|[_ [X _]]]; [exfalso; repeat destruct I as [<-|I]; try lia; destruct I|contradiction].
  - destruct (nth_error x0 i) as [a|] eqn:N.
    + split; [discriminate|]. intros [[(o' & I & G) _]|[_ [(p & P & G) _]]]; [exfalso; repeat destruct I as [<-|I]; try lia; destruct I|]. rewrite P in *. match goal with Q : Some p = Some x0 |- _ => injection Q as -> end. apply nth_error_None in G. congruence.
    + split; [intros X; right; split; [intros ? Hi; repeat destruct Hi as [<-|Hi]; try assumption; destruct Hi|split; [exists x0; split; [assumption|apply nth_error_None, N]|congruence]]|]. intros [[(o' & I & G) _]|[_ [_ ->]]]; [exfalso; repeat destruct I as [<-|I]; try lia; destruct I|reflexivity].
Qed.
Print Assumptions C13_refused.
(** One object, x + 2: the third term is asked for, an object that does not exist, and p += p *)
Example C13_refused_example : let st := PState QS [Mono (S := QS) (MI 1 0) 1%Q; Mono (S := QS) (MI 0 0) 2%Q] [[0; 1]] in
  exec QS st (CSetCoef QS 0 2 7%Q) = Err IndexError /\ exec QS st (CAdd QS 0 1) = Err KeyError /\ exec QS st (CIadd QS 0 0) = Err OutOfFuel.
Proof. repeat split. Qed.
(** A form with right-hand side 2 x + 3, in this order: after printing the terms are in the order of their exponents. *)
Example C77_state_example show p : bf_rhs (fst (solver_str show p (BForm 1 1 [rmon 2 1 0; rmon 3 0 0]) 0)) = [rmon 3 0 0; rmon 2 1 0].
Proof. reflexivity. Qed.

(** A key whose type is none of the three kinds has no global number; the exception is that of the unbound variable. The constructor
    refuses such types, but the attribute can be assigned afterwards. *)
Theorem C47_untyped p k abs : ~ In (g_type k) ["bubb"; "vert"; "edge"]%string -> get_global_idx p k abs = Err UnboundLocalError.
Proof. intros N. unfold get_global_idx. destruct (String.eqb_spec (g_type k) "bubb"); [exfalso; apply N; cbn; auto|]. destruct (String.eqb_spec (g_type k) "vert"); [exfalso; apply N; cbn; auto|]. destruct (String.eqb_spec (g_type k) "edge"); [exfalso; apply N; cbn; auto|]. reflexivity. Qed.
Print Assumptions C47_untyped.
Example C47_untyped_example p : get_global_idx p (Key "face" 0 0 0 0 None None) 0 = Err UnboundLocalError /\ mk_key "face" (PInt 0) (PInt 0) (PInt 0) (PInt 0) = Err ValueError.
Proof. split; [apply C47_untyped; cbn; intuition discriminate|reflexivity]. Qed.
