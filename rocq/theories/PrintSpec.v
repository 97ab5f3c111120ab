(** How to read a printed polynomial. *)
From Coq Require Import List String Ascii Arith.
Import ListNotations.
Open Scope string_scope.

(** [drop w s]: the rest of [s] after the word [w] *)
Fixpoint drop (w s : string) : option string :=
  match w, s with
  | "", _ => Some s
  | String a w, String b s => if Ascii.eqb a b then drop w s else None
  | _, "" => None
  end.
(** The text before the first closing parenthesis, and the rest *)
Fixpoint until_close (s : string) : option (string * string) :=
  match s with
  | "" => None
  | String a s => if Ascii.eqb a ")" then Some ("", s) else match until_close s with Some (t, r) => Some (String a t, r) | None => None end
  end.
Definition digit (a : ascii) : option nat :=
  let n := nat_of_ascii a in if andb (Nat.leb 48 n) (Nat.leb n 57) then Some (n - 48) else None.
(** Decimal digits, most significant first *)
Fixpoint number (acc : nat) (s : string) : nat * string :=
  match s with
  | "" => (acc, "")
  | String a r => match digit a with Some d => number (10 * acc + d) r | None => (acc, s) end
  end.
(** A power of the variable [v]: nothing, [v], or [v] with an exponent; then a blank *)
Definition power (v : string) (s : string) : option (nat * string) :=
  match drop v s with
  | None => match drop " " s with Some r => Some (0, r) | None => None end
  | Some s1 =>
      match drop "^" s1 with
      | None => match drop " " s1 with Some r => Some (1, r) | None => None end
      | Some s2 => let (n, s3) := number 0 s2 in match drop " " s3 with Some r => Some (n, r) | None => None end
      end
  end.
Section Read.
Context {C : Type} (parse : string -> option C).
Definition term (s : string) : option (C * nat * nat * string) :=
  match drop "+ (" s with None => None | Some s1 =>
  match until_close s1 with None => None | Some (t, s2) =>
  match parse t, drop " " s2 with
  | Some c, Some s3 =>
      match power "x" s3 with None => None | Some (i, s4) =>
      match power "y" s4 with None => None | Some (j, s5) => Some (c, i, j, s5) end end
  | _, _ => None
  end end end.
(** All terms; [fuel] at least the number of terms *)
Fixpoint terms (fuel : nat) (s : string) : option (list (C * nat * nat)) :=
  match s with
  | "" => Some []
  | _ => match fuel with
         | O => None
         | S k => match term s with None => None | Some (c, i, j, r) =>
                  match terms k r with None => None | Some l => Some ((c, i, j) :: l) end end
         end
  end.
(** The zero polynomial has a text of its own. *)
Definition read (s : string) : option (list (C * nat * nat)) :=
  if String.eqb s "+ (0) " then Some [] else terms (String.length s) s.
End Read.
