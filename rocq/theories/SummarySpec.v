(** How to read a summary: lines, and in each line a key and a value. *)
From Coq Require Import List String Ascii ZArith.
From Verif Require Import PrintSpec.
Import ListNotations.
Open Scope string_scope.

Definition is_newline (c : ascii) : bool := Ascii.eqb c "010".
Fixpoint lines (s : string) : list string :=
  match s with
  | "" => [""]
  | String c s => if is_newline c then "" :: lines s else match lines s with l :: ls => String c l :: ls | [] => [String c ""] end
  end.
(** Blanks and tabs at the start are skipped. *)
Fixpoint skip (s : string) : string := match s with String c r => if orb (Ascii.eqb c " ") (Ascii.eqb c "009") then skip r else s | "" => "" end.
Fixpoint key (s : string) : string * string :=
  match s with
  | "" => ("", "")
  | String c r => if Ascii.eqb c ":" then ("", skip r) else let (k, v) := key r in (String c k, v)
  end.
Definition items (s : string) : list (string * string) := map (fun l => key (skip l)) (lines s).
(** The values of a key, from top to bottom *)
Definition values (k s : string) : list string := map snd (filter (fun e => String.eqb k (fst e)) (items s)).
(** A whole number *)
Definition whole (s : string) : option Z :=
  let (neg, d) := match s with String "-" r => (true, r) | _ => (false, s) end in
  match d with
  | "" => None
  | _ => match number 0 d with (n, "") => Some (if neg then - Z.of_nat n else Z.of_nat n)%Z | _ => None end
  end.
Definition numbers (k s : string) : list (option Z) := map whole (values k s).
(** The text before the first [c], and the rest *)
Fixpoint upto (c : ascii) (s : string) : option (string * string) :=
  match s with
  | "" => None
  | String a s => if Ascii.eqb a c then Some ("", s) else match upto c s with Some (t, r) => Some (String a t, r) | None => None end
  end.
(** A vertex: its number and the texts of its coordinates *)
Definition read_vert (s : string) : option (Z * string * string) :=
  match drop "[vert" s with None => None | Some s1 =>
  match upto "]" s1 with None => None | Some (i, s2) =>
  match drop "(" s2 with None => None | Some s3 =>
  match upto "," s3 with None => None | Some (x, s4) =>
  match drop " " s4 with None => None | Some s5 =>
  match upto ")" s5 with
  | Some (y, "") => match whole i with Some z => Some (z, x, y) | None => None end
  | _ => None
  end end end end end end.
(** A number after blanks *)
Definition padded (s : string) : nat * string := number 0 (skip s).
(** A line of the form: colour, "Cell", number, "/", number, colour *)
Definition read_progress (s : string) : option (nat * nat) :=
  match drop (String "027" "[32mCell ") s with None => None | Some s1 =>
  let (i, s2) := padded s1 in
  match drop " / " s2 with None => None | Some s3 =>
  let (n, s4) := padded s3 in
  if String.eqb s4 (String "027" "[0m") then Some (i, n) else None
  end end.
