(** S-expressions, as a reader of KiCad files sees them: brackets outside of quoted strings. *)
From Coq Require Import Ascii String Bool.
Open Scope string_scope.

(* the text may be put into a quoted string, or stand alone as a number *)
Fixpoint plain (s : string) : Prop :=
  match s with
  | EmptyString => True
  | String ch r => (ch <> ascii_of_nat 92 /\ ch <> ascii_of_nat 34 /\ ch <> "("%char /\ ch <> ")"%char) /\ plain r
  end.
(* reading a text with d open brackets, inside (q = true) or outside of a quoted string; None if the
   last bracket is closed, or for an escape character.  Otherwise the open brackets at the end *)
Fixpoint scan (s : string) (d : nat) (q : bool) : option (nat * bool) :=
  match s with
  | EmptyString => Some (d, q)
  | String ch r =>
      if Ascii.eqb ch (ascii_of_nat 92) then None
      else if Ascii.eqb ch (ascii_of_nat 34) then scan r d (negb q)
      else if q then scan r d q
      else if Ascii.eqb ch "(" then scan r (S d) q
      else if Ascii.eqb ch ")" then match d with S (S d') => scan r (S d') q | _ => None end
      else scan r d q
  end.
(* a single list, and the end of the line *)
Definition one_list (s : string) : Prop := exists body, s = "(" ++ body ++ ")" ++ String (ascii_of_nat 10) "" /\ scan body 1 false = Some (1, false).
(* t is a part of s *)
Definition within (t s : string) : Prop := exists pre post, s = pre ++ t ++ post.
