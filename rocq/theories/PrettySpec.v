(** Specification of decimal numbers, independent of pretty. *)
From Coq Require Import Ascii String ZArith Reals List Bool.
Import ListNotations.
Open Scope string_scope.

(* the number a string of digits denotes, read from left to right *)
Definition digit_of (c : ascii) : option Z :=
  match c with
  | "0" => Some 0 | "1" => Some 1 | "2" => Some 2 | "3" => Some 3 | "4" => Some 4
  | "5" => Some 5 | "6" => Some 6 | "7" => Some 7 | "8" => Some 8 | "9" => Some 9
  | _ => None
  end%char%Z.
Fixpoint read_digits (acc : Z) (s : string) : option Z :=
  match s with
  | EmptyString => Some acc
  | String c r => match digit_of c with Some d => read_digits (acc * 10 + d) r | None => None end
  end.
(* sign, integer part and fraction; no point without a fraction *)
Definition number_text (neg : bool) (ip fp : string) : string :=
  (if neg then "-" else "") ++ ip ++ match fp with "" => "" | _ => "." ++ fp end.
(* no superfluous zeros, at most three decimals *)
Definition tidy (ip fp : string) : Prop :=
  (ip = "0" \/ exists c r, ip = String c r /\ c <> "0"%char) /\ (String.length fp <= 3)%nat /\ (forall p, fp <> p ++ "0").
(* value of the digits ip.fp *)
Definition reads_as (ip fp : string) (v : R) : Prop :=
  exists i f, read_digits 0 ip = Some i /\ read_digits 0 fp = Some f /\ v = (IZR i + IZR f / 10 ^ String.length fp)%R.
(* q is y rounded to an integer, halves to even *)
Definition rounds_to (y : R) (q : Z) : Prop := (Rabs (y - IZR q) <= / 2)%R /\ (Rabs (y - IZR q) = (/ 2)%R -> Z.even q = true).
