(** Model of pretty in /repo/body/chrumm/pcb.py:103-104 and of the label of a marker. *)
From Coq Require Import Ascii String ZArith NArith List Bool.
From Flocq Require Import BinarySingleNaN.
Import ListNotations.
Open Scope string_scope.

(* a Python float: IEEE binary64 (the payload of a NaN is never visible here) *)
Definition float := binary_float 53 1024.

(* CPython's format(x, ".3f"): the exact value times 1000, rounded to nearest with
   ties to even.  n / d for d > 0 *)
Definition roundDiv (n d : Z) : Z :=
  let q := (n / d)%Z in
  let r := (n mod d)%Z in
  match (2 * r ?= d)%Z with
  | Lt => q
  | Gt => (q + 1)%Z
  | Eq => if Z.even q then q else (q + 1)%Z
  end.
Definition thousandths (m : positive) (e : Z) : Z :=
  if (0 <=? e)%Z then (Zpos m * 1000 * 2 ^ e)%Z else roundDiv (Zpos m * 1000) (2 ^ (- e)).
(* decimal digits of n, in front of acc; enough fuel is the number of bits *)
Definition digitChar (n : Z) : ascii := ascii_of_nat (48 + Z.to_nat n).
Fixpoint decimal (fuel : nat) (n : Z) (acc : string) : string :=
  match fuel with
  | O => acc
  | S f => let acc := String (digitChar (n mod 10)) acc in
           if (n <? 10)%Z then acc else decimal f (n / 10) acc
  end.
Definition intString (n : Z) : string := decimal (S (Z.to_nat (Z.log2 n))) n "".
(* exactly three digits *)
Definition threeDigits (n : Z) : string :=
  String (digitChar (n / 100)) (String (digitChar (n / 10 mod 10)) (String (digitChar (n mod 10)) "")).
Definition fixed3 (q : Z) : string := intString (q / 1000) ++ "." ++ threeDigits (q mod 1000).
Definition format3 (x : float) : string :=
  match x with
  | B754_nan => "nan"
  | B754_infinity s => (if s then "-" else "") ++ "inf"
  | B754_zero s => (if s then "-" else "") ++ "0.000"
  | B754_finite s m e _ => (if s then "-" else "") ++ fixed3 (thousandths m e)
  end.
(* str.rstrip(c) *)
Fixpoint rstrip (c : ascii) (s : string) : string :=
  match s with
  | EmptyString => ""
  | String d r => match rstrip c r with
                  | EmptyString => if Ascii.eqb d c then "" else String d ""
                  | r' => String d r'
                  end
  end.
(* pcb.py:103-104 *)
Definition pretty (x : float) : string := rstrip "." (rstrip "0" (format3 x)).
(* pcb.py:119-122: the text of the label, if any; the degree sign is left out *)
Definition label (angle : float) : option string :=
  let a := pretty angle in if String.eqb a "0" then None else Some ("-" ++ a).
