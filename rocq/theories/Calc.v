(** Another computable instance of the number operations: binary fixed point
    numbers with forty digits after the point and working trigonometric functions (Taylor
    series).  Used ONLY in Examples, to run the models of the part constructors on
    concrete settings.  No theorem is about this instance. *)
From Coq Require Import ZArith List Bool.
From Verif Require Import Num.
Import ListNotations.
Open Scope Z_scope.
Definition fone : Z := 1099511627776.
Definition fmul (a b : Z) : Z := Z.shiftr (a * b) 40.
Definition fdiv (a b : Z) : Z := Z.shiftl a 40 / b.
Definition fsqrt (a : Z) : Z := Z.sqrt (Z.shiftl a 40).
Definition fpi : Z := 3454217652358.
(* x - x^3/3! + ..., starting from the k-th term *)
Fixpoint taylor (n : nat) (x2 term k : Z) : Z :=
  match n with
  | O => 0
  | S n => term + taylor n x2 (- (fmul term x2) / (k * (k + 1))) (k + 2)
  end.
Definition freduce (x : Z) : Z := let r := (x + fpi) mod (2 * fpi) in r - fpi.
Definition fsin (x : Z) : Z := let r := freduce x in taylor 16 (fmul r r) r 2.
Definition fcos (x : Z) : Z := let r := freduce x in taylor 16 (fmul r r) fone 1.
Definition ftan (x : Z) : Z := fdiv (fsin x) (fcos x).
Fixpoint atan_series (n : nat) (x2 term k : Z) : Z :=
  match n with
  | O => 0
  | S n => term / k + atan_series n x2 (- (fmul term x2)) (k + 2)
  end.
Definition fhalve (x : Z) : Z := fdiv x (fone + fsqrt (fone + fmul x x)).
(* 0 <= x <= 1 *)
Definition fatan (x : Z) : Z := let y := fhalve (fhalve (fhalve x)) in 8 * atan_series 12 (fmul y y) y 1.
Definition fatan2 (y x : Z) : Z :=
  let ax := Z.abs x in let ay := Z.abs y in
  let r := if (ax =? 0) && (ay =? 0) then 0
           else if ay <=? ax then fatan (fdiv ay ax) else fpi / 2 - fatan (fdiv ax ay) in
  let r := if x <? 0 then fpi - r else r in
  if y <? 0 then - r else r.
Definition facos (x : Z) : Z := fatan2 (fsqrt (Z.max 0 (fone - fmul x x))) x.
Definition Calc : Num := {|
  num := Z; nZ := fun z => z * fone; nQ := fun p q => p * fone / q;
  nadd := Z.add; nsub := Z.sub; nmul := fmul; nopp := Z.opp; nabs := Z.abs; ndiv := fdiv;
  nsqrt := fsqrt; nltb := Z.ltb; nleb := Z.leb; neqb := Z.eqb;
  nsin := fsin; ncos := fcos; ntan := ftan; nacos := facos;
  natan2 := fatan2; npi := fpi; nceil := fun z => - (- z / fone) |}.
(* the working precision *)
