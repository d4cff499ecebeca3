(** A computable instance of the number operations, used ONLY in Examples that
    show that the hypotheses of theorems are met and that the model computes:
    integers, with floor division.  No theorem is about this instance. *)
From Coq Require Import ZArith List.
From Verif Require Import Num.
Open Scope Z_scope.
Definition Toy : Num := {|
  num := Z; nZ := fun z => z; nQ := fun p q => if Z.ltb p q then 1 else p / q;
  nadd := Z.add; nsub := Z.sub; nmul := Z.mul; nopp := Z.opp; nabs := Z.abs; ndiv := Z.div;
  nsqrt := Z.sqrt; nltb := Z.ltb; nleb := Z.leb; neqb := Z.eqb;
  nsin := fun _ => 0; ncos := fun _ => 1; ntan := fun _ => 0; nacos := fun _ => 0;
  natan2 := fun _ _ => 0; npi := 3; nceil := fun z => z |}.
(* decimal fixed point numbers with nine digits: close to the floats of the
   program except for the trigonometric functions.  Also used ONLY in Examples. *)
Definition one9 : Z := 1000000000.
Definition Fixp : Num := {|
  num := Z; nZ := fun z => z * one9; nQ := fun p q => p * one9 / q;
  nadd := Z.add; nsub := Z.sub; nmul := fun a b => a * b / one9; nopp := Z.opp; nabs := Z.abs; ndiv := fun a b => a * one9 / b;
  nsqrt := fun a => Z.sqrt (a * one9); nltb := Z.ltb; nleb := Z.leb; neqb := Z.eqb;
  nsin := fun _ => 0; ncos := fun _ => one9; ntan := fun _ => 0; nacos := fun _ => 0;
  natan2 := fun _ _ => 0; npi := 3141592654; nceil := fun z => - (- z / one9) |}.
