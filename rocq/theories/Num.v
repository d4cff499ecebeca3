(** Numbers used by the Python code of /repo/body.

    The Python program computes with floats.  The model is generic in a record
    of number operations WITHOUT any laws: every theorem about meshes (which
    points are used, which directed edges cancel, termination) is proved for
    arbitrary operations, hence also for IEEE floats with rounding and NaN.
    The theorems about distances, angles and positions are proved for the
    instance [Rnum], Coq's real numbers; rounding is not modelled there. *)
From Coq Require Import Reals Lra ZArith List Bool.
Import ListNotations.

Class Num := {
  num : Type;
  nZ : Z -> num;                    (* int literals *)
  nQ : Z -> Z -> num;               (* decimal literals p/q *)
  nadd : num -> num -> num;
  nsub : num -> num -> num;
  nmul : num -> num -> num;
  nopp : num -> num;
  nabs : num -> num;
  ndiv : num -> num -> num;         (* only called when the divisor is not == 0 *)
  nsqrt : num -> num;               (* x**0.5 *)
  nltb : num -> num -> bool;
  nleb : num -> num -> bool;
  neqb : num -> num -> bool;
  nsin : num -> num; ncos : num -> num; ntan : num -> num;
  nacos : num -> num; natan2 : num -> num -> num; npi : num;
  nceil : num -> Z                  (* math.ceil *)
}.

(* A Python computation either returns or raises.  Which exception is raised
   is recorded only as a tag. *)
Inductive exn := ZeroDivision | TypeErr | ValueErr | IndexErr | KeyErr | AttrErr | AssertErr | ChrummErr | OutOfFuel.
Inductive res (A : Type) := Ok (a : A) | Err (e : exn).
Arguments Ok {A}. Arguments Err {A}.
Definition bind {A B} (r : res A) (k : A -> res B) : res B :=
  match r with Ok a => k a | Err e => Err e end.
Definition rmap {A B} (f : A -> B) (r : res A) : res B :=
  match r with Ok a => Ok (f a) | Err e => Err e end.
Notation "x <- e ;; k" := (bind e (fun x => k)) (at level 60, e at next level, right associativity).

(* run a fallible step on every element, left to right *)
Fixpoint mapM {A B} (f : A -> res B) (l : list A) : res (list B) :=
  match l with
  | [] => Ok []
  | x :: r => y <- f x ;; ys <- mapM f r ;; Ok (y :: ys)
  end.

Declare Scope num_scope.
Delimit Scope num_scope with num.
Notation "x + y" := (nadd x y) : num_scope.
Notation "x - y" := (nsub x y) : num_scope.
Notation "x * y" := (nmul x y) : num_scope.
Notation "- x" := (nopp x) : num_scope.
Notation "x <? y" := (nltb x y) : num_scope.
Notation "x <=? y" := (nleb x y) : num_scope.
Notation "x =? y" := (neqb x y) : num_scope.

(* Python float division: raises ZeroDivisionError iff the divisor == 0 *)
Definition pdiv {N : Num} (x y : num) : res num :=
  if neqb y (nZ 0) then Err ZeroDivision else Ok (ndiv x y).
(* Python min(a, b), max(a, b): the first one wins unless the second is strictly better *)
Definition pmin {N : Num} (a b : num) : num := if nltb b a then b else a.
Definition pmax {N : Num} (a b : num) : num := if nltb a b then b else a.
(* x**0.5: a negative float gives a complex number; modelled as an error *)
Definition psqrt {N : Num} (x : num) : res num :=
  if nltb x (nZ 0) then Err ValueErr else Ok (nsqrt x).

(** ** The real instance *)
Open Scope R_scope.
Definition Rltb (x y : R) : bool := if Rlt_dec x y then true else false.
Definition Rleb (x y : R) : bool := if Rle_dec x y then true else false.
Definition Reqb (x y : R) : bool := if Req_EM_T x y then true else false.

Definition Ratan2 (y x : R) : R :=
  if Rlt_dec 0 x then atan (y / x)
  else if Rlt_dec x 0 then (if Rle_dec 0 y then atan (y / x) + PI else atan (y / x) - PI)
  else if Rlt_dec 0 y then PI / 2 else if Rlt_dec y 0 then - PI / 2 else 0.

Definition Rceil (x : R) : Z := (- Int_part (- x))%Z.

Definition Rnum : Num := {|
  num := R; nZ := IZR; nQ := fun p q => IZR p / IZR q;
  nadd := Rplus; nsub := Rminus; nmul := Rmult; nopp := Ropp; nabs := Rabs; ndiv := Rdiv;
  nsqrt := sqrt; nltb := Rltb; nleb := Rleb; neqb := Reqb;
  nsin := sin; ncos := cos; ntan := tan; nacos := acos; natan2 := Ratan2; npi := PI; nceil := Rceil |}.

Lemma Rltb_true x y : Rltb x y = true <-> x < y.
Proof. unfold Rltb. destruct (Rlt_dec x y); split; intros; auto; discriminate. Qed.
Lemma Rltb_false x y : Rltb x y = false <-> y <= x.
Proof. unfold Rltb. destruct (Rlt_dec x y); split; intros; auto; try discriminate; lra. Qed.
Lemma Rleb_true x y : Rleb x y = true <-> x <= y.
Proof. unfold Rleb. destruct (Rle_dec x y); split; intros; auto; discriminate. Qed.
Lemma Rleb_false x y : Rleb x y = false <-> y < x.
Proof. unfold Rleb. destruct (Rle_dec x y); split; intros; auto; try discriminate; lra. Qed.
Lemma Reqb_true x y : Reqb x y = true <-> x = y.
Proof. unfold Reqb. destruct (Req_EM_T x y); split; intros; auto; discriminate. Qed.
Lemma Reqb_false x y : Reqb x y = false <-> x <> y.
Proof. unfold Reqb. destruct (Req_EM_T x y); split; intros; auto; try discriminate; contradiction. Qed.

Lemma bind_ok {A B} (r : res A) (k : A -> res B) b : bind r k = Ok b <-> exists a, r = Ok a /\ k a = Ok b.
Proof.
  destruct r as [a|e]; cbn; split.
  - intros H; exists a; auto.
  - intros (a' & E & H). injection E as <-. exact H.
  - discriminate.
  - intros (a' & E & _). discriminate.
Qed.

Lemma mapM_ok {A B} (f : A -> res B) l ys :
  mapM f l = Ok ys <-> Forall2 (fun x y => f x = Ok y) l ys.
Proof.
  revert ys; induction l as [|x l IH]; intros ys; cbn.
  - split; [intros H; injection H as <-; constructor|]. intros H; inversion H; reflexivity.
  - rewrite bind_ok. split.
    + intros (y & Hy & H). apply bind_ok in H. destruct H as (ys' & Hys & H). injection H as <-.
      constructor; [exact Hy|]. apply IH. exact Hys.
    + intros H. inversion H as [|? y ? ys' Hy Hys]; subst. exists y. split; [exact Hy|].
      apply IH in Hys. rewrite Hys. reflexivity.
Qed.

Lemma Ok_inj {A} (a b : A) : Ok a = Ok b -> a = b.
Proof. congruence. Qed.
(* like injection, but without reducing the terms *)
Ltac okinv H := apply Ok_inj in H; rewrite <- H in *; clear H.
