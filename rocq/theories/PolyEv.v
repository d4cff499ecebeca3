(** Statements that hold for all small positive numbers. *)
From Coq Require Import Reals Lra Psatz List.
Import ListNotations.
Open Scope R_scope.

Definition Ev (A : R -> Prop) : Prop := exists d, 0 < d /\ forall t, 0 < t < d -> A t.
Lemma Ev_mono (A B : R -> Prop) : (forall t, 0 < t -> A t -> B t) -> Ev A -> Ev B.
Proof. intros H (d & D & K). exists d. split; [exact D|]. intros t T. apply H; [lra|]. apply K, T. Qed.
Lemma Ev_and A B : Ev A -> Ev B -> Ev (fun t => A t /\ B t).
Proof.
  intros (d & D & K) (e & E & L). exists (Rmin d e). split; [apply Rmin_glb_lt; assumption|].
  intros t (T & U). pose proof (Rmin_l d e). pose proof (Rmin_r d e). split; [apply K|apply L]; lra.
Qed.
Lemma Ev_true (A : R -> Prop) : (forall t, 0 < t -> A t) -> Ev A.
Proof. intros H. exists 1. split; [lra|]. intros t T. apply H. lra. Qed.
Lemma Ev_all {T} (l : list T) (A : T -> R -> Prop) : (forall x, In x l -> Ev (A x)) -> Ev (fun t => forall x, In x l -> A x t).
Proof.
  induction l as [|x l IH]; intros H; [apply Ev_true; intros t _ x []|].
  refine (Ev_mono _ _ _ (Ev_and _ _ (H x (or_introl eq_refl)) (IH (fun y Hy => H y (or_intror Hy))))).
  intros t _ (P & Q) y [<-|Hy]; auto.
Qed.
Lemma Ev_ex A : Ev A -> exists t, 0 < t /\ A t.
Proof. intros (d & D & K). exists (d / 2). split; [lra|]. apply K. lra. Qed.
Lemma Ev_or_l (A B : R -> Prop) : Ev A -> Ev (fun t => A t \/ B t).
Proof. apply Ev_mono. auto. Qed.
Lemma Ev_or_r (A B : R -> Prop) : Ev B -> Ev (fun t => A t \/ B t).
Proof. apply Ev_mono. auto. Qed.
Lemma Ev_lt d : 0 < d -> Ev (fun t => t < d).
Proof. intros D. exists d. split; [exact D|]. intros t T. lra. Qed.
Lemma Ev_quad a b c : 0 < a -> Ev (fun t => 0 < a + b * t + c * (t * t)).
Proof.
  intros A. pose proof (Rabs_pos b). pose proof (Rabs_pos c). set (k := Rabs b + Rabs c + 1).
  exists (Rmin 1 (a / k)). assert (K : 0 < k) by (unfold k; lra). split; [apply Rmin_glb_lt; [lra|apply Rdiv_lt_0_compat; lra]|].
  intros t (T & U). pose proof (Rmin_l 1 (a / k)). pose proof (Rmin_r 1 (a / k)).
  assert (TK : t * k < a). { apply Rmult_lt_reg_r with (/ k); [apply Rinv_0_lt_compat, K|]. rewrite Rmult_assoc, Rinv_r by lra. rewrite Rmult_1_r. unfold Rdiv in *. lra. }
  assert (B : - (Rabs b * t) <= b * t). { assert (- Rabs b <= b) by (pose proof (Rle_abs (- b)); rewrite Rabs_Ropp in *; lra). nra. }
  assert (C : - (Rabs c * t) <= c * (t * t)). { assert (- Rabs c <= c) by (pose proof (Rle_abs (- c)); rewrite Rabs_Ropp in *; lra). assert (t * t <= t) by nra. nra. }
  unfold k in TK. nra.
Qed.
Lemma Ev_lin a b : 0 < a -> Ev (fun t => 0 < a + b * t).
Proof. intros A. apply (Ev_mono (fun t => 0 < a + b * t + 0 * (t * t))); [intros; lra|]. apply Ev_quad, A. Qed.
(* a function that agrees with a polynomial *)
Lemma Ev_fun (f : R -> R) a b c : (forall t, f t = a + b * t + c * (t * t)) -> 0 < a -> Ev (fun t => 0 < f t).
Proof. intros E A. apply (Ev_mono (fun t => 0 < a + b * t + c * (t * t))); [intros; rewrite E; assumption|]. apply Ev_quad, A. Qed.
(* t = the constant part vanishes: the linear part decides *)
Lemma Ev_fun1 (f : R -> R) b c : (forall t, f t = b * t + c * (t * t)) -> 0 < b -> Ev (fun t => 0 < f t).
Proof.
  intros E B. apply (Ev_mono (fun t => 0 < b + c * t)); [|apply Ev_lin, B].
  intros t T H. rewrite E. replace (b * t + c * (t * t)) with (t * (b + c * t)) by ring. apply Rmult_lt_0_compat; assumption.
Qed.
(* a number outside a finite list, in an interval *)
Lemma avoid (l : list R) lo hi : lo < hi -> exists x, lo < x < hi /\ ~ In x l.
Proof.
  revert lo hi. induction l as [|y l IH]; intros lo hi H; [exists ((lo + hi) / 2); split; [lra|intros []]|].
  destruct (Rlt_dec lo y) as [L|L].
  - destruct (IH lo (Rmin y hi)) as (x & B & N); [apply Rmin_glb_lt; assumption|]. pose proof (Rmin_l y hi). pose proof (Rmin_r y hi).
    exists x. split; [lra|]. intros [->|I]; [lra|auto].
  - destruct (IH lo hi H) as (x & B & N). exists x. split; [exact B|]. intros [->|I]; [lra|auto].
Qed.
