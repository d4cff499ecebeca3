(** Crossing numbers of a ray: they change along a segment only where the segment meets a side. *)
From Coq Require Import Reals Lra Psatz ZArith List Lia.
From Verif Require Import Num GeoModel GeoSpec EdgeSpecR FaceModel FaceSpec FaceSpecR FaceCover.
Import ListNotations.
Open Scope R_scope.

(* two segments without a common point, in general position: one of them is on one side of the line of the other *)
Definition disj (u v p q : pt) : Prop := 0 < side u v p * side u v q \/ 0 < side p q u * side p q v.
Lemma disj_sym u v p q : disj u v p q -> disj p q u v.
Proof. unfold disj. tauto. Qed.
Lemma disj_swap u v p q : disj u v p q -> disj v u p q.
Proof. unfold disj. intros [H|H]; [left|right]; [rewrite (side_sym u v p), (side_sym u v q)|]; nra. Qed.
Lemma disj_swap2 u v p q : disj u v p q -> disj u v q p.
Proof. intros H. apply disj_sym, disj_swap, disj_sym, H. Qed.

Lemma four_lin u v p q : side u v p - side u v q + side p q u - side p q v = 0.
Proof. unfold side. ring. Qed.
Lemma four_y u v p q : side p q v * Y u - side p q u * Y v = side u v p * Y q - side u v q * Y p.
Proof. unfold side. ring. Qed.

(* is w in the strip to the right of the segment p-q *)
Definition strip (p q w : pt) : BinNums.Z :=
  if Rlt_dec (Y p) (Y w) then (if Rle_dec (Y w) (Y q) then (if Rlt_dec (side p q w) 0 then 1 else 0)%Z else 0%Z) else 0%Z.

Lemma cross_LH u v p q : Y p <= Y q -> disj u v p q -> Y u <= Y p -> Y q < Y v -> (0 < side u v p <-> 0 < side u v q).
Proof.
  intros H D A B. pose proof (four_lin u v p q) as E1. pose proof (four_y u v p q) as E2. unfold disj in D.
  set (a := side u v p) in *. set (b := side u v q) in *. set (c := side p q u) in *. set (d := side p q v) in *.
  split; intros K; destruct D as [D|D]; try nra.
  - destruct (Rlt_dec 0 b) as [|N]; [assumption|]. exfalso. assert (a - b = d - c) by lra. assert (0 < d - c) by lra.
    destruct (Rlt_dec 0 c) as [P|P].
    + assert (0 < d) by nra. assert (c * (Y v - Y u) > 0) by nra. nra.
    + assert (c < 0) by nra. assert (d < 0) by nra. assert (d * (Y v - Y u) < 0) by nra. nra.
  - destruct (Rlt_dec 0 a) as [|N]; [assumption|]. exfalso. assert (a - b = d - c) by lra. assert (d - c < 0) by lra.
    destruct (Rlt_dec 0 c) as [P|P].
    + assert (0 < d) by nra. assert (d * (Y v - Y u) > 0) by nra. nra.
    + assert (c < 0) by nra. assert (d < 0) by nra. assert (c * (Y v - Y u) < 0) by nra. nra.
Qed.
Lemma cross_MM u v p q : disj u v p q -> Y p < Y u <= Y q -> Y p < Y v <= Y q -> (side p q u < 0 <-> side p q v < 0).
Proof.
  intros D A B. pose proof (four_lin u v p q) as E1. pose proof (four_y u v p q) as E2. unfold disj in D.
  set (a := side u v p) in *. set (b := side u v q) in *. set (c := side p q u) in *. set (d := side p q v) in *.
  split; intros K; destruct D as [D|D]; try nra.
  - destruct (Rlt_dec d 0) as [|N]; [assumption|]. exfalso. assert (a - b = d - c) by lra. assert (0 < d - c) by lra.
    destruct (Rlt_dec 0 a) as [P|P]; [assert (0 < b) by nra|assert (a < 0) by nra; assert (b < 0) by nra]; nra.
  - destruct (Rlt_dec c 0) as [|N]; [assumption|]. exfalso. assert (a - b = d - c) by lra. assert (d - c < 0) by lra.
    destruct (Rlt_dec 0 a) as [P|P]; [assert (0 < b) by nra|assert (a < 0) by nra; assert (b < 0) by nra]; nra.
Qed.
(* the same without one of the four numbers *)
Lemma four_d u v p q : side p q v * (Y u - Y v) = side u v p * (Y q - Y v) + side u v q * (Y v - Y p).
Proof. unfold side. ring. Qed.
Lemma four_a u v p q : side p q v * (Y u - Y p) - side p q u * (Y v - Y p) = side u v p * (Y q - Y p).
Proof. unfold side. ring. Qed.
Lemma four_b u v p q : side p q v * (Y u - Y q) - side p q u * (Y v - Y q) = side u v q * (Y q - Y p).
Proof. unfold side. ring. Qed.
Lemma four_c u v p q : side p q u * (Y u - Y v) = side u v p * (Y q - Y u) + side u v q * (Y u - Y p).
Proof. unfold side. ring. Qed.
Lemma pp_nn a b : 0 < a * b -> (0 < a /\ 0 < b) \/ (a < 0 /\ b < 0).
Proof. intros H. destruct (Rlt_dec 0 a) as [A|A]; [left; split; [exact A|nra]|right]. assert (a <> 0) by (intros ->; lra). assert (a < 0) by lra. split; [assumption|nra]. Qed.
Lemma cross_LM u v p q : disj u v p q -> Y u <= Y p -> Y p < Y v <= Y q -> (0 < side u v p <-> side p q v < 0).
Proof.
  intros D A B. pose proof (four_d u v p q) as E1. pose proof (four_a u v p q) as E2. unfold disj in D.
  set (a := side u v p) in *. set (b := side u v q) in *. set (c := side p q u) in *. set (d := side p q v) in *.
  split; intros K; destruct D as [D|D]; apply pp_nn in D; destruct D as [[D1 D2]|[D1 D2]]; try lra.
  - destruct (Rlt_dec d 0) as [|N]; [assumption|]. exfalso.
    assert (0 <= d * (Y v - Y u)) by (apply Rmult_le_pos; lra). assert (0 <= a * (Y q - Y v)) by (apply Rmult_le_pos; lra). assert (0 < b * (Y v - Y p)) by (apply Rmult_lt_0_compat; lra). lra.
  - exfalso. assert (0 <= d * (Y p - Y u)) by (apply Rmult_le_pos; lra). assert (0 < c * (Y v - Y p)) by (apply Rmult_lt_0_compat; lra). assert (0 < a * (Y q - Y p)) by (apply Rmult_lt_0_compat; lra). lra.
  - exfalso. assert (0 < - d * (Y v - Y u)) by (apply Rmult_lt_0_compat; lra). assert (0 <= - a * (Y q - Y v)) by (apply Rmult_le_pos; lra). assert (0 < - b * (Y v - Y p)) by (apply Rmult_lt_0_compat; lra). lra.
  - destruct (Rlt_dec 0 a) as [|N]; [assumption|]. exfalso.
    assert (0 <= - d * (Y p - Y u)) by (apply Rmult_le_pos; lra). assert (0 < - c * (Y v - Y p)) by (apply Rmult_lt_0_compat; lra). assert (0 <= - a * (Y q - Y p)) by (apply Rmult_le_pos; lra). lra.
Qed.
Lemma cross_MH u v p q : disj u v p q -> Y p < Y u <= Y q -> Y q < Y v -> (0 < side u v q <-> side p q u < 0).
Proof.
  intros D A B. pose proof (four_c u v p q) as E1. pose proof (four_b u v p q) as E2. unfold disj in D.
  set (a := side u v p) in *. set (b := side u v q) in *. set (c := side p q u) in *. set (d := side p q v) in *.
  split; intros K; destruct D as [D|D]; apply pp_nn in D; destruct D as [[D1 D2]|[D1 D2]]; try lra.
  - destruct (Rlt_dec c 0) as [|N]; [assumption|]. exfalso.
    assert (0 <= c * (Y v - Y u)) by (apply Rmult_le_pos; lra). assert (0 <= a * (Y q - Y u)) by (apply Rmult_le_pos; lra). assert (0 < b * (Y u - Y p)) by (apply Rmult_lt_0_compat; lra). lra.
  - exfalso. assert (0 <= d * (Y q - Y u)) by (apply Rmult_le_pos; lra). assert (0 < c * (Y v - Y q)) by (apply Rmult_lt_0_compat; lra). assert (0 < b * (Y q - Y p)) by (apply Rmult_lt_0_compat; lra). lra.
  - exfalso. assert (0 < - c * (Y v - Y u)) by (apply Rmult_lt_0_compat; lra). assert (0 <= - a * (Y q - Y u)) by (apply Rmult_le_pos; lra). assert (0 < - b * (Y u - Y p)) by (apply Rmult_lt_0_compat; lra). lra.
  - destruct (Rlt_dec 0 b) as [|N]; [assumption|]. exfalso.
    assert (0 <= - d * (Y q - Y u)) by (apply Rmult_le_pos; lra). assert (0 < - c * (Y v - Y q)) by (apply Rmult_lt_0_compat; lra). assert (0 <= - b * (Y q - Y p)) by (apply Rmult_le_pos; lra). lra.
Qed.
Lemma crossing_up x u v : Y u <= Y x -> Y x < Y v -> crossing x u v = (if Rlt_dec 0 (side u v x) then 1 else 0)%Z.
Proof. intros A B. unfold crossing. destruct (Rle_dec (Y u) (Y x)); [|lra]. destruct (Rlt_dec (Y x) (Y v)); [|lra]. reflexivity. Qed.
Lemma crossing_none x u v : (Y u <= Y x /\ Y v <= Y x) \/ (Y x < Y u /\ Y x < Y v) -> crossing x u v = 0%Z.
Proof.
  intros H. unfold crossing. destruct (Rle_dec (Y u) (Y x)); destruct (Rle_dec (Y v) (Y x)); destruct (Rlt_dec (Y x) (Y v)); try reflexivity; lra.
Qed.
Lemma strip_in p q w : Y p < Y w <= Y q -> strip p q w = (if Rlt_dec (side p q w) 0 then 1 else 0)%Z.
Proof. intros [A B]. unfold strip. destruct (Rlt_dec (Y p) (Y w)); [|lra]. destruct (Rle_dec (Y w) (Y q)); [|lra]. reflexivity. Qed.
Lemma strip_out p q w : Y w <= Y p \/ Y q < Y w -> strip p q w = 0%Z.
Proof. intros A. unfold strip. destruct (Rlt_dec (Y p) (Y w)); [|reflexivity]. destruct (Rle_dec (Y w) (Y q)); [lra|reflexivity]. Qed.
Ltac sames := repeat match goal with |- context [Rlt_dec ?a ?b] => destruct (Rlt_dec a b) end; try reflexivity; try lia; exfalso; tauto.
Lemma four_points_up u v p q : Y p <= Y q -> disj u v p q -> Y u <= Y v -> (crossing p u v - crossing q u v = strip p q v - strip p q u)%Z.
Proof.
  intros H D L.
  destruct (Rle_dec (Y u) (Y p)) as [UL|UL]; destruct (Rle_dec (Y v) (Y p)) as [VL|VL]; destruct (Rle_dec (Y u) (Y q)) as [UH|UH]; destruct (Rle_dec (Y v) (Y q)) as [VH|VH]; try lra.
  - rewrite (crossing_none p), (crossing_none q), !strip_out by lra. reflexivity.
  - pose proof (cross_LM u v p q D ltac:(lra) ltac:(lra)) as E. rewrite crossing_up by lra. rewrite (crossing_none q) by lra. rewrite (strip_out p q u) by lra. rewrite strip_in by lra. sames.
  - pose proof (cross_LH u v p q H D ltac:(lra) ltac:(lra)) as E. rewrite !crossing_up by lra. rewrite !strip_out by lra. sames.
  - pose proof (cross_MM u v p q D ltac:(lra) ltac:(lra)) as E. rewrite (crossing_none p), (crossing_none q) by lra. rewrite !strip_in by lra. sames.
  - pose proof (cross_MH u v p q D ltac:(lra) ltac:(lra)) as E. rewrite (crossing_none p) by lra. rewrite crossing_up by lra. rewrite (strip_out p q v) by lra. rewrite strip_in by lra. sames.
  - rewrite (crossing_none p), (crossing_none q), !strip_out by lra. reflexivity.
Qed.
Lemma four_points u v p q : Y p <= Y q -> disj u v p q -> (crossing p u v - crossing q u v = strip p q v - strip p q u)%Z.
Proof.
  intros H D. destruct (Rle_dec (Y u) (Y v)) as [L|L]; [apply four_points_up; assumption|].
  pose proof (four_points_up v u p q H (disj_swap _ _ _ _ D) ltac:(lra)). rewrite (crossing_anti p u v), (crossing_anti q u v). lia.
Qed.
