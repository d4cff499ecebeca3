(** The whole of _naiveOffset2D. *)
From Coq Require Import Reals Lra Psatz ZArith List Bool Arith Lia.
From Verif Require Import Num GeoModel EdgeModel GeoSpec GeoMat GeoFig GeoCirc EdgeSpecR EdgeReal ArcModel FloorModel PolySpec OffSpec OffProof OffExact OffCut OffLoop.
Import ListNotations.
Open Scope R_scope.

(** ** connect leaves a chain as it is *)
Lemma update_id {A} (f : A -> A) d l : forall i, f (nth i l d) = nth i l d -> update i f l = l.
Proof. induction l as [|x l IH]; intros [|i] H; cbn in *; try reflexivity; [rewrite H; reflexivity|rewrite IH by exact H; reflexivity]. Qed.
Lemma mid2_same p : mid2 p p = p.
Proof. apply pt_ext; destruct p as [x y z]; unfold mid2, X, Y, Z; cbn; lra. Qed.
Lemma connectStep_id l i : chain l -> flats l -> (i < length l)%nat -> connectStep (length l) l i = Ok l.
Proof.
  intros CH FL Hi. destruct (connectStep_ok (length l) l i) as (m & EI & E). rewrite E. f_equal. pose proof (CH i Hi) as C. clear E.
  set (s0 := nth (prevn (length l) i) l seg0) in *. set (s1 := nth i l seg0) in *.
  assert (EM : match m with Some p => p | None => mid2 (sb s0) (sa s1) end = sa s1).
  { destruct m as [v|]; [|rewrite <- C; apply mid2_same].
    destruct (sintersect2D_spec s0 s1 2) as [[_ E]|[_ [(w & E & Zw & _ & _ & U)|[E _]]]]; rewrite E in EI; apply Ok_inj in EI; try discriminate.
    assert (Q : w = v) by congruence. subst w. destruct (U (sa s1)) as [A B].
    - exists 1. rewrite C. split; [change (X (sb s0) = X (sa s0) + 1 * (X (sb s0) - X (sa s0)))|change (Y (sb s0) = Y (sa s0) + 1 * (Y (sb s0) - Y (sa s0)))]; ring.
    - exists 0. split; [change (X (sa s1) = X (sa s1) + 0 * (X (sb s1) - X (sa s1)))|change (Y (sa s1) = Y (sa s1) + 0 * (Y (sb s1) - Y (sa s1)))]; ring.
    - symmetry. apply pt_ext; try assumption. rewrite Zw. apply (FL i Hi). }
  rewrite EM. rewrite (update_id _ seg0 l (prevn (length l) i)).
  - apply (update_id _ seg0). fold s1. destruct s1; reflexivity.
  - fold s0. rewrite C. destruct s0; reflexivity.
Qed.
Lemma connect_id l : chain l -> flats l -> connect l = Ok l.
Proof.
  intros CH FL. unfold connect. assert (K : forall js, (forall j, In j js -> (j < length l)%nat) -> foldM (connectStep (length l)) l js = Ok l).
  { induction js as [|j js IH]; intros H; cbn [foldM]; [reflexivity|]. rewrite connectStep_id by (try assumption; apply H; cbn; auto). cbn [bind]. apply IH. intros x Hx. apply H. cbn. auto. }
  apply K. intros j Hj. apply in_seq in Hj. lia.
Qed.
(** ** rotations *)
Lemma rotate_length {A} i (l : list A) : length (rotate i l) = length l.
Proof. unfold rotate. rewrite app_length, Nat.add_comm, <- app_length, firstn_skipn. reflexivity. Qed.
Definition around (n i j : nat) : nat := if (i + j <? n)%nat then (i + j)%nat else (i + j - n)%nat.
Lemma nth_skip {A} (d : A) l : forall i j, nth j (skipn i l) d = nth (i + j) l d.
Proof. induction l as [|x l IH]; intros [|i] j; cbn; try reflexivity; [destruct j; reflexivity|apply IH]. Qed.
Lemma rotate_nth {A} (d : A) i l j : (i <= length l)%nat -> (j < length l)%nat -> nth j (rotate i l) d = nth (around (length l) i j) l d.
Proof.
  intros Hi Hj. unfold rotate, around. destruct (Nat.ltb_spec (i + j) (length l)).
  - rewrite app_nth1 by (rewrite skipn_length; lia). apply nth_skip.
  - rewrite app_nth2; rewrite skipn_length; [|lia]. transitivity (nth (i + j - length l) (firstn i l ++ skipn i l) d); [|rewrite firstn_skipn; reflexivity]. rewrite app_nth1 by (rewrite firstn_length_le by lia; lia). f_equal. lia.
Qed.
Lemma around_lt n i j : (i <= n)%nat -> (j < n)%nat -> (around n i j < n)%nat.
Proof. unfold around. destruct (Nat.ltb_spec (i + j) n); lia. Qed.
Lemma rotate_chain i l : (i <= length l)%nat -> chain l -> chain (rotate i l).
Proof.
  intros Hi CH j Hj. rewrite rotate_length in *. assert (PJ : (prevn (length l) j < length l)%nat) by (unfold prevn; destruct j; lia).
  rewrite !rotate_nth by assumption.
  replace (around (length l) i (prevn (length l) j)) with (prevn (length l) (around (length l) i j)); [apply CH, around_lt; assumption|].
  unfold around, prevn. destruct j as [|j].
  - rewrite Nat.add_0_r. destruct (Nat.ltb_spec i (length l)); destruct (Nat.ltb_spec (i + (length l - 1)) (length l)); destruct i; try lia; destruct (S i - length l)%nat eqn:Q; lia.
  - destruct (Nat.ltb_spec (i + S j) (length l)); destruct (Nat.ltb_spec (i + j) (length l)); try lia.
    + rewrite Nat.add_succ_r. reflexivity.
    + destruct (i + S j - length l)%nat eqn:Q; lia.
    + destruct (i + S j - length l)%nat eqn:Q; lia.
Qed.
Lemma rotate_flats i l : (i <= length l)%nat -> flats l -> flats (rotate i l).
Proof. intros Hi FL j Hj. rewrite rotate_length in Hj. rewrite rotate_nth by assumption. apply FL, around_lt; assumption. Qed.
Lemma startIndex_ok segments lim : forall offset i, exists k, startIndex segments offset lim i = Ok k /\ (k < i + length offset \/ k = 0)%nat.
Proof.
  assert (TC : forall v, exists b, tooClose segments v lim = Ok b).
  { intros v. induction segments as [|s r IH]; cbn; [eauto|]. destruct (sdistance2D_spec s v) as (x & E & _). rewrite E. cbn [bind]. match goal with |- context [if ?c then _ else _] => destruct c end; eauto. }
  induction offset as [|s r IH]; intros i; cbn [startIndex]; [exists O; auto|]. destruct (TC (sa s)) as (b & E). rewrite E. cbn [bind]. destruct b.
  - destruct (IH (S i)) as (k & E2 & H). exists k. split; [exact E2|]. cbn [length]. lia.
  - exists i. split; [reflexivity|]. cbn [length]. lia.
Qed.
Lemma minList_ok (x : R) l0 : exists d, minList (N := Rnum) (x :: l0) = Ok d /\ In d (x :: l0) /\ forall y, In y (x :: l0) -> d <= y.
Proof.
  cbn [minList]. eexists. split; [reflexivity|]. revert x. induction l0 as [|y l0 IH]; intros x; cbn [fold_left].
  - split; [cbn; auto|]. intros y [->|[]]. lra.
  - destruct (IH (pmin (N := Rnum) x y)) as [I M]. assert (PM : pmin (N := Rnum) x y <= x /\ pmin (N := Rnum) x y <= y /\ (pmin (N := Rnum) x y = x \/ pmin (N := Rnum) x y = y)).
    { unfold pmin. destruct (nltb (Num := Rnum) y x) eqn:C; [change (Rltb y x = true) in C; apply Rltb_true in C|change (Rltb y x = false) in C; apply Rltb_false in C]; lra. }
    destruct PM as (P1 & P2 & P3). split.
    + destruct I as [I|I]; [|cbn; auto]. rewrite <- I. destruct P3 as [E|E]; rewrite E; cbn; auto.
    + intros z [<-|[<-|Hz]]; [specialize (M _ (or_introl eq_refl)); lra|specialize (M _ (or_introl eq_refl)); lra|apply M; cbn; auto].
Qed.
Lemma indexOf_ok (x : R) : forall l i, In x l -> exists k, indexOf (N := Rnum) x l i = Ok (i + k)%nat /\ (k < length l)%nat /\ nth k l 0 = x.
Proof.
  induction l as [|y l IH]; intros i H; [destruct H|]. cbn [indexOf]. destruct (neqb (Num := Rnum) y x) eqn:C.
  - change (Reqb y x = true) in C. apply Reqb_true in C. exists O. rewrite Nat.add_0_r. cbn. repeat split; [lia|exact C].
  - assert (N : y <> x). { intros E. subst y. change (Reqb x x = false) in C. pose proof (proj2 (Reqb_true x x) eq_refl). congruence. }
    destruct H as [H|H]; [contradiction|]. destruct (IH (S i) H) as (k & E & L & Q). exists (S k). rewrite E. cbn. repeat split; [f_equal; lia|lia|exact Q].
Qed.
(* the last steps: start at the vertex nearest to e0 *)
Lemma last_steps (l : list seg) (e0 : pt) : l <> [] ->
  exists k m, minList (map (fun s => vmag2 (vsub (sa s) e0)) l) = Ok m /\ indexOf m (map (fun s => vmag2 (vsub (sa s) e0)) l) 0 = Ok k /\ (k < length l)%nat /\
    forall p, In p (map sa l) -> sq (sa (nth k l seg0)) e0 <= sq p e0.
Proof.
  intros NE. destruct l as [|s r]; [contradiction|]. set (f := fun s : seg => vmag2 (vsub (sa s) e0)).
  destruct (minList_ok (f s) (map f r)) as (d & E & I & M). destruct (indexOf_ok d (map f (s :: r)) 0 I) as (k & E2 & L & Q).
  exists k, d. split; [exact E|]. split; [exact E2|]. rewrite map_length in L. split; [exact L|]. intros p Hp. apply in_map_iff in Hp. destruct Hp as (x & <- & Hx).
  change (sq (sa x) e0) with (f x). change (sq (sa (nth k (s :: r) seg0)) e0) with (f (nth k (s :: r) seg0)).
  rewrite <- (map_nth f). rewrite (nth_indep _ _ 0) by (rewrite map_length; exact L). rewrite Q. apply M. apply (in_map f _ _ Hx).
Qed.
