(** Edge.fromConvexHull2D over the reals: putting the two chains together. *)
From Coq Require Import Reals Lra Psatz List Bool Arith Lia Sorting.Permutation Sorting.Sorted.
From Verif Require Import Num GeoModel EdgeModel GeoSpec GeoMat GeoFig EdgeSpecR EdgeContains EdgeHull.
Import ListNotations.
Open Scope R_scope.

(** ** strictness along one chain *)
Section OneChain.
Variables (S : pt -> Prop) (L : list pt) (bot top : pt).
Hypothesis C : Chain S L bot top.
Let p (i : nat) : pt := nth i L origin.
Let ux i := X (p (i + 1)) - X (p i).
Let uy i := Y (p (i + 1)) - Y (p i).

Lemma step_turn i : (i + 2 < length L)%nat -> 0 < cr (ux i) (uy i) (ux (i + 1)) (uy (i + 1)).
Proof.
  intros H. pose proof (c_turn _ _ _ _ C i H) as T. unfold cr, ux, uy, side, p in *.
  replace (i + 1 + 1)%nat with (i + 2)%nat by lia. nra.
Qed.
Lemma step_lex i : (i + 1 < length L)%nat -> lexnn (ux i) (uy i).
Proof. intros H. apply le2_lexnn, (c_sorted _ _ _ _ C i H). Qed.
Lemma turn_far i m : (i + m + 2 < length L)%nat -> 0 < cr (ux i) (uy i) (ux (i + m + 1)) (uy (i + m + 1)).
Proof.
  induction m as [|m IH]; intros H.
  - replace (i + 0 + 1)%nat with (i + 1)%nat by lia. apply step_turn. lia.
  - apply (cr_strans _ _ (ux (i + m + 1)) (uy (i + m + 1))); try (apply step_lex; lia); [apply IH; lia|].
    replace (i + Datatypes.S m + 1)%nat with (i + m + 1 + 1)%nat by lia. apply step_turn. lia.
Qed.
Lemma chain_later i m : (i + m + 2 < length L)%nat -> 0 < side (p i) (p (i + 1)) (p (i + m + 2)).
Proof.
  induction m as [|m IH]; intros H.
  - replace (i + 0 + 2)%nat with (i + 2)%nat by lia. apply (c_turn _ _ _ _ C). lia.
  - specialize (IH ltac:(lia)). pose proof (turn_far i (Datatypes.S m) ltac:(lia)) as T.
    unfold cr, ux, uy, side in *.
    replace (i + Datatypes.S m + 1 + 1)%nat with (i + Datatypes.S m + 2)%nat in T by lia.
    replace (i + Datatypes.S m + 1)%nat with (i + m + 2)%nat in T by lia. nra.
Qed.
Lemma chain_earlier i m : (i + m + 2 < length L)%nat -> 0 < side (p (i + m + 1)) (p (i + m + 2)) (p i).
Proof.
  revert i. induction m as [|m IH]; intros i H.
  - pose proof (c_turn _ _ _ _ C i ltac:(lia)) as T. fold (p i) (p (i+1)) (p (i+2)) in T.
    replace (i + 0 + 1)%nat with (i + 1)%nat by lia. replace (i + 0 + 2)%nat with (i + 2)%nat by lia.
    unfold side in *. nra.
  - specialize (IH (i + 1)%nat ltac:(lia)). pose proof (turn_far i (Datatypes.S m) ltac:(lia)) as T.
    unfold cr, ux, uy, side in *.
    replace (i + Datatypes.S m + 1 + 1)%nat with (i + Datatypes.S m + 2)%nat in T by lia.
    replace (i + 1 + m + 1)%nat with (i + Datatypes.S m + 1)%nat in IH by lia.
    replace (i + 1 + m + 2)%nat with (i + Datatypes.S m + 2)%nat in IH by lia. nra.
Qed.
Lemma chain_strict i j : (i + 1 < length L)%nat -> (j < length L)%nat -> j <> i -> j <> (i + 1)%nat ->
  0 < side (p i) (p (i + 1)) (p j).
Proof.
  intros Hi Hj N1 N2. destruct (Nat.lt_ge_cases j i) as [H|H].
  - pose proof (chain_earlier j (i - j - 1) ltac:(lia)) as K.
    replace (j + (i - j - 1) + 1)%nat with i in K by lia. replace (j + (i - j - 1) + 2)%nat with (i + 1)%nat in K by lia. exact K.
  - pose proof (chain_later i (j - i - 2) ltac:(lia)) as K.
    replace (i + (j - i - 2) + 2)%nat with j in K by lia. exact K.
Qed.
Lemma chain_lt i m : (i + m < length L)%nat -> le2 (p i) (p (i + m)).
Proof.
  induction m as [|m IH]; intros H; [rewrite Nat.add_0_r; apply le2_refl|].
  eapply le2_trans; [apply IH; lia|]. replace (i + Datatypes.S m)%nat with (i + m + 1)%nat by lia. apply (c_sorted _ _ _ _ C). lia.
Qed.
End OneChain.

(* an inner vertex r of the one chain is strictly left of every edge p->q of the other *)
Lemma inner_strict (p q r0 r r1 : pt) : le2 p q -> (X p <> X q \/ Y p <> Y q) -> le2 r1 r -> le2 r r0 ->
  0 < side r0 r r1 -> 0 <= side p q r -> 0 <= side p q r0 -> 0 <= side p q r1 ->
  0 <= side r0 r p -> 0 <= side r0 r q -> 0 <= side r r1 p -> 0 <= side r r1 q -> 0 < side p q r.
Proof.
  intros Lpq D L1 L0 T H H0 H1 A0 A1 B0 B1. destruct (Rle_lt_or_eq_dec _ _ H) as [Q|Q]; [exact Q|exfalso].
  apply le2_lexnn in Lpq. apply le2_lexnn in L1. apply le2_lexnn in L0.
  unfold side in *. 
  set (dx := X q - X p) in *. set (dy := Y q - Y p) in *.
  set (ex := X r - X r1) in *. set (ey := Y r - Y r1) in *.   (* - e+ *)
  set (fx := X r0 - X r) in *. set (fy := Y r0 - Y r) in *.   (* - e- *)
  set (wx := X p - X r) in *. set (wy := Y p - Y r) in *.
  assert (W : dx * wy - dy * wx = 0) by (unfold wx, wy, dx, dy in *; nra).
  assert (T' : 0 < fx * ey - fy * ex) by (unfold fx, fy, ex, ey in *; nra).
  assert (H0' : 0 <= dx * fy - dy * fx) by (unfold wx, wy, dx, dy, fx, fy in *; nra).
  assert (H1' : 0 <= - (dx * ey - dy * ex)) by (unfold wx, wy, dx, dy, ex, ey in *; nra).
  assert (A0' : 0 <= - (fx * wy - fy * wx)) by (unfold wx, wy, fx, fy in *; nra).
  assert (A1' : 0 <= - (fx * (wy + dy) - fy * (wx + dx))) by (unfold wx, wy, dx, dy, fx, fy in *; nra).
  assert (B0' : 0 <= - (ex * wy - ey * wx)) by (unfold wx, wy, ex, ey in *; nra).
  assert (B1' : 0 <= - (ex * (wy + dy) - ey * (wx + dx))) by (unfold wx, wy, dx, dy, ex, ey in *; nra).
  assert (D' : dx <> 0 \/ dy <> 0) by (unfold dx, dy; lra).
  clear - Lpq L1 L0 W T' H0' H1' A0' A1' B0' B1' D'. unfold lexnn in *.
  (* d x f >= 0, e x d >= 0 and f x e > 0 with all lex-nonnegative *)
  assert (K : 0 < cr fx fy ex ey) by (unfold cr; nra).
  assert (K2 : 0 <= cr ex ey fx fy).
  { apply (cr_trans ex ey dx dy fx fy); auto; unfold lexnn, cr; auto; nra. }
  unfold cr in *. nra.
Qed.

(** ** sorting *)
Definition flat (p : pt) : Prop := vz p = (0 : R).
Lemma vltb_false_le2 (p q : pt) : flat p -> flat q -> vltb p q = false -> le2 q p.
Proof.
  unfold flat. intros Fp Fq H. destruct (le2_total q p) as [K|K]; [exact K|].
  destruct (Req_dec (X p) (X q)) as [Ex|Ex]; [destruct (Req_dec (Y p) (Y q)) as [Ey|Ey]|].
  - right. unfold X, Y in *. rn. lra.
  - exfalso. assert (vltb p q = true); [|congruence]. apply vltb_lex. unfold lexlt. unfold le2, X, Y in *. rn. lra.
  - exfalso. assert (vltb p q = true); [|congruence]. apply vltb_lex. unfold lexlt. unfold le2, X, Y in *. rn. lra.
Qed.
Lemma vltb_true_le2 (p q : pt) : flat p -> flat q -> vltb p q = true -> le2 p q.
Proof. unfold flat. intros Fp Fq H. apply vltb_lex in H. unfold lexlt, le2, X, Y in *. rn. lra. Qed.
Lemma vinsert_perm (v : pt) l : Permutation (vinsert v l) (v :: l).
Proof.
  induction l as [|w l IH]; [apply Permutation_refl|]. cbn [vinsert]. destruct (vltb v w); [apply Permutation_refl|].
  eapply Permutation_trans; [apply perm_skip, IH|apply perm_swap].
Qed.
Lemma vsort_acc_perm (l acc : list pt) : Permutation (vsort_acc l acc) (l ++ acc).
Proof.
  revert acc. induction l as [|v l IH]; intros acc; [apply Permutation_refl|]. cbn [vsort_acc].
  eapply Permutation_trans; [apply IH|]. cbn [app].
  eapply Permutation_trans; [apply Permutation_app_head, vinsert_perm|]. apply Permutation_sym, Permutation_middle.
Qed.
Lemma vsort_perm (l : list pt) : Permutation (vsort l) l.
Proof. unfold vsort. eapply Permutation_trans; [apply vsort_acc_perm|]. rewrite app_nil_r. apply Permutation_refl. Qed.
Lemma vinsert_sorted (v : pt) l : flat v -> Forall flat l -> StronglySorted le2 l -> StronglySorted le2 (vinsert v l).
Proof.
  intros Fv Fl SS. induction SS as [|w l SS IH HF]; [repeat constructor|].
  inversion Fl as [|? ? Fw Fl']; subst. cbn [vinsert]. destruct (vltb v w) eqn:E.
  - constructor; [constructor; assumption|]. constructor; [apply vltb_true_le2; assumption|].
    rewrite Forall_forall in *. intros x Hx. eapply le2_trans; [apply vltb_true_le2; eassumption|apply HF; exact Hx].
  - constructor; [apply IH; exact Fl'|]. rewrite Forall_forall in *. intros x Hx.
    apply (Permutation_in _ (vinsert_perm v l)) in Hx. destruct Hx as [<-|Hx]; [apply vltb_false_le2; assumption|apply HF; exact Hx].
Qed.
Lemma vsort_sorted (l : list pt) : Forall flat l -> StronglySorted le2 (vsort l).
Proof.
  intros F. unfold vsort. assert (G : forall acc, Forall flat acc -> StronglySorted le2 acc -> StronglySorted le2 (vsort_acc l acc)).
  { induction l as [|v l IH]; intros acc Fa SS; [exact SS|]. inversion F as [|? ? Fv Fl]; subst. cbn [vsort_acc]. apply IH; [exact Fl| |].
    - rewrite Forall_forall in *. intros x Hx. apply (Permutation_in _ (vinsert_perm v acc)) in Hx. destruct Hx as [<-|Hx]; auto.
    - apply vinsert_sorted; assumption. }
  apply G; constructor.
Qed.

(** ** the upper chain is the lower chain of the point reflection *)
Definition ng (p : pt) : pt := P (- X p) (- Y p) (- Z p).
Lemma side_ng a b c : side (ng a) (ng b) (ng c) = side a b c.
Proof. unfold side, ng. cbn [X Y P vx vy]. change (X (P ?x ?y ?z)) with x. change (Y (P ?x ?y ?z)) with y. unfold X, Y, P. cbn [vx vy]. rn. ring. Qed.
Lemma le2_ng a b : le2 (ng a) (ng b) <-> le2 b a.
Proof. unfold le2, ng, X, Y, P. rn. lra. Qed.
Lemma ng_ng a : ng (ng a) = a.
Proof. destruct a as [x y z]. unfold ng, P, X, Y, Z. rn. f_equal; ring. Qed.
Lemma pop_ng st v : hull_pop (map ng st) (ng v) = map ng (hull_pop st v).
Proof.
  induction st as [|q tl IH]; [reflexivity|]. destruct tl as [|p r]; [reflexivity|].
  cbn [map hull_pop] in *. rewrite !turn_side, side_ng. destruct (nleb _ _); [exact IH|reflexivity].
Qed.
Lemma chain_ng l : hull_chain (map ng l) = map ng (hull_chain l).
Proof.
  unfold hull_chain. rewrite map_rev. f_equal.
  assert (G : forall st, fold_left hull_step (map ng l) (map ng st) = map ng (fold_left hull_step l st)).
  { induction l as [|v l IH]; intros st; [reflexivity|]. cbn [map fold_left].
    change (map ng (fold_left hull_step l (hull_step st v))) with (map ng (fold_left hull_step l (hull_step st v))).
    rewrite <- IH. f_equal. unfold hull_step. cbn [map]. rewrite pop_ng. reflexivity. }
  apply (G []).
Qed.
Lemma SS_rev_ng l : StronglySorted le2 l -> StronglySorted le2 (map ng (rev l)).
Proof.
  induction 1 as [|a l SS IH HF]; [constructor|]. cbn [rev]. rewrite map_app. cbn [map].
  assert (G : forall l1 x, StronglySorted le2 l1 -> (forall y, In y l1 -> le2 y x) -> StronglySorted le2 (l1 ++ [x])).
  { clear. induction l1 as [|y l1 IH]; intros x SS H; cbn; [repeat constructor|]. inversion SS as [|? ? S1 F1]; subst.
    constructor; [apply IH; auto; intros; apply H; right; assumption|].
    rewrite Forall_forall in *. intros z Hz. apply in_app_or in Hz. destruct Hz as [Hz|[<-|[]]]; [apply F1; exact Hz|apply H; left; reflexivity]. }
  apply G; [exact IH|]. intros y Hy. apply in_map_iff in Hy. destruct Hy as (z & <- & Hz). apply in_rev in Hz.
  rewrite Forall_forall in HF. apply le2_ng. apply HF. exact Hz.
Qed.

(** ** joining the two chains *)
Lemma ng_origin : ng origin = origin.
Proof. unfold ng, origin, X, Y, Z, P. rn. f_equal; ring. Qed.
Lemma nth_ng i l : nth i (map ng l) origin = ng (nth i l origin).
Proof. rewrite <- ng_origin at 1. apply map_nth. Qed.
Lemma chain_in_nth S L a b i : Chain S L a b -> (i < length L)%nat -> S (nth i L origin).
Proof. intros C H. apply (c_in _ _ _ _ C). apply nth_In. exact H. Qed.
Lemma chain_bounds S L a b s : Chain S L a b -> (forall s, S s -> le2 a s /\ le2 s b) -> S s -> le2 a s /\ le2 s b.
Proof. auto. Qed.

Lemma edge_inner S S' A B a b : (forall x, S' x <-> S (ng x)) -> Chain S A a b -> Chain S' (map ng B) (ng b) (ng a) ->
  (forall s, S s -> le2 a s /\ le2 s b) ->
  forall i j, (i + 1 < length A)%nat -> (0 < j)%nat -> (j + 1 < length B)%nat ->
  0 < side (nth i A origin) (nth (i + 1) A origin) (nth j B origin).
Proof.
  intros SS C C' HB i j Hi Hj0 Hj.
  assert (LB : length (map ng B) = length B) by apply map_length.
  assert (SB : forall k, (k < length B)%nat -> S (nth k B origin)).
  { intros k Hk. pose proof (chain_in_nth _ _ _ _ k C' ltac:(lia)) as K. rewrite nth_ng in K. apply SS in K. rewrite ng_ng in K. exact K. }
  assert (LFT : forall k s, (k + 1 < length B)%nat -> S s -> 0 <= side (nth k B origin) (nth (k + 1) B origin) s).
  { intros k s Hk Hs. pose proof (c_left _ _ _ _ C' k (ng s) ltac:(lia)) as K.
    rewrite !nth_ng, side_ng in K. apply K. apply SS. rewrite ng_ng. exact Hs. }
  assert (T : 0 < side (nth (j - 1) B origin) (nth j B origin) (nth (j + 1) B origin)).
  { pose proof (c_turn _ _ _ _ C' (j - 1) ltac:(lia)) as K. rewrite !nth_ng, side_ng in K.
    replace (j - 1 + 1)%nat with j in K by lia. replace (j - 1 + 2)%nat with (j + 1)%nat in K by lia. exact K. }
  assert (LE : forall k, (k + 1 < length B)%nat -> le2 (nth (k + 1) B origin) (nth k B origin)).
  { intros k Hk. pose proof (c_sorted _ _ _ _ C' k ltac:(lia)) as K. rewrite !nth_ng in K. apply (proj1 (le2_ng _ _)) in K. exact K. }
  assert (LA : forall s, S s -> 0 <= side (nth i A origin) (nth (i + 1) A origin) s) by (intros s Hs; apply (c_left _ _ _ _ C); assumption).
  assert (SA : forall k, (k < length A)%nat -> S (nth k A origin)) by (intros k Hk; eapply chain_in_nth; eauto).
  pose proof (LE (j - 1)%nat ltac:(lia)) as L0. replace (j - 1 + 1)%nat with j in L0 by lia.
  pose proof (LFT (j - 1)%nat) as F0. replace (j - 1 + 1)%nat with j in F0 by lia.
  apply (inner_strict _ _ (nth (j - 1) B origin) (nth j B origin) (nth (j + 1) B origin)); auto;
    try (apply LA, SB; lia); try (apply F0; [lia|apply SA; lia]); try (apply LFT; [lia|apply SA; lia]).
  - apply (c_sorted _ _ _ _ C). exact Hi.
  - (* the edge has two different end points *)
    set (p := nth i A origin) in *. set (q := nth (i + 1) A origin) in *.
    destruct (Req_dec (X p) (X q)) as [Ex|Ex]; [|left; exact Ex]. destruct (Req_dec (Y p) (Y q)) as [Ey|Ey]; [|right; exact Ey].
    exfalso. destruct (Nat.le_gt_cases (i + 2) (length A - 1)) as [H1|H1].
    { pose proof (c_turn _ _ _ _ C i ltac:(lia)) as K. fold p q in K. unfold side in K. rewrite Ex, Ey in K. lra. }
    destruct i as [|i].
    + assert (E : (length A - 1 = 0 + 1)%nat) by lia.
      pose proof (c_hd _ _ _ _ C) as Q1. pose proof (c_last _ _ _ _ C) as Q2. rewrite E in Q2. fold p in Q1. fold q in Q2.
      assert (G : forall s, S s -> X s = X p /\ Y s = Y p).
      { intros s Hs. destruct (HB s Hs) as [K1 K2]. rewrite <- Q1 in K1. rewrite <- Q2 in K2. unfold le2 in *. lra. }
      destruct (G _ (SB (j - 1)%nat ltac:(lia))) as [G1 G2]. destruct (G _ (SB j ltac:(lia))) as [G3 G4].
      destruct (G _ (SB (j + 1)%nat ltac:(lia))) as [G5 G6]. unfold side in T. rewrite G1, G2, G3, G4, G5, G6 in T. lra.
    + pose proof (c_turn _ _ _ _ C i ltac:(lia)) as K. replace (i + 1)%nat with (Datatypes.S i) in K by lia.
      replace (i + 2)%nat with (Datatypes.S i + 1)%nat in K by lia. fold p q in K. unfold side in K. rewrite Ex, Ey in K. lra.
Qed.

Lemma removelast_nth (l : list pt) i : (i + 1 < length l)%nat -> nth i (removelast l) origin = nth i l origin.
Proof.
  revert i. induction l as [|a l IH]; intros i H; [cbn in H; lia|]. destruct l as [|b l]; [cbn in H; lia|].
  change (removelast (a :: b :: l)) with (a :: removelast (b :: l)). destruct i as [|i]; [reflexivity|].
  cbn [nth]. apply IH. cbn in *. lia.
Qed.
Lemma removelast_len (l : list pt) : length (removelast l) = (length l - 1)%nat.
Proof. induction l as [|a [|b l] IH]; [reflexivity|reflexivity|]. change (removelast (a :: b :: l)) with (a :: removelast (b :: l)).
  cbn [length] in *. rewrite IH. lia. Qed.
Lemma removelast_in (l : list pt) x : In x (removelast l) -> In x l.
Proof. induction l as [|a [|b l] IH]; [auto|cbn; tauto|]. change (removelast (a :: b :: l)) with (a :: removelast (b :: l)).
  intros [<-|H]; [left; reflexivity|right; apply IH; exact H]. Qed.

Lemma hull_pop_ne (st : list pt) v : st <> [] -> hull_pop st v <> [].
Proof.
  induction st as [|q tl IH]; [contradiction|]. intros _. destruct tl as [|p r]; [discriminate|].
  cbn [hull_pop]. destruct (nleb _ _); [apply IH; discriminate|discriminate].
Qed.
Lemma chain_len (a b : pt) l : (2 <= length (hull_chain (a :: b :: l)))%nat.
Proof.
  unfold hull_chain. rewrite rev_length.
  assert (G : forall l st, (2 <= length st)%nat -> (2 <= length (fold_left hull_step l st))%nat).
  { clear. induction l as [|v l IH]; intros st H; [exact H|]. cbn [fold_left]. apply IH. unfold hull_step. cbn [length].
    assert (st <> []) by (destruct st; [cbn in H; lia|discriminate]). pose proof (hull_pop_ne st v H0). destruct (hull_pop st v); [contradiction|cbn; lia]. }
  cbn [fold_left]. apply G. reflexivity.
Qed.

Section Join.
Variables (S : pt -> Prop) (L U : list pt) (a b : pt).
Let S' := fun x => S (ng x).
Hypothesis CL : Chain S L a b.
Hypothesis CU : Chain S' (map ng U) (ng b) (ng a).
Hypothesis HB : forall s, S s -> le2 a s /\ le2 s b.
Hypothesis LL : (2 <= length L)%nat.
Hypothesis LU : (2 <= length U)%nat.
Let H := removelast L ++ removelast U.
Let k := (length L - 1)%nat.
Let n := (length L - 1 + (length U - 1))%nat.

Lemma join_len : length H = n.
Proof. unfold H, n. rewrite app_length, !removelast_len. reflexivity. Qed.
Lemma U0 : nth 0 U origin = b.
Proof. pose proof (c_hd _ _ _ _ CU) as K. rewrite nth_ng in K. rewrite <- (ng_ng (nth 0 U origin)), K. apply ng_ng. Qed.
Lemma Ulast : nth (length U - 1) U origin = a.
Proof. pose proof (c_last _ _ _ _ CU) as K. rewrite map_length, nth_ng in K. rewrite <- (ng_ng (nth _ U origin)), K. apply ng_ng. Qed.
Lemma cyc_low i : (i <= k)%nat -> cyc H i = nth i L origin.
Proof.
  intros Hi. unfold cyc. rewrite join_len. rewrite Nat.mod_small by (unfold n, k in *; lia).
  destruct (Nat.eq_dec i k) as [->|N].
  - unfold H. rewrite app_nth2 by (rewrite removelast_len; unfold k; lia). rewrite removelast_len. unfold k.
    rewrite Nat.sub_diag, removelast_nth, U0 by lia. symmetry. apply (c_last _ _ _ _ CL).
  - unfold H. rewrite app_nth1 by (rewrite removelast_len; unfold k in *; lia). apply removelast_nth. unfold k in *. lia.
Qed.
Lemma cyc_up i : (k <= i <= n)%nat -> cyc H i = nth (i - k) U origin.
Proof.
  intros Hi. unfold cyc. rewrite join_len. destruct (Nat.eq_dec i n) as [->|N].
  - rewrite Nat.mod_same by (unfold n; lia). pose proof (cyc_low 0 ltac:(unfold k; lia)) as K. unfold cyc in K. rewrite join_len in K.
    rewrite Nat.mod_small in K by (unfold n; lia). rewrite K, (c_hd _ _ _ _ CL). rewrite <- Ulast. f_equal. unfold n, k. lia.
  - rewrite Nat.mod_small by lia. unfold H. rewrite app_nth2 by (rewrite removelast_len; unfold k in *; lia).
    rewrite removelast_len. fold k. apply removelast_nth. unfold n, k in *. lia.
Qed.
Lemma SS' : forall x, S' x <-> S (ng x). Proof. reflexivity. Qed.
Lemma SS'' : forall x, S x <-> S' (ng x). Proof. intros x. unfold S'. rewrite ng_ng. reflexivity. Qed.
Lemma CL' : Chain S (map ng (map ng L)) (ng (ng a)) (ng (ng b)).
Proof. rewrite map_map, !ng_ng. rewrite (map_ext _ (fun x => x)) by apply ng_ng. rewrite map_id. exact CL. Qed.
Lemma HB' : forall s, S' s -> le2 (ng b) s /\ le2 s (ng a).
Proof. intros s Hs. destruct (HB _ Hs) as [K1 K2]. split; apply le2_ng; rewrite ng_ng; assumption. Qed.
Lemma UL : length (map ng U) = length U. Proof. apply map_length. Qed.
Lemma LLn : length (map ng L) = length L. Proof. apply map_length. Qed.

Lemma join_left i s : (i < n)%nat -> S s -> 0 <= side (cyc H i) (cyc H (Datatypes.S i)) s.
Proof.
  intros Hi Hs. destruct (Nat.lt_ge_cases i k) as [Q|Q].
  - rewrite !cyc_low by lia. rewrite <- Nat.add_1_r. apply (c_left _ _ _ _ CL); [unfold k in Q; lia|exact Hs].
  - rewrite !cyc_up by lia. replace (Datatypes.S i - k)%nat with (i - k + 1)%nat by lia.
    pose proof (c_left _ _ _ _ CU (i - k) (ng s) ltac:(rewrite UL; unfold n, k in *; lia)) as K.
    rewrite !nth_ng, side_ng in K. apply K. unfold S'. rewrite ng_ng. exact Hs.
Qed.
Lemma join_strict : strictly_convex H.
Proof.
  intros i j Hi Hj N1 N2. rewrite join_len in Hi, Hj, N2. destruct (Nat.lt_ge_cases i k) as [Q|Q].
  - rewrite Nat.mod_small in N2 by (unfold n, k in *; lia). rewrite (cyc_low i), (cyc_low (Datatypes.S i)) by lia. rewrite <- Nat.add_1_r.
    destruct (Nat.le_gt_cases j k) as [J|J].
    + rewrite cyc_low by lia. apply (chain_strict S L a b CL); unfold k in *; lia.
    + rewrite cyc_up by lia. apply (edge_inner S S' L U a b SS' CL CU HB); unfold n, k in *; lia.
  - rewrite (cyc_up i), (cyc_up (Datatypes.S i)) by lia. replace (Datatypes.S i - k)%nat with (i - k + 1)%nat by lia.
    rewrite <- side_ng, <- !nth_ng.
    assert (CASE : (exists m, (m < length U)%nat /\ cyc H j = nth m U origin /\ m <> (i - k)%nat /\ m <> (i - k + 1)%nat) \/ (0 < j < k)%nat).
    { destruct (Nat.eq_dec j 0) as [->|J0].
      - left. exists (length U - 1)%nat. split; [lia|]. split.
        + rewrite Ulast, cyc_low by lia. apply (c_hd _ _ _ _ CL).
        + destruct (Nat.eq_dec (Datatypes.S i) n) as [E|E].
          * exfalso. apply N2. rewrite E. symmetry. apply Nat.mod_same. unfold n. lia.
          * unfold n, k in *. lia.
      - destruct (Nat.lt_ge_cases j k) as [J|J]; [right; lia|]. left. exists (j - k)%nat. split; [unfold n, k in *; lia|].
        split; [apply cyc_up; lia|]. split; [lia|]. destruct (Nat.eq_dec (Datatypes.S i) n) as [E|E]; [lia|].
        rewrite Nat.mod_small in N2 by lia. lia. }
    destruct CASE as [(m & M1 & -> & M3 & M4)|J].
    + rewrite <- nth_ng. apply (chain_strict S' (map ng U) (ng b) (ng a) CU); rewrite ?UL; unfold n, k in *; lia.
    + rewrite cyc_low by lia. rewrite <- nth_ng.
      apply (edge_inner S' S (map ng U) (map ng L) (ng b) (ng a) SS'' CU CL' HB'); rewrite ?UL, ?LLn; unfold n, k in *; lia.
Qed.
End Join.

Lemma SS_ext l : StronglySorted le2 l -> forall d, l <> [] -> forall x, In x l -> le2 (hd d l) x /\ le2 x (last l d).
Proof.
  induction 1 as [|a l SS IH HF]; intros d NE x Hx; [contradiction|]. rewrite Forall_forall in HF. cbn [hd].
  destruct l as [|b l].
  - destruct Hx as [<-|[]]. split; apply le2_refl.
  - change (last (a :: b :: l) d) with (last (b :: l) d). assert (N : b :: l <> []) by discriminate.
    destruct Hx as [<-|Hx].
    + split; [apply le2_refl|]. apply HF. apply last_in. exact N.
    + split; [apply HF; exact Hx|]. apply (IH d N x Hx).
Qed.

Theorem hull_main (vs : list pt) : (2 <= length vs)%nat ->
  let h := convexHull2D vs in
  (2 <= length h)%nat /\ (forall x, In x h -> exists v, In v vs /\ x = vxy v) /\
  (forall i v, (i < length h)%nat -> In v vs -> 0 <= side (cyc h i) (cyc h (S i)) v) /\
  strictly_convex h.
Proof.
  intros Hn h. unfold convexHull2D in h. set (s := vsort (map vxy vs)) in h.
  assert (PS : Permutation s (map vxy vs)) by apply vsort_perm.
  assert (LS : length s = length vs) by (rewrite (Permutation_length PS), map_length; reflexivity).
  assert (SS : StronglySorted le2 s).
  { apply vsort_sorted. rewrite Forall_forall. intros x Hx. apply in_map_iff in Hx. destruct Hx as (v & <- & _). reflexivity. }
  clearbody s. destruct s as [|a [|a2 l]]; [cbn in LS; lia|cbn in LS; lia|].
  set (s := a :: a2 :: l) in *. set (b := last s origin).
  assert (CL : Chain (fun x => In x s) (hull_chain s) a b).
  { pose proof (chain_of (a2 :: l) a SS) as K. replace b with (last (a2 :: l) a); [exact K|].
    unfold b, s. change (last (a :: a2 :: l) origin) with (last (a2 :: l) origin). apply last_indep. discriminate. }
  assert (NEs : s <> []) by discriminate.
  assert (RS : exists l', rev s = b :: l').
  { destruct s as [|x s0] using rev_ind; [contradiction|]. rewrite rev_app_distr. exists (rev s0). unfold b. rewrite last_last. reflexivity. }
  destruct RS as (l' & RS).
  assert (CU : Chain (fun x => In (ng x) s) (map ng (hull_chain (rev s))) (ng b) (ng a)).
  { rewrite <- chain_ng. pose proof (SS_rev_ng s SS) as SR. unfold pt in SR, RS |- *. rewrite RS in SR |- *. cbn [map] in SR |- *.
    pose proof (chain_of (map ng l') (ng b) SR) as K.
    assert (E : last (map ng l') (ng b) = ng a).
    { assert (E1 : last (rev s) origin = a) by (unfold s; cbn [rev]; apply last_last).
      rewrite RS in E1. clear - E1. assert (G : last (b :: l') origin = last l' b).
      { clear. destruct l' as [|x l']; [reflexivity|]. change (last (b :: x :: l') origin) with (last (x :: l') origin). apply last_indep. discriminate. }
      rewrite G in E1. rewrite <- E1. clear. generalize b. clear. intros b. induction l' as [|x l' IH]; [reflexivity|].
      destruct l' as [|y l']; [reflexivity|]. exact IH. }
    rewrite E in K. 
    assert (EQ : forall x, In x (ng b :: map ng l') <-> In (ng x) s).
    { intros x. change (ng b :: map ng l') with (map ng (b :: l')). rewrite <- RS, in_map_iff. split.
      - intros (y & <- & Hy). rewrite ng_ng. apply in_rev. exact Hy.
      - intros Hx. exists (ng x). split; [apply ng_ng|]. apply in_rev in Hx. exact Hx. }
    destruct K as [K1 K2 K3 K4 K5 K6 K7]. constructor; auto.
    + intros x Hx. apply EQ. auto.
    + intros i s0 Hi Hs. apply K7; [exact Hi|]. apply EQ. exact Hs. }
  assert (HB : forall x, In x s -> le2 a x /\ le2 x b) by (intros x Hx; exact (SS_ext s SS origin NEs x Hx)).
  assert (LL : (2 <= length (hull_chain s))%nat) by apply chain_len.
  assert (LU : (2 <= length (hull_chain (rev s)))%nat).
  { rewrite RS. destruct l' as [|x l']; [|apply chain_len]. apply (f_equal (@length pt)) in RS. rewrite rev_length in RS. discriminate RS. }
  assert (IN : forall x, In x s -> exists v, In v vs /\ x = vxy v).
  { intros x Hx. apply (Permutation_in _ PS) in Hx. apply in_map_iff in Hx. destruct Hx as (v & E & Hv). eauto. }
  pose proof (join_len (hull_chain s) (hull_chain (rev s))) as JL.
  change (removelast (hull_chain s) ++ removelast (hull_chain (rev s))) with h in JL.
  split; [unfold pt in *; lia|]. split; [|split].
  - intros x Hx. apply IN. unfold h in Hx. apply in_app_or in Hx. destruct Hx as [Hx|Hx]; apply removelast_in in Hx.
    + apply (c_in _ _ _ _ CL). exact Hx.
    + pose proof (c_in _ _ _ _ CU (ng x) (in_map ng _ _ Hx)) as K. cbn beta in K. rewrite ng_ng in K. exact K.
  - intros i v Hi Hv. pose proof (join_left (fun x => In x s) _ _ a b CL CU LL LU i (vxy v)) as K.
    apply K; [unfold pt in *; lia|]. apply (Permutation_in _ (Permutation_sym PS)). apply in_map. exact Hv.
  - exact (join_strict (fun x => In x s) _ _ a b CL CU HB LL LU).
Qed.
