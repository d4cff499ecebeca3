(** Edge.fromConvexHull2D over the reals. *)
From Coq Require Import Reals Lra Psatz List Bool Arith Lia Sorting.Permutation Sorting.Sorted.
From Verif Require Import Num GeoModel EdgeModel GeoSpec GeoMat GeoFig EdgeSpecR EdgeContains.
Import ListNotations.
Open Scope R_scope.

Definition le2 (p q : pt) : Prop := X p < X q \/ X p = X q /\ Y p <= Y q.
Lemma le2_refl p : le2 p p. Proof. right. lra. Qed.
Lemma le2_trans p q r : le2 p q -> le2 q r -> le2 p r.
Proof. unfold le2. lra. Qed.
Lemma le2_total p q : le2 p q \/ le2 q p.
Proof. unfold le2. destruct (Rtotal_order (X p) (X q)) as [H|[H|H]]; lra. Qed.
Lemma turn_side (p q v : pt) : turn p q v = side p q v.
Proof. unfold turn, side, vcross, vsub, X, Y. rn. ring. Qed.

(** ** plane vectors *)
Definition lexnn (x y : R) : Prop := 0 < x \/ x = 0 /\ 0 <= y.
Lemma le2_lexnn p q : le2 p q -> lexnn (X q - X p) (Y q - Y p).
Proof. unfold le2, lexnn. lra. Qed.
Definition cr (ux uy wx wy : R) : R := ux * wy - uy * wx.
Lemma cr_trans ux uy wx wy zx zy : lexnn ux uy -> lexnn wx wy -> lexnn zx zy -> (wx <> 0 \/ wy <> 0) ->
  0 <= cr ux uy wx wy -> 0 <= cr wx wy zx zy -> 0 <= cr ux uy zx zy.
Proof.
  unfold lexnn, cr. intros U W Zz N H1 H2.
  destruct (Req_dec wx 0) as [E|E].
  - rewrite E in *. assert (0 < wy) by (destruct W as [W|W]; destruct N as [N|N]; lra).
    assert (zx = 0) by (destruct Zz as [Zz|[Zz _]]; [nra|exact Zz]). nra.
  - assert (0 < wx) by (destruct W; lra).
    assert (K : wx * (ux * zy - uy * zx) = ux * (wx * zy - wy * zx) + zx * (ux * wy - uy * wx)) by ring.
    assert (0 <= wx * (ux * zy - uy * zx)) by (rewrite K; destruct U, Zz; nra). nra.
Qed.
Lemma cr_strans ux uy wx wy zx zy : lexnn ux uy -> lexnn wx wy -> lexnn zx zy ->
  0 < cr ux uy wx wy -> 0 < cr wx wy zx zy -> 0 < cr ux uy zx zy.
Proof.
  unfold lexnn, cr. intros U W Zz H1 H2.
  destruct (Req_dec wx 0) as [E|E].
  - rewrite E in *. exfalso. assert (0 <= wy) by (destruct W; lra). destruct Zz as [Zz|Zz]; nra.
  - assert (0 < wx) by (destruct W; lra).
    assert (K : wx * (ux * zy - uy * zx) = ux * (wx * zy - wy * zx) + zx * (ux * wy - uy * wx)) by ring.
    destruct U as [U|[U U']], Zz as [Zz|[Zz Zz']].
    + assert (0 < wx * (ux * zy - uy * zx)) by (rewrite K; nra). nra.
    + assert (0 < wx * (ux * zy - uy * zx)) by (rewrite K; nra). nra.
    + assert (0 < wx * (ux * zy - uy * zx)) by (rewrite K; nra). nra.
    + exfalso. subst. nra.
Qed.

(** ** the stack of the monotone chain *)
Fixpoint chain_ok (st : list pt) : Prop :=
  match st with
  | q :: ((p :: r) as tl) => le2 p q /\ match r with o :: _ => 0 < side o p q | [] => True end /\ chain_ok tl
  | _ => True
  end.
Fixpoint edges (st : list pt) : list (pt * pt) :=
  match st with
  | q :: ((p :: _) as tl) => (p, q) :: edges tl
  | _ => []
  end.
Definition left_of (S : pt -> Prop) (st : list pt) : Prop := forall e s, In e (edges st) -> S s -> 0 <= side (fst e) (snd e) s.

Lemma same_xy p q : le2 p q -> le2 q p -> X p = X q /\ Y p = Y q.
Proof. unfold le2. lra. Qed.

Lemma pop_step (S : pt -> Prop) (p q v : pt) : S p -> S q -> (forall s, S s -> le2 s v) -> le2 p q ->
  (forall s, S s -> 0 <= side p q s) -> (forall s, S s -> le2 q s -> 0 <= side q v s) -> side p q v <= 0 ->
  forall s, S s -> le2 p s -> 0 <= side p v s.
Proof.
  intros Sp Sq Hv Hpq HL HP HT s Ss Hps. pose proof (Hv s Ss) as Hsv. pose proof (Hv q Sq) as Hqv.
  destruct (le2_total q s) as [Hqs|Hsq].
  - specialize (HP s Ss Hqs).
    destruct (Req_dec (X v - X q) 0) as [Ex|Ex]; [destruct (Req_dec (Y v - Y q) 0) as [Ey|Ey]|].
    + assert (X s = X q /\ Y s = Y q) as [E1 E2] by (unfold le2 in *; lra).
      unfold side. assert (X v = X q) by lra. assert (Y v = Y q) by lra. rewrite E1, E2, H, H0. lra.
    + assert (K : 0 <= cr (X v - X s) (Y v - Y s) (X q - X p) (Y q - Y p)).
      { apply (cr_trans _ _ (X v - X q) (Y v - Y q)); auto using le2_lexnn; unfold cr, side in *; nra. }
      unfold cr, side in *. nra.
    + assert (K : 0 <= cr (X v - X s) (Y v - Y s) (X q - X p) (Y q - Y p)).
      { apply (cr_trans _ _ (X v - X q) (Y v - Y q)); auto using le2_lexnn; unfold cr, side in *; nra. }
      unfold cr, side in *. nra.
  - specialize (HL s Ss).
    assert (D : (X q - X p <> 0 \/ Y q - Y p <> 0) \/ (X q = X p /\ Y q = Y p)) by lra.
    destruct D as [D|[D1 D2]].
    + assert (K : 0 <= cr (X v - X p) (Y v - Y p) (X s - X p) (Y s - Y p)).
      { apply (cr_trans _ _ (X q - X p) (Y q - Y p)); auto using le2_lexnn; unfold cr, side in *; nra. }
      unfold cr, side in *. nra.
    + assert (X s = X p /\ Y s = Y p) as [E1 E2] by (unfold le2 in *; lra). unfold side. rewrite E1, E2. lra.
Qed.

Lemma pop_inv (S : pt -> Prop) v : (forall s, S s -> le2 s v) -> forall st q0 r0, st = q0 :: r0 ->
  (forall x, In x st -> S x) -> chain_ok st -> left_of S st ->
  (forall s, S s -> le2 q0 s -> 0 <= side q0 v s) ->
  exists q r, hull_pop st v = q :: r /\ (forall x, In x (q :: r) -> In x st) /\ chain_ok (q :: r) /\
    (forall e, In e (edges (q :: r)) -> In e (edges st)) /\
    (forall s, S s -> le2 q s -> 0 <= side q v s) /\
    last (q :: r) origin = last st origin /\
    match r with p :: _ => 0 < side p q v | [] => True end.
Proof.
  intros Hv st. induction st as [|q tl IH]; intros q0 r0 E HI C L HP; [discriminate|].
  injection E as <- <-. destruct tl as [|p r].
  - exists q, []. cbn. intuition.
  - cbn [hull_pop]. rewrite turn_side. rn.
    destruct (Rleb (side p q v) 0) eqn:T.
    + apply Rleb_true in T. destruct C as (C1 & C2 & C3).
      destruct (IH p r eq_refl) as (q' & r' & E1 & E2 & E3 & E4 & E5 & E6 & E7).
      * intros; apply HI; right; assumption.
      * exact C3.
      * intros e s He. apply L. right. exact He.
      * apply (pop_step S p q v); auto; try (apply HI; cbn; auto; fail).
        intros s Ss. apply (L (p, q) s); [left; reflexivity|exact Ss].
      * exists q', r'. split; [exact E1|]. split; [intros x Hx; right; apply E2; exact Hx|]. split; [exact E3|].
        split; [intros e He; right; apply E4; exact He|]. split; [exact E5|]. split; [|exact E7].
        rewrite E6. reflexivity.
    + apply Rleb_false in T. exists q, (p :: r). split; [reflexivity|]. split; [auto|]. split; [exact C|]. auto.
Qed.

Lemma all_left st v : chain_ok (v :: st) -> forall e, In e (edges st) -> 0 < side (fst e) (snd e) v.
Proof.
  revert v. induction st as [|q st IH]; intros v C e He; [destruct He|].
  destruct st as [|p r]; [destruct He|]. destruct C as (C1 & C2 & C3).
  destruct He as [<-|He]; [exact C2|].
  (* o -> p seen from v: replace q by v *)
  apply (IH v); [|exact He]. destruct r as [|o r]; [destruct He|].
  destruct C3 as (C4 & C5 & C6). split; [|split; [|exact C6]].
  - eapply le2_trans; eauto.
  - assert (K : 0 < cr (X p - X o) (Y p - Y o) (X v - X q) (Y v - Y q)).
    { apply (cr_strans _ _ (X q - X p) (Y q - Y p)); try (apply le2_lexnn; assumption).
      - apply le2_lexnn. exact (proj1 C6).
      - unfold cr, side in *; nra.
      - unfold cr, side in *; nra. }
    unfold cr, side in *. nra.
Qed.

Record Inv (S : pt -> Prop) (st : list pt) (bot top : pt) : Prop := {
  i_in : forall x, In x st -> S x;
  i_chain : chain_ok st;
  i_left : left_of S st;
  i_top : hd_error st = Some top;
  i_bot : last st origin = bot;
  i_max : forall s, S s -> le2 s top;
  i_min : forall s, S s -> le2 bot s }.

Lemma inv_step S st bot top v : Inv S st bot top -> (forall s, S s -> le2 s v) ->
  Inv (fun x => S x \/ x = v) (hull_step st v) bot v.
Proof.
  intros I Hv. destruct I as [Iin Ich Ile Itop Ibot Imax Imin]. destruct st as [|q0 r0]; [discriminate|].
  cbn in Itop. injection Itop as ->.
  destruct (pop_inv S v Hv (top :: r0) top r0 eq_refl Iin Ich Ile) as (q & r & E1 & E2 & E3 & E4 & E5 & E6 & E7).
  { intros s Ss H. destruct (same_xy _ _ H (Imax s Ss)) as [A B]. unfold side. rewrite A, B. lra. }
  unfold hull_step. rewrite E1.
  assert (C : chain_ok (v :: q :: r)).
  { cbn [chain_ok]. split; [apply Hv, Iin, E2; left; reflexivity|]. split; [exact E7|exact E3]. }
  constructor.
  - intros x [<-|Hx]; [right; reflexivity|left; apply Iin, E2, Hx].
  - exact C.
  - intros e s [<-|He] Hs; cbn [fst snd].
    + destruct Hs as [Hs| ->]; [|unfold side; lra].
      destruct (le2_total q s) as [H|H]; [apply E5; assumption|].
      destruct r as [|p r].
      * rewrite Ibot in E6. cbn in E6. subst q. destruct (same_xy _ _ H (Imin s Hs)) as [A B].
        unfold side. rewrite A, B. lra.
      * assert (L1 : 0 <= side p q s) by (apply (Ile (p, q)); [apply E4; left; reflexivity|exact Hs]).
        assert (K : 0 <= cr (X q - X s) (Y q - Y s) (X v - X q) (Y v - Y q)).
        { apply (cr_trans _ _ (X q - X p) (Y q - Y p)).
          - apply le2_lexnn; exact H.
          - apply le2_lexnn. exact (proj1 E3).
          - apply le2_lexnn, Hv, Iin, E2. left. reflexivity.
          - destruct (Req_dec (X q - X p) 0); [|auto]. right. intros Q. unfold side in E7. nra.
          - unfold cr, side in *; nra.
          - unfold cr, side in *; nra. }
        unfold cr, side in *. nra.
    + destruct Hs as [Hs| ->]; [apply Ile; [apply E4; exact He|exact Hs]|].
      left. apply (all_left (q :: r)); assumption.
  - reflexivity.
  - rewrite <- Ibot, <- E6. reflexivity.
  - intros s [Hs| ->]; [apply Hv; exact Hs|apply le2_refl].
  - intros s [Hs| ->]; [apply Imin; exact Hs|].
    apply Hv. apply Iin. rewrite <- Ibot. clear. apply last_in. discriminate.
Qed.

Lemma fold_inv l : forall S st bot top, Inv S st bot top -> (forall s v, S s -> In v l -> le2 s v) -> StronglySorted le2 l ->
  Inv (fun x => S x \/ In x l) (fold_left hull_step l st) bot (last l top).
Proof.
  induction l as [|v l IH]; intros S st bot top I Hv SS.
  - cbn. destruct I. constructor; auto.
    + intros e s He [Hs|[]]. auto.
    + intros s [Hs|[]]. auto.
    + intros s [Hs|[]]. auto.
  - inversion SS as [|? ? SS' HF]; subst. rewrite Forall_forall in HF.
    cbn [fold_left]. assert (I2 := inv_step S st bot top v I (fun s Hs => Hv s v Hs (or_introl eq_refl))).
    specialize (IH _ _ _ _ I2). assert (IH' : Inv (fun x => (S x \/ x = v) \/ In x l) (fold_left hull_step l (hull_step st v)) bot (last l v)).
    { apply IH; [|exact SS']. intros s w [Hs| ->] Hw; [apply Hv; [exact Hs|right; exact Hw]|apply HF; exact Hw]. }
    assert (EQ : last (v :: l) top = last l v) by (clear; revert v top; induction l as [|w l IH]; intros; [reflexivity|];
      change (last (v :: w :: l) top) with (last (w :: l) top); rewrite IH; symmetry; apply IH).
    rewrite EQ. destruct IH'. constructor; auto.
    + intros x Hx. destruct (i_in0 x Hx) as [[?| ->]|?]; cbn; auto.
    + intros e s He Hs. apply i_left0; [exact He|]. destruct Hs as [?|[<-|?]]; auto.
    + intros s Hs. apply i_max0. destruct Hs as [?|[<-|?]]; auto.
    + intros s Hs. apply i_min0. destruct Hs as [?|[<-|?]]; auto.
Qed.

(* what the chain of a sorted non-empty list is *)
Record Chain (S : pt -> Prop) (L : list pt) (bot top : pt) : Prop := {
  c_in : forall x, In x L -> S x;
  c_ne : L <> [];
  c_hd : nth 0 L origin = bot;
  c_last : nth (length L - 1) L origin = top;
  c_sorted : forall i, (i + 1 < length L)%nat -> le2 (nth i L origin) (nth (i + 1) L origin);
  c_turn : forall i, (i + 2 < length L)%nat -> 0 < side (nth i L origin) (nth (i + 1) L origin) (nth (i + 2) L origin);
  c_left : forall i s, (i + 1 < length L)%nat -> S s -> 0 <= side (nth i L origin) (nth (i + 1) L origin) s }.

Lemma edges_nth st : forall i, (i + 1 < length st)%nat -> In (nth (i + 1) st origin, nth i st origin) (edges st).
Proof.
  induction st as [|q tl IH]; intros i H; [cbn in H; lia|]. destruct tl as [|p r]; [cbn in H; lia|].
  destruct i as [|i]; [left; reflexivity|]. right. apply (IH i). cbn in *. lia.
Qed.
Lemma chain_nth st : chain_ok st -> forall i, (i + 1 < length st)%nat -> le2 (nth (i + 1) st origin) (nth i st origin).
Proof.
  induction st as [|q tl IH]; intros C i H; [cbn in H; lia|]. destruct tl as [|p r]; [cbn in H; lia|].
  destruct C as (C1 & C2 & C3). destruct i as [|i]; [exact C1|]. apply (IH C3 i). cbn in *. lia.
Qed.
Lemma chain_turn st : chain_ok st -> forall i, (i + 2 < length st)%nat -> 0 < side (nth (i + 2) st origin) (nth (i + 1) st origin) (nth i st origin).
Proof.
  induction st as [|q tl IH]; intros C i H; [cbn in H; lia|]. destruct tl as [|p r]; [cbn in H; lia|].
  destruct C as (C1 & C2 & C3). destruct i as [|i]; [|apply (IH C3 i); cbn in *; lia].
  destruct r as [|o r]; [cbn in H; lia|exact C2].
Qed.
Lemma chain_of l a : StronglySorted le2 (a :: l) -> Chain (fun x => In x (a :: l)) (hull_chain (a :: l)) a (last l a).
Proof.
  intros SS. inversion SS as [|? ? SS' HF]; subst. rewrite Forall_forall in HF.
  assert (I0 : Inv (fun x => x = a) [a] a a).
  { constructor; cbn; auto.
    - intros x [<-|[]]. reflexivity.
    - intros e s [].
    - intros s ->. apply le2_refl.
    - intros s ->. apply le2_refl. }
  assert (I := fold_inv l _ _ _ _ I0 (fun s v Es Hv => eq_ind_r (fun s => le2 s v) (HF v Hv) Es) SS').
  unfold hull_chain. cbn [fold_left]. change (hull_step [] a) with [a].
  set (st := fold_left hull_step l [a]) in *. destruct I as [Iin Ich Ile Itop Ibot Imax Imin].
  assert (NE : st <> []) by (intros E; rewrite E in Itop; discriminate).
  assert (LN : (1 <= length st)%nat) by (destruct st; [contradiction|cbn; lia]).
  assert (RN : forall i, (i < length st)%nat -> nth i (rev st) origin = nth (length st - S i) st origin) by (intros; apply rev_nth; assumption).
  constructor; rewrite ?rev_length.
  - intros x Hx. apply in_rev in Hx. destruct (Iin x Hx) as [->|?]; cbn; auto.
  - intros E. apply NE. rewrite <- (rev_involutive st), E. reflexivity.
  - rewrite RN by lia. rewrite <- Ibot, last_nth. f_equal; lia.
  - rewrite RN by lia. replace (length st - S (length st - 1))%nat with 0%nat by lia. destruct st; [contradiction|]. injection Itop as ->. reflexivity.
  - intros i Hi. rewrite !RN by lia. set (k := (length st - S (i + 1))%nat).
    replace (length st - S i)%nat with (k + 1)%nat by (unfold k; lia). apply chain_nth; [exact Ich|unfold k, pt in *; lia].
  - intros i Hi. rewrite !RN by lia. set (k := (length st - S (i + 2))%nat).
    replace (length st - S i)%nat with (k + 2)%nat by (unfold k; lia).
    replace (length st - S (i + 1))%nat with (k + 1)%nat by (unfold k; lia). apply chain_turn; [exact Ich|unfold k, pt in *; lia].
  - intros i s Hi Hs. rewrite !RN by lia. set (k := (length st - S (i + 1))%nat).
    replace (length st - S i)%nat with (k + 1)%nat by (unfold k; lia).
    apply (Ile (nth (k + 1) st origin, nth k st origin)); [apply edges_nth; unfold k, pt in *; lia|].
    destruct Hs as [<-|Hs]; auto.
Qed.
