(** The distance to a convex hull is the distance to the region it encloses. *)
From Coq Require Import Reals Lra Psatz List Bool Arith Lia Sorted Permutation.
From Verif Require Import Num GeoModel GeoSpec GeoMat EdgeModel EdgeSpecR EdgeReal EdgeContains EdgeHull EdgeHull2 HullSpec.
Import ListNotations.
Open Scope R_scope.

(* affine functions on [0,1], all nonnegative at 1 *)
Definition aff_at (t : R) (f : R * R) : R := fst f + t * (snd f - fst f).
Lemma first_zero (l : list (R * R)) : (forall f, In f l -> 0 <= snd f) ->
  exists t, 0 <= t <= 1 /\ (forall f, In f l -> forall s, t <= s <= 1 -> 0 <= aff_at s f) /\
    (t = 0 \/ exists f, In f l /\ aff_at t f = 0).
Proof.
  induction l as [|[a b] l IH]; intros H.
  - exists 0. split; [lra|]. split; [intros f []|left; reflexivity].
  - destruct IH as (t & T & A & C); [intros f Hf; apply H; right; exact Hf|].
    assert (B : 0 <= b) by (apply (H (a, b)); left; reflexivity).
    destruct (Rle_dec 0 (aff_at t (a, b))) as [G|G].
    + exists t. split; [exact T|]. split.
      * intros f [<-|Hf] s Hs; [|apply A; assumption]. unfold aff_at in *. cbn [fst snd] in *.
        destruct (Rle_dec 0 (b - a)) as [M|M].
        -- assert (t * (b - a) <= s * (b - a)) by (apply Rmult_le_compat_r; lra). lra.
        -- assert (1 * (a - b) >= s * (a - b)) by (apply Rle_ge, Rmult_le_compat_r; lra). lra.
      * destruct C as [C|(f & Hf & C)]; [left; exact C|right; exists f; split; [right; exact Hf|exact C]].
    + assert (N : aff_at t (a, b) < 0) by lra. unfold aff_at in N, G. cbn [fst snd] in N, G.
      assert (BA : 0 < b - a).
      { destruct (Rle_dec (b - a) 0) as [M|M]; [|lra]. assert (t * (a - b) <= 1 * (a - b)) by (apply Rmult_le_compat_r; lra). lra. }
      set (t' := - a / (b - a)).
      assert (E : a + t' * (b - a) = 0) by (unfold t'; field; lra).
      assert (T1 : t <= t').
      { apply Rmult_le_reg_r with (b - a); [exact BA|]. lra. }
      assert (T2 : t' <= 1).
      { apply Rmult_le_reg_r with (b - a); [exact BA|]. lra. }
      exists t'. split; [lra|]. split.
      * intros f [<-|Hf] s Hs; [|apply A; [exact Hf|lra]]. unfold aff_at. cbn [fst snd].
        assert (t' * (b - a) <= s * (b - a)) by (apply Rmult_le_compat_r; lra). lra.
      * right. exists (a, b). split; [left; reflexivity|]. exact E.
Qed.

Lemma side_at (a b p w : pt) t : side a b (at2 p w t) = aff_at t (side a b p, side a b w).
Proof. unfold side, at2, aff_at, X, Y, P. cbn [fst snd]. rn. ring. Qed.

Lemma strict_S l i j : strictly_convex l -> (i < length l)%nat -> (j < length l)%nat -> j <> i -> j <> (S i mod length l)%nat ->
  0 < side (cyc l i) (cyc l (S i)) (cyc l j).
Proof. intros H. apply H. Qed.
Lemma mod_S n i : (i < n)%nat -> (S i mod n = if Nat.eqb (S i) n then 0 else S i)%nat.
Proof.
  intros H. destruct (Nat.eqb (S i) n) eqn:E.
  - apply Nat.eqb_eq in E. rewrite E. apply Nat.mod_same. lia.
  - apply Nat.eqb_neq in E. apply Nat.mod_small. lia.
Qed.

(* a point of the region on the line of a side is on that side *)
Lemma on_side l i (u : pt) : strictly_convex l -> (3 <= length l)%nat -> (i < length l)%nat ->
  (forall j, (j < length l)%nat -> 0 <= side (cyc l j) (cyc l (S j)) u) -> side (cyc l i) (cyc l (S i)) u = 0 ->
  on_seg2 (cyc l i) (cyc l (S i)) u.
Proof.
  intros C N Hi A E. set (n := length l) in *.
  assert (NE : l <> []) by (intros ->; cbn in n; lia).
  (* the side before *)
  set (p := if Nat.eqb i 0 then (n - 1)%nat else (i - 1)%nat).
  assert (Hp : (p < n)%nat) by (unfold p; destruct (Nat.eqb_spec i 0); lia).
  assert (Sp : (S p mod n = i)%nat) by (rewrite mod_S by exact Hp; destruct (Nat.eqb_spec (S p) n); unfold p in *; destruct (Nat.eqb_spec i 0); lia).
  set (q := (S i mod n)%nat).
  assert (Hq : (q < n)%nat) by (apply Nat.mod_upper_bound; lia).
  assert (Eq : q = if Nat.eqb (S i) n then 0%nat else S i) by (apply mod_S, Hi).
  assert (CQ : cyc l q = cyc l (S i)) by (apply cyc_mod; exact NE).
  assert (CP : cyc l (S p) = cyc l i) by (rewrite <- (cyc_mod l (S p)) by exact NE; fold n; rewrite Sp; reflexivity).
  assert (P1 : 0 < side (cyc l p) (cyc l (S p)) (cyc l q)).
  { apply strict_S; try assumption; fold n.
    - rewrite Eq. unfold p. destruct (Nat.eqb_spec (S i) n), (Nat.eqb_spec i 0); lia.
    - rewrite Sp, Eq. destruct (Nat.eqb_spec (S i) n); lia. }
  assert (P2 : 0 < side (cyc l q) (cyc l (S q)) (cyc l i)).
  { apply strict_S; try assumption; fold n.
    - rewrite Eq. destruct (Nat.eqb_spec (S i) n); lia.
    - rewrite mod_S by exact Hq. rewrite Eq. destruct (Nat.eqb_spec (S i) n); [destruct (Nat.eqb_spec 1 n); lia|].
      destruct (Nat.eqb_spec (S (S i)) n); lia. }
  pose proof (A p Hp) as A1. pose proof (A q Hq) as A2. rewrite CP, CQ in *.
  generalize dependent (cyc l p). intros o P1 A1. generalize dependent (cyc l (S q)). intros o' P2 A2.
  clear - E P1 P2 A1 A2. destruct (cyc l i) as [ax ay az], (cyc l (S i)) as [bx by_ bz], u as [ux uy uz], o as [ox oy oz], o' as [px py pz].
  unfold side, X, Y in *. rn.
  assert (D : 0 < (bx - ax) * (bx - ax) + (by_ - ay) * (by_ - ay)).
  { destruct (Req_dec (bx - ax) 0) as [E1|E1]; destruct (Req_dec (by_ - ay) 0) as [E2|E2].
    - exfalso. replace bx with ax in P1 by lra. replace by_ with ay in P1 by lra. lra.
    - pose proof (Rsqr_pos_lt _ E2) as Q. unfold Rsqr in Q. rewrite E1. lra.
    - pose proof (Rsqr_pos_lt _ E1) as Q. unfold Rsqr in Q. rewrite E2. lra.
    - pose proof (Rsqr_pos_lt _ E2) as Q. pose proof (Rsqr_pos_lt _ E1) as Q'. unfold Rsqr in *. lra. }
  set (dd := (bx - ax) * (bx - ax) + (by_ - ay) * (by_ - ay)) in *.
  set (s := ((ux - ax) * (bx - ax) + (uy - ay) * (by_ - ay)) / dd).
  assert (Ux : ux = ax + s * (bx - ax)).
  { apply Rmult_eq_reg_r with dd; [|lra]. unfold s. field_simplify; [|lra]. unfold dd.
    assert (K : (bx - ax) * (uy - ay) = (by_ - ay) * (ux - ax)) by lra. clear - K.
    assert (K2 : (by_ - ay) * ((bx - ax) * (uy - ay)) = (by_ - ay) * ((by_ - ay) * (ux - ax))) by (rewrite K; reflexivity). lra. }
  assert (Uy : uy = ay + s * (by_ - ay)).
  { apply Rmult_eq_reg_r with dd; [|lra]. unfold s. field_simplify; [|lra]. unfold dd.
    assert (K : (bx - ax) * (uy - ay) = (by_ - ay) * (ux - ax)) by lra. clear - K.
    assert (K2 : (bx - ax) * ((bx - ax) * (uy - ay)) = (bx - ax) * ((by_ - ay) * (ux - ax))) by (rewrite K; reflexivity). lra. }
  clearbody s. subst ux uy. exists s. split; [|split; unfold at2, X, Y, P; rn; ring].
  split.
  - apply Rmult_le_reg_r with ((ax - ox) * (by_ - oy) - (ay - oy) * (bx - ox)); [exact P1|]. lra.
  - assert (0 <= (1 - s) * ((px - bx) * (ay - by_) - (py - by_) * (ax - bx))) by lra.
    assert (0 <= 1 - s); [|lra]. apply Rmult_le_reg_r with ((px - bx) * (ay - by_) - (py - by_) * (ax - bx)); [exact P2|]. lra.
Qed.
Lemma edist2_at (p w : pt) t : 0 <= t <= 1 -> edist2 (at2 p w t) p <= edist2 w p.
Proof.
  intros T. unfold edist2. apply sqrt_le_1_alt. unfold sqdist2, at2, X, Y, P, Rsqr. rn.
  set (a := vx w - vx p). set (b := vy w - vy p).
  replace ((vx p + t * a - vx p) * (vx p + t * a - vx p) + (vy p + t * b - vy p) * (vy p + t * b - vy p)) with ((t * t) * (a * a + b * b)) by ring.
  assert (0 <= a * a + b * b) by (pose proof (Rle_0_sqr a); pose proof (Rle_0_sqr b); unfold Rsqr in *; lra).
  assert (t * t <= 1 * 1) by (apply Rmult_le_compat; lra).
  assert (t * t * (a * a + b * b) <= 1 * (a * a + b * b)) by (apply Rmult_le_compat_r; lra). lra.
Qed.

(* with three or more corners *)
Lemma region_dist l (pos w : pt) d : strictly_convex l -> (3 <= length l)%nat ->
  (forall i, (i < length l)%nat -> 0 <= side (cyc l i) (cyc l (S i)) w) ->
  edistance2D l pos = Ok d -> contains2D l pos = Ok false -> d <= edist2 w pos.
Proof.
  intros C N Hw Hd Hc. assert (NE : l <> []) by (intros ->; cbn in N; lia).
  destruct (edistance_spec l pos NE) as (d' & Ed & _ & S2). rewrite Hd in Ed. apply Ok_inj in Ed. subst d'.
  destruct (S2 Hc) as (_ & MIN). clear S2.
  assert (NI : ~ strictly_inside l pos).
  { intros I. rewrite (contains_convex l pos C I) in Hc. discriminate. }
  set (fs := map (fun i => (side (cyc l i) (cyc l (S i)) pos, side (cyc l i) (cyc l (S i)) w)) (seq 0 (length l))).
  assert (IN : forall f, In f fs <-> exists i, (i < length l)%nat /\ f = (side (cyc l i) (cyc l (S i)) pos, side (cyc l i) (cyc l (S i)) w)).
  { intros f. unfold fs. rewrite in_map_iff. split; intros (i & A & B).
    - exists i. apply in_seq in B. split; [lia|auto].
    - exists i. split; [auto|apply in_seq; lia]. }
  destruct (first_zero fs) as (t & T & A & Z0).
  { intros f Hf. apply IN in Hf. destruct Hf as (i & Hi & ->). apply Hw, Hi. }
  assert (AP : forall i, (i < length l)%nat -> 0 <= side (cyc l i) (cyc l (S i)) (at2 pos w t)).
  { intros i Hi. rewrite side_at. apply A; [apply IN; eauto|lra]. }
  assert (ZZ : exists i, (i < length l)%nat /\ side (cyc l i) (cyc l (S i)) (at2 pos w t) = 0).
  { destruct Z0 as [->|(f & Hf & E)].
    - destruct (existsb (fun i => if Rle_dec (side (cyc l i) (cyc l (S i)) pos) 0 then true else false) (seq 0 (length l))) eqn:X.
      + apply existsb_exists in X. destruct X as (i & Hi & X). apply in_seq in Hi. exists i. split; [lia|].
        destruct (Rle_dec (side (cyc l i) (cyc l (S i)) pos) 0) as [G|]; [|discriminate].
        pose proof (AP i ltac:(lia)) as K. rewrite side_at in *. unfold aff_at in *. cbn [fst snd] in *. lra.
      + exfalso. apply NI. split; [exact NE|]. intros i Hi. 
        destruct (Rle_dec (side (cyc l i) (cyc l (S i)) pos) 0) as [G|G]; [|lra]. exfalso.
        assert (XX : existsb (fun i => if Rle_dec (side (cyc l i) (cyc l (S i)) pos) 0 then true else false) (seq 0 (length l)) = true).
        { apply existsb_exists. exists i. split; [apply in_seq; lia|]. destruct (Rle_dec (side (cyc l i) (cyc l (S i)) pos) 0); [reflexivity|contradiction]. }
        rewrite XX in X. discriminate.
    - apply IN in Hf. destruct Hf as (i & Hi & ->). exists i. split; [exact Hi|]. rewrite side_at. exact E. }
  destruct ZZ as (i & Hi & E).
  pose proof (on_side l i (at2 pos w t) C N Hi AP E) as OS.
  pose proof (MIN i (at2 pos w t) Hi OS). pose proof (edist2_at pos w t T). lra.
Qed.

(* the hull starts at the lexicographically first point; with two corners it ends at the last one *)
Lemma hull_ends (vs : list pt) : (2 <= length vs)%nat -> length (convexHull2D vs) = 2%nat ->
  exists a b, convexHull2D vs = [a; b] /\ forall v, In v vs -> le2 a (vxy v) /\ le2 (vxy v) b.
Proof.
  intros Hn. unfold convexHull2D. set (s := vsort (map vxy vs)).
  assert (PS : Permutation s (map vxy vs)) by apply vsort_perm.
  assert (LS : length s = length vs) by (rewrite (Permutation_length PS), map_length; reflexivity).
  assert (SS : StronglySorted le2 s).
  { apply vsort_sorted. rewrite Forall_forall. intros x Hx. apply in_map_iff in Hx. destruct Hx as (v & <- & _). reflexivity. }
  clearbody s. destruct s as [|a [|a2 l]]; [cbn in LS; lia|cbn in LS; lia|].
  set (s := a :: a2 :: l) in *. set (b := last s origin).
  assert (CL : Chain (fun x => In x s) (hull_chain s) a b).
  { pose proof (chain_of (a2 :: l) a SS) as K. replace b with (last (a2 :: l) a); [exact K|].
    unfold b, s. change (last (a :: a2 :: l) origin) with (last (a2 :: l) origin). apply last_indep. discriminate. }
  assert (NEs : s <> []) by discriminate.
  assert (RS : exists l', rev s = b :: l').
  { destruct s as [|x s0] using rev_ind; [contradiction|]. rewrite rev_app_distr. exists (rev s0). unfold b. rewrite last_last. reflexivity. }
  destruct RS as (l' & RS).
  assert (LL : (2 <= length (hull_chain s))%nat) by apply chain_len.
  assert (LU : (2 <= length (hull_chain (rev s)))%nat).
  { rewrite RS. destruct l' as [|x l']; [|apply chain_len]. apply (f_equal (@length pt)) in RS. rewrite rev_length in RS. discriminate RS. }
  assert (U0 : nth 0 (hull_chain (rev s)) origin = b).
  { pose proof (SS_rev_ng s SS) as SR. unfold pt in SR, RS |- *. rewrite RS in SR |- *. cbn [map] in SR.
    pose proof (c_hd _ _ _ _ (chain_of (map ng l') (ng b) SR)) as K. change (ng b :: map ng l') with (map ng (b :: l')) in K. rewrite chain_ng, nth_ng in K.
    rewrite <- (ng_ng (nth 0 _ _)), K. apply ng_ng. }
  pose proof (c_hd _ _ _ _ CL) as L0. unfold pt in *.
  rewrite app_length, !removelast_len. intros LH.
  set (L := hull_chain s) in *. set (U := hull_chain (rev s)) in *. clearbody L U. clear CL.
  unfold pt in LH.   assert (LL2 : length L = 2%nat) by lia. assert (LU2 : length U = 2%nat) by lia.
  destruct L as [|x1 [|x2 [|]]]; try discriminate LL2. destruct U as [|y1 [|y2 [|]]]; try discriminate LU2.
  cbn [nth] in L0, U0. subst x1 y1. exists a, b. split; [reflexivity|]. intros v Hv. apply (SS_ext s SS origin NEs).
  apply (Permutation_in _ (Permutation_sym PS)). apply in_map. exact Hv.
Qed.
Lemma le2_seg (a b v : pt) : le2 a v -> le2 v b -> side a b v = 0 -> on_seg2 a b v.
Proof.
  destruct a as [ax ay az], b as [bx by_ bz], v as [x y z]. unfold le2, side, on_seg2, at2, X, Y, P. rn. intros A B E.
  destruct (Rlt_dec ax bx) as [L|L].
  - exists ((x - ax) / (bx - ax)). split; [|split; [field; lra|]].
    + split; [apply Rmult_le_pos; [lra|left; apply Rinv_0_lt_compat; lra]|]. apply Rmult_le_reg_r with (bx - ax); [lra|]. unfold Rdiv. rewrite Rmult_assoc, Rinv_l by lra. lra.
    + apply Rmult_eq_reg_r with (bx - ax); [|lra]. unfold Rdiv.
      replace ((ay + (x - ax) * / (bx - ax) * (by_ - ay)) * (bx - ax)) with (ay * (bx - ax) + (x - ax) * (by_ - ay) * (/ (bx - ax) * (bx - ax))) by ring.
      rewrite Rinv_l by lra. lra.
  - assert (EX : ax = x /\ x = bx) by lra. destruct EX as [<- <-].
    assert (EY : ay <= y <= by_) by lra. destruct (Rlt_dec ay by_) as [M|M].
    + exists ((y - ay) / (by_ - ay)). split; [|split; [ring|field; lra]].
      split; [apply Rmult_le_pos; [lra|left; apply Rinv_0_lt_compat; lra]|]. apply Rmult_le_reg_r with (by_ - ay); [lra|]. unfold Rdiv. rewrite Rmult_assoc, Rinv_l by lra. lra.
    + exists 0. split; [lra|]. split; lra.
Qed.
Lemma hull_two (vs : list pt) v : (2 <= length vs)%nat -> length (convexHull2D vs) = 2%nat -> In v vs ->
  on_seg2 (cyc (convexHull2D vs) 0) (cyc (convexHull2D vs) 1) v.
Proof.
  intros Hn L Hv. destruct (hull_main vs Hn) as (_ & _ & C & _). cbn zeta in C.
  destruct (hull_ends vs Hn L) as (a & b & E & H). pose proof (C 0%nat v ltac:(lia) Hv) as C0. pose proof (C 1%nat v ltac:(lia) Hv) as C1. clear C.
  rewrite E in *. change (cyc [a; b] 0) with a in *. change (cyc [a; b] 1) with b in *. change (cyc [a; b] 2) with a in *.
  destruct (H v Hv) as (H1 & H2).
  apply le2_seg.
  - exact H1.
  - exact H2.
  - assert (EQ : side b a v = - side a b v) by (unfold side; ring). rewrite EQ in C1. unfold side in *. lra.
Qed.

Lemma seg2_trans (a b p q w : pt) : on_seg2 a b p -> on_seg2 a b q -> on_seg2 p q w -> on_seg2 a b w.
Proof.
  intros (s & S & Px & Py) (t & T & Qx & Qy) (u & U & Wx & Wy). exists (s + u * (t - s)). 
  split.
  - replace (s + u * (t - s)) with ((1 - u) * s + u * t) by ring.
    assert (0 <= (1 - u) * s) by (apply Rmult_le_pos; lra). assert (0 <= u * t) by (apply Rmult_le_pos; lra).
    assert ((1 - u) * s <= (1 - u) * 1) by (apply Rmult_le_compat_l; lra). assert (u * t <= u * 1) by (apply Rmult_le_compat_l; lra). lra.
  - unfold at2, X, Y, P in *. rn. rewrite Wx, Wy, Px, Py, Qx, Qy. split; ring.
Qed.
Lemma spanned_two (a b : pt) vs : (forall v, In v vs -> on_seg2 a b v) -> forall w, spanned vs w -> on_seg2 a b w.
Proof.
  intros H. induction 1 as [v w Hv EX EY|p q w _ IHp _ IHq S].
  - destruct (H v Hv) as (t & T & A & B). exists t. split; [exact T|]. rewrite EX, EY. auto.
  - exact (seg2_trans a b p q w IHp IHq S).
Qed.
Lemma spanned_side (a b : pt) vs : (forall v, In v vs -> 0 <= side a b v) -> forall w, spanned vs w -> 0 <= side a b w.
Proof.
  intros H. induction 1 as [v w Hv EX EY|p q w _ IHp _ IHq (t & T & A & B)].
  - pose proof (H v Hv) as K. unfold side in *. rewrite EX, EY. exact K.
  - assert (E : side a b w = (1 - t) * side a b p + t * side a b q).
    { unfold side. rewrite A, B. unfold at2, X, Y, P. rn. ring. }
    rewrite E. assert (0 <= (1 - t) * side a b p) by (apply Rmult_le_pos; lra). assert (0 <= t * side a b q) by (apply Rmult_le_pos; lra). lra.
Qed.
(* corners of the hull, and points between neighbours, are spanned *)
Lemma hull_spanned (vs : list pt) i w : (2 <= length vs)%nat -> (i < length (convexHull2D vs))%nat ->
  on_seg2 (cyc (convexHull2D vs) i) (cyc (convexHull2D vs) (S i)) w -> spanned vs w.
Proof.
  intros Hn Hi HS. destruct (hull_main vs Hn) as (L & I & _). cbn zeta in I, L.
  assert (NE : convexHull2D vs <> []) by (intros E; rewrite E in L; cbn in L; lia).
  assert (K : forall j, spanned vs (cyc (convexHull2D vs) j)).
  { intros j. destruct (I (cyc (convexHull2D vs) j)) as (v & Hv & E).
    - unfold cyc. apply nth_In. apply Nat.mod_upper_bound. unfold pt in *; lia.
    - apply sp_point with v; [exact Hv| |]; rewrite E; reflexivity. }
  eapply sp_between; [apply K|apply K|exact HS].
Qed.

Theorem hull_distance (vs : list pt) (pos : pt) : (2 <= length vs)%nat ->
  exists d, edistance2D (convexHull2D vs) pos = Ok d /\ 0 <= d /\
  (0 < d -> (forall w, spanned vs w -> d <= edist2 w pos) /\ exists w, spanned vs w /\ edist2 w pos = d).
Proof.
  intros Hn. destruct (hull_main vs Hn) as (L & I & C & SC). cbn zeta in *.
  assert (NE : convexHull2D vs <> []) by (intros E; rewrite E in L; cbn in L; lia).
  destruct (edistance_spec _ pos NE) as (d & Ed & D1 & D2). exists d. split; [exact Ed|].
  assert (CB : exists b, contains2D (convexHull2D vs) pos = Ok b) by (eexists; apply contains_x).
  destruct CB as (b & Eb).
  split.
  { destruct b; [rewrite D1 by exact Eb; lra|]. destruct (D2 Eb) as ((i & w & _ & _ & ->) & _). apply sqrt_pos. }
  intros Hd. assert (Eb' : contains2D (convexHull2D vs) pos = Ok false).
  { destruct b; [|exact Eb]. specialize (D1 Eb). lra. }
  destruct (D2 Eb') as ((i & w & Hi & Hw & E) & MIN). split.
  - intros w' SP. destruct (Nat.eq_dec (length (convexHull2D vs)) 2) as [L2|L2].
    + apply (MIN 0%nat); [unfold pt in *; lia|]. apply (spanned_two _ _ vs); [|exact SP]. intros v Hv. apply hull_two; assumption.
    + eapply region_dist; eauto; [unfold pt in *; lia|]. intros j Hj. apply (spanned_side _ _ vs); [|exact SP]. intros v Hv. apply C; assumption.
  - exists w. split; [eapply hull_spanned; eauto|auto].
Qed.
