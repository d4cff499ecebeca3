(** The scaled hexagons stay inside the border: assembly. *)
From Coq Require Import Reals Lra Psatz ZArith List Bool Arith Lia.
From Verif Require Import Num GeoModel EdgeModel PlanModel FloorModel GeoSpec GeoMat GeoFig EdgeSpecR EdgeContains EdgeReal EdgePath HullSpec FloorSpec HexGrid HexIn.
Import ListNotations.
Open Scope R_scope.

Lemma hexagon_convex o r : 0 < r -> strictly_convex (hexagon o r).
Proof.
  intros Hr i j I J N1 N2. change (length (hexagon o r)) with 6%nat in *. pose proof sq3_pos as S. assert (Q : 0 < r * r * sqrt 3) by (apply Rmult_lt_0_compat; [nra|exact S]).
  unfold side, cyc, hexagon. do 6 (destruct i as [|i]; [do 6 (destruct j as [|j]; [first [exfalso; cbn in N1, N2; lia|unfold X, Y, P; cbn [map nth length Nat.modulo Nat.divmod Nat.sub fst snd vx vy]; lra]|]); lia|]). lia.
Qed.
Lemma hexPt_map (g : pt -> pt) (l : list pt) i j : length l = 6%nat -> hexPt (map g l) i j = g (hexPt l i j).
Proof. intros L. unfold hexPt. rewrite (nth_indep (map g l) vzero (g vzero)); [apply map_nth|]. rewrite map_length, L. apply Nat.mod_upper_bound. discriminate. Qed.
Lemma filterM_in {A} (f : A -> res bool) l : forall l', filterM f l = Ok l' -> forall x, In x l -> f x = Ok true -> In x l'.
Proof.
  induction l as [|y l IH]; intros l' E x I T; [destruct I|]. cbn [filterM] in E. apply bind_ok in E. destruct E as (b & Eb & E). apply bind_ok in E. destruct E as (ys & Ey & E). apply Ok_inj in E. subst l'.
  destruct I as [<-|I]; [rewrite T in Eb; apply Ok_inj in Eb; subst b; left; reflexivity|]. specialize (IH ys Ey x I T). destruct b; [right|]; exact IH.
Qed.
Lemma side_rot (a b c : pt) : side a b c = side c a b. Proof. unfold side. ring. Qed.
Lemma side_swap (a b c : pt) : side b a c = - side a b c. Proof. unfold side. ring. Qed.
Lemma cyc_next (l : list pt) n : (n < length l)%nat -> exists m, (m < length l)%nat /\ cyc l (S n) = cyc l m.
Proof. intros L. exists (S n mod length l)%nat. split; [apply Nat.mod_upper_bound; lia|]. unfold cyc. rewrite Nat.mod_mod by lia. reflexivity. Qed.
Lemma cyc_in (l : list pt) n : (n < length l)%nat -> In (cyc l n) l.
Proof. intros L. unfold cyc. apply nth_In. apply Nat.mod_upper_bound. lia. Qed.

Section Scaled.
Variables (E : list pt) (o : pt) (r : R) (i : nat) (pin : list pt) (f1 f : R).
Notation hx := (hexagon o r).
Notation c := (hexPt hx i 0).
Hypothesis Hr : 0 < r.
Hypothesis Hi : (i < 6)%nat.
Hypothesis CL : clear_of E hx.
Hypothesis HP : filterM (fun p => contains2D hx p) E = Ok pin.
Hypothesis H1 : foldM (pointFactor hx i) 1 pin = Ok f1.
Hypothesis H2 : foldM (segFactor hx i (toSegments E true)) f1 [1; 2; 3; 4; 5]%nat = Ok f.
Hypothesis Hf : 0 < f.
Lemma C_pos : 0 < r * r * (sqrt 3 / 2).
Proof. pose proof sq3_pos. assert (0 < r * r) by nra. apply Rmult_lt_0_compat; lra. Qed.
Lemma D_pos j : (1 <= j <= 4)%nat -> 0 < side c (hexPt hx i (S j)) (hexPt hx i j).
Proof.
  intros J. rewrite <- side_rot. rewrite side_tab by lia. apply Rmult_lt_0_compat; [apply C_pos|].
  destruct j as [|[|[|[|[|j]]]]]; try lia; cbn; lra.
Qed.
Lemma scaled_pt j : hexPt (escaled hx f c) i j = vadd (vscale (vsub (hexPt hx i j) c) f) c.
Proof. unfold escaled. apply (hexPt_map (fun p => vadd (vscale (vsub p c) f) c)). reflexivity. Qed.
Lemma side_scaled (u v w : pt) : let g p := vadd (vscale (vsub p c) f) c in side (g u) (g v) w = f * (side u v w - (1 - f) * side u v c).
Proof. cbv zeta. unfold side, vadd, vscale, vsub, X, Y. cbn [vx vy]. rn. ring. Qed.
Variable w : pt.
Hypothesis HW : strictly_inside (escaled hx f c) w.
Lemma inside_scaled j : (j < 6)%nat -> (1 - f) * side (hexPt hx i (S j)) (hexPt hx i j) c < side (hexPt hx i (S j)) (hexPt hx i j) w.
Proof.
  intros J. pose proof (inside_corners (escaled hx f c) w i j eq_refl HW Hi J) as K. rewrite !scaled_pt in K. rewrite (side_scaled (hexPt hx i (S j)) (hexPt hx i j) w) in K.
  apply Rnot_le_lt. intros L. nra.
Qed.
Lemma find_cone : exists j, (1 <= j <= 4)%nat /\ side c (hexPt hx i j) w < 0 /\ 0 <= side c (hexPt hx i (S j)) w /\ (j = 4%nat -> 0 < side c (hexPt hx i (S j)) w).
Proof.
  pose proof (inside_scaled 0 ltac:(lia)) as K0. pose proof (inside_scaled 5 ltac:(lia)) as K5.
  assert (Z0 : side (hexPt hx i 1) c c = 0) by (unfold side; ring). rewrite Z0 in K0. rewrite side_swap in K0.
  assert (E6 : hexPt hx i 6 = c) by (unfold hexPt; replace ((i + 6 - 6) mod 6)%nat with ((i + 6 - 0) mod 6)%nat; [reflexivity|]; replace (i + 6 - 6)%nat with i by lia; replace (i + 6 - 0)%nat with (i + 1 * 6)%nat by lia; apply Nat.mod_add; discriminate).
  rewrite E6 in K5. assert (Z5 : side c (hexPt hx i 5) c = 0) by (unfold side; ring). rewrite Z5 in K5.
  destruct (Rle_dec 0 (side c (hexPt hx i 2) w)); [exists 1%nat; split; [lia|]; split; [lra|]; split; [assumption|lia]|].
  destruct (Rle_dec 0 (side c (hexPt hx i 3) w)); [exists 2%nat; split; [lia|]; split; [lra|]; split; [assumption|lia]|].
  destruct (Rle_dec 0 (side c (hexPt hx i 4) w)); [exists 3%nat; split; [lia|]; split; [lra|]; split; [assumption|lia]|].
  exists 4%nat. split; [lia|]. split; [lra|]. split; [lra|]. intros _. lra.
Qed.
Lemma f_le : f <= f1 /\ f1 <= 1.
Proof. split; [exact (proj1 (seg_bound o r i Hi _ _ _ H2))|exact (proj1 (point_bound o r i Hi _ _ _ H1))]. Qed.
Lemma cone_inside j e s t : (1 <= j <= 4)%nat -> 0 <= s -> 0 <= t -> 0 < s + t < 1 -> (j = 1%nat -> 0 < t) -> (j = 4%nat -> 0 < s) ->
  X e = X c + s * (X (hexPt hx i j) - X c) + t * (X (hexPt hx i (S j)) - X c) -> Y e = Y c + s * (Y (hexPt hx i j) - Y c) + t * (Y (hexPt hx i (S j)) - Y c) -> strictly_inside hx e.
Proof.
  intros J HS HT ST T1 S4 EX EY. apply (corners_inside hx e i eq_refl Hi). intros k K.
  assert (ES : side (hexPt hx i (S k)) (hexPt hx i k) e = (1 - s - t) * side (hexPt hx i (S k)) (hexPt hx i k) c + s * side (hexPt hx i (S k)) (hexPt hx i k) (hexPt hx i j) + t * side (hexPt hx i (S k)) (hexPt hx i k) (hexPt hx i (S j)))
    by (unfold side at 1; rewrite EX, EY; unfold side; ring).
  rewrite ES. rewrite (side_tab o r i k 0) by lia. rewrite (side_tab o r i k j) by lia. rewrite (side_tab o r i k _) by lia. pose proof C_pos as CP.
  match goal with |- 0 < ?x * (?cc * ?p) + ?y * (?cc * ?q) + ?z * (?cc * ?d) => replace (x * (cc * p) + y * (cc * q) + z * (cc * d)) with (cc * (x * p + y * q + z * d)) by ring end.
  apply Rmult_lt_0_compat; [exact CP|]. clear - J K HS HT ST T1 S4.
  destruct j as [|[|[|[|[|j]]]]]; try lia; [specialize (T1 eq_refl)| | |specialize (S4 eq_refl)]; do 6 (destruct k as [|k]; [cbn; lra|]); lia.
Qed.
Lemma scaled_clear n : (n < length E)%nat -> ~ on_seg2 (cyc E n) (cyc E (S n)) w.
Proof.
  intros N O. destruct find_cone as (j & J & S1 & S2 & S3). pose proof (D_pos j J) as D. destruct f_le as (F1 & F2).
  assert (CE : forall p s t, 0 <= s -> 0 <= t -> 0 < s + t < 1 -> (j = 1%nat -> 0 < t) -> (j = 4%nat -> 0 < s) ->
    X p = X c + s * (X (hexPt hx i j) - X c) + t * (X (hexPt hx i (S j)) - X c) -> Y p = Y c + s * (Y (hexPt hx i j) - Y c) + t * (Y (hexPt hx i (S j)) - Y c) -> strictly_inside hx p)
    by (intros p s t; apply (cone_inside j); exact J).
  assert (PB : forall p s t, In p pin -> Z p = 0 -> visClose p c = false -> 0 <= s -> 0 <= t -> 0 < s + t ->
    X p = X c + s * (X (hexPt hx i j) - X c) + t * (X (hexPt hx i (S j)) - X c) -> Y p = Y c + s * (Y (hexPt hx i j) - Y c) + t * (Y (hexPt hx i (S j)) - Y c) ->
    eps <= Rabs (turn (hexPt hx i (S j)) (hexPt hx i j) c p) -> f1 <= s + t) by (intros p s t; exact (proj2 (point_bound o r i Hi _ _ _ H1) j p s t J)).
  assert (SB : forall jj s z k, (1 <= jj <= 5)%nat -> In s (toSegments E true) -> on_seg2 (sa s) (sb s) z -> 0 <= k <= 1 -> X z = X (at2 c (hexPt hx i jj) k) -> Y z = Y (at2 c (hexPt hx i jj) k) ->
    eps <= Rabs (turn c (hexPt hx i jj) (sa s) (sb s)) -> f <= k) by exact (proj2 (seg_bound o r i Hi _ _ _ H2)).
  pose proof (inside_scaled j ltac:(lia)) as FAR.
  assert (IU : In (hexPt hx i j) hx) by apply corner_in. assert (IV : In (hexPt hx i (S j)) hx) by apply corner_in. assert (IC : In c hx) by apply corner_in.
  pose proof (SB j) as SBU. pose proof (SB (S j)) as SBV. clear SB. assert (J' : (1 <= j <= 5)%nat) by lia. assert (J2 : (1 <= S j <= 5)%nat) by lia.
  set (u := hexPt hx i j) in *. set (v := hexPt hx i (S j)) in *. set (a := cyc E n) in *. set (b := cyc E (S n)) in *. set (cc := c) in *. clearbody u v.
  assert (IS : In (mkSeg a b) (toSegments E true)) by (rewrite segs_index; apply in_map_iff; exists n; split; [reflexivity|apply in_seq; lia]).
  assert (TW : 0 < tc cc u v w) by (unfold tc; apply Rdiv_lt_0_compat; lra).
  assert (SW : 0 <= sc cc u v w) by (unfold sc; apply Rmult_le_pos; [exact S2|apply Rlt_le, Rinv_0_lt_compat, D]).
  assert (SW4 : j = 4%nat -> 0 < sc cc u v w) by (intros J4; unfold sc; apply Rdiv_lt_0_compat; [apply S3, J4|exact D]).
  destruct (CL n cc u v N IC IU IV) as (_ & NC & _ & TU & _). destruct (CL n cc v u N IC IV IU) as (_ & _ & _ & TV & _). fold a b in NC, TU, TV.
  assert (HU : forall z k, on_seg2 a b z -> 0 <= k <= 1 -> X z = X (at2 cc u k) -> Y z = Y (at2 cc u k) -> turn cc u a b <> 0 -> f <= k).
  { intros z k OZ K EX EY T. destruct TU as [T0|T0]; [contradiction|]. apply (SBU (mkSeg a b) z k J' IS); assumption. }
  assert (HV : forall z k, on_seg2 a b z -> 0 <= k <= 1 -> X z = X (at2 cc v k) -> Y z = Y (at2 cc v k) -> turn cc v a b <> 0 -> f <= k).
  { intros z k OZ K EX EY T. destruct TV as [T0|T0]; [contradiction|]. apply (SBV (mkSeg a b) z k J2 IS); assumption. }
  apply (cone_clear cc u v D a b f ltac:(lra) NC HU HV) with (w := w); try assumption; [|lra|].
  - (* an end of the segment *)
    intros e EE SE TE LE.
    assert (OE : on_seg2 a b e). { destruct EE as [->| ->]; [exists 0|exists 1]; rewrite (proj1 (at2_xy _ _ _)), (proj2 (at2_xy _ _ _)); lra. }
    destruct (coords cc u v D e) as (EX & EY).
    assert (CASE : (j = 1%nat /\ tc cc u v e = 0) \/ (j = 4%nat /\ sc cc u v e = 0) \/ ((j = 1%nat -> 0 < tc cc u v e) /\ (j = 4%nat -> 0 < sc cc u v e))).
    { destruct (Nat.eq_dec j 1), (Req_dec (tc cc u v e) 0), (Nat.eq_dec j 4), (Req_dec (sc cc u v e) 0); try (left; split; assumption); try (right; left; split; assumption); right; right; split; intros; try lia; lra. }
    destruct CASE as [(J1 & T0)|[(J4 & Z0)|(C1 & C4)]].
    + destruct (on_ray_u cc u v D e T0 ltac:(lra)) as (_ & QX & QY). rewrite T0, Rplus_0_r. apply (HU e); [exact OE|lra|exact QX|exact QY|]. apply (turn_at_u cc u v D a b w e O EE). lra.
    + destruct (on_ray_v cc u v D e Z0 ltac:(lra)) as (_ & QX & QY). rewrite Z0, Rplus_0_l. apply (HV e); [exact OE|lra|exact QX|exact QY|]. apply (turn_at_v cc u v D a b w e O EE). specialize (SW4 J4). lra.
    + assert (IN : strictly_inside hx e) by (apply (CE e (sc cc u v e) (tc cc u v e)); assumption).
      assert (EM : exists m, (m < length E)%nat /\ e = cyc E m) by (destruct EE as [->| ->]; [exists n; auto|apply cyc_next; exact N]). destruct EM as (m & M & EQ).
      assert (IE : In e E) by (rewrite EQ; apply cyc_in; exact M).
      pose proof (filterM_in _ _ _ HP e IE (contains_convex hx e (hexagon_convex o r Hr) IN)) as IP.
      destruct (CL m cc v u M IC IV IU) as (ZE & _ & VC & _ & TT). rewrite <- EQ in ZE, VC, TT.
      apply (Rle_trans _ _ _ F1). apply (PB e (sc cc u v e) (tc cc u v e) IP ZE VC SE TE (proj1 LE) EX EY).
      destruct TT as [T0|T0]; [exfalso|exact T0].
      assert (TE0 : turn v u cc e = - (sc cc u v e + tc cc u v e) * side cc v u) by (unfold turn; rewrite EX, EY; unfold side; ring). rewrite TE0 in T0. nra.
  - destruct (coords cc u v D w) as (EX & EY).
    assert (W1 : side v u w = (1 - sc cc u v w - tc cc u v w) * side cc v u) by (unfold side at 1; rewrite EX, EY; unfold side; ring).
    rewrite W1 in FAR. rewrite (side_rot v u cc) in FAR. apply Rnot_le_lt. intros L. nra.
Qed.
End Scaled.
