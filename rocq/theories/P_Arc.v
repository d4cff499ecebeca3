(** C46, C47, C58: arcs (body/chrumm/part/arc.py), over the reals.  Vocabulary in ArcSpec.v. *)
From Coq Require Import Reals Lra Psatz List Bool Lia ZArith.
From Verif Require Import Num GeoModel EdgeModel GeoSpec GeoMat GeoCirc EdgeSpecR ArcModel ArcSpec ArcProof ArcCorner.
Import ListNotations.
Open Scope R_scope.

(** ** C46 arcs *)
Lemma nth_map_seq (f : nat -> pt) k i d : (i < k)%nat -> nth i (map f (seq 0 k)) d = f i.
Proof. intros H. rewrite (nth_indep _ d (f 0%nat)) by (rewrite map_length, seq_length; exact H). rewrite map_nth, seq_nth by exact H. reflexivity. Qed.
Lemma full_dec s : full_turn s \/ ~ full_turn s.
Proof. unfold full_turn. destruct (Rle_dec (Rabs (Rabs s - 2 * PI)) eps); auto. Qed.

(* the points lie on the circle at equal steps from the start angle; a step is at
   most the configured angle; the arc never leaves its chord by more than the
   configured height; no point occurs twice *)
Theorem C46_arc : forall (h amax r start span : R) (c : pt),
  eps <= r -> 0 < h <= 2 * r -> 0 < amax -> span <> 0 ->
  let sp := turn_limited span in
  exists n pts, (1 <= n)%nat /\ arc2D (mkQuality h amax) r start span c = Ok pts /\
    let step := sp / INR n in let angle i := start + INR i * step in
    (full_turn sp -> length pts = n) /\ (~ full_turn sp -> length pts = S n) /\
    (forall i, (i < length pts)%nat -> nth i pts origin = circle_at c r (angle i)) /\
    Rabs step <= amax /\
    (forall i t, (i < n)%nat -> between (angle i) t (angle (S i)) ->
       within h (circle_at c r t) (circle_at c r (angle i)) (circle_at c r (angle (S i)))) /\
    NoDup pts.
Proof.
  intros h amax r start span c Hr Hh Ha Hs sp. pose proof eps_pos as EP.
  destruct (arc_form h amax r start span c Hr Hh Ha Hs) as (n & Hn & (L1 & L2) & F1 & F2). fold sp in L1, L2, F1, F2.
  assert (N0 : 0 < INR n) by (apply lt_0_INR; lia).
  assert (ST : Rabs (sp / INR n) <= chord_limit h amax r).
  { unfold Rdiv. rewrite Rabs_mult, (Rabs_right (/ INR n)) by (apply Rle_ge, Rlt_le, Rinv_0_lt_compat; lra).
    apply (Rmult_le_reg_r (INR n)); [exact N0|]. rewrite Rmult_assoc, Rinv_l by lra. lra. }
  assert (ST2 : Rabs (sp / INR n) <= 2 * PI).
  { pose proof (turn_limited_bounds span) as B. fold sp in B. assert (1 <= INR n) by (apply (le_INR 1); exact Hn). pose proof PI_RGT_0.
    unfold Rdiv. rewrite Rabs_mult, (Rabs_right (/ INR n)) by (apply Rle_ge, Rlt_le, Rinv_0_lt_compat; lra).
    apply (Rmult_le_reg_r (INR n)); [exact N0|]. rewrite Rmult_assoc, Rinv_l by lra. nra. }
  assert (SA : Rabs (sp / INR n) <= amax) by (eapply Rle_trans; [exact ST|apply Rmin_l]).
  assert (SG : forall i t, (i < n)%nat -> between (start + INR i * (sp / INR n)) t (start + INR (S i) * (sp / INR n)) ->
       within h (circle_at c r t) (circle_at c r (start + INR i * (sp / INR n))) (circle_at c r (start + INR (S i) * (sp / INR n)))).
  { intros i t _ B. apply (arc_sagitta h amax); auto; rewrite S_INR;
      replace (start + (INR i + 1) * (sp / INR n) - (start + INR i * (sp / INR n))) with (sp / INR n) by ring; assumption. }
  assert (SN : sp <> 0) by (apply turn_limited_nz, Hs). pose proof (turn_limited_bounds span) as TB. fold sp in TB.
  destruct (full_dec sp) as [T|T].
  - exists n, (map (fun i => circle_at c r (start + INR i * (sp / INR n))) (seq 0 n)).
    split; [exact Hn|]. split; [exact (F1 T)|]. cbv zeta. rewrite map_length, seq_length.
    split; [auto|]. split; [contradiction|]. split; [intros i Hi; apply nth_map_seq, Hi|]. split; [exact SA|]. split; [exact SG|].
    apply arc_nodup; auto. lra.
  - exists n, (map (fun i => circle_at c r (start + INR i * (sp / INR n))) (seq 0 (S n))).
    split; [exact Hn|]. split; [exact (F2 T)|]. cbv zeta. rewrite map_length, seq_length.
    split; [contradiction|]. split; [auto|]. split; [intros i Hi; apply nth_map_seq, Hi|]. split; [exact SA|]. split; [exact SG|].
    apply arc_nodup; auto; [lra|]. right. split; [reflexivity|]. destruct TB as [TB|TB]; [exact TB|]. exfalso. apply T. unfold full_turn. rewrite TB.
    rewrite Rminus_eq_0, Rabs_R0. lra.
Qed.
Print Assumptions C46_arc.
(* the arc starts at the start angle and, unless it is a full turn, ends at the
   end angle; the polygon of an exact full turn closes with one more equal step *)
Theorem C46_ends : forall (h amax r start span : R) (c : pt),
  eps <= r -> 0 < h <= 2 * r -> 0 < amax -> span <> 0 ->
  let sp := turn_limited span in
  exists pts, arc2D (mkQuality h amax) r start span c = Ok pts /\ pts <> [] /\
    hd origin pts = circle_at c r start /\
    (~ full_turn sp -> last pts origin = circle_at c r (start + sp)) /\
    (Rabs sp = 2 * PI -> last pts origin = circle_at c r (start - sp / INR (length pts))).
Proof.
  intros h amax r start span c Hr Hh Ha Hs sp.
  destruct (arc_form h amax r start span c Hr Hh Ha Hs) as (n & Hn & _ & F1 & F2). fold sp in F1, F2.
  assert (N0 : 0 < INR n) by (apply lt_0_INR; lia).
  assert (HD : forall k, (1 <= k)%nat -> hd origin (map (fun i => circle_at c r (start + INR i * (sp / INR n))) (seq 0 k)) = circle_at c r start).
  { intros [|k] Hk; [lia|]. cbn [seq map hd]. f_equal. cbn [INR]. ring. }
  assert (LA : forall k, last (map (fun i => circle_at c r (start + INR i * (sp / INR n))) (seq 0 (S k))) origin = circle_at c r (start + INR k * (sp / INR n))).
  { intros k. rewrite seq_S, map_app. cbn [map Nat.add]. apply last_last. }
  destruct (full_dec sp) as [T|T].
  - eexists. split; [exact (F1 T)|]. split; [destruct n; [lia|discriminate]|]. split; [apply HD, Hn|]. split; [contradiction|].
    intros E. rewrite map_length, seq_length. destruct n as [|n]; [lia|]. rewrite LA.
    assert (A : start + INR n * (sp / INR (S n)) = start - sp / INR (S n) + sp) by (rewrite S_INR in *; field; lra). rewrite A.
    assert (C2 : cos sp = 1 /\ sin sp = 0).
    { assert (S2 : sp = 2 * PI \/ sp = - (2 * PI)) by (unfold Rabs in E; destruct (Rcase_abs sp); lra).
      destruct S2 as [-> | ->]; [|rewrite cos_neg, sin_neg]; rewrite cos_2PI, sin_2PI; lra. }
    unfold circle_at, P. f_equal; rewrite ?cos_plus, ?sin_plus, (proj1 C2), (proj2 C2); ring.
  - eexists. split; [exact (F2 T)|]. split; [discriminate|]. split; [apply HD; lia|]. split.
    + intros _. rewrite LA. f_equal. field. lra.
    + intros E. exfalso. apply T. unfold full_turn. rewrite E, Rminus_eq_0, Rabs_R0. pose proof eps_pos. lra.
Qed.
Print Assumptions C46_ends.
(* no coarser division meets the tolerances *)
Theorem C46_fewest : forall (h amax r start span : R) (c : pt),
  eps <= r -> 0 < h <= 2 * r -> 0 < amax -> span <> 0 ->
  let sp := turn_limited span in
  exists n pts, arc2D (mkQuality h amax) r start span c = Ok pts /\
    (length pts = n \/ length pts = S n) /\
    forall m, (1 <= m < n)%nat -> amax < Rabs sp / INR m \/ h < r * (1 - cos (Rabs sp / INR m / 2)).
Proof.
  intros h amax r start span c Hr Hh Ha Hs sp. pose proof eps_pos as EP. pose proof PI_RGT_0.
  destruct (arc_form h amax r start span c Hr Hh Ha Hs) as (n & Hn & (L1 & L2) & F1 & F2). fold sp in L1, L2, F1, F2.
  assert (G : forall m, (1 <= m < n)%nat -> amax < Rabs sp / INR m \/ h < r * (1 - cos (Rabs sp / INR m / 2))).
  { intros m Hm. assert (M1 : 1 <= INR m) by (apply (le_INR 1); lia).
    assert (M2 : INR m <= INR n - 1) by (pose proof (le_INR (S m) n ltac:(lia)) as Q; rewrite S_INR in Q; lra).
    assert (HR : -1 <= 1 - h / r < 1).
    { assert (0 < h / r) by (apply Rdiv_lt_0_compat; lra). split; [|lra].
      assert (h / r <= 2); [|lra]. apply (Rmult_le_reg_r r); [lra|]. unfold Rdiv. rewrite Rmult_assoc, Rinv_l by lra. lra. }
    pose proof (acos_pos _ HR) as AP. assert (A0 : 0 < chord_limit h amax r) by (apply Rmin_glb_lt; lra).
    assert (B : chord_limit h amax r < Rabs sp / INR m).
    { apply (Rmult_lt_reg_r (INR m)); [lra|]. unfold Rdiv. rewrite Rmult_assoc, Rinv_l by lra. nra. }
    unfold chord_limit in B. destruct (Rle_or_lt amax (2 * acos (1 - h / r))) as [Q|Q].
    - left. rewrite Rmin_left in B by exact Q. exact B.
    - right. rewrite Rmin_right in B by lra. pose proof (turn_limited_bounds span) as TB. fold sp in TB.
      assert (TB2 : Rabs sp / INR m <= 2 * PI) by (apply (Rmult_le_reg_r (INR m)); [lra|]; unfold Rdiv; rewrite Rmult_assoc, Rinv_l by lra; nra).
      assert (CD : cos (Rabs sp / INR m / 2) < cos (acos (1 - h / r))) by (apply cos_decreasing_1; lra).
      rewrite cos_acos in CD by lra. assert (E : r * (h / r) = h) by (field; lra). nra. }
  destruct (full_dec sp) as [T|T].
  - exists n. eexists. split; [exact (F1 T)|]. rewrite map_length, seq_length. auto.
  - exists n. eexists. split; [exact (F2 T)|]. rewrite map_length, seq_length. auto.
Qed.
Print Assumptions C46_fewest.
(* a radius below the tolerance gives the centre; a tolerance above the diameter
   raises ValueError; an empty span raises ZeroDivisionError *)
Theorem C46_degenerate : forall (h amax r start span : R) (c : pt),
  (r < eps -> arc2D (mkQuality h amax) r start span c = Ok [c]) /\
  (eps <= r -> 2 * r < h -> arc2D (mkQuality h amax) r start span c = Err ValueErr) /\
  (eps <= r -> 0 < h <= 2 * r -> 0 < amax -> span = 0 -> arc2D (mkQuality h amax) r start span c = Err ZeroDivision).
Proof.
  intros h amax r start span c. pose proof eps_pos. split; [|split].
  - intros Hr. unfold arc2D. change (@nltb Rnum r (nQ 1 1000000)) with (Rltb r eps). rewrite (proj2 (Rltb_true r eps) Hr). reflexivity.
  - intros Hr Hh. unfold arc2D. change (@nltb Rnum r (nQ 1 1000000)) with (Rltb r eps). rewrite (proj2 (Rltb_false r eps) Hr).
    change (maxChordHeight (@mkQuality Rnum h amax)) with h. rewrite pdiv_nz by lra. cbn [bind]. rn. rewrite (pacos_err (1 - h / r)); [reflexivity|].
    left. assert (2 < h / r); [|lra]. apply (Rmult_lt_reg_r r); [lra|]. unfold Rdiv. rewrite Rmult_assoc, Rinv_l by lra. lra.
  - intros Hr Hh Ha ->. unfold arc2D. change (@nltb Rnum r (nQ 1 1000000)) with (Rltb r eps). rewrite (proj2 (Rltb_false r eps) Hr).
    change (maxChordHeight (@mkQuality Rnum h amax)) with h. change (maxChordAngle (@mkQuality Rnum h amax)) with amax. rewrite pdiv_nz by lra. cbn [bind].
    assert (HR : -1 <= 1 - h / r < 1).
    { assert (0 < h / r) by (apply Rdiv_lt_0_compat; lra). split; [|lra].
      assert (h / r <= 2); [|lra]. apply (Rmult_le_reg_r r); [lra|]. unfold Rdiv. rewrite Rmult_assoc, Rinv_l by lra. lra. }
    unfold tau. rn. rewrite (pacos_ok (1 - h / r)) by lra. cbn [bind]. rewrite !pmin_R, !pmax_R. pose proof PI_RGT_0.
    rewrite (Rmin_left 0 (2 * PI)), (Rmax_right (- (2 * PI)) 0), Rabs_R0 by lra.
    pose proof (acos_pos _ HR) as AP. assert (A0 : 0 < Rmin amax (acos (1 - h / r) * 2)) by (apply Rmin_glb_lt; lra).
    rewrite pdiv_nz by lra. cbn [bind]. assert (E : Rceil (0 / Rmin amax (acos (1 - h / r) * 2)) = 0%Z).
    { replace (0 / Rmin amax (acos (1 - h / r) * 2)) with 0 by (field; lra).
      pose proof (Rceil_spec 0) as [C1 C2]. apply Z.le_antisymm.
      - assert (HL : IZR (Rceil 0) < 1) by lra. apply lt_IZR in HL. lia.
      - apply le_IZR. exact C1. }
    rewrite E. reflexivity.
Qed.
Print Assumptions C46_degenerate.
Example C46_nonvacuous : eps <= 5 /\ 0 < 1 / 100 <= 2 * 5 /\ 0 < PI / 8 /\ PI / 2 <> 0 /\ ~ full_turn (turn_limited (PI / 2)) /\ full_turn (turn_limited (2 * PI)).
Proof.
  pose proof PI2_1. pose proof PI_RGT_0. unfold eps. repeat split; try lra.
  - rewrite turn_limited_id by (rewrite Rabs_right; lra). unfold full_turn, eps. rewrite (Rabs_right (PI / 2)) by lra. rewrite Rabs_left; lra.
  - rewrite turn_limited_id by (rewrite Rabs_right; lra). unfold full_turn, eps. rewrite (Rabs_right (2 * PI)), Rminus_eq_0, Rabs_R0 by lra. lra.
Qed.

(** ** C47 corner arcs *)
(* For every proper corner a b c: the arc starts on the leg to a and ends on the
   leg to c, at the same distance k from b; it lies on a circle of the given
   radius that touches both legs there; it stays in the triangle of b and the two
   touching points *)
Theorem C47_corner : forall (h amax r : R) (a b c : pt),
  eps <= r -> 0 < h <= 2 * r -> 0 < amax -> side b a c <> 0 ->
  exists pts m k, cornerArc2D (mkQuality h amax) r a b c = Ok pts /\ (2 <= length pts)%nat /\ 0 < k /\
    let S := hd origin pts in let E := last pts origin in
    let la := edist2 a b in let lc := edist2 c b in
    (X S = X b + k * (X a - X b) / la /\ Y S = Y b + k * (Y a - Y b) / la) /\
    (X E = X b + k * (X c - X b) / lc /\ Y E = Y b + k * (Y c - Y b) / lc) /\
    (X S - X m) * (X a - X b) + (Y S - Y m) * (Y a - Y b) = 0 /\
    (X E - X m) * (X c - X b) + (Y E - Y m) * (Y c - Y b) = 0 /\
    forall p, In p pts -> sqdist2 p m = r * r /\ Z p = 0 /\
      0 <= side b a p * side b a c /\ 0 <= side b c p * side b c a /\ 0 <= side S E p * side S E b.
Proof.
  intros h amax r a b c Hr Hh Ha HS. pose proof eps_pos as EP. pose proof PI_RGT_0 as PP. pose proof PI2_1 as P2.
  assert (HA : X a <> X b \/ Y a <> Y b). { destruct (Req_EM_T (X a) (X b)) as [E|E]; [|auto]. right. intros E2. apply HS. unfold side. rewrite E, E2. ring. }
  assert (HC : X c <> X b \/ Y c <> Y b). { destruct (Req_EM_T (X c) (X b)) as [E|E]; [|auto]. right. intros E2. apply HS. unfold side. rewrite E, E2. ring. }
  assert (LL : forall p : pt, len2 (minus p b) = edist2 p b) by (intros p; unfold len2, edist2, sqdist2, Rsqr, minus, X, Y, P; rn; reflexivity).
  assert (PA : 0 < edist2 a b). { rewrite <- LL. apply vnorm2D_ok. destruct HA; [left|right]; unfold minus, X, Y, P in *; rn; lra. }
  assert (PC : 0 < edist2 c b). { rewrite <- LL. apply vnorm2D_ok. destruct HC; [left|right]; unfold minus, X, Y, P in *; rn; lra. }
  assert (HS' : dirx c b * diry a b - diry c b * dirx a b <> 0).
  { unfold dirx, diry. rewrite !LL. intros Q. apply HS. unfold side.
    transitivity (- (((X c - X b) / edist2 c b * ((Y a - Y b) / edist2 a b) - (Y c - Y b) / edist2 c b * ((X a - X b) / edist2 a b)) * (edist2 a b * edist2 c b))); [field; lra|]. rewrite Q. ring. }
  destruct (corner_reduces h amax r a b c Hr HA HC HS') as (start & span & CS & SS & SP & EQ).
  destruct (corner_geometry a b c r start span ltac:(lra) HA HC HS' CS SS SP) as (B & CE & SE & k & K0 & PS & PE & IN).
  set (m := P (X b + (dirx a b + dirx c b) * r / Rabs (dirx c b * diry a b - diry c b * dirx a b)) (Y b + (diry a b + diry c b) * r / Rabs (dirx c b * diry a b - diry c b * dirx a b)) 0) in *.
  assert (SN : span <> 0) by (intros E; rewrite E, Rabs_R0 in B; lra).
  destruct (arc_form h amax r start span m Hr Hh Ha SN) as (n & Hn & _ & _ & F2).
  rewrite (turn_limited_id span) in F2 by lra.
  assert (NF : ~ full_turn span). { unfold full_turn, eps. rewrite Rabs_left by lra. lra. }
  specialize (F2 NF). assert (N0 : 0 < INR n) by (apply lt_0_INR; lia).
  exists (map (fun i => circle_at m r (start + INR i * (span / INR n))) (seq 0 (S n))), m, k.
  split; [rewrite EQ; exact F2|]. split; [rewrite map_length, seq_length; lia|]. split; [exact K0|].
  assert (HDE : hd origin (map (fun i => circle_at m r (start + INR i * (span / INR n))) (seq 0 (S n))) = circle_at m r start).
  { cbn [seq map hd]. f_equal. cbn [INR]. ring. }
  assert (LAE : last (map (fun i => circle_at m r (start + INR i * (span / INR n))) (seq 0 (S n))) origin = circle_at m r (start + span)).
  { rewrite seq_S, map_app. cbn [map Nat.add]. rewrite last_last. f_equal. field. lra. }
  cbv zeta. rewrite HDE. match goal with |- context [@last ?T ?l ?d] => replace (@last T l d) with (circle_at m r (start + span)) by (symmetry; exact LAE) end. unfold dirx, diry in PS, PE. rewrite !LL in PS, PE.
  assert (XS := f_equal X PS). assert (YS := f_equal Y PS). assert (XE := f_equal X PE). assert (YE := f_equal Y PE).
  change (X (P (X b + k * ((X a - X b) / edist2 a b)) (Y b + k * ((Y a - Y b) / edist2 a b)) 0)) with (X b + k * ((X a - X b) / edist2 a b)) in XS.
  change (Y (P (X b + k * ((X a - X b) / edist2 a b)) (Y b + k * ((Y a - Y b) / edist2 a b)) 0)) with (Y b + k * ((Y a - Y b) / edist2 a b)) in YS.
  change (X (P (X b + k * ((X c - X b) / edist2 c b)) (Y b + k * ((Y c - Y b) / edist2 c b)) 0)) with (X b + k * ((X c - X b) / edist2 c b)) in XE.
  change (Y (P (X b + k * ((X c - X b) / edist2 c b)) (Y b + k * ((Y c - Y b) / edist2 c b)) 0)) with (Y b + k * ((Y c - Y b) / edist2 c b)) in YE.
  split; [rewrite XS, YS; split; field; lra|]. split; [rewrite XE, YE; split; field; lra|].
  assert (DA : X a - X b = dirx a b * edist2 a b /\ Y a - Y b = diry a b * edist2 a b) by (unfold dirx, diry; rewrite LL; split; field; lra).
  assert (DC : X c - X b = dirx c b * edist2 c b /\ Y c - Y b = diry c b * edist2 c b) by (unfold dirx, diry; rewrite LL; split; field; lra).
  split.
  { change (X (circle_at m r start)) with (X m + r * cos start). change (Y (circle_at m r start)) with (Y m + r * sin start).
    rewrite (proj1 DA), (proj2 DA), CS, SS. ring. }
  split.
  { change (X (circle_at m r (start + span))) with (X m + r * cos (start + span)). change (Y (circle_at m r (start + span))) with (Y m + r * sin (start + span)).
    rewrite (proj1 DC), (proj2 DC), CE, SE. ring. }
  intros p Hp. apply in_map_iff in Hp. destruct Hp as (i & <- & Hi). apply in_seq in Hi.
  assert (I0 : 0 <= INR i) by apply pos_INR. assert (I1 : INR i <= INR n) by (apply le_INR; lia).
  assert (BT : between start (start + INR i * (span / INR n)) (start + span)).
  { assert (EX : exists f, 0 <= f <= 1 /\ INR i * (span / INR n) = f * span).
    { exists (INR i / INR n). split; [|field; lra]. split.
      - apply Rmult_le_pos; [exact I0|apply Rlt_le, Rinv_0_lt_compat, N0].
      - apply (Rmult_le_reg_r (INR n)); [exact N0|]. unfold Rdiv. rewrite Rmult_assoc, Rinv_l by lra. lra. }
    destruct EX as (f & F & ->). clear - F. unfold between. destruct (Rle_or_lt 0 span); [left|right]; nra. }
  specialize (IN _ BT). cbv zeta in IN.
  split; [|split; [reflexivity|exact IN]].
  generalize (start + INR i * (span / INR n)). intros t. unfold sqdist2, circle_at, X, Y, P, Rsqr. rn.
  pose proof (sin2_cos2 t) as E. unfold Rsqr in E.
  transitivity (r * r * (sin t * sin t + cos t * cos t)); [ring|rewrite E; ring].
Qed.
Print Assumptions C47_corner.
Lemma pdiv_0 (x : R) : @pdiv Rnum x (0 : R) = Err ZeroDivision.
Proof. unfold pdiv. rn. rewrite (proj2 (Reqb_true 0 0) eq_refl). reflexivity. Qed.
Lemma opposite_units (ax ay cx cy : R) : ax * ax + ay * ay = 1 -> ax * cy = ay * cx -> ax * cx + ay * cy = -1 -> cx = - ax /\ cy = - ay.
Proof.
  intros UA PR D. split.
  - transitivity (cx * (ax * ax + ay * ay) + ay * (ax * cy - ay * cx)); [rewrite UA, PR; ring|]; transitivity (ax * (ax * cx + ay * cy)); [ring|rewrite D; ring].
  - transitivity (cy * (ax * ax + ay * ay) - ax * (ax * cy - ay * cx)); [rewrite UA, PR; ring|]; transitivity (ay * (ax * cx + ay * cy)); [ring|rewrite D; ring].
Qed.
(* a corner without a turn (equal points, or legs on one line) raises *)
Theorem C47_degenerate : forall (h amax r : R) (a b c : pt), side b a c = 0 ->
  cornerArc2D (mkQuality h amax) r a b c = Err ZeroDivision.
Proof.
  intros h amax r a b c HS. unfold cornerArc2D. change (vsub a b) with (minus a b). change (vsub c b) with (minus c b).
  destruct (Req_EM_T (X (minus a b)) 0) as [A1|A1]; [destruct (Req_EM_T (Y (minus a b)) 0) as [A2|A2]|].
  { rewrite (vnorm2D_err _ A1 A2). reflexivity. }
  1: assert (NA : X (minus a b) <> 0 \/ Y (minus a b) <> 0) by auto.
  2: assert (NA : X (minus a b) <> 0 \/ Y (minus a b) <> 0) by auto.
  all: destruct (Req_EM_T (X (minus c b)) 0) as [C1|C1]; [destruct (Req_EM_T (Y (minus c b)) 0) as [C2|C2]|];
    [rewrite (vnorm2D_err _ C1 C2); destruct (vnorm2D (minus a b)) as [|e] eqn:EE; [reflexivity|destruct (vnorm2D_ok _ NA) as (Q & _ & _); rewrite Q in EE; discriminate]|..].
  all: assert (NC : X (minus c b) <> 0 \/ Y (minus c b) <> 0) by auto.
  all: destruct (vnorm2D_ok (minus a b) NA) as (EA & LA & PA); destruct (vnorm2D_ok (minus c b) NC) as (EC & LC & PC);
    pose proof (unit2 _ PA) as UA; pose proof (unit2 _ PC) as UC; rewrite EA, EC; cbn [bind].
  all: assert (PAR : X (minus a b) * Y (minus c b) = Y (minus a b) * X (minus c b)) by (clear - HS; unfold side, minus, X, Y, P in *; rn; lra).
  all: set (ax := X (minus a b) / len2 (minus a b)) in *; set (ay := Y (minus a b) / len2 (minus a b)) in *;
    set (cx := X (minus c b) / len2 (minus c b)) in *; set (cy := Y (minus c b) / len2 (minus c b)) in *.
  all: assert (PR : ax * cy = ay * cx) by
    (unfold ax, ay, cx, cy; apply (Rmult_eq_reg_r (len2 (minus a b) * len2 (minus c b))); [|apply Rgt_not_eq, Rmult_lt_0_compat; assumption];
     transitivity (X (minus a b) * Y (minus c b)); [field; auto|rewrite PAR; field; auto]).
  all: clearbody ax ay cx cy; clear - UA UC PR; unfold vdot, vscale, vadd, vortho2D, P; rn;
    replace (ax * cx + ay * cy + 0 * 0) with (ax * cx + ay * cy) by ring;
    assert (D : ax * cx + ay * cy = 1 \/ ax * cx + ay * cy = -1) by
      (assert (Q : (ax * cx + ay * cy) * (ax * cx + ay * cy) = 1)
         by (transitivity ((ax * ax + ay * ay) * (cx * cx + cy * cy) - (ax * cy - ay * cx) * (ax * cy - ay * cx)); [ring|rewrite UA, UC, PR; ring]);
       assert (Q2 : (ax * cx + ay * cy - 1) * (ax * cx + ay * cy + 1) = 0) by lra; apply Rmult_integral in Q2; lra).
  all: destruct D as [D|D].
  all: rewrite pacos_ok by lra; cbn [bind]; rewrite pdiv_nz by lra; cbn [bind]; rn.
  1, 3, 5, 7: rewrite D; rewrite acos_1; replace (0 / 2) with 0 by field; rewrite sin_0; rewrite pdiv_0; reflexivity.
  all: assert (E := opposite_units ax ay cx cy UA PR D).
  all: rewrite D; assert (AC : acos (-1) = PI) by (rewrite <- cos_PI; apply acos_cos; pose proof PI_RGT_0; lra); rewrite AC, sin_PI2, pdiv_nz by lra; cbn [bind];
    rewrite vnorm2D_err; [reflexivity|unfold X; rn; lra|unfold Y; rn; lra].
Qed.
Print Assumptions C47_degenerate.
Example C47_nonvacuous : side (P 0 0 0) (P 10 0 0) (P 3 7 0) <> 0.
Proof. unfold side, X, Y, P. rn. lra. Qed.

(** ** C58 upright holes *)
Lemma half_tan x : cos (x / 2) <> 0 -> tan (x / 2) * sin x = 1 - cos x /\ sin x - tan (x / 2) = tan (x / 2) * cos x.
Proof.
  intros H. assert (S : sin x = 2 * sin (x / 2) * cos (x / 2)) by (replace x with (2 * (x / 2)) at 1 by field; apply sin_2a).
  assert (C : cos x = 1 - 2 * sin (x / 2) * sin (x / 2)) by (replace x with (2 * (x / 2)) at 1 by field; apply cos_2a_sin).
  pose proof (sin2_cos2 (x / 2)) as E. unfold Rsqr in E. unfold tan. split; rewrite S, C.
  - field. exact H.
  - apply (Rmult_eq_reg_r (cos (x / 2))); [|exact H]. transitivity (sin (x / 2) * (2 * (cos (x / 2) * cos (x / 2)) - 1)); [field; exact H|].
    replace (cos (x / 2) * cos (x / 2)) with (1 - sin (x / 2) * sin (x / 2)) by lra. field. exact H.
Qed.
(* if the radius to a makes an angle of at most 90 degrees with a b, the segment stays outside *)
Lemma clears a b r : sqdist2 a origin = r * r -> r * r <= X a * X b + Y a * Y b -> forall p, on_segment2 p a b -> r * r <= sqdist2 p origin.
Proof.
  intros A D p (k & K & EX & EY). unfold sqdist2, Rsqr in *. change (X origin) with 0 in *. change (Y origin) with 0 in *. rewrite EX, EY.
  assert (0 <= (k * (X b - X a)) * (k * (X b - X a)) + (k * (Y b - Y a)) * (k * (Y b - Y a))) by (apply Rplus_le_le_0_compat; apply Rle_0_sqr).
  assert (0 <= k * (X a * X b + Y a * Y b - r * r)) by (apply Rmult_le_pos; lra).
  assert (E : (X a + k * (X b - X a) - 0) * (X a + k * (X b - X a) - 0) + (Y a + k * (Y b - Y a) - 0) * (Y a + k * (Y b - Y a) - 0)
    = (X a - 0) * (X a - 0) + (Y a - 0) * (Y a - 0) + 2 * (k * (X a * X b + Y a * Y b - ((X a - 0) * (X a - 0) + (Y a - 0) * (Y a - 0)))) + ((k * (X b - X a)) * (k * (X b - X a)) + (k * (Y b - Y a)) * (k * (Y b - Y a)))) by ring.
  rewrite E, A. lra.
Qed.
Lemma on_segment2_sym p a b : on_segment2 p a b -> on_segment2 p b a.
Proof. intros (k & K & E1 & E2). exists (1 - k). split; [lra|]. split; [rewrite E1|rewrite E2]; ring. Qed.

(* Full hole: an arc between two straight edges of slope alpha that meet a
   horizontal bridge at height r; the straight edges are tangent (perpendicular to
   the radius at the end of the arc) and neither they nor the bridge enter the circle *)
Theorem C58_full_hole : forall h amax r alpha : R,
  eps <= r -> 0 < h <= 2 * r -> 0 < amax -> eps < 2 * alpha -> alpha < PI ->
  let w := r * tan (alpha / 2) in let T := P (- w) r 0 in let T' := P w r 0 in
  exists pts, uprightHole2D (mkQuality h amax) (Some alpha) r = Ok (T :: pts ++ [T']) /\ pts <> [] /\ 0 < w /\
    (forall p, In p pts -> sqdist2 p origin = r * r /\ Z p = 0) /\
    let S := hd origin pts in let E := last pts origin in
    S = P (- w - w * cos alpha) (r - w * sin alpha) 0 /\ E = P (w + w * cos alpha) (r - w * sin alpha) 0 /\
    X S * (X T - X S) + Y S * (Y T - Y S) = 0 /\ X E * (X T' - X E) + Y E * (Y T' - Y E) = 0 /\
    (forall p, on_segment2 p T S \/ on_segment2 p E T' \/ on_segment2 p T T' -> r * r <= sqdist2 p origin).
Proof.
  intros h amax r al Hr Hh Ha HA1 HA2 w T T'. pose proof eps_pos as EP. pose proof PI_RGT_0 as PP.
  assert (C0 : 0 < cos (al / 2)) by (apply cos_gt_0; lra). assert (S0 : 0 < sin (al / 2)) by (apply sin_gt_0; lra).
  assert (W0 : 0 < w) by (unfold w, tan; apply Rmult_lt_0_compat; [lra|apply Rdiv_lt_0_compat; assumption]).
  destruct (half_tan al ltac:(lra)) as [HT1 HT2].
  assert (W1 : w * sin al = r - r * cos al) by (unfold w; transitivity (r * (tan (al / 2) * sin al)); [ring|rewrite HT1; ring]).
  assert (W2 : w + w * cos al = r * sin al) by (unfold w; transitivity (r * (tan (al / 2) + tan (al / 2) * cos al)); [ring|rewrite <- HT2; ring]).
  set (span := 2 * PI - 2 * al).
  assert (SP : Rabs span <= 2 * PI) by (unfold span; rewrite Rabs_right; lra).
  assert (SN : span <> 0) by (unfold span; lra).
  destruct (arc_form h amax r (2 * PI / 4 + al) span (P 0 0 0) Hr Hh Ha SN) as (n & Hn & _ & _ & F2).
  rewrite (turn_limited_id span SP) in F2.
  assert (NF : ~ full_turn span). { unfold full_turn, span. rewrite (Rabs_right (2 * PI - 2 * al)) by lra. rewrite Rabs_left; lra. }
  specialize (F2 NF). assert (N0 : 0 < INR n) by (apply lt_0_INR; lia).
  set (pts := map (fun i => circle_at (P 0 0 0) r (2 * PI / 4 + al + INR i * (span / INR n))) (seq 0 (S n))) in *.
  assert (HDE : hd origin pts = P (- w - w * cos al) (r - w * sin al) 0).
  { unfold pts. cbn [seq map hd]. replace (2 * PI / 4 + al + INR 0 * (span / INR n)) with (PI / 2 + al) by (cbn [INR]; field; lra).
    unfold circle_at, P, X, Y. rn. rewrite cos_plus, sin_plus, cos_PI2, sin_PI2. f_equal; lra. }
  assert (LAE : last pts origin = P (w + w * cos al) (r - w * sin al) 0).
  { unfold pts. rewrite seq_S, map_app. cbn [map Nat.add]. rewrite last_last.
    replace (2 * PI / 4 + al + INR n * (span / INR n)) with (PI / 2 - al + 2 * PI) by (unfold span; field; lra).
    unfold circle_at, P, X, Y. rn. rewrite (cos_plus (PI / 2 - al)), (sin_plus (PI / 2 - al)), cos_2PI, sin_2PI, cos_minus, sin_minus, cos_PI2, sin_PI2. f_equal; lra. }
  exists pts. split; [|split; [|split; [exact W0|split]]].
  - unfold uprightHole2D, tau. change (@nltb Rnum) with Rltb. rn. rewrite (proj2 (Rltb_true 0 al)) by lra.
    rewrite pdiv_nz by lra. cbn [bind]. rn. change (@vzero Rnum) with (P 0 0 0). fold span. rewrite F2. cbn [bind].
    rewrite !pdiv_nz by lra. cbn [bind]. rn. rewrite pdiv_nz by lra. cbn [bind].
    f_equal. unfold T, T', w, tan, P, vmirX. rn. f_equal; [f_equal; field; lra|]. f_equal. f_equal. f_equal. field. lra.
  - unfold pts. discriminate.
  - intros p Hp. apply in_map_iff in Hp. destruct Hp as (i & <- & _). split; [|reflexivity].
    generalize (2 * PI / 4 + al + INR i * (span / INR n)). intros t. unfold sqdist2, circle_at, origin, X, Y, P, Rsqr. rn.
    pose proof (sin2_cos2 t) as E. unfold Rsqr in E. transitivity (r * r * (sin t * sin t + cos t * cos t)); [ring|rewrite E; ring].
  - cbv zeta. rewrite HDE, LAE. clearbody pts. clear HDE LAE F2.
    pose proof (sin2_cos2 al) as E. unfold Rsqr in E.
    assert (RR : (r * sin al) * (r * sin al) + (r * cos al) * (r * cos al) = r * r) by (transitivity (r * r * (sin al * sin al + cos al * cos al)); [ring|rewrite E; ring]).
    assert (WW : w * (r * sin al) = r * r - r * (r * cos al)) by (transitivity (r * (w * sin al)); [ring|rewrite W1; ring]).
    split; [reflexivity|]. split; [reflexivity|]. unfold T, T'.

    assert (XP : forall x y z, X (P x y z) = x) by reflexivity. assert (YP : forall x y z, Y (P x y z) = y) by reflexivity.
    rewrite ?XP, ?YP. replace (- w - w * cos al) with (- (r * sin al)) by lra. rewrite W2. replace (r - w * sin al) with (r * cos al) by lra.
    split; [lra|]. split; [lra|].
    intros p [H|[H|H]].
    + apply (clears (P (- (r * sin al)) (r * cos al) 0) (P (- w) r 0)); [|rewrite !XP, !YP; lra|apply on_segment2_sym, H].
      unfold sqdist2, origin, Rsqr. rewrite !XP, !YP. lra.
    + apply (clears (P (r * sin al) (r * cos al) 0) (P w r 0)); [|rewrite !XP, !YP; lra|exact H].
      unfold sqdist2, origin, Rsqr. rewrite !XP, !YP. lra.
    + destruct H as (k & K & E1 & E2). unfold sqdist2, origin, Rsqr. rewrite ?XP, ?YP in *. rewrite E1, E2.
      replace (r + k * (r - r) - 0) with r by ring. match goal with |- _ <= ?A * ?A + _ => pose proof (Rle_0_sqr A) as Q; unfold Rsqr in Q; lra end.
Qed.
Print Assumptions C58_full_hole.
(* without a taper angle the sketch is the full circle *)
Theorem C58_round_hole : forall h amax r (taper : option R), match taper with Some a => a <= 0 | None => True end ->
  uprightHole2D (mkQuality h amax) (taper : option (@num Rnum)) r = arc2D (mkQuality h amax) r 0 (2 * PI) origin /\
  uprightHalfHole2D (mkQuality h amax) (taper : option (@num Rnum)) r = arc2D (mkQuality h amax) r 0 PI origin.
Proof.
  intros h amax r [a|] H; unfold uprightHole2D, uprightHalfHole2D; [|split; reflexivity].
  change (@nltb Rnum) with Rltb. rn. rewrite (proj2 (Rltb_false 0 a)) by lra. split; reflexivity.
Qed.
Print Assumptions C58_round_hole.

Lemma half_hole_form h amax r alpha : eps <= r -> 0 < h <= 2 * r -> 0 < amax -> 0 < alpha < PI ->
  let T := P (r * tan (alpha / 2)) r 0 in
  exists pts, @uprightHalfHole2D Rnum (mkQuality h amax) (Some alpha : option (@num Rnum)) r = Ok ((pts ++ [T]) ++ rev (map vmirX (pts ++ [T]))) /\
    pts <> [] /\ hd origin pts = P r 0 0 /\ last pts origin = P (r * cos (PI / 4)) (r * sin (PI / 4)) 0 /\
    (forall p, In p pts -> sqdist2 p origin = r * r /\ Z p = 0).
Proof.
  intros Hr Hh Ha HA T. pose proof eps_pos as EP. pose proof PI_RGT_0 as PP. pose proof PI2_1 as P2.
  assert (C0 : 0 < cos (alpha / 2)) by (apply cos_gt_0; lra).
  set (span := 2 * PI / 8).
  assert (SP : Rabs span <= 2 * PI) by (unfold span; rewrite Rabs_right; lra).
  destruct (arc_form h amax r 0 span (P 0 0 0) Hr Hh Ha ltac:(unfold span; lra)) as (n & Hn & _ & _ & F2).
  rewrite (turn_limited_id span SP) in F2.
  assert (NF : ~ full_turn span). { unfold full_turn, span, eps. rewrite (Rabs_right (2 * PI / 8)) by lra. rewrite Rabs_left; lra. }
  specialize (F2 NF). assert (N0 : 0 < INR n) by (apply lt_0_INR; lia).
  set (pts := map (fun i => circle_at (P 0 0 0) r (0 + INR i * (span / INR n))) (seq 0 (S n))) in *.
  exists pts. split; [|split; [|split; [|split]]].
  - unfold uprightHalfHole2D, tau. change (@nltb Rnum) with Rltb. rn. rewrite (proj2 (Rltb_true 0 alpha)) by lra.
    rewrite pdiv_nz by lra. cbn [bind]. rn. change (@vzero Rnum) with (P 0 0 0). fold span. rewrite F2. cbn [bind].
    rewrite !pdiv_nz by lra. cbn [bind]. rn. rewrite pdiv_nz by lra. cbn [bind].
    unfold T, P, tan. replace (r * sin (alpha / 2) / cos (alpha / 2)) with (r * (sin (alpha / 2) / cos (alpha / 2))) by (field; lra). reflexivity.
  - unfold pts. discriminate.
  - unfold pts. cbn [seq map hd]. replace (0 + INR 0 * (span / INR n)) with 0 by (cbn [INR]; field; lra).
    unfold circle_at, P, X, Y. rn. rewrite cos_0, sin_0. f_equal; ring.
  - unfold pts. rewrite seq_S, map_app. cbn [map Nat.add]. rewrite last_last.
    replace (0 + INR n * (span / INR n)) with (PI / 4) by (unfold span; field; lra). unfold circle_at, P, X, Y. rn. f_equal; ring.
  - intros p Hp. apply in_map_iff in Hp. destruct Hp as (i & <- & _). split; [|reflexivity].
    generalize (0 + INR i * (span / INR n)). intros t. unfold sqdist2, circle_at, origin, X, Y, P, Rsqr. rn.
    pose proof (sin2_cos2 t) as E. unfold Rsqr in E. transitivity (r * r * (sin t * sin t + cos t * cos t)); [ring|rewrite E; ring].
Qed.
(* Half hole with a taper angle of at least 45 degrees: right half from (r, 0) to
   the bridge, then its mirror image; nothing enters the circle; at 45 degrees the
   straight edge is tangent *)
Theorem C58_half_hole_partial : forall h amax r alpha : R,
  eps <= r -> 0 < h <= 2 * r -> 0 < amax -> PI / 4 <= alpha < PI ->
  let T := P (r * tan (alpha / 2)) r 0 in
  exists pts, uprightHalfHole2D (mkQuality h amax) (Some alpha) r = Ok ((pts ++ [T]) ++ rev (map (fun p => P (- X p) (Y p) (Z p)) (pts ++ [T]))) /\
    pts <> [] /\ hd origin pts = P r 0 0 /\ (forall p, In p pts -> sqdist2 p origin = r * r /\ Z p = 0) /\
    let E := last pts origin in
    (alpha = PI / 4 -> X E * (X T - X E) + Y E * (Y T - Y E) = 0) /\
    (forall p, on_segment2 p E T -> r * r <= sqdist2 p origin).
Proof.
  intros h amax r al Hr Hh Ha HA T. pose proof eps_pos as EP. pose proof PI_RGT_0 as PP.
  destruct (half_hole_form h amax r al Hr Hh Ha ltac:(lra)) as (pts & F & NE & HD & LA & ALL).
  exists pts. split; [exact F|]. split; [exact NE|]. split; [exact HD|]. split; [exact ALL|]. cbv zeta. rewrite LA. clear F NE HD LA ALL pts.
  assert (XP : forall x y z, X (P x y z) = x) by reflexivity. assert (YP : forall x y z, Y (P x y z) = y) by reflexivity.
  assert (C8 : 0 < cos (PI / 4 / 2)) by (apply cos_gt_0; lra).
  destruct (half_tan (PI / 4) ltac:(lra)) as [HT _].
  pose proof (sin2_cos2 (PI / 4)) as E. unfold Rsqr in E. assert (SQ : sin (PI / 4) = cos (PI / 4)) by (rewrite sin_PI4, cos_PI4; reflexivity).
  assert (S0 : 0 < sin (PI / 4)) by (apply sin_gt_0; lra).
  unfold T. rewrite !XP, !YP. split.
  - intros ->. transitivity (r * r * (tan (PI / 4 / 2) * cos (PI / 4) + sin (PI / 4) - (sin (PI / 4) * sin (PI / 4) + cos (PI / 4) * cos (PI / 4)))); [ring|].
    rewrite E, <- SQ, HT, <- SQ. ring.
  - apply (clears (P (r * cos (PI / 4)) (r * sin (PI / 4)) 0)).
    + unfold sqdist2, origin, Rsqr. rewrite !XP, !YP. transitivity (r * r * (sin (PI / 4) * sin (PI / 4) + cos (PI / 4) * cos (PI / 4))); [ring|rewrite E; ring].
    + rewrite !XP, !YP. assert (TI : tan (PI / 4 / 2) <= tan (al / 2)).
      { destruct (Req_EM_T al (PI / 4)) as [-> |NE]; [lra|]. apply Rlt_le, tan_increasing; lra. }
      assert (M : tan (PI / 4 / 2) * sin (PI / 4) <= tan (al / 2) * sin (PI / 4)) by (apply Rmult_le_compat_r; lra).
      rewrite HT in M. rewrite <- SQ in M |- *. assert (0 <= r * r) by nra.
      assert (0 <= r * r * (tan (al / 2) * sin (PI / 4) + sin (PI / 4) - 1)) by (apply Rmult_le_pos; lra). lra.
Qed.
Print Assumptions C58_half_hole_partial.
(* Below 45 degrees the straight edge of the half hole cuts into the circle, for
   every radius and every quality: the fixed tau/8 ignores the taper angle *)
Theorem C58_half_hole_refuted : forall h amax r alpha : R,
  eps <= r -> 0 < h <= 2 * r -> 0 < amax -> 0 < alpha < PI / 4 ->
  let T := P (r * tan (alpha / 2)) r 0 in
  exists pts p, uprightHalfHole2D (mkQuality h amax) (Some alpha) r = Ok ((pts ++ [T]) ++ rev (map vmirX (pts ++ [T]))) /\
    pts <> [] /\ on_segment2 p (last pts origin) T /\ sqdist2 p origin < r * r.
Proof.
  intros h amax r al Hr Hh Ha HA T. pose proof eps_pos as EP. pose proof PI_RGT_0 as PP.
  destruct (half_hole_form h amax r al Hr Hh Ha ltac:(lra)) as (pts & F & NE & HD & LA & ALL).
  assert (XP : forall x y z, X (P x y z) = x) by reflexivity. assert (YP : forall x y z, Y (P x y z) = y) by reflexivity.
  assert (C8 : 0 < cos (PI / 4 / 2)) by (apply cos_gt_0; lra).
  destruct (half_tan (PI / 4) ltac:(lra)) as [HT _].
  pose proof (sin2_cos2 (PI / 4)) as E. unfold Rsqr in E. assert (SQ : sin (PI / 4) = cos (PI / 4)) by (rewrite sin_PI4, cos_PI4; reflexivity).
  assert (S0 : 0 < sin (PI / 4)) by (apply sin_gt_0; lra).
  assert (TI : tan (al / 2) < tan (PI / 4 / 2)) by (apply tan_increasing; lra).
  assert (M : tan (al / 2) * sin (PI / 4) < 1 - sin (PI / 4)) by (apply Rlt_le_trans with (tan (PI / 4 / 2) * sin (PI / 4)); [apply Rmult_lt_compat_r; assumption|rewrite HT, SQ; lra]).
  set (dx := r * tan (al / 2) - r * cos (PI / 4)). set (dy := r - r * sin (PI / 4)).
  set (g := r * r * (1 - sin (PI / 4) - tan (al / 2) * sin (PI / 4))).
  assert (G : 0 < g) by (unfold g; apply Rmult_lt_0_compat; [nra|lra]).
  set (L := dx * dx + dy * dy). assert (L0 : 0 <= L) by (unfold L; nra).
  set (k := g / (L + g)). assert (K0 : 0 < k) by (unfold k; apply Rdiv_lt_0_compat; lra).
  assert (K1 : k * (L + g) = g) by (unfold k; field; lra). assert (K2 : k <= 1) by (destruct (Rle_or_lt k 1); [assumption|nra]).
  exists pts, (P (r * cos (PI / 4) + k * dx) (r * sin (PI / 4) + k * dy) 0).
  split; [exact F|]. split; [exact NE|]. rewrite LA. split.
  - exists k. unfold T. rewrite !XP, !YP. split; [lra|]. split; reflexivity.
  - unfold sqdist2, origin, Rsqr. rewrite !XP, !YP.
    assert (EQ : (r * cos (PI / 4) + k * dx - 0) * (r * cos (PI / 4) + k * dx - 0) + (r * sin (PI / 4) + k * dy - 0) * (r * sin (PI / 4) + k * dy - 0)
      = r * r * (sin (PI / 4) * sin (PI / 4) + cos (PI / 4) * cos (PI / 4)) - 2 * k * (r * r * ((sin (PI / 4) * sin (PI / 4) + cos (PI / 4) * cos (PI / 4)) - sin (PI / 4) - tan (al / 2) * cos (PI / 4))) + k * (k * L)) by (unfold L, dx, dy; ring).
    rewrite EQ, E, <- SQ. fold g. assert (k * L < g) by nra. assert (k * (k * L) < k * g) by (apply Rmult_lt_compat_l; lra). assert (0 < k * g) by nra. lra.
Qed.
Print Assumptions C58_half_hole_refuted.
Example C58_nonvacuous : eps < 2 * (PI / 4) /\ PI / 4 < PI /\ PI / 4 <= PI / 4 < PI /\ 0 < PI / 8 < PI / 4.
Proof. pose proof PI2_1. pose proof PI_RGT_0. unfold eps. repeat split; lra. Qed.
