(** Arcs over the reals. *)
From Coq Require Import Reals Lra Psatz List Bool Lia ZArith.
From Verif Require Import Num GeoModel EdgeModel GeoSpec GeoMat GeoCirc ArcModel ArcSpec.
Import ListNotations.
Open Scope R_scope.

Lemma Rceil_spec x : x <= IZR (Rceil x) < x + 1.
Proof. unfold Rceil. rewrite opp_IZR. destruct (base_Int_part (- x)). lra. Qed.
Lemma pacos_ok (x : R) : -1 <= x <= 1 -> @pacos Rnum x = Ok (acos x).
Proof.
  intros H. unfold pacos. change (@nltb Rnum) with Rltb. rn.
  replace (Rltb x (-(1))) with false by (symmetry; apply Rltb_false; lra).
  replace (Rltb 1 x) with false by (symmetry; apply Rltb_false; lra). reflexivity.
Qed.
Lemma pacos_err (x : R) : x < -1 \/ 1 < x -> @pacos Rnum x = Err ValueErr.
Proof.
  intros H. unfold pacos. change (@nltb Rnum) with Rltb. rn.
  destruct (Rltb x (-(1))) eqn:A; [reflexivity|]. apply Rltb_false in A.
  replace (Rltb 1 x) with true by (symmetry; apply Rltb_true; lra). reflexivity.
Qed.
Lemma pmin_R (a b : R) : @pmin Rnum a b = Rmin a b.
Proof.
  unfold pmin. change (@nltb Rnum) with Rltb. destruct (Rltb b a) eqn:A.
  - apply Rltb_true in A. rewrite Rmin_right; lra.
  - apply Rltb_false in A. rewrite Rmin_left; lra.
Qed.
Lemma pmax_R (a b : R) : @pmax Rnum a b = Rmax a b.
Proof.
  unfold pmax. change (@nltb Rnum) with Rltb. destruct (Rltb a b) eqn:A.
  - apply Rltb_true in A. rewrite Rmax_right; lra.
  - apply Rltb_false in A. rewrite Rmax_left; lra.
Qed.
Lemma acos_pos x : -1 <= x < 1 -> 0 < acos x.
Proof.
  intros H. destruct (acos_bound x) as [L _]. destruct L as [L|L]; [exact L|].
  exfalso. pose proof (cos_acos x ltac:(lra)) as E. rewrite <- L, cos_0 in E. lra.
Qed.

Lemma turn_limited_bounds s : Rabs (turn_limited s) <= 2 * PI.
Proof.
  pose proof PI_RGT_0. unfold turn_limited. apply Rabs_le. split; [apply Rmax_l|].
  apply Rmax_lub; [lra|apply Rmin_r].
Qed.
Lemma turn_limited_id s : Rabs s <= 2 * PI -> turn_limited s = s.
Proof.
  intros H. unfold turn_limited. pose proof (Rle_abs s). pose proof (Rle_abs (- s)). rewrite Rabs_Ropp in *.
  rewrite Rmin_left by lra. rewrite Rmax_right; lra.
Qed.
Lemma turn_limited_nz s : s <> 0 -> turn_limited s <> 0.
Proof.
  intros H. pose proof PI_RGT_0. unfold turn_limited.
  destruct (Rle_or_lt s (2 * PI)) as [A|A]; [rewrite Rmin_left by lra|rewrite Rmin_right by lra].
  - destruct (Rle_or_lt (- (2 * PI)) s); [rewrite Rmax_right by lra; exact H|rewrite Rmax_left by lra; lra].
  - rewrite Rmax_right; lra.
Qed.

Section A.
Variables h amax : R.
Let q := @mkQuality Rnum h amax.

Definition chord_limit (r : R) : R := Rmin amax (2 * acos (1 - h / r)).

Lemma arc_form (r start span : R) (c : pt) : eps <= r -> 0 < h <= 2 * r -> 0 < amax -> span <> 0 ->
  let sp := turn_limited span in
  exists n : nat, (1 <= n)%nat /\
    (INR n - 1) * chord_limit r < Rabs sp <= INR n * chord_limit r /\
    (full_turn sp -> @arc2D Rnum q r start span c = Ok (map (fun i => circle_at c r (start + INR i * (sp / INR n))) (seq 0 n))) /\
    (~ full_turn sp -> @arc2D Rnum q r start span c = Ok (map (fun i => circle_at c r (start + INR i * (sp / INR n))) (seq 0 (S n)))).
Proof.
  intros Hr Hh Ha Hs sp. pose proof eps_pos as EP. pose proof PI_RGT_0 as PP.
  assert (HR : -1 <= 1 - h / r < 1).
  { assert (0 < h / r) by (apply Rdiv_lt_0_compat; lra). split; [|lra].
    assert (h / r <= 2); [|lra]. apply (Rmult_le_reg_r r); [lra|]. unfold Rdiv. rewrite Rmult_assoc, Rinv_l by lra. lra. }
  pose proof (acos_pos _ HR) as AP. set (A := chord_limit r).
  assert (A0 : 0 < A) by (unfold A, chord_limit; apply Rmin_glb_lt; lra).
  assert (S0 : 0 < Rabs sp) by (apply Rabs_pos_lt, turn_limited_nz, Hs).
  pose proof (Rceil_spec (Rabs sp / A)) as [C1 C2]. set (m := Rceil (Rabs sp / A)) in *.
  assert (Q0 : 0 < Rabs sp / A) by (apply Rdiv_lt_0_compat; lra).
  assert (m0 : (0 < m)%Z) by (apply lt_IZR; lra).
  exists (Z.to_nat m). assert (IM : INR (Z.to_nat m) = IZR m) by (rewrite INR_IZR_INZ, Z2Nat.id by lia; reflexivity).
  split; [lia|]. split.
  { rewrite IM. fold A. split.
    - apply (Rmult_lt_reg_r (/ A)); [apply Rinv_0_lt_compat; lra|]. rewrite Rmult_assoc, Rinv_r by lra. unfold Rdiv in *. lra.
    - apply (Rmult_le_reg_r (/ A)); [apply Rinv_0_lt_compat; lra|]. rewrite Rmult_assoc, Rinv_r by lra. unfold Rdiv in *. lra. }
  assert (F : @arc2D Rnum q r start span c =
    Ok (map (fun i => circle_at c r (start + INR i * (sp / IZR m))) (seq 0 (Z.to_nat (m + (if Rltb eps (Rabs (Rabs sp - 2 * PI)) then 1 else 0)))))).
  { unfold arc2D. change (@nltb Rnum r (nQ 1 1000000)) with (Rltb r eps).
    replace (Rltb r eps) with false by (symmetry; apply Rltb_false; lra).
    change (maxChordHeight q) with h. change (maxChordAngle q) with amax. rewrite pdiv_nz by lra. cbn [bind].
    unfold tau. rn. rewrite (pacos_ok (1 - h / r)) by lra. cbn [bind]. rewrite !pmin_R, !pmax_R.
    change (Rmax (- (2 * PI)) (Rmin span (2 * PI))) with sp.
    replace (Rmin amax (acos (1 - h / r) * 2)) with A by (unfold A, chord_limit; f_equal; ring).
    rewrite pdiv_nz by lra. cbn [bind]. fold m.
    replace (m =? 0)%Z with false by (symmetry; apply Z.eqb_neq; lia). cbn [bind]. f_equal.
    apply map_ext. intros i. unfold circle_at, P, X, Y. rewrite INR_IZR_INZ. reflexivity. }
  rewrite F, IM. unfold full_turn. split; intros T.
  - replace (Rltb eps (Rabs (Rabs sp - 2 * PI))) with false by (symmetry; apply Rltb_false; exact T). rewrite Z.add_0_r. reflexivity.
  - replace (Rltb eps (Rabs (Rabs sp - 2 * PI))) with true by (symmetry; apply Rltb_true; lra). rewrite Z2Nat.inj_add by lia.
    replace (Z.to_nat m + Z.to_nat 1)%nat with (S (Z.to_nat m)) by lia. reflexivity.
Qed.

(* equal points of a circle have angles that differ by a multiple of a turn *)
Lemma same_direction u v : cos u = cos v -> sin u = sin v -> Rabs (u - v) < 2 * PI -> u = v.
Proof.
  intros C S H. assert (K : cos (u - v) = 1) by (rewrite cos_minus, C, S; pose proof (sin2_cos2 v); unfold Rsqr in *; lra).
  pose proof PI_RGT_0. set (d := u - v) in *.
  assert (D : sin (d / 2) = 0).
  { assert (E : cos d = 1 - 2 * (sin (d / 2) * sin (d / 2))) by (replace d with (2 * (d / 2)) at 1 by field; rewrite cos_2a_sin; ring). nra. }
  destruct (Rle_or_lt 0 d) as [P0|P0].
  - rewrite Rabs_right in H by lra. destruct P0 as [P0|P0]; [|unfold d in P0; lra].
    pose proof (sin_gt_0 (d / 2) ltac:(lra) ltac:(lra)). lra.
  - rewrite Rabs_left in H by lra. pose proof (sin_gt_0 (- d / 2) ltac:(lra) ltac:(lra)).
    replace (- d / 2) with (- (d / 2)) in H1 by field. rewrite sin_neg in H1. lra.
Qed.

Lemma arc_nodup (r start sp : R) (c : pt) (n k : nat) : 0 < r -> sp <> 0 -> (1 <= n)%nat ->
  (k = n /\ Rabs sp <= 2 * PI \/ k = S n /\ Rabs sp < 2 * PI) ->
  NoDup (map (fun i => circle_at c r (start + INR i * (sp / INR n))) (seq 0 k)).
Proof.
  intros Hr Hs Hn Hk. assert (N0 : 0 < INR n) by (apply lt_0_INR; lia).
  assert (S0 : 0 < Rabs sp) by (apply Rabs_pos_lt, Hs).
  assert (D : forall i j, (i < k)%nat -> (j < k)%nat -> circle_at c r (start + INR i * (sp / INR n)) = circle_at c r (start + INR j * (sp / INR n)) -> i = j).
  { intros i j Hi Hj E. pose proof (f_equal X E) as EX. pose proof (f_equal Y E) as EY. unfold circle_at, X, Y, P in EX, EY. rn.
    assert (T : start + INR i * (sp / INR n) = start + INR j * (sp / INR n)).
    { apply same_direction; [nra|nra|].
      replace (start + INR i * (sp / INR n) - (start + INR j * (sp / INR n))) with ((INR i - INR j) * (sp / INR n)) by ring.
      rewrite Rabs_mult. unfold Rdiv. rewrite Rabs_mult, (Rabs_right (/ INR n)) by (apply Rle_ge, Rlt_le, Rinv_0_lt_compat; lra).
      assert (B : Rabs (INR i - INR j) <= INR k - 1).
      { assert (G : forall m, (m < k)%nat -> INR m <= INR k - 1) by (intros m Hm; pose proof (le_INR (S m) k Hm) as Q; rewrite S_INR in Q; lra).
        pose proof (G i Hi). pose proof (G j Hj). pose proof (pos_INR i). pose proof (pos_INR j). apply Rabs_le. lra. }
      apply (Rmult_lt_reg_r (INR n)); [lra|]. rewrite Rmult_assoc. rewrite (Rmult_assoc (Rabs sp)), Rinv_l, Rmult_1_r by lra.
      destruct Hk as [[-> L]|[-> L]].
      - assert (Rabs (INR i - INR j) * Rabs sp <= (INR n - 1) * Rabs sp) by (apply Rmult_le_compat_r; lra).
        assert (INR n * Rabs sp <= 2 * PI * INR n) by nra. lra.
      - rewrite S_INR in B. assert (Rabs (INR i - INR j) * Rabs sp <= INR n * Rabs sp) by (apply Rmult_le_compat_r; lra). nra. }
    assert (INR i = INR j); [|apply INR_eq; assumption].
    assert (Q : sp / INR n <> 0) by (unfold Rdiv; apply Rmult_integral_contrapositive_currified; [exact Hs|apply Rinv_neq_0_compat; lra]).
    apply (Rmult_eq_reg_r (sp / INR n)); [lra|exact Q]. }
  assert (G : forall l, NoDup l -> (forall i, In i l -> (i < k)%nat) -> NoDup (map (fun i => circle_at c r (start + INR i * (sp / INR n))) l)).
  { induction l as [|i l IH]; intros ND B; cbn [map]; [constructor|]. inversion ND as [|? ? NI ND']; subst.
    constructor; [|apply IH; [exact ND'|intros; apply B; right; assumption]].
    intros I. apply in_map_iff in I. destruct I as (j & E & Hj).
    apply D in E; [subst; contradiction| |]; apply B; [right|left]; auto. }
  apply G; [apply seq_NoDup|]. intros i Hi. apply in_seq in Hi. lia.
Qed.

(* a point of the arc is close to the chord *)
Lemma chord_close (r u d : R) : 0 < r -> 0 <= d <= PI -> Rabs u <= d ->
  exists k, 0 <= k <= 1 /\ (r * cos u - r * cos d)² + (r * sin u - r * sin d * (1 - 2 * k))² <= (r * (1 - cos d))².
Proof.
  intros Hr Hd Hu. pose proof PI_RGT_0.
  assert (CU : cos d <= cos u).
  { rewrite <- (cos_neg u). unfold Rabs in Hu. destruct (Rcase_abs u).
    - apply cos_decr_1; lra.
    - rewrite cos_neg. apply cos_decr_1; lra. }
  assert (SD : 0 <= sin d) by (apply sin_ge_0; lra).
  pose proof (COS_bound u). pose proof (COS_bound d).
  destruct (Rle_or_lt (Rabs (sin u)) (sin d)) as [I|I].
  - destruct (Req_EM_T (sin d) 0) as [Z|Z].
    + exists 0. split; [lra|]. assert (sin u = 0) by (rewrite Z in I; destruct (Rcase_abs (sin u)); [rewrite Rabs_left in I by lra; lra|rewrite Rabs_right in I by lra; lra]).
      rewrite H2, Z. unfold Rsqr.
      replace (r * cos u - r * cos d) with (r * (cos u - cos d)) by ring.
      assert (0 <= cos u - cos d <= 1 - cos d) by lra. assert ((cos u - cos d) * (cos u - cos d) <= (1 - cos d) * (1 - cos d)) by nra.
      assert (0 <= r * r) by nra. nra.
    + exists ((1 - sin u / sin d) / 2). assert (Q : -1 <= sin u / sin d <= 1).
      { assert (B : - sin d <= sin u <= sin d) by (unfold Rabs in I; destruct (Rcase_abs (sin u)); lra).
        split; apply (Rmult_le_reg_r (sin d)); try lra; unfold Rdiv; rewrite Rmult_assoc, Rinv_l by lra; lra. }
      split; [lra|]. replace (r * sin u - r * sin d * (1 - 2 * ((1 - sin u / sin d) / 2))) with 0 by (field; exact Z).
      unfold Rsqr. replace (r * cos u - r * cos d) with (r * (cos u - cos d)) by ring.
      assert (0 <= cos u - cos d <= 1 - cos d) by lra. assert ((cos u - cos d) * (cos u - cos d) <= (1 - cos d) * (1 - cos d)) by nra.
      assert (0 <= r * r) by nra. nra.
  - (* the arc bulges beyond the chord: the nearest point is an end *)
    set (w := Rabs u). assert (W0 : 0 <= w) by apply Rabs_pos. assert (W1 : w <= d) by exact Hu.
    assert (CW : cos w = cos u) by (unfold w, Rabs; destruct (Rcase_abs u); [apply cos_neg|reflexivity]).
    assert (SW : sin w = Rabs (sin u)).
    { unfold w. assert (0 <= sin (Rabs u)) by (apply sin_ge_0; [apply Rabs_pos|lra]).
      unfold Rabs at 1. destruct (Rcase_abs u) as [L|L].
      - rewrite sin_neg. rewrite Rabs_left1; [reflexivity|]. rewrite Rabs_left in H2 by exact L. rewrite sin_neg in H2. lra.
      - rewrite Rabs_right; [reflexivity|]. rewrite Rabs_right in H2 by exact L. lra. }
    clearbody w.
    assert (DW : d > PI / 2).
    { destruct (Rle_or_lt d (PI / 2)); [|lra]. exfalso. assert (sin w <= sin d) by (apply sin_incr_1; lra). lra. }
    assert (WD : PI - d < w).
    { destruct (Rle_or_lt w (PI - d)); [|lra]. exfalso. assert (sin w <= sin (PI - d)) by (apply sin_incr_1; lra).
      rewrite sin_PI_x in H3. lra. }
    assert (K : (cos w - cos d) * (cos w - cos d) + (sin w - sin d) * (sin w - sin d) <= (1 - cos d) * (1 - cos d)).
    { assert (E : (cos w - cos d) * (cos w - cos d) + (sin w - sin d) * (sin w - sin d) = 2 - 2 * cos (d - w)).
      { rewrite cos_minus. pose proof (sin2_cos2 d) as E1. pose proof (sin2_cos2 w) as E2. unfold Rsqr in *. nra. }
      rewrite E. assert (B : cos (2 * d - PI) <= cos (d - w)) by (apply cos_decr_1; lra).
      rewrite cos_minus, cos_PI, sin_PI, cos_2a_cos in B. assert (CD : cos d <= 0) by (apply cos_le_0; lra).
      assert (F : 0 <= (1 - 3 * cos d) * (1 + cos d)) by (apply Rmult_le_pos; lra). lra. }
    assert (S1 : exists k, (k = 0 \/ k = 1) /\ sin u - sin d * (1 - 2 * k) = sin w - sin d \/ (k = 0 \/ k = 1) /\ sin u - sin d * (1 - 2 * k) = - (sin w - sin d)).
    { unfold Rabs in SW at 1. rewrite SW. unfold Rabs. destruct (Rcase_abs (sin u)); [exists 1|exists 0]; [right|left]; split; auto; ring. }
    destruct S1 as (k & S1). exists k. assert (K01 : 0 <= k <= 1) by (destruct S1 as [[[->| ->] _]|[[->| ->] _]]; lra). split; [exact K01|].
    unfold Rsqr. replace (r * cos u - r * cos d) with (r * (cos w - cos d)) by (rewrite CW; ring).
    replace (r * sin u - r * sin d * (1 - 2 * k)) with (r * (sin u - sin d * (1 - 2 * k))) by ring.
    assert (0 <= r * r) by nra. destruct S1 as [[_ ->]|[_ ->]]; nra.
Qed.

(* from the local frame to the plane: the chord from angle m - d to m + d *)
Lemma within_chord (c : pt) (r m u d H : R) : 0 < r -> 0 <= d <= PI -> Rabs u <= d -> r * (1 - cos d) <= H ->
  within H (circle_at c r (m + u)) (circle_at c r (m - d)) (circle_at c r (m + d)).
Proof.
  intros Hr Hd Hu HH. destruct (chord_close r u d Hr Hd Hu) as (k & K & B).
  exists (1 - k). split; [lra|]. unfold circle_at, X, Y, P. rn. rewrite cos_minus, sin_minus, !cos_plus, !sin_plus.
  eapply Rle_trans; [|eapply Rle_trans; [exact B|]].
  - apply Req_le. unfold Rsqr. pose proof (sin2_cos2 m) as E. unfold Rsqr in E.
    transitivity ((cos m * cos m + sin m * sin m) * ((r * cos u - r * cos d) * (r * cos u - r * cos d) + (r * sin u - r * sin d * (1 - 2 * k)) * (r * sin u - r * sin d * (1 - 2 * k)))); [ring|].
    replace (cos m * cos m + sin m * sin m) with 1 by lra. ring.
  - pose proof (COS_bound d). apply Rsqr_incr_1; [exact HH| |]; nra.
Qed.
Lemma within_sym H p a b : within H p a b -> within H p b a.
Proof.
  intros (k & K & B). exists (1 - k). split; [lra|]. eapply Rle_trans; [|exact B]. apply Req_le. f_equal; f_equal; ring.
Qed.

Lemma arc_sagitta (r u v t : R) (c : pt) : eps <= r -> 0 < h <= 2 * r -> 0 < amax ->
  Rabs (v - u) <= chord_limit r -> Rabs (v - u) <= 2 * PI -> between u t v ->
  within h (circle_at c r t) (circle_at c r u) (circle_at c r v).
Proof.
  intros Hr Hh Ha L1 L2 B. pose proof eps_pos. pose proof PI_RGT_0.
  assert (G : forall u v, 0 <= v - u -> v - u <= chord_limit r -> v - u <= 2 * PI -> u <= t <= v -> within h (circle_at c r t) (circle_at c r u) (circle_at c r v)).
  { clear u v L1 L2 B. intros u v D L1 L2 B.
    replace t with ((u + v) / 2 + (t - (u + v) / 2)) by ring.
    replace (circle_at c r u) with (circle_at c r ((u + v) / 2 - (v - u) / 2)) by (f_equal; field).
    replace (circle_at c r v) with (circle_at c r ((u + v) / 2 + (v - u) / 2)) by (f_equal; field).
    apply within_chord; [lra|lra|apply Rabs_le; lra|].
    assert (HR : -1 <= 1 - h / r < 1).
    { assert (0 < h / r) by (apply Rdiv_lt_0_compat; lra). split; [|lra].
      assert (h / r <= 2); [|lra]. apply (Rmult_le_reg_r r); [lra|]. unfold Rdiv. rewrite Rmult_assoc, Rinv_l by lra. lra. }
    assert (L3 : (v - u) / 2 <= acos (1 - h / r)) by (unfold chord_limit in L1; pose proof (Rmin_r amax (2 * acos (1 - h / r))); lra).
    pose proof (acos_bound (1 - h / r)) as AB.
    assert (C : 1 - h / r <= cos ((v - u) / 2)) by (rewrite <- (cos_acos (1 - h / r)) by lra; apply cos_decr_1; lra).
    assert (E : r * (h / r) = h) by (field; lra). nra. }
  destruct (Rle_or_lt 0 (v - u)) as [D|D].
  - rewrite Rabs_right in L1, L2 by lra. apply G; auto. destruct B; lra.
  - rewrite Rabs_left in L1, L2 by lra. apply within_sym, G; try lra. destruct B; lra.
Qed.
End A.
