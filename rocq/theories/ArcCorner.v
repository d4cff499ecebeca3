(** Corner arcs over the reals. *)
From Coq Require Import Reals Lra Psatz List Bool Lia ZArith.
From Verif Require Import Num GeoModel EdgeModel GeoSpec GeoMat GeoCirc EdgeSpecR ArcModel ArcSpec ArcProof.
Import ListNotations.
Open Scope R_scope.

Lemma atan2_unit (x y : R) : x * x + y * y = 1 -> cos (Ratan2 y x) = x /\ sin (Ratan2 y x) = y.
Proof.
  intros U. assert (G : forall x y, x * x + y * y = 1 -> x <> 0 -> cos (atan (y / x)) = Rabs x /\ sin (atan (y / x)) = y / x * Rabs x).
  { clear. intros x y U Hx. rewrite cos_atan, sin_atan.
    assert (E : sqrt (1 + (y / x)²) = / Rabs x).
    { replace (1 + (y / x)²) with ((/ Rabs x) * (/ Rabs x)).
      - apply sqrt_square. apply Rlt_le, Rinv_0_lt_compat, Rabs_pos_lt, Hx.
      - rewrite <- Rinv_mult. rewrite <- Rabs_mult, Rabs_right by nra. unfold Rsqr, Rdiv.
        replace (1 + y * / x * (y * / x)) with ((x * x + y * y) * / (x * x)) by (field; exact Hx). rewrite U. ring. }
    assert (A : Rabs x <> 0) by (apply Rabs_no_R0, Hx). rewrite E. split; unfold Rdiv; field; auto. }
  unfold Ratan2. destruct (Rlt_dec 0 x) as [L|L].
  - destruct (G x y U) as [-> ->]; [lra|]. rewrite Rabs_right by lra. split; [reflexivity|field; lra].
  - destruct (Rlt_dec x 0) as [M|M].
    + destruct (G x y U) as [C S]; [lra|]. rewrite Rabs_left in C, S by lra.
      destruct (Rle_dec 0 y); [rewrite neg_cos, neg_sin|]; [rewrite C, S; split; [ring|field; lra]|].
      rewrite cos_minus, sin_minus, cos_PI, sin_PI, C, S. split; [ring|field; lra].
    + assert (x = 0) by lra. subst x. assert (Y1 : y * y = 1) by lra.
      destruct (Rlt_dec 0 y); [|destruct (Rlt_dec y 0)].
      * rewrite cos_PI2, sin_PI2. split; [reflexivity|nra].
      * replace (- PI / 2) with (- (PI / 2)) by field. rewrite cos_neg, sin_neg, cos_PI2, sin_PI2. split; [reflexivity|nra].
      * exfalso. assert (y = 0) by lra. subst. lra.
Qed.

Section C.
Variables h amax : R.
Let q := @mkQuality Rnum h amax.

(* two unit directions that are not parallel *)
Lemma corner_angles ax ay cx cy : ax * ax + ay * ay = 1 -> cx * cx + cy * cy = 1 ->
  let s := cx * ay - cy * ax in let d := ax * cx + ay * cy in s <> 0 ->
  -1 < d < 1 /\ let t := acos d in 0 < t < PI /\ cos t = d /\ sin t = Rabs s /\
  0 < sin (t / 2) /\ 0 < cos (t / 2) /\ 2 * sin (t / 2) * cos (t / 2) = Rabs s /\ (1 + d) = 2 * (cos (t / 2) * cos (t / 2)).
Proof.
  intros UA UC s d Hs. assert (I : d * d + s * s = 1) by (unfold d, s; nra). assert (0 < s * s) by nra.
  assert (D : -1 < d < 1) by nra. split; [exact D|]. intros t. pose proof PI_RGT_0.
  assert (T0 : 0 < t) by (apply acos_pos; lra). assert (C : cos t = d) by (apply cos_acos; lra).
  assert (T1 : t < PI). { destruct (acos_bound d) as [_ [L|L]]; [exact L|]. exfalso. fold t in L. rewrite L, cos_PI in C. lra. }
  assert (S0 : 0 < sin t) by (apply sin_gt_0; lra).
  assert (S : sin t = Rabs s).
  { pose proof (sin2_cos2 t) as E. unfold Rsqr in E. rewrite C in E. assert (Q : sin t * sin t = Rabs s * Rabs s) by (rewrite <- Rabs_mult, (Rabs_right (s * s)) by lra; lra).
    pose proof (Rabs_pos s). nra. }
  assert (H2 : 0 < sin (t / 2)) by (apply sin_gt_0; lra). assert (H3 : 0 < cos (t / 2)) by (apply cos_gt_0; lra).
  assert (E2 : t = 2 * (t / 2)) by field. split; [lra|]. split; [exact C|]. split; [exact S|]. split; [exact H2|]. split; [exact H3|]. split.
  - rewrite <- S. rewrite E2 at 3. rewrite sin_2a. ring.
  - rewrite <- C. rewrite E2 at 1. rewrite cos_2a_cos. ring.
Qed.

Definition dirx (a b : pt) : R := (X a - X b) / len2 (minus a b).
Definition diry (a b : pt) : R := (Y a - Y b) / len2 (minus a b).

Lemma corner_reduces (r : R) (a b c : pt) : eps <= r ->
  X a <> X b \/ Y a <> Y b -> X c <> X b \/ Y c <> Y b ->
  let ax := dirx a b in let ay := diry a b in let cx := dirx c b in let cy := diry c b in
  let s := cx * ay - cy * ax in s <> 0 ->
  let sg := if Rlt_dec 0 s then 1 else -1 in
  exists start span : R, cos start = sg * - ay /\ sin start = sg * ax /\ span = (PI - acos (ax * cx + ay * cy)) * sg /\
    @cornerArc2D Rnum q r a b c = @arc2D Rnum q r start span (P (X b + (ax + cx) * r / Rabs s) (Y b + (ay + cy) * r / Rabs s) 0).
Proof.
  intros Hr HA HC ax ay cx cy s Hs sg. pose proof eps_pos.
  assert (NA : X (minus a b) <> 0 \/ Y (minus a b) <> 0) by (destruct HA; [left|right]; unfold minus, X, Y, P in *; rn; lra).
  assert (NC : X (minus c b) <> 0 \/ Y (minus c b) <> 0) by (destruct HC; [left|right]; unfold minus, X, Y, P in *; rn; lra).
  destruct (vnorm2D_ok (minus a b) NA) as (EA & LA & PA). destruct (vnorm2D_ok (minus c b) NC) as (EC & LC & PC).
  pose proof (unit2 _ PA) as UA. pose proof (unit2 _ PC) as UC.
  change (X (minus a b) / len2 (minus a b)) with ax in *. change (Y (minus a b) / len2 (minus a b)) with ay in *.
  change (X (minus c b) / len2 (minus c b)) with cx in *. change (Y (minus c b) / len2 (minus c b)) with cy in *.
  clearbody ax ay cx cy.
  destruct (corner_angles ax ay cx cy UA UC Hs) as (D & T & C & S & S2 & C2 & SC & DD). cbv zeta in T, C, S, S2, C2, SC, DD.
  set (t := acos (ax * cx + ay * cy)) in *. fold s in S, SC.
  assert (SG : sg * sg = 1) by (unfold sg; destruct (Rlt_dec 0 s); lra).
  assert (L2 : len2 (P (ax + cx) (ay + cy) 0) = 2 * cos (t / 2)).
  { unfold len2, X, Y, P. rn. replace ((ax + cx) * (ax + cx) + (ay + cy) * (ay + cy)) with ((2 * cos (t / 2)) * (2 * cos (t / 2))) by lra. apply sqrt_square. lra. }
  exists (Ratan2 (ax * sg) (- ay * sg)), ((PI - t) * sg).
  destruct (atan2_unit (- ay * sg) (ax * sg)) as [A1 A2].
  { replace (- ay * sg * (- ay * sg) + ax * sg * (ax * sg)) with ((ax * ax + ay * ay) * (sg * sg)) by ring. rewrite UA, SG. ring. }
  rewrite A1, A2. split; [ring|]. split; [ring|]. split; [reflexivity|].
  unfold cornerArc2D. change (vsub a b) with (minus a b). change (vsub c b) with (minus c b). rewrite EA, EC. cbn [bind].
  unfold vdot, vcross, vortho2D, vscale, vangle2D, vadd, vxy, P, X, Y. rn.
  replace (ax * cx + ay * cy + 0 * 0) with (ax * cx + ay * cy) by ring. rewrite pacos_ok by lra. cbn [bind]. fold t.
  rewrite pdiv_nz by lra. cbn [bind]. rn. rewrite pdiv_nz by lra. cbn [bind].
  assert (NS : X (P (ax + cx) (ay + cy) 0) <> 0 \/ Y (P (ax + cx) (ay + cy) 0) <> 0).
  { unfold X, Y, P. rn. destruct (Req_EM_T (ax + cx) 0); [|left; assumption]. right. intros E.
    apply Hs. unfold s. replace cx with (- ax) by lra. replace cy with (- ay) by lra. ring. }
  destruct (vnorm2D_ok _ NS) as (EN & _ & _).
  replace (0 + 0) with 0 by ring. change (@V Rnum (ax + cx) (ay + cy) 0) with (P (ax + cx) (ay + cy) 0). rewrite EN. cbn [bind]. rewrite L2.
  change (@nltb Rnum) with Rltb.
  replace (if Rltb 0 (cx * ay - cy * ax) then 1 else -(1)) with sg.
  2:{ unfold sg, Rltb. fold s. destruct (Rlt_dec 0 s); lra. }
  f_equal. unfold X, Y, P. rn. f_equal; try ring.
  - rewrite <- SC. field. lra.
  - rewrite <- SC. field. lra.
Qed.

Lemma corner_geometry (a b c : pt) (r start span : R) : 0 < r ->
  X a <> X b \/ Y a <> Y b -> X c <> X b \/ Y c <> Y b ->
  let ax := dirx a b in let ay := diry a b in let cx := dirx c b in let cy := diry c b in
  let s := cx * ay - cy * ax in s <> 0 ->
  let sg := if Rlt_dec 0 s then 1 else -1 in
  cos start = sg * - ay -> sin start = sg * ax -> span = (PI - acos (ax * cx + ay * cy)) * sg ->
  let m := P (X b + (ax + cx) * r / Rabs s) (Y b + (ay + cy) * r / Rabs s) 0 in
  0 < Rabs span < PI /\ cos (start + span) = sg * cy /\ sin (start + span) = - sg * cx /\
  exists k, 0 < k /\
    circle_at m r start = P (X b + k * ax) (Y b + k * ay) 0 /\
    circle_at m r (start + span) = P (X b + k * cx) (Y b + k * cy) 0 /\
    (forall t, between start t (start + span) ->
       let p := circle_at m r t in
       0 <= side b a p * side b a c /\ 0 <= side b c p * side b c a /\
       0 <= side (circle_at m r start) (circle_at m r (start + span)) p * side (circle_at m r start) (circle_at m r (start + span)) b).
Proof.
  intros Hr HA HC ax ay cx cy s Hs sg CS SS SP m.
  assert (NA : X (minus a b) <> 0 \/ Y (minus a b) <> 0) by (destruct HA; [left|right]; unfold minus, X, Y, P in *; rn; lra).
  assert (NC : X (minus c b) <> 0 \/ Y (minus c b) <> 0) by (destruct HC; [left|right]; unfold minus, X, Y, P in *; rn; lra).
  destruct (vnorm2D_ok (minus a b) NA) as (_ & LA & PA). destruct (vnorm2D_ok (minus c b) NC) as (_ & LC & PC).
  pose proof (unit2 _ PA) as UA. pose proof (unit2 _ PC) as UC.
  assert (XA : X a - X b = ax * len2 (minus a b)) by (unfold ax, dirx; field; exact LA).
  assert (YA : Y a - Y b = ay * len2 (minus a b)) by (unfold ay, diry; field; exact LA).
  assert (XC : X c - X b = cx * len2 (minus c b)) by (unfold cx, dirx; field; exact LC).
  assert (YC : Y c - Y b = cy * len2 (minus c b)) by (unfold cy, diry; field; exact LC).
  change (X (minus a b) / len2 (minus a b)) with ax in *. change (Y (minus a b) / len2 (minus a b)) with ay in *.
  change (X (minus c b) / len2 (minus c b)) with cx in *. change (Y (minus c b) / len2 (minus c b)) with cy in *.
  set (la := len2 (minus a b)) in *. set (lc := len2 (minus c b)) in *. clearbody la lc ax ay cx cy.
  destruct (corner_angles ax ay cx cy UA UC Hs) as (D & T & C & S & S2 & C2 & SC & DD). cbv zeta in T, C, S, S2, C2, SC, DD.
  set (t := acos (ax * cx + ay * cy)) in *. fold s in S, SC. set (d := ax * cx + ay * cy) in *.
  assert (SGC : sg = 1 \/ sg = -1) by (unfold sg; destruct (Rlt_dec 0 s); auto).
  assert (SG : sg * sg = 1) by (destruct SGC as [-> | ->]; lra).
  assert (AS : Rabs s = sg * s) by (unfold sg; destruct (Rlt_dec 0 s); [rewrite Rabs_right|rewrite Rabs_left]; lra).
  assert (A0 : 0 < Rabs s) by (apply Rabs_pos_lt, Hs). clearbody sg t.
  assert (SGS : s / Rabs s = sg) by (rewrite AS; apply (Rmult_eq_reg_r (sg * s)); [unfold Rdiv; rewrite Rmult_assoc, Rinv_l by lra; transitivity ((sg * sg) * s); [rewrite SG; ring|ring]|lra]).
  assert (SI : s = cx * ay - cy * ax) by reflexivity. assert (DI : d = ax * cx + ay * cy) by reflexivity.
  assert (ASP : Rabs span = PI - t) by (rewrite SP, Rabs_mult, (Rabs_right (PI - t)) by lra; assert (AG : Rabs sg = 1) by (destruct SGC as [-> | ->]; [rewrite Rabs_right|rewrite Rabs_left]; lra); rewrite AG; ring).
  split; [rewrite ASP; lra|].
  (* the end direction *)
  assert (CSP : cos span = - d) by (rewrite SP; destruct SGC as [-> | ->]; [replace ((PI - t) * 1) with (PI - t) by ring; rewrite Rtrigo_facts.cos_pi_minus; lra|replace ((PI - t) * -1) with (- (PI - t)) by ring; rewrite cos_neg, Rtrigo_facts.cos_pi_minus; lra]).
  assert (SSP : sin span = s) by (rewrite SP; destruct SGC as [G | G]; rewrite G in AS |- *; [replace ((PI - t) * 1) with (PI - t) by ring; rewrite sin_PI_x; lra|replace ((PI - t) * -1) with (- (PI - t)) by ring; rewrite sin_neg, sin_PI_x; lra]).
  assert (CE : cos (start + span) = sg * cy).
  { rewrite cos_plus, CS, SS, CSP, SSP, SI, DI. transitivity (sg * (cy * (ax * ax + ay * ay))); [ring|rewrite UA; ring]. }
  assert (SE : sin (start + span) = - sg * cx).
  { rewrite sin_plus, CS, SS, CSP, SSP, SI, DI. transitivity (- sg * (cx * (ax * ax + ay * ay))); [ring|rewrite UA; ring]. }
  split; [exact CE|]. split; [exact SE|].
  exists (r * (1 + d) / Rabs s). set (k := r * (1 + d) / Rabs s).
  assert (K0 : 0 < k) by (unfold k; apply Rdiv_lt_0_compat; [apply Rmult_lt_0_compat; lra|exact A0]).
  assert (KS : k * s = r * sg * (1 + d)) by (unfold k; transitivity (r * (1 + d) * (s / Rabs s)); [field; lra|rewrite SGS; ring]).
  assert (PS : circle_at m r start = P (X b + k * ax) (Y b + k * ay) 0).
  { unfold circle_at, m, P, X, Y. rn. rewrite CS, SS. clearbody s d. f_equal.
    - apply (Rmult_eq_reg_r (Rabs s)); [|lra]. unfold k. field_simplify; [|lra|lra]. rewrite AS. 
      transitivity (vx b * (sg * s) + r * (ax + cx) - (sg * sg) * (r * s * ay)); [ring|]. rewrite SG, SI, DI.
      transitivity (vx b * (sg * (cx * ay - cy * ax)) + r * ax + r * (cx * (1 - ay * ay) + cy * ax * ay)); [ring|]. replace (1 - ay * ay) with (ax * ax) by lra. ring.
    - apply (Rmult_eq_reg_r (Rabs s)); [|lra]. unfold k. field_simplify; [|lra|lra]. rewrite AS.
      transitivity (vy b * (sg * s) + r * (ay + cy) + (sg * sg) * (r * s * ax)); [ring|]. rewrite SG, SI, DI.
      transitivity (vy b * (sg * (cx * ay - cy * ax)) + r * ay + r * (cy * (1 - ax * ax) + cx * ax * ay)); [ring|]. replace (1 - ax * ax) with (ay * ay) by lra. ring. }
  assert (PE : circle_at m r (start + span) = P (X b + k * cx) (Y b + k * cy) 0).
  { unfold circle_at, m, P, X, Y. rn. rewrite CE, SE. clearbody s d. f_equal.
    - apply (Rmult_eq_reg_r (Rabs s)); [|lra]. unfold k. field_simplify; [|lra|lra]. rewrite AS.
      transitivity (vx b * (sg * s) + r * (ax + cx) + (sg * sg) * (r * s * cy)); [ring|]. rewrite SG, SI, DI.
      transitivity (vx b * (sg * (cx * ay - cy * ax)) + r * cx + r * (ax * (1 - cy * cy) + ay * cx * cy)); [ring|]. replace (1 - cy * cy) with (cx * cx) by lra. ring.
    - apply (Rmult_eq_reg_r (Rabs s)); [|lra]. unfold k. field_simplify; [|lra|lra]. rewrite AS.
      transitivity (vy b * (sg * s) + r * (ay + cy) - (sg * sg) * (r * s * cx)); [ring|]. rewrite SG, SI, DI.
      transitivity (vy b * (sg * (cx * ay - cy * ax)) + r * cy + r * (ay * (1 - cx * cx) + ax * cx * cy)); [ring|]. replace (1 - cx * cx) with (cy * cy) by lra. ring. }
  split; [exact K0|]. split; [exact PS|]. split; [exact PE|].
  intros tt BT p. rewrite PS, PE.
  (* tt = start + sg * x *)
  assert (BX : exists x, 0 <= x <= PI - t /\ tt = start + sg * x).
  { exists (sg * (tt - start)). split; [|transitivity (start + (sg * sg) * (tt - start)); [rewrite SG; ring|ring]].
    destruct SGC as [G|G]; rewrite G in SP |- *; destruct BT; lra. }
  destruct BX as (x & BX & ET).
  assert (U : forall y, cos (sg * y) = cos y /\ sin (sg * y) = sg * sin y).
  { intros y.
    destruct SGC as [-> | ->]; [rewrite Rmult_1_l; split; ring|]. replace (-1 * y) with (- y) by ring. rewrite cos_neg, sin_neg. split; ring. }
  destruct (U x) as [UX1 UX2].
  (* directions: u0.u = cos x, u1.u = cos (PI - t - x) *)
  assert (D0 : sg * (ax * sin tt - ay * cos tt) = cos x).
  { rewrite ET, cos_plus, sin_plus, CS, SS, UX1, UX2. transitivity ((sg * sg) * (ax * ax + ay * ay) * cos x); [ring|]. rewrite SG, UA. ring. }
  assert (CT2 : start + span = tt + sg * (PI - t - x)) by (rewrite ET, SP; ring).
  destruct (U (PI - t - x)) as [UY1 UY2].
  assert (D1 : sg * (cy * cos tt - cx * sin tt) = cos (PI - t - x)).
  { rewrite <- UY1. replace (sg * (PI - t - x)) with ((start + span) - tt) by (rewrite CT2; ring). rewrite cos_minus, CE, SE. ring. }
  assert (CROSSA : ax * (Y p - Y b) - ay * (X p - X b) = - sg * r * (1 - cos x)).
  { rewrite <- D0. unfold p, circle_at, m, X, Y, P. rn.
    transitivity (r * (ax * cy - ay * cx) / Rabs s + r * (ax * sin tt - ay * cos tt)); [field; lra|].
    transitivity (- r * (s / Rabs s) + r * (ax * sin tt - ay * cos tt)); [replace (ax * cy - ay * cx) with (- s) by (rewrite SI; ring); field; lra|]. rewrite SGS.
    transitivity (- sg * r + (sg * sg) * r * (ax * sin tt - ay * cos tt)); [rewrite SG; ring|ring]. }
  assert (CROSSC : cx * (Y p - Y b) - cy * (X p - X b) = sg * r * (1 - cos (PI - t - x))).
  { rewrite <- D1. unfold p, circle_at, m, X, Y, P. rn.
    transitivity (r * (cx * ay - cy * ax) / Rabs s + r * (cx * sin tt - cy * cos tt)); [field; lra|].
    transitivity (r * (s / Rabs s) + r * (cx * sin tt - cy * cos tt)); [rewrite <- SI; field; lra|]. rewrite SGS.
    transitivity (sg * r + (sg * sg) * r * (cx * sin tt - cy * cos tt)); [rewrite SG; ring|ring]. }
  pose proof (COS_bound x) as B1. pose proof (COS_bound (PI - t - x)) as B2.
  assert (SGS0 : 0 < sg * s) by lra.
  split; [|split].
  - unfold side. rewrite XA, YA, XC, YC.
    replace ((ax * la * (Y p - Y b) - ay * la * (X p - X b)) * (ax * la * (cy * lc) - ay * la * (cx * lc)))
      with (la * la * lc * (ax * (Y p - Y b) - ay * (X p - X b)) * (- s)) by (rewrite SI; ring).
    rewrite CROSSA. replace (la * la * lc * (- sg * r * (1 - cos x)) * - s) with (la * la * lc * r * (sg * s) * (1 - cos x)) by ring.
    clear - PA PC Hr SGS0 B1 B2. generalize dependent (sg * s). intros. repeat apply Rmult_le_pos; lra.
  - unfold side. rewrite XA, YA, XC, YC.
    replace ((cx * lc * (Y p - Y b) - cy * lc * (X p - X b)) * (cx * lc * (ay * la) - cy * lc * (ax * la)))
      with (lc * lc * la * (cx * (Y p - Y b) - cy * (X p - X b)) * s) by (rewrite SI; ring).
    rewrite CROSSC. replace (lc * lc * la * (sg * r * (1 - cos (PI - t - x))) * s) with (lc * lc * la * r * (sg * s) * (1 - cos (PI - t - x))) by ring.
    clear - PA PC Hr SGS0 B1 B2. generalize dependent (sg * s). intros. repeat apply Rmult_le_pos; lra.
  - unfold side. change (X (P (X b + k * ax) (Y b + k * ay) 0)) with (X b + k * ax). change (Y (P (X b + k * ax) (Y b + k * ay) 0)) with (Y b + k * ay).
    change (X (P (X b + k * cx) (Y b + k * cy) 0)) with (X b + k * cx). change (Y (P (X b + k * cx) (Y b + k * cy) 0)) with (Y b + k * cy).
    match goal with |- 0 <= ?A * ?B => assert (EA : A = k * (sg * r * (1 - cos (PI - t - x)) + sg * r * (1 - cos x) - k * s)); [|assert (EB : B = - (k * k * s))] end.
    + transitivity (k * ((cx * (Y p - Y b) - cy * (X p - X b)) - (ax * (Y p - Y b) - ay * (X p - X b)) - k * s)); [rewrite SI; ring|]. rewrite CROSSA, CROSSC. ring.
    + rewrite SI. ring.
    + rewrite EA, EB, KS.
      replace (k * (sg * r * (1 - cos (PI - t - x)) + sg * r * (1 - cos x) - r * sg * (1 + d)) * - (k * k * s))
        with (k * k * k * r * (sg * s) * (cos x + cos (PI - t - x) - (1 - d))) by ring.
      assert (F : 0 <= cos x + cos (PI - t - x) - (1 - d)).
      { replace (PI - t - x) with (PI - (t + x)) by ring. rewrite Rtrigo_facts.cos_pi_minus, <- C.
        assert (E1 : cos x - cos (t + x) = 2 * sin (x + t / 2) * sin (t / 2)).
        { assert (Ea : cos x = cos ((x + t / 2) - t / 2)) by (f_equal; ring). assert (Eb : cos (t + x) = cos ((x + t / 2) + t / 2)) by (f_equal; field).
          rewrite Ea, Eb. generalize (x + t / 2). intros A. generalize (t / 2). intros B. rewrite cos_minus, cos_plus. ring. }
        assert (E2 : 1 - cos t = 2 * sin (t / 2) * sin (t / 2)) by (replace t with (2 * (t / 2)) at 1 by field; rewrite cos_2a_sin; ring).
        assert (E3 : sin (t / 2) <= sin (x + t / 2)).
        { destruct (Rle_or_lt (x + t / 2) (PI / 2)); [apply sin_incr_1; lra|]. rewrite <- (sin_PI_x (x + t / 2)). apply sin_incr_1; lra. }
        assert (E4 : 0 <= sin (t / 2) * (sin (x + t / 2) - sin (t / 2))) by (apply Rmult_le_pos; lra).
        clear - E1 E2 E4. lra. }
      clear - K0 Hr SGS0 F. clearbody k. generalize dependent (sg * s). intros. repeat apply Rmult_le_pos; lra.
Qed.
End C.
