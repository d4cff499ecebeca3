(** The outline of the knob with its grooves, over the reals. *)
From Coq Require Import Reals Lra Psatz ZArith List Bool Arith Lia.
From Verif Require Import Num GeoModel EdgeModel GeoSpec GeoMat GeoRigid GeoCirc ArcModel ArcSpec ArcProof ArcCorner ArcShape MeshModel BossSpec BossProof PartProof KnobModel KnobSpec.
Import ListNotations.
Open Scope R_scope.

Lemma psqrt_ok (x y : R) : @psqrt Rnum x = Ok y -> 0 <= x /\ y = sqrt x.
Proof.
  unfold psqrt. intros H. destruct (nltb (Num := Rnum) x (nZ 0)) eqn:C; [discriminate|]. change (Rltb x 0 = false) in C. apply Rltb_false in C. apply Ok_inj in H. split; [exact C|symmetry; exact H].
Qed.
(* the right one of two crossings of circles above each other *)
Lemma right_crossing (a b g : R) is (cc : pt) : 0 < g -> @cintersectCircle2D Rnum (mkCircle vzero a) (mkCircle (P 0 g 0) b) = Ok is -> nth_error is 1 = Some cc ->
  let m := (a * a - b * b + g * g) / (2 * g) in X cc * X cc = a * a - m * m /\ 0 < X cc /\ Y cc = m /\ Z cc = 0.
Proof.
  intros G H N m. pose proof eps_pos as EP. unfold cintersectCircle2D in H. cbv zeta in H. cbn [ccenter cradius] in H.
  match goal with A : context[vmag2D ?e] |- _ => assert (EM : vmag2D e = g); [|set (pp := vmag2D e) in *; clearbody pp; subst pp] end.
  { unfold vmag2D. match goal with |- nsqrt ?e = _ => change (sqrt e = g); replace e with (g * g) by (unfold vsub, vxy, vzero, P; cbn; rn; ring) end. apply sqrt_square. lra. }
  match goal with A : (if ?b then _ else _) = _ |- _ => destruct b; [apply Ok_inj in A; subst is; discriminate|] end.
  apply bind_ok in H. destruct H as (d & ED & H). apply bind_ok in H. destruct H as (md & EMD & H). apply bind_ok in H. destruct H as (ch & EC & H).
  apply pdiv_ok in EMD. destruct EMD as [_ EMD]. change (md = (a * a - b * b + g * g) / (2 * g)) in EMD. fold m in EMD. subst md.
  apply psqrt_ok in EC. destruct EC as [C0 EC].
  assert (DD : d = P 0 1 0).
  { assert (E : vsub (vxy (P 0 g 0)) (vxy (@vzero Rnum)) = P 0 g 0) by (apply pt_ext; unfold vsub, vxy, vzero, P, X, Y, Z; cbn; rn; ring). rewrite E in ED.
    assert (L : len (P 0 g 0) = g) by (unfold len, inner, X, Y, Z, P; cbn; replace (0 * 0 + g * g + 0 * 0) with (g * g) by ring; apply sqrt_square; lra).
    rewrite vnorm_spec in ED by (intros E0; apply (f_equal Y) in E0; unfold Y, P, origin, P in E0; cbn in E0; lra). apply Ok_inj in ED. subst d. rewrite L. apply pt_ext; unfold scaled, X, Y, Z, P; cbn; field; lra. }
  subst d. match goal with A : (if ?b then _ else _) = _ |- _ => destruct b eqn:CZ; [apply Ok_inj in A; subst is; discriminate|] end.
  apply Ok_inj in H. subst is. cbn [nth_error] in N. injection N as <-. apply isZero_false in CZ.
  assert (CP : 0 < ch). { subst ch. pose proof (sqrt_pos (a * a - m * m)) as SP. destruct SP as [SP|SP]; [exact SP|]. exfalso. revert CZ. change (Rabs (sqrt (a * a - m * m)) < eps -> False) in CZ || idtac. rewrite <- SP || idtac. intros CZ. change (eps <= Rabs (sqrt (a * a - m * m))) in CZ. rewrite <- SP, Rabs_R0 in CZ. lra. }
  assert (CS : ch * ch = a * a - m * m) by (rewrite EC; apply sqrt_sqrt; exact C0). clear EC C0 CZ ED.
  assert (EX : vsub (vadd (vxy (@vzero Rnum)) (vscale (P 0 1 0) m)) (vscale (vortho2D (P 0 1 0)) ch) = P ch m 0) by (apply pt_ext; unfold vsub, vadd, vxy, vscale, vortho2D, vzero, P, X, Y, Z; cbn; rn; ring).
  match goal with |- X ?e * _ = _ /\ _ => change e with (vsub (vadd (vxy (@vzero Rnum)) (vscale (P 0 1 0) m)) (vscale (vortho2D (P 0 1 0)) ch)) end.
  rewrite EX. unfold P, X, Y, Z. cbn [vx vy vz]. split; [exact CS|split; [exact CP|split; reflexivity]].
Qed.
Lemma atan2_right (p : pt) : 0 < X p -> - (PI / 2) < vangle2D p < PI / 2.
Proof.
  intros H. change (- (PI / 2) < Ratan2 (Y p) (X p) < PI / 2). unfold Ratan2. destruct (Rlt_dec 0 (X p)) as [_|N]; [|lra]. pose proof (atan_bound (Y p / X p)). lra.
Qed.
Lemma polar (p : pt) (r : R) : 0 < r -> X p * X p + Y p * Y p = r * r -> X p = r * cos (vangle2D p) /\ Y p = r * sin (vangle2D p).
Proof.
  intros R0 E. assert (L : level p). { unfold level. destruct (Req_dec (X p) 0) as [A|A]; [|left; exact A]. destruct (Req_dec (Y p) 0) as [B|B]; [|right; exact B]. rewrite A, B in E. nra. }
  destruct (angle_cs p L) as (A & B). rewrite A, B. unfold ux, uy. rewrite E. assert (Q : sqrt (r * r) = r) by (apply sqrt_square; lra). rewrite Q. split; field; lra.
Qed.

(** ** one groove *)
Section Groove.
Variables Rk ro gr inset : R.
Let g := Rk + gr - inset.
Let a := Rk - ro.
Let b := gr + ro.
Hypothesis R0 : 0 < Rk.
Hypothesis Ro0 : 0 <= ro < Rk.
Hypothesis Gr0 : 0 < gr.
Hypothesis Tangent : Rk * Rk + gr * gr < g * g.
Hypothesis Gpos : 0 < g.
Variable cc : pt.
Hypothesis CX : 0 < X cc.
Hypothesis CA : X cc * X cc + Y cc * Y cc = a * a.
Hypothesis CB : X cc * X cc + (g - Y cc) * (g - Y cc) = b * b.
Let t0 : R := vangle2D cc.
Let u1 : R := vangle2D (P (- X cc) (g - Y cc) 0).
Let gs : R := vangle2D (P (X cc) (Y cc - g) 0).

Lemma gR : Rk < g. Proof. nra. Qed.
Lemma a0 : 0 < a. Proof. unfold a. lra. Qed.
Lemma b0 : 0 < b. Proof. unfold b. lra. Qed.
Lemma cc_below : Y cc < g.
Proof. pose proof gR. pose proof a0. assert (Y cc <= a) by nra. unfold a in *. lra. Qed.
Lemma cc_polar : X cc = a * cos t0 /\ Y cc = a * sin t0.
Proof. apply polar; [exact a0|exact CA]. Qed.
Lemma t0_range : - (PI / 2) < t0 < PI / 2. Proof. apply atan2_right. exact CX. Qed.
Lemma u1_polar : - X cc = b * cos u1 /\ g - Y cc = b * sin u1.
Proof. apply (polar (P (- X cc) (g - Y cc) 0) b b0). change (- X cc * - X cc + (g - Y cc) * (g - Y cc) = b * b). rewrite <- CB. ring. Qed.
Lemma u1_range : PI / 2 < u1 < PI.
Proof.
  pose proof cc_below as B. unfold u1. change (PI / 2 < Ratan2 (g - Y cc) (- X cc) < PI). unfold Ratan2. destruct (Rlt_dec 0 (- X cc)) as [N|_]; [lra|]. destruct (Rlt_dec (- X cc) 0) as [_|N]; [|lra].
  destruct (Rle_dec 0 (g - Y cc)) as [_|N]; [|lra]. pose proof (atan_bound ((g - Y cc) / - X cc)) as A.
  assert (atan ((g - Y cc) / - X cc) < 0); [|lra]. rewrite <- atan_0. apply atan_increasing. assert (0 < (g - Y cc) / X cc) by (apply Rdiv_lt_0_compat; lra). replace ((g - Y cc) / - X cc) with (- ((g - Y cc) / X cc)) by (field; lra). lra.
Qed.
Lemma gs_polar : X cc = b * cos gs /\ Y cc - g = b * sin gs.
Proof. apply (polar (P (X cc) (Y cc - g) 0) b b0). change (X cc * X cc + (Y cc - g) * (Y cc - g) = b * b). rewrite <- CB. ring. Qed.
Lemma gs_range : - (PI / 2) < gs < 0.
Proof.
  pose proof cc_below as B. unfold gs. change (- (PI / 2) < Ratan2 (Y cc - g) (X cc) < 0). unfold Ratan2. destruct (Rlt_dec 0 (X cc)) as [_|N]; [|lra].
  pose proof (atan_bound ((Y cc - g) / X cc)) as A. split; [lra|]. rewrite <- atan_0. apply atan_increasing. assert (0 < (g - Y cc) / X cc) by (apply Rdiv_lt_0_compat; lra). replace ((Y cc - g) / X cc) with (- ((g - Y cc) / X cc)) by (field; lra). lra.
Qed.
(* the corner turns by less than half a turn *)
Lemma corner_turn : 0 < u1 - t0 < PI.
Proof.
  pose proof t0_range as T. pose proof u1_range as U. destruct cc_polar as (P1 & P2). destruct u1_polar as (Q1 & Q2). split; [lra|].
  destruct (Rlt_dec (u1 - t0) PI) as [L|L]; [exact L|]. exfalso.
  assert (S : sin (u1 - t0) <= 0). { replace (u1 - t0) with ((u1 - t0 - PI) + PI) by ring. rewrite neg_sin. assert (0 <= sin (u1 - t0 - PI)) by (apply sin_ge_0; lra). lra. }
  rewrite sin_minus in S. assert (E : a * b * (sin u1 * cos t0 - cos u1 * sin t0) = g * X cc).
  { transitivity ((b * sin u1) * (a * cos t0) - (b * cos u1) * (a * sin t0)); [ring|]. rewrite <- P1, <- P2, <- Q1, <- Q2. ring. }
  pose proof a0. pose proof b0. assert (0 < a * b) by nra. assert (0 < g * X cc) by nra. nra.
Qed.
(* where the corner meets the groove *)
Lemma contact : X cc + ro * cos u1 = gr * cos gs /\ Y cc + ro * sin u1 = g + gr * sin gs.
Proof.
  destruct u1_polar as (Q1 & Q2). destruct gs_polar as (S1 & S2). pose proof b0 as B.
  assert (C1 : cos u1 = - cos gs) by (apply (Rmult_eq_reg_l b); [|lra]; rewrite <- Q1; rewrite S1 at 1; ring).
  assert (C2 : sin u1 = - sin gs) by (apply (Rmult_eq_reg_l b); [|lra]; rewrite <- Q2; transitivity (- (Y cc - g)); [ring|rewrite S2; ring]).
  rewrite C1, C2. unfold b in *. split; nra.
Qed.
Lemma cos_between u : t0 <= u <= u1 -> cos u1 <= cos u.
Proof.
  intros H. pose proof t0_range as T. pose proof u1_range as U. destruct (Rle_dec 0 u) as [L|L].
  - destruct (Req_dec u u1) as [->|N]; [lra|]. left. apply cos_decreasing_1; lra.
  - assert (0 <= cos u) by (apply cos_ge_0; lra). assert (cos u1 <= 0) by (apply cos_le_0; lra). lra.
Qed.
Lemma cos_turn u : t0 <= u <= u1 -> cos (u1 - t0) <= cos (u - t0).
Proof. intros H. pose proof corner_turn as T. destruct (Req_dec u u1) as [->|N]; [lra|]. left. apply cos_decreasing_1; lra. Qed.
Definition on_corner (p : pt) : Prop := exists u, t0 <= u <= u1 /\ X p = X cc + ro * cos u /\ Y p = Y cc + ro * sin u.
Definition on_groove (p : pt) : Prop := exists u, - (PI / 2) <= u <= gs /\ X p = gr * cos u /\ Y p = g + gr * sin u.
Lemma radius_bound k : k <= 1 -> a * a + ro * ro + 2 * a * ro * k <= Rk * Rk.
Proof.
  intros K. pose proof a0 as A. assert (E : Rk * Rk = (a + ro) * (a + ro)) by (unfold a; ring). rewrite E. assert (0 <= a * ro * (1 - k)) by (apply Rmult_le_pos; [apply Rmult_le_pos|]; lra). lra.
Qed.
Lemma contact_in : gr * cos gs * (gr * cos gs) + (g + gr * sin gs) * (g + gr * sin gs) <= Rk * Rk.
Proof.
  destruct contact as (E1 & E2). rewrite <- E1, <- E2. destruct cc_polar as (P1 & P2). rewrite P1, P2.
  apply Rle_trans with (a * a + ro * ro + 2 * a * ro * cos (u1 - t0)); [|apply radius_bound, COS_bound].
  right. rewrite cos_minus. pose proof (sin2_cos2 t0) as S1. pose proof (sin2_cos2 u1) as S2. unfold Rsqr in S1, S2.
  transitivity (a * a * (sin t0 * sin t0 + cos t0 * cos t0) + ro * ro * (sin u1 * sin u1 + cos u1 * cos u1) + 2 * a * ro * (cos u1 * cos t0 + sin u1 * sin t0)); [ring|rewrite S1, S2; ring].
Qed.
Lemma groove_in u : gr * cos u * (gr * cos u) + (g + gr * sin u) * (g + gr * sin u) = g * g + gr * gr + 2 * g * gr * sin u.
Proof. pose proof (sin2_cos2 u) as S. unfold Rsqr in S. transitivity (g * g + gr * gr * (sin u * sin u + cos u * cos u) + 2 * g * gr * sin u); [ring|rewrite S; ring]. Qed.
Lemma sin_gs u : - (PI / 2) <= u <= gs -> -1 <= sin u <= sin gs.
Proof.
  intros H. split; [apply SIN_bound|]. pose proof gs_range as G. destruct (Req_dec u gs) as [->|N]; [lra|]. left. apply sin_increasing_1; lra.
Qed.
(* at the contact the wall of the groove is still visible from the axis *)
Lemma visible : g * sin gs + gr < 0.
Proof. pose proof contact_in as C. rewrite groove_in in C. nra. Qed.
Lemma corner_in u : (X cc + ro * cos u) * (X cc + ro * cos u) + (Y cc + ro * sin u) * (Y cc + ro * sin u) = a * a + ro * ro + 2 * a * ro * cos (u - t0).
Proof.
  destruct cc_polar as (P1 & P2). rewrite P1, P2. rewrite cos_minus. pose proof (sin2_cos2 t0) as S1. pose proof (sin2_cos2 u) as S2. unfold Rsqr in S1, S2.
  transitivity (a * a * (sin t0 * sin t0 + cos t0 * cos t0) + ro * ro * (sin u * sin u + cos u * cos u) + 2 * a * ro * (cos u * cos t0 + sin u * sin t0)); [ring|rewrite S1, S2; ring].
Qed.
Lemma groove_radii p : on_corner p \/ on_groove p -> (g - gr) * (g - gr) <= X p * X p + Y p * Y p <= Rk * Rk.
Proof.
  pose proof a0 as A0. pose proof contact_in as CI. rewrite groove_in in CI. intros [(u & U & -> & ->)|(u & U & -> & ->)].
  - rewrite corner_in. pose proof (cos_turn u U) as CT. assert (C1 : cos (u - t0) <= 1) by apply COS_bound. split; [|apply radius_bound, C1].
    destruct contact as (E1 & E2). pose proof (corner_in u1) as E. rewrite E1, E2, groove_in in E. pose proof (SIN_bound gs) as [S1 _].
    assert (0 <= a * ro * (cos (u - t0) - cos (u1 - t0))) by (apply Rmult_le_pos; [apply Rmult_le_pos|]; lra). assert (0 <= g * gr * (sin gs + 1)) by (apply Rmult_le_pos; [apply Rmult_le_pos|]; lra). lra.
  - rewrite groove_in. destruct (sin_gs u U) as (S1 & S2).
    assert (0 <= g * gr * (sin u + 1)) by (apply Rmult_le_pos; [apply Rmult_le_pos|]; lra). assert (0 <= g * gr * (sin gs - sin u)) by (apply Rmult_le_pos; [apply Rmult_le_pos|]; lra). lra.
Qed.
Lemma groove_right p : on_corner p \/ on_groove p -> 0 <= X p.
Proof.
  intros [(u & U & -> & _)|(u & U & -> & _)].
  - pose proof (cos_between u U) as C. destruct u1_polar as (Q1 & _). pose proof b0 as B. assert (E : b * (X cc + ro * cos u1) = gr * X cc) by (transitivity (b * X cc + ro * (b * cos u1)); [ring|rewrite <- Q1; unfold b; ring]).
    assert (0 <= gr * X cc) by (apply Rmult_le_pos; lra). assert (0 <= X cc + ro * cos u1) by (apply (Rmult_le_reg_l b); [exact B|lra]). assert (0 <= ro * (cos u - cos u1)) by (apply Rmult_le_pos; lra). lra.
  - pose proof gs_range. assert (0 <= cos u) by (apply cos_ge_0; lra). apply Rmult_le_pos; lra.
Qed.
(* both arcs turn around the axis *)
Definition crossz (p p' : pt) : R := X p * Y p' - X p' * Y p.
Lemma corner_turns u d (p p' : pt) : 0 < ro -> t0 <= u -> 0 < d < PI / 2 -> u + 2 * d <= u1 -> X p = X cc + ro * cos u -> Y p = Y cc + ro * sin u ->
  X p' = X cc + ro * cos (u + 2 * d) -> Y p' = Y cc + ro * sin (u + 2 * d) -> 0 < crossz p p'.
Proof.
  intros RO U D V X1 Y1 X2 Y2. set (v := u + 2 * d) in *.
  assert (E : crossz p p' = 2 * ro * sin d * (cos d * (ro + a * cos (v - t0)) + sin d * (a * sin (v - t0)))).
  { unfold crossz. rewrite X1, X2, Y1, Y2. replace u with (v - 2 * d) by (unfold v; ring). destruct cc_polar as (P1 & P2). rewrite P1, P2.
    rewrite !cos_minus, !sin_minus, cos_2a, sin_2a. pose proof (sin2_cos2 v) as S1. pose proof (sin2_cos2 d) as S2. unfold Rsqr in S1, S2.
    set (sv := sin v) in *. set (cv := cos v) in *. set (sd := sin d) in *. set (cd := cos d) in *. set (st := sin t0). set (ct := cos t0).
    assert (C2 : cd * cd = 1 - sd * sd) by lra. assert (V2 : cv * cv = 1 - sv * sv) by lra.
    transitivity (a * ro * ((ct * cv + st * sv) - (ct * (cv * (cd * cd - sd * sd) + sv * (2 * sd * cd)) * 1) * 0 - (ct * cv + st * sv) + (ct * sv * 0) )
      + (a * ct + ro * (cv * (cd * cd - sd * sd) + sv * (2 * sd * cd))) * (a * st + ro * sv) - (a * ct + ro * cv) * (a * st + ro * (sv * (cd * cd - sd * sd) - cv * (2 * sd * cd)))); [ring|].
    replace (cd * cd - sd * sd) with (1 - 2 * (sd * sd)) by lra.
    transitivity (2 * ro * sd * (ro * cd * (sv * sv + cv * cv) + a * cd * (cv * ct + sv * st) + a * sd * (sv * ct - cv * st))); [ring|rewrite S1; ring]. }
  rewrite E. assert (SD : 0 < sin d) by (apply sin_gt_0; lra). assert (CD : 0 < cos d) by (apply cos_gt_0; lra).
  pose proof corner_turn as T. assert (SV : 0 <= sin (v - t0)) by (apply sin_ge_0; unfold v in *; lra). pose proof a0 as A0.
  assert (W : 0 < ro + a * cos (v - t0)).
  { apply Rlt_le_trans with (ro + a * cos (u1 - t0)).
    - destruct cc_polar as (P1 & P2). destruct u1_polar as (Q1 & Q2). assert (EC : a * b * cos (u1 - t0) = g * Y cc - a * a).
      { rewrite cos_minus. transitivity ((b * cos u1) * (a * cos t0) + (b * sin u1) * (a * sin t0)); [ring|]. rewrite <- P1, <- P2, <- Q1, <- Q2, <- CA. ring. }
      destruct gs_polar as (S1 & S2). pose proof visible as VI. pose proof b0 as B. assert (0 < b * (ro + a * cos (u1 - t0))); [|apply (Rmult_lt_reg_l b); [exact B|lra]].
      replace (b * (ro + a * cos (u1 - t0))) with (b * ro + (g * Y cc - a * a)) by (rewrite <- EC; ring).
      assert (Y cc = g + b * sin gs) by lra. assert (AA : a * a = b * b + g * g + 2 * g * b * sin gs) by (rewrite <- CA; transitivity (b * b - (g - Y cc) * (g - Y cc) + Y cc * Y cc); [rewrite <- CB; ring|rewrite H; ring]).
      rewrite AA, H. replace (b * ro + (g * (g + b * sin gs) - (b * b + g * g + 2 * g * b * sin gs))) with (b * (ro - b - g * sin gs)) by ring. apply Rmult_lt_0_compat; [exact B|]. unfold b. lra.
    - assert (VV : t0 <= v <= u1) by (unfold v in *; lra). pose proof (cos_turn v VV) as CT. assert (0 <= a * (cos (v - t0) - cos (u1 - t0))) by (apply Rmult_le_pos; lra). lra. }
  apply Rmult_lt_0_compat; [apply Rmult_lt_0_compat; lra|]. assert (0 <= sin d * (a * sin (v - t0))) by (apply Rmult_le_pos; [lra|apply Rmult_le_pos; lra]).
  assert (0 < cos d * (ro + a * cos (v - t0))) by (apply Rmult_lt_0_compat; lra). lra.
Qed.
Lemma groove_turns u d (p p' : pt) : u <= gs -> 0 < d < PI / 2 -> - (PI / 2) <= u - 2 * d -> X p = gr * cos u -> Y p = g + gr * sin u ->
  X p' = gr * cos (u - 2 * d) -> Y p' = g + gr * sin (u - 2 * d) -> 0 < crossz p p'.
Proof.
  intros U D V X1 Y1 X2 Y2.
  assert (E : crossz p p' = 2 * gr * sin d * (- cos d * (g * sin u + gr) + sin d * (g * cos u))).
  { unfold crossz. rewrite X1, X2, Y1, Y2. rewrite !cos_minus, !sin_minus, cos_2a, sin_2a. pose proof (sin2_cos2 u) as S1. pose proof (sin2_cos2 d) as S2. unfold Rsqr in S1, S2.
    set (sv := sin u) in *. set (cv := cos u) in *. set (sd := sin d) in *. set (cd := cos d) in *.
    replace (cd * cd - sd * sd) with (1 - 2 * (sd * sd)) by lra.
    transitivity (2 * gr * sd * (- cd * g * sv - gr * cd * (sv * sv + cv * cv) + sd * (g * cv))); [ring|rewrite S1; ring]. }
  rewrite E. assert (SD : 0 < sin d) by (apply sin_gt_0; lra). assert (CD : 0 < cos d) by (apply cos_gt_0; lra). pose proof visible as VI. pose proof gs_range as GR.
  assert (SU : sin u <= sin gs) by (apply (sin_gs u); lra). assert (CU : 0 <= cos u) by (apply cos_ge_0; lra).
  apply Rmult_lt_0_compat; [apply Rmult_lt_0_compat; lra|]. assert (0 <= sin d * (g * cos u)) by (apply Rmult_le_pos; [lra|apply Rmult_le_pos; lra]).
  assert (0 <= g * (sin gs - sin u)) by (apply Rmult_le_pos; lra). assert (0 < cos d * - (g * sin u + gr)) by (apply Rmult_lt_0_compat; lra). lra.
Qed.
End Groove.
