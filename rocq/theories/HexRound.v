(** Rounded hexagons stay inside the hexagons. *)
From Coq Require Import Reals Lra Psatz ZArith List Bool Arith Lia.
From Verif Require Import Num GeoModel EdgeModel ArcModel FloorModel GeoSpec GeoMat EdgeSpecR HullSpec FloorSpec HexGrid P_Arc.
Import ListNotations.
Open Scope R_scope.

Lemma spanned_tri (a b c p : pt) s t : 0 <= s -> 0 <= t -> s + t <= 1 -> X p = X b + s * (X a - X b) + t * (X c - X b) -> Y p = Y b + s * (Y a - Y b) + t * (Y c - Y b) ->
  spanned [a; b; c] p.
Proof.
  intros S T L EX EY. destruct (Req_dec (s + t) 0) as [Z0|NZ].
  - apply (sp_point _ b); [right; left; reflexivity| |]; (replace s with 0 in * by lra; replace t with 0 in * by lra; lra).
  - apply (sp_between _ b (at2 a c (t / (s + t)))).
    + apply (sp_point _ b); [right; left|..]; reflexivity.
    + apply (sp_between _ a c); [apply (sp_point _ a); [left|..]; reflexivity|apply (sp_point _ c); [right; right; left|..]; reflexivity|].
      assert (0 < s + t) by lra. assert (Q : t / (s + t) * (s + t) = t) by (field; lra). exists (t / (s + t)). split; [|split; reflexivity]. split; nra.
    + exists (s + t). split; [lra|]. unfold at2, X, Y, P in *. cbn [vx vy]. rewrite EX, EY. split; field; exact NZ.
Qed.
Lemma pos_cancel g t : 0 < g -> 0 <= g * t -> 0 <= t.
Proof. intros G H. apply Rnot_lt_le. intros N. nra. Qed.
Lemma unit_of_sq g r : 0 < g -> 0 < r -> g * g * r <= r -> g <= 1.
Proof. intros G HR H. apply Rnot_lt_le. intros N. assert (1 < g * g) by nra. nra. Qed.
(* the square of a vector with known products with two others *)
Lemma gram mx my ax ay cx cy : (mx * mx + my * my) * ((ax * ax + ay * ay) * (cx * cx + cy * cy) - (ax * cx + ay * cy) * (ax * cx + ay * cy)) =
  (mx * ax + my * ay) * (mx * ax + my * ay) * (cx * cx + cy * cy) - 2 * (mx * ax + my * ay) * (mx * cx + my * cy) * (ax * cx + ay * cy) + (mx * cx + my * cy) * (mx * cx + my * cy) * (ax * ax + ay * ay).
Proof. ring. Qed.
(* the corners of a regular hexagon *)
Definition corner120 (r : R) (a b c : pt) : Prop :=
  let ax := X a - X b in let ay := Y a - Y b in let cx := X c - X b in let cy := Y c - Y b in
  ax * ax + ay * ay = r * r /\ cx * cx + cy * cy = r * r /\ 2 * (ax * cx + ay * cy) = - (r * r).
Lemma corner_inside h amax r rho (a b c : pt) pts p : 0 < r -> eps <= rho -> 0 < h <= 2 * rho -> 0 < amax -> rho * rho <= 3 * (r * r) -> corner120 r a b c ->
  cornerArc2D (@mkQuality Rnum h amax) rho a b c = Ok pts -> In p pts -> spanned [a; b; c] p.
Proof.
  intros Hr He Hh Ha HK (HA & HC & HAC) E I. cbv zeta in *. pose proof eps_pos as EP.
  set (ax := X a - X b) in *. set (ay := Y a - Y b) in *. set (cx := X c - X b) in *. set (cy := Y c - Y b) in *.
  assert (D2 : (ax * cy - ay * cx) * (ax * cy - ay * cx) = 3 / 4 * (r * r) * (r * r)).
  { transitivity ((ax * ax + ay * ay) * (cx * cx + cy * cy) - (ax * cx + ay * cy) * (ax * cx + ay * cy)); [ring|]. rewrite HA, HC. replace (ax * cx + ay * cy) with (- (r * r) / 2) by lra. field. }
  assert (RR : 0 < r * r) by nra. assert (DN : ax * cy - ay * cx <> 0) by (intros Z0; rewrite Z0 in D2; nra).
  assert (SD : side b a c = ax * cy - ay * cx) by (unfold side, ax, ay, cx, cy; ring).
  destruct (C47_corner h amax rho a b c He Hh Ha ltac:(rewrite SD; exact DN)) as (pts' & m & k & E' & L2 & K & HH). rewrite E in E'. apply Ok_inj in E'. subst pts'. cbv zeta in HH.
  destruct HH as ((SX & SY) & (EX & EY) & PA & PC & HP).
  assert (LA : edist2 a b = r). { unfold edist2, sqdist2, Rsqr. fold ax ay. rewrite HA. apply sqrt_square. lra. }
  assert (LC : edist2 c b = r). { unfold edist2, sqdist2, Rsqr. fold cx cy. rewrite HC. apply sqrt_square. lra. }
  rewrite LA in SX, SY. rewrite LC in EX, EY. fold ax in SX, PA. fold ay in SY, PA. fold cx in EX, PC. fold cy in EY, PC.
  destruct (HP p I) as (_ & _ & S1 & S2 & S3). assert (IS : In (hd origin pts) pts) by (destruct pts; [cbn [length] in L2; lia|left; reflexivity]).
  destruct (HP _ IS) as (RS & _). unfold sqdist2, Rsqr in RS.
  set (S := hd origin pts) in *. set (F := last pts origin) in *. set (g := k / r) in *. assert (GK : g * r = k) by (unfold g; field; lra).
  assert (SX' : X S = X b + g * ax) by (rewrite SX; unfold g; field; lra). assert (SY' : Y S = Y b + g * ay) by (rewrite SY; unfold g; field; lra).
  assert (EX' : X F = X b + g * cx) by (rewrite EX; unfold g; field; lra). assert (EY' : Y F = Y b + g * cy) by (rewrite EY; unfold g; field; lra).
  set (mx := X m - X b). set (my := Y m - Y b).
  assert (MA : mx * ax + my * ay = g * (r * r)). { rewrite SX', SY' in PA. unfold mx, my. rewrite <- HA. lra. }
  assert (MC : mx * cx + my * cy = g * (r * r)). { rewrite EX', EY' in PC. unfold mx, my. rewrite <- HC. lra. }
  assert (MM : mx * mx + my * my = 4 * (g * g) * (r * r)).
  { pose proof (gram mx my ax ay cx cy) as G. rewrite HA, HC, MA, MC in G. replace (ax * cx + ay * cy) with (- (r * r) / 2) in G by lra.
    apply (Rmult_eq_reg_r (r * r * (r * r))); [lra|]. apply Rgt_not_eq, Rmult_lt_0_compat; exact RR. }
  assert (G1 : rho * rho = 3 * (g * g) * (r * r)).
  { rewrite <- RS, SX', SY'. transitivity (g * g * (ax * ax + ay * ay) - 2 * g * (mx * ax + my * ay) + (mx * mx + my * my)); [unfold mx, my; ring|]. rewrite HA, MA, MM. ring. }
  assert (GP : 0 < g) by (unfold g; apply Rdiv_lt_0_compat; lra). assert (GL : g <= 1). { apply (unit_of_sq g (r * r) GP RR). lra. }
  (* coordinates of p *)
  set (px := X p - X b). set (py := Y p - Y b). set (D := ax * cy - ay * cx) in *.
  assert (T1 : 0 <= (ax * py - ay * px) * D). { replace ((ax * py - ay * px) * D) with (side b a p * side b a c); [exact S1|]. rewrite SD. unfold side, px, py, ax, ay. ring. }
  assert (T2 : 0 <= (px * cy - py * cx) * D). { replace ((px * cy - py * cx) * D) with (side b c p * side b c a); [exact S2|]. unfold side, px, py, D, ax, ay, cx, cy. ring. }
  assert (T3 : 0 <= g * D * (g * D - ((ax * py - ay * px) + (px * cy - py * cx)))).
  { assert (Q : side S F p * side S F b = g * (g * (g * D * (g * D - ((ax * py - ay * px) + (px * cy - py * cx)))))).
    { unfold side. rewrite SX', SY', EX', EY'. unfold px, py, D. ring. }
    rewrite Q in S3. apply (pos_cancel g _ GP), (pos_cancel g _ GP), S3. }
  assert (DD : 0 < D * D) by nra.
  apply (spanned_tri a b c p ((px * cy - py * cx) / D) ((ax * py - ay * px) / D)).
  - replace ((px * cy - py * cx) / D) with ((px * cy - py * cx) * D / (D * D)) by (field; exact DN). apply Rmult_le_pos; [exact T2|]. apply Rlt_le, Rinv_0_lt_compat, DD.
  - replace ((ax * py - ay * px) / D) with ((ax * py - ay * px) * D / (D * D)) by (field; exact DN). apply Rmult_le_pos; [exact T1|]. apply Rlt_le, Rinv_0_lt_compat, DD.
  - replace ((px * cy - py * cx) / D + (ax * py - ay * px) / D) with (((ax * py - ay * px) + (px * cy - py * cx)) * D / (D * D)) by (field; exact DN).
    apply (Rmult_le_reg_r (D * D)); [exact DD|]. replace (((ax * py - ay * px) + (px * cy - py * cx)) * D / (D * D) * (D * D)) with (((ax * py - ay * px) + (px * cy - py * cx)) * D) by (field; exact DN).
    set (w := (ax * py - ay * px) + (px * cy - py * cx)) in *. assert (T4 : 0 <= g * (g * (D * D) - D * w)) by (replace (g * (g * (D * D) - D * w)) with (g * D * (g * D - w)) by ring; exact T3).
    assert (0 <= g * (D * D) - D * w) by (apply (pos_cancel g _ GP T4)). assert (GD : g * (D * D) <= 1 * (D * D)) by (apply Rmult_le_compat_r; lra). lra.
  - fold ax cx. transitivity (X b + px); [unfold px; ring|]. unfold D in *. field_simplify_eq; [ring|exact DN].
  - fold ay cy. transitivity (Y b + py); [unfold py; ring|]. unfold D in *. field_simplify_eq; [ring|exact DN].
Qed.
Lemma hexagon_corner c r i : (i < 6)%nat -> corner120 r (hexPt (hexagon c r) i 2) (hexPt (hexagon c r) i 1) (hexPt (hexagon c r) i 0) /\
  forall v, In v [hexPt (hexagon c r) i 2; hexPt (hexagon c r) i 1; hexPt (hexagon c r) i 0] -> In v (hexagon c r).
Proof.
  intros I. split.
  - pose proof sq3 as S. unfold corner120. cbv zeta. assert (Q : forall t, sqrt 3 / 2 * t * (sqrt 3 / 2 * t) = 3 / 4 * (t * t)) by (intros t; replace (sqrt 3 / 2 * t * (sqrt 3 / 2 * t)) with (sqrt 3 * sqrt 3 / 4 * (t * t)) by field; rewrite S; field).
    pose proof (Q r) as QR.
    do 6 (destruct i as [|i]; [unfold hexPt, hexagon, X, Y, P; cbn [map nth Nat.modulo Nat.divmod Nat.add Nat.sub fst snd vx vy]; split; [|split]; nra|]). lia.
  - intros v J. cbn [In] in J. assert (L : forall j, In (hexPt (hexagon c r) i j) (hexagon c r)) by (intros j; unfold hexPt; apply nth_In; change (length (hexagon c r)) with 6%nat; apply Nat.mod_upper_bound; discriminate).
    destruct J as [<-|[<-|[<-|[]]]]; apply L.
Qed.
Lemma spanned_incl vs ws p : (forall v, In v vs -> In v ws) -> spanned vs p -> spanned ws p.
Proof. intros H S. induction S as [v w I EX EY|a b w _ IH1 _ IH2 O]; [apply (sp_point _ v); auto|apply (sp_between _ a b); assumption]. Qed.
Lemma hexRound_inside h amax (hc : @hex_cfg Rnum) c r pts p : 0 < r -> eps <= hx_cornerRadius hc -> 0 < h <= 2 * hx_cornerRadius hc -> 0 < amax -> hx_cornerRadius hc * hx_cornerRadius hc <= 3 * (r * r) ->
  hexRound (@mkQuality Rnum h amax) hc (hexagon c r) = Ok pts -> In p pts -> spanned (hexagon c r) p.
Proof.
  intros Hr He Hh Ha HK E I. unfold hexRound in E. match type of E with rmap _ ?m = _ => destruct m as [ls|] eqn:M; [|discriminate] end. cbn [rmap bind] in E. apply Ok_inj in E. subst pts.
  apply in_concat in I. destruct I as (l & I1 & I2). apply mapM_ok in M. apply In_nth_error in I1. destruct I1 as (n & I1). destruct (Forall2_nth _ _ _ M n l I1) as (i & J & E).
  apply nth_error_In in J. apply in_seq in J. destruct (hexagon_corner c r i ltac:(lia)) as (C & IN). apply (spanned_incl _ _ _ IN). apply (corner_inside h amax r (hx_cornerRadius hc) _ _ _ l p); assumption.
Qed.
